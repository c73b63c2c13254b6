(** C106: notes about errors inside lithoxyl (context.py 74-89). *)
From Verif Require Import model.PyBase model.Json model.Format model.Notes spec.NoteSpec.
From Coq Require Import Lia.
Open Scope N_scope.

Lemma text_ind2 (P : text -> Prop) : P [] -> (forall c m, P m -> (forall d m', m = d :: m' -> P m') -> P (c :: m)) -> forall m, P m.
Proof.
  intros H0 HS m. assert (K : P m /\ forall d m', m = d :: m' -> P m'); [|apply K]. induction m as [|c m (I1 & I2)]; [split; [exact H0|discriminate]|].
  split; [apply HS; assumption|]. intros d m' E. injection E as _ ->. exact I1.
Qed.
Lemma percent_reads {V} (conv : N -> V -> option text) : forall m a t, percent conv m a = Some t <-> reads conv m a t.
Proof.
  intros m. induction m as [|c m IH IH2] using text_ind2; intros a t; split; intros H.
  - cbn in H. destruct a; [|discriminate]. injection H as <-. constructor.
  - inversion H; subst. reflexivity.
  - cbn [percent] in H. destruct (N.eqb_spec c 37) as [->|N]; cbn [negb] in H.
    + destruct m as [|d m']; [discriminate|]. specialize (IH2 d m' eq_refl). destruct (N.eqb_spec d 37) as [->|N].
      * destruct (percent conv m' a) as [u|] eqn:E; [|discriminate]. injection H as <-. apply reads_percent, IH2, E.
      * destruct a as [|v a]; [discriminate|]. destruct (conv d v) as [x|] eqn:EC; [|discriminate]. destruct (percent conv m' a) as [u|] eqn:E; [|discriminate]. injection H as <-.
        apply reads_value; [exact N|exact EC|]. apply IH2, E.
    + destruct (percent conv m a) as [u|] eqn:E; [|discriminate]. injection H as <-. apply reads_char; [exact N|]. apply IH, E.
  - inversion H as [|c' m1 a' t1 N K|m1 a' t1 K|d v x m1 a' t1 N EC K]; subst; cbn [percent].
    + apply N.eqb_neq in N. rewrite N. cbn [negb]. apply IH in K. rewrite K. reflexivity.
    + cbn [N.eqb Pos.eqb negb]. apply (IH2 37 m1 eq_refl) in K. rewrite K. reflexivity.
    + cbn [N.eqb Pos.eqb negb]. apply N.eqb_neq in N. rewrite N, EC. apply (IH2 d m1 eq_refl) in K. rewrite K. reflexivity.
Qed.
Lemma text_shown {V} (conv : N -> V -> option text) m a t : shown conv m a t <-> t = note_text conv m a.
Proof.
  unfold shown, note_text. destruct a as [|v a]; [split; [intros [(H & _)|(_ & H)]; [contradiction|exact H]|intros ->; right; auto]|].
  destruct (percent conv m (v :: a)) as [u|] eqn:E; split.
  - intros [(_ & H)|([H|H] & _)]; [apply percent_reads in H; congruence|discriminate|]. destruct H. exists u. apply percent_reads, E.
  - intros ->. left. split; [discriminate|]. apply percent_reads, E.
  - intros [(_ & H)|(_ & H)]; [apply percent_reads in H; congruence|exact H].
  - intros ->. right. split; [right|reflexivity]. intros (u & H). apply percent_reads in H. congruence.
Qed.

(** Every message and all arguments have exactly one text to show. *)
Theorem C106_one_text {V} (conv : N -> V -> option text) message a : exists t, shown conv message a t /\ forall t', shown conv message a t' -> t' = t.
Proof. exists (note_text conv message a). split; [apply text_shown; reflexivity|]. intros t' H. apply text_shown, H. Qed.
(** A message of pieces without percent signs with a conversion before each but the first, given as
    many values, shows the pieces with what the conversions make of the values between them. *)
Theorem C106_pieces {V} (conv : N -> V -> option text) (p0 : text) (l : list (N * V * text * text)) : l <> [] -> ~ In 37 p0 ->
  (forall d v x p, In (d, v, x, p) l -> d <> 37 /\ conv d v = Some x /\ ~ In 37 p) ->
  shown conv (p0 ++ flat_map (fun '(d, _, _, p) => 37 :: d :: p) l) (map (fun '(_, v, _, _) => v) l) (p0 ++ flat_map (fun '(_, _, x, p) => x ++ p) l).
Proof.
  intros NE N0 H. left. split; [destruct l; [contradiction|discriminate]|]. clear NE.
  assert (K : forall (p m t : text) (b : list V), ~ In 37 p -> reads conv m b t -> reads conv (p ++ m) b (p ++ t)).
  { induction p as [|c p IH]; intros m t b N R; [exact R|]. cbn. apply reads_char; [intros ->; apply N; left; reflexivity|]. apply IH; [intros Q; apply N; right; exact Q|exact R]. }
  apply K; [exact N0|]. clear N0 p0. induction l as [|[[[d v] x] p] l IH]; [constructor|]. destruct (H d v x p (or_introl eq_refl)) as (D & C & N).
  cbn [flat_map map]. rewrite <- app_assoc. cbn [app]. apply reads_value; [exact D|exact C|]. apply K; [exact N|]. apply IH. intros d' v' x' p' Q. apply H. right. exact Q.
Qed.
(** Without handlers nothing happens, whatever the message and the arguments are. *)
Theorem C106_silent {E V} react (conv : N -> V -> option text) fuel name message a calls :
  note (E := E) react conv fuel name message a (mkNworld [] calls) = (mkNworld [] calls, NDone).
Proof. reflexivity. Qed.

Lemma loop_steady {E} (react : list called -> nat -> (list nat -> list nat) * option E) name t : forall rest pre calls fuel,
  (forall h, In h rest -> steady react h /\ quiet react h) -> (length rest <= fuel)%nat ->
  note_loop react fuel (length pre) name t (mkNworld (pre ++ rest) calls) = (mkNworld (pre ++ rest) (calls ++ calls_of name t rest), NDone).
Proof.
  induction rest as [|h rest IH]; intros pre calls fuel H L.
  - rewrite !app_nil_r. destruct fuel; cbn [note_loop nw_handlers]; (replace (nth_error pre (length pre)) with (@None nat) by (symmetry; apply nth_error_None; lia)); reflexivity.
  - destruct fuel as [|fuel]; [cbn in L; lia|]. cbn [note_loop nw_handlers]. rewrite nth_error_app2, Nat.sub_diag by lia. cbn [nth_error nw_calls].
    destruct (H h (or_introl eq_refl)) as (S1 & S2). specialize (S1 calls (pre ++ h :: rest)). specialize (S2 calls). destruct (react calls h) as [change exc]. cbn [fst snd] in *. subst exc. rewrite S1.
    specialize (IH (pre ++ [h]) (calls ++ [mkCalled h name t]) fuel). rewrite <- app_assoc in IH. cbn [app] in IH. rewrite app_length in IH. cbn [length] in IH.
    replace (length pre + 1)%nat with (S (length pre)) in IH by lia. rewrite IH; [|intros k K; apply H; right; exact K|cbn in L; lia]. rewrite <- app_assoc. reflexivity.
Qed.
(** Handlers that leave the list alone and raise nothing are all called, once each and in order,
    with the name and the text to show; and note returns. *)
Theorem C106_delivered {E V} react (conv : N -> V -> option text) fuel name message a hs calls t :
  (forall h, In h hs -> steady react h /\ quiet react h) -> shown conv message a t -> (length hs <= fuel)%nat ->
  note (E := E) react conv fuel name message a (mkNworld hs calls) = (mkNworld hs (calls ++ calls_of name t hs), NDone).
Proof.
  intros H S L. apply text_shown in S. subst t. unfold note. cbn [nw_handlers]. destruct hs as [|h hs]; [cbn; rewrite app_nil_r; reflexivity|].
  apply (loop_steady react name (note_text conv message a) (h :: hs) [] calls fuel H L).
Qed.
Lemma loop_prefix {E} (react : list called -> nat -> (list nat -> list nat) * option E) name t : forall fuel i w,
  (exists hs, nw_calls (fst (note_loop react fuel i name t w)) = nw_calls w ++ calls_of name t hs) /\
  forall e, snd (note_loop react fuel i name t w) = NRaised e ->
    exists before h, nw_calls (fst (note_loop react fuel i name t w)) = before ++ [mkCalled h name t] /\ snd (react before h) = Some e.
Proof.
  induction fuel as [|fuel IH]; intros i w; cbn [note_loop]; destruct (nth_error (nw_handlers w) i) as [h|].
  - split; [exists []; cbn; rewrite app_nil_r; reflexivity|discriminate].
  - split; [exists []; cbn; rewrite app_nil_r; reflexivity|discriminate].
  - destruct (react (nw_calls w) h) as [change exc] eqn:ER. destruct exc as [e|].
    + cbn [fst snd nw_calls]. split; [exists [h]; reflexivity|]. intros e' K. injection K as <-. exists (nw_calls w), h. rewrite ER. auto.
    + destruct (IH (S i) (mkNworld (change (nw_handlers w)) (nw_calls w ++ [mkCalled h name t]))) as ((hs & H) & R). split; [|exact R].
      exists (h :: hs). rewrite H. cbn [nw_calls calls_of map]. rewrite <- app_assoc. reflexivity.
  - split; [exists []; cbn; rewrite app_nil_r; reflexivity|discriminate].
Qed.
(** Whatever the handlers do, each is called with the name and the text to show; an exception
    comes out of note only if the handler called last raised it: no message and no argument makes
    note raise. *)
Theorem C106_only_handlers_raise {E V} react (conv : N -> V -> option text) fuel name message a w t : shown conv message a t ->
  let '(w', r) := note (E := E) react conv fuel name message a w in
  (exists hs, nw_calls w' = nw_calls w ++ calls_of name t hs) /\
  forall e, r = NRaised e -> exists before h, nw_calls w' = before ++ [mkCalled h name t] /\ snd (react before h) = Some e.
Proof.
  intros S. apply text_shown in S. subst t. unfold note. destruct (nw_handlers w) eqn:EH.
  - split; [exists []; cbn; rewrite app_nil_r; reflexivity|discriminate].
  - pose proof (loop_prefix react name (note_text conv message a) fuel 0 w) as (A & B). destruct (note_loop react fuel 0 name (note_text conv message a) w) as [w' r]. split; [exact A|exact B].
Qed.
(** A handler that raises keeps the handlers after it from being called, and the exception
    reaches the caller of note. *)
Theorem C106_robust_refuted {E V} react (conv : N -> V -> option text) fuel name message a before h after calls t e :
  (forall k, In k before -> steady react k /\ quiet react k) -> steady react h -> (forall x, snd (react x h) = Some e) -> shown conv message a t -> (length before < fuel)%nat ->
  note (E := E) react conv fuel name message a (mkNworld (before ++ h :: after) calls) = (mkNworld (before ++ h :: after) (calls ++ calls_of name t (before ++ [h])), NRaised e).
Proof.
  intros H S X T L. apply text_shown in T. subst t. set (t := note_text conv message a). unfold note. cbn [nw_handlers]. fold t.
  assert (K : forall rest pre calls fuel, (forall k, In k rest -> steady react k /\ quiet react k) -> (length rest < fuel)%nat ->
    note_loop react fuel (length pre) name t (mkNworld (pre ++ rest ++ h :: after) calls) = (mkNworld (pre ++ rest ++ h :: after) (calls ++ calls_of name t (rest ++ [h])), NRaised e)).
  { clear - S X. induction rest as [|k rest IH]; intros pre calls fuel H L; (destruct fuel as [|fuel]; [lia|]); cbn [note_loop nw_handlers]; rewrite nth_error_app2, Nat.sub_diag by lia; cbn [app nth_error nw_calls].
    - specialize (S calls (pre ++ h :: after)). specialize (X calls). destruct (react calls h) as [change exc]. cbn [fst snd] in *. subst exc. rewrite S. reflexivity.
    - destruct (H k (or_introl eq_refl)) as (S1 & S2). specialize (S1 calls (pre ++ k :: rest ++ h :: after)). specialize (S2 calls). destruct (react calls k) as [change exc]. cbn [fst snd] in *. subst exc. rewrite S1.
      specialize (IH (pre ++ [k]) (calls ++ [mkCalled k name t]) fuel). rewrite <- app_assoc in IH. cbn [app] in IH. rewrite app_length in IH. cbn [length] in IH.
      replace (length pre + 1)%nat with (Datatypes.S (length pre)) in IH by lia. rewrite IH; [|intros j J; apply H; right; exact J|cbn in L; lia]. rewrite <- app_assoc. reflexivity. }
  specialize (K before [] calls fuel H L). cbn [app length] in K. destruct (before ++ h :: after) eqn:EB; [destruct before; discriminate|]. exact K.
Qed.
(** A handler that removes itself keeps the next one from being called. *)
Theorem C106_removed_refuted : exists (react : list called -> nat -> (list nat -> list nat) * option unit) w r,
  quiet react 0 /\ quiet react 1 /\ steady react 1 /\
  note (V := unit) react (fun _ _ => None) 9 [110] [109] [] (mkNworld [0%nat; 1%nat] []) = (w, r) /\ r = NDone /\ nw_handlers w = [1%nat] /\ nw_calls w = calls_of [110] [109] [0%nat].
Proof.
  exists (fun _ h => (if Nat.eqb h 0 then filter (fun k => negb (Nat.eqb k 0)) else fun l => l, None)). do 2 eexists.
  split; [intros b; reflexivity|]. split; [intros b; reflexivity|]. split; [intros b l; reflexivity|]. split; [vm_compute; reflexivity|]. repeat split.
Qed.
(** If every call of a handler adds a handler, note never returns. *)
Theorem C106_endless_refuted : exists react : list called -> nat -> (list nat -> list nat) * option unit,
  (forall h, quiet react h) /\ forall V (conv : N -> V -> option text) fuel name message a, snd (note react conv fuel name message a (mkNworld [0%nat] [])) = NGoesOn.
Proof.
  exists (fun _ h => (fun l => l ++ [h], None)). split; [intros h b; reflexivity|]. intros V conv fuel name message a. unfold note. cbn [nw_handlers].
  assert (K : forall fuel i hs calls t, (i < length hs)%nat -> snd (note_loop (E := unit) (fun _ h => (fun l => l ++ [h], None)) fuel i name t (mkNworld hs calls)) = NGoesOn).
  { clear. induction fuel as [|fuel IH]; intros i hs calls t L; cbn [note_loop nw_handlers nw_calls]; (destruct (nth_error hs i) eqn:E; [|apply nth_error_None in E; lia]); [reflexivity|].
    apply IH. rewrite app_length. cbn [length]. lia. }
  apply K. cbn. lia.
Qed.

(** [%r] and [%s] of numbers that are their own text, nothing else. *)
Definition letters (d : N) (v : N) : option text := if (d =? 114) || (d =? 115) then Some [v] else None.
(** "a%r%%%s" with two arguments; the same with one; "50%" without arguments; "%q". *)
Example C106_texts :
  shown letters [97; 37; 114; 37; 37; 37; 115] [120; 121] [97; 120; 37; 121] /\ shown letters [97; 37; 114; 37; 37; 37; 115] [120] [97; 37; 114; 37; 37; 37; 115] /\
  shown letters [53; 48; 37] [] [53; 48; 37] /\ shown letters [37; 113] [120] [37; 113].
Proof. repeat split; apply text_shown; reflexivity. Qed.
(** The note of logger.py 115 is such a message. *)
Example C106_own : let l := [(114, 88, [88], lit " got exception "); (114, 89, [89], [])] in
  lit "hook " ++ flat_map (fun '(d, _, _, p) => 37 :: d :: p) l = lit "hook %r got exception %r" /\
  lit "hook " ++ flat_map (fun '(_, _, x, p) => x ++ p) l = lit "hook X got exception Y" /\
  ~ In 37 (lit "hook ") /\ forall d v x p, In (d, v, x, p) l -> d <> 37 /\ letters d v = Some x /\ ~ In 37 p.
Proof.
  split; [reflexivity|]. split; [reflexivity|]. split; [cbn; intuition discriminate|]. intros d v x p [E|[E|[]]]; injection E as <- <- <- <-; (split; [discriminate|]); (split; [reflexivity|]); cbn; intuition discriminate.
Qed.
(** Two handlers get a note; the second raises and the third gets nothing. *)
Example C106_handlers : let react := fun (_ : list called) (h : nat) => (fun l : list nat => l, if Nat.eqb h 8 then Some tt else None) in
  note react letters 5 [110] [37; 114] [120] (mkNworld [7; 9]%nat []) = (mkNworld [7; 9]%nat [mkCalled 7 [110] [120]; mkCalled 9 [110] [120]], NDone) /\
  note react letters 5 [110] [37; 114] [120] (mkNworld [7; 8; 9]%nat []) = (mkNworld [7; 8; 9]%nat [mkCalled 7 [110] [120]; mkCalled 8 [110] [120]], NRaised tt) /\
  (forall h, In h [7; 9]%nat -> steady react h /\ quiet react h) /\ steady react 8 /\ (forall x, snd (react x 8%nat) = Some tt).
Proof. cbv zeta. split; [reflexivity|]. split; [reflexivity|]. split; [|split; [intros b l; reflexivity|reflexivity]]. intros h [<-|[<-|[]]]; split; intros b; try intros l; reflexivity. Qed.

Print Assumptions C106_one_text.
Print Assumptions C106_pieces.
Print Assumptions C106_silent.
Print Assumptions C106_delivered.
Print Assumptions C106_only_handlers_raise.
Print Assumptions C106_robust_refuted.
Print Assumptions C106_removed_refuted.
Print Assumptions C106_endless_refuted.
