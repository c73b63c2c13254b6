(** C104: hashed ids (utils.py 171-223). *)
From Verif Require Import model.PyBase model.Json model.Format model.Template model.Guid model.GuidHash spec.TemplateSpec spec.GuidSpec spec.GuidHashSpec proof.TemplateProofs.
From Coq Require Import Lia.
Open Scope N_scope.

Lemma firstn_forall {A} (P : A -> Prop) n : forall l, Forall P l -> Forall P (firstn n l).
Proof. induction n as [|n IH]; intros l H; [constructor|]. destruct H; cbn; constructor; auto. Qed.
Lemma str_inj a b : str_of_N a = str_of_N b -> a = b.
Proof. intros H. pose proof (str_of_N_numeral a) as (A & _). pose proof (str_of_N_numeral b) as (B & _). rewrite H in A. congruence. Qed.
Lemma str_digits a : Forall digit (str_of_N a).
Proof. apply (str_of_N_numeral a). Qed.
(** The last dash of a text is where it is. *)
Lemma last_dash (p1 p2 t1 t2 : text) : ~ In 45 t1 -> ~ In 45 t2 -> p1 ++ 45 :: t1 = p2 ++ 45 :: t2 -> p1 = p2 /\ t1 = t2.
Proof.
  revert p2. induction p1 as [|x p1 IH]; intros p2 N1 N2 H; destruct p2 as [|y p2]; cbn in H.
  - injection H as ->. auto.
  - injection H as <- ->. destruct N1. apply in_or_app. right. left. reflexivity.
  - injection H as -> <-. destruct N2. apply in_or_app. right. left. reflexivity.
  - injection H as -> H. destruct (IH p2 N1 N2 H) as (-> & ->). auto.
Qed.
Lemma first_dash (p1 p2 t1 t2 : text) : ~ In 45 p1 -> ~ In 45 p2 -> p1 ++ 45 :: t1 = p2 ++ 45 :: t2 -> p1 = p2 /\ t1 = t2.
Proof.
  revert p2. induction p1 as [|x p1 IH]; intros p2 N1 N2 H; destruct p2 as [|y p2]; cbn in H.
  - injection H as ->. auto.
  - injection H as <- H. destruct N2. left. reflexivity.
  - injection H as -> H. destruct N1. left. reflexivity.
  - injection H as -> H. destruct (IH p2) as (-> & ->); [intros K; apply N1; right; exact K|intros K; apply N2; right; exact K|exact H|auto].
Qed.
Lemma no_dash_digits t : Forall digit t -> ~ In 45 t.
Proof. rewrite Forall_forall. intros H K. apply H in K. unfold digit in K. lia. Qed.
Lemma hexdigit_range d : d < 16 -> hex_char (hexdigit d).
Proof. unfold hexdigit, hex_char. intros H. destruct (N.ltb_spec d 10); lia. Qed.
Lemma hexdigit_inj a b : a < 16 -> b < 16 -> hexdigit a = hexdigit b -> a = b.
Proof. unfold hexdigit. intros A B. destruct (N.ltb_spec a 10), (N.ltb_spec b 10); lia. Qed.
Lemma byte_parts b : b < 256 -> b / 16 < 16 /\ b mod 16 < 16.
Proof. intros H. split; [apply N.div_lt_upper_bound; lia|apply N.mod_lt; lia]. Qed.
Lemma hex_bytes_chars l : Forall (fun b => b < 256) l -> Forall hex_char (hex_of_bytes l).
Proof. induction 1 as [|b l H F IH]; cbn; [constructor|]. destruct (byte_parts b H). constructor; [apply hexdigit_range; assumption|]. constructor; [apply hexdigit_range; assumption|exact IH]. Qed.
Lemma hex_bytes_length l : length (hex_of_bytes l) = (2 * length l)%nat.
Proof. induction l as [|b l IH]; cbn; [reflexivity|]. unfold hex_of_bytes in IH. cbn in IH. lia. Qed.
Lemma hex_bytes_inj l l' : Forall (fun b => b < 256) l -> Forall (fun b => b < 256) l' -> hex_of_bytes l = hex_of_bytes l' -> l = l'.
Proof.
  intros H. revert l'. induction H as [|b l Hb F IH]; intros l' H' E; destruct H' as [|b' l' Hb' F']; cbn in E; try discriminate; [reflexivity|].
  injection E as E1 E2 E3. destruct (byte_parts b Hb) as (A1 & A2), (byte_parts b' Hb') as (B1 & B2).
  apply hexdigit_inj in E1; auto. apply hexdigit_inj in E2; auto. f_equal; [|apply IH; assumption].
  rewrite (N.div_mod b 16), (N.div_mod b' 16) by lia. congruence.
Qed.
Lemma no_dash_hex t : Forall hex_char t -> ~ In 45 t.
Proof. rewrite Forall_forall. intros H K. apply H in K. unfold hex_char in K. lia. Qed.
(** The text that is hashed tells salt and id. *)
Lemma salted_inj a b i j : four_bytes (ar_random a) -> four_bytes (ar_random b) -> salt_of a ++ str_of_N i = salt_of b ++ str_of_N j -> salt_of a = salt_of b /\ i = j.
Proof.
  intros (La & Fa) (Lb & Fb) H. unfold salt_of in *.
  set (pa := str_of_N (ar_pid a) ++ [45] ++ match ar_host a with [] => lit "<nohostname>" | n :: l => n :: l end ++ [45] ++ ar_time a).
  set (pb := str_of_N (ar_pid b) ++ [45] ++ match ar_host b with [] => lit "<nohostname>" | n :: l => n :: l end ++ [45] ++ ar_time b).
  assert (K : pa ++ 45 :: (hex_of_bytes (ar_random a) ++ str_of_N i) = pb ++ 45 :: (hex_of_bytes (ar_random b) ++ str_of_N j)).
  { unfold pa, pb. rewrite <- ?app_assoc. cbn [app]. rewrite <- ?app_assoc. cbn [app]. rewrite <- ?app_assoc in H. cbn [app] in H. rewrite <- ?app_assoc in H. cbn [app] in H. rewrite <- ?app_assoc in H. cbn [app] in H. rewrite <- ?app_assoc. cbn [app]. rewrite <- ?app_assoc. exact H. }
  assert (NA : forall r k, Forall (fun b => b < 256) r -> ~ In 45 (hex_of_bytes r ++ str_of_N k)).
  { intros r k F Q. apply in_app_or in Q as [Q|Q]; [eapply no_dash_hex; [|exact Q]; apply hex_bytes_chars, F|eapply no_dash_digits; [|exact Q]; apply str_digits]. }
  destruct (last_dash _ _ _ _ (NA _ _ Fa) (NA _ _ Fb) K) as (EP & ET).
  assert (ER : hex_of_bytes (ar_random a) = hex_of_bytes (ar_random b) /\ str_of_N i = str_of_N j).
  { assert (L : length (hex_of_bytes (ar_random a)) = length (hex_of_bytes (ar_random b))) by (rewrite !hex_bytes_length, La, Lb; reflexivity).
    revert L ET. generalize (hex_of_bytes (ar_random a)) (hex_of_bytes (ar_random b)). intros x y. revert y. induction x as [|c x IH]; intros [|d y] L ET; cbn in *; try discriminate; [auto|].
    injection ET as -> ET. destruct (IH y) as (-> & Q); [lia|exact ET|auto]. }
  destruct ER as (ER & EI). split; [|apply str_inj, EI].
  transitivity (pa ++ 45 :: hex_of_bytes (ar_random a)); [unfold pa; rewrite <- !app_assoc; reflexivity|]. rewrite EP, ER. unfold pb. rewrite <- !app_assoc. reflexivity.
Qed.
Lemma salt_inj a b : four_bytes (ar_random a) -> four_bytes (ar_random b) -> salt_of a = salt_of b -> ar_pid a = ar_pid b /\ ar_random a = ar_random b.
Proof.
  intros Fa Fb H. split.
  - unfold salt_of in H. apply first_dash in H as (H & _); [apply str_inj, H| |]; apply no_dash_digits, str_digits.
  - assert (K : salt_of a ++ str_of_N 0 = salt_of b ++ str_of_N 0) by congruence. unfold salt_of in H.
    rewrite !app_assoc in H. rewrite <- !(app_assoc _ [45] (hex_of_bytes _)) in H. cbn [app] in H.
    apply last_dash in H as (_ & H); [|apply no_dash_hex, hex_bytes_chars, Fa|apply no_dash_hex, hex_bytes_chars, Fb].
    apply hex_bytes_inj; [apply Fa|apply Fb|exact H].
Qed.

Lemma salt_host a b : four_bytes (ar_random a) -> four_bytes (ar_random b) -> ~ In 45 (ar_time a) -> ~ In 45 (ar_time b) -> salt_of a = salt_of b ->
  ar_time a = ar_time b /\ (ar_host a <> [] -> ar_host b <> [] -> ar_host a = ar_host b).
Proof.
  intros Fa Fb Ta Tb H. destruct (salt_inj a b Fa Fb H) as (_ & ER). unfold salt_of in H.
  apply first_dash in H as (_ & H); [| |]; try (apply no_dash_digits, str_digits). rewrite ER in H.
  rewrite !app_assoc in H. apply app_inv_tail in H. apply app_inv_tail in H. rewrite <- !app_assoc in H. cbn [app] in H.
  apply last_dash in H as (H & HT); auto. split; [exact HT|]. intros Na Nb. destruct (ar_host a), (ar_host b); try contradiction. exact H.
Qed.

(** Every id is made of 24 hexadecimal digits. *)
Theorem C104_form digest g a id : digests digest -> length (snd (gcall_step digest g a (Hashed id))) = 24%nat /\ Forall hex_char (snd (gcall_step digest g a (Hashed id))).
Proof.
  intros D. cbn [gcall_step snd]. unfold int2hexguid. match goal with |- context [digest ?x] => destruct (D x) as (L & F) end.
  split; [|apply firstn_forall, F]. rewrite firstn_length, L. reflexivity.
Qed.
Lemma same_process digest g : forall l, by_process (hg_pid g) l -> fst (gcalls digest g l) = g /\
  forall k a id t, nth_error l k = Some (a, Hashed id) -> nth_error (snd (gcalls digest g l)) k = Some t -> t = int2hexguid digest g id.
Proof.
  induction l as [|[a c] l IH]; intros H; [split; [reflexivity|]; intros [|k]; discriminate|]. inversion H as [|? ? E F]; subst. cbn in E. destruct (IH F) as (I1 & I2).
  assert (G : fst (gcall_step digest g a c) = g) by (destruct c; cbn; [reflexivity|]; rewrite E, N.eqb_refl; reflexivity).
  cbn [gcalls]. destruct (gcall_step digest g a c) as [g1 t1] eqn:ES. cbn in G. subst g1. destruct (gcalls digest g l) as [g2 ts] eqn:EG. cbn [fst snd] in *.
  split; [exact I1|]. intros [|k] a' id t K1 K2; cbn in K1, K2.
  - injection K1 as -> ->. cbn [gcall_step] in ES. injection ES as <-. congruence.
  - eapply I2; eauto.
Qed.
(** In one process, calls with the same number give the same id, whatever is called between; *)
Theorem C104_fixed digest a0 l k1 k2 a1 a2 id t1 t2 : by_process (ar_pid a0) l ->
  nth_error l k1 = Some (a1, Hashed id) -> nth_error l k2 = Some (a2, Hashed id) ->
  nth_error (snd (gcalls digest (hreseed digest a0) l)) k1 = Some t1 -> nth_error (snd (gcalls digest (hreseed digest a0) l)) k2 = Some t2 -> t1 = t2.
Proof.
  intros H K1 K2 T1 T2. destruct (same_process digest (hreseed digest a0) l H) as (_ & I2). rewrite (I2 _ _ _ _ K1 T1), (I2 _ _ _ _ K2 T2). reflexivity.
Qed.
(** calls with different numbers give different ids, unless the digests of the texts hashed
    collide in the first 24 digits. *)
Theorem C104_distinct digest a0 l k1 k2 a1 a2 id1 id2 t1 t2 : by_process (ar_pid a0) l ->
  nth_error l k1 = Some (a1, Hashed id1) -> nth_error l k2 = Some (a2, Hashed id2) ->
  nth_error (snd (gcalls digest (hreseed digest a0) l)) k1 = Some t1 -> nth_error (snd (gcalls digest (hreseed digest a0) l)) k2 = Some t2 ->
  no_collision digest (salt_of a0 ++ str_of_N id1) (salt_of a0 ++ str_of_N id2) -> id1 <> id2 -> t1 <> t2.
Proof.
  intros H K1 K2 T1 T2 NC N E. destruct (same_process digest (hreseed digest a0) l H) as (_ & I2). rewrite (I2 _ _ _ _ K1 T1), (I2 _ _ _ _ K2 T2) in E.
  apply NC in E. apply app_inv_head in E. apply N, str_inj, E.
Qed.
(** Two processes that each seeded themselves give different ids, if they can be told apart or the
    numbers differ, unless these two texts collide. *)
Theorem C104_processes digest a b id1 id2 : four_bytes (ar_random a) -> four_bytes (ar_random b) ->
  no_collision digest (salt_of a ++ str_of_N id1) (salt_of b ++ str_of_N id2) ->
  told_apart a b \/ id1 <> id2 -> int2hexguid digest (hreseed digest a) id1 <> int2hexguid digest (hreseed digest b) id2.
Proof.
  intros Fa Fb NC D E. apply NC in E. apply salted_inj in E as (E & EI); auto. pose proof (salt_host a b Fa Fb) as HH. destruct (salt_inj a b Fa Fb E) as (E1 & E2).
  destruct D as [[D|[D|(T1 & T2 & D)]]|D]; try contradiction. destruct (HH T1 T2 E) as (E3 & E4). tauto.
Qed.
(** A fork does not seed itself for these ids, unlike for those of int2hexguid_seq: as long as it
    does not call that function, it gives the very ids its parent gives, for every digest and all
    numbers. *)
Theorem C104_fork_refuted digest a0 (child parent : list (around * gcall)) k1 k2 a b id t1 t2 :
  (forall c, In c child -> ar_pid (fst c) <> ar_pid a0 /\ exists i, snd c = Hashed i) -> by_process (ar_pid a0) parent ->
  nth_error child k1 = Some (b, Hashed id) -> nth_error parent k2 = Some (a, Hashed id) ->
  nth_error (snd (gcalls digest (hreseed digest a0) child)) k1 = Some t1 -> nth_error (snd (gcalls digest (hreseed digest a0) parent)) k2 = Some t2 -> t1 = t2.
Proof.
  intros H P K1 K2 T1 T2. destruct (same_process digest (hreseed digest a0) parent P) as (_ & I2). rewrite (I2 _ _ _ _ K2 T2). clear - H K1 T1.
  revert k1 K1 T1. induction child as [|[c x] l IH]; intros k K T; [destruct k; discriminate|].
  destruct (H (c, x) (or_introl eq_refl)) as (_ & i & E). cbn in E. subst x. cbn [gcalls gcall_step] in T.
  assert (H' : forall y, In y l -> ar_pid (fst y) <> ar_pid a0 /\ exists i, snd y = Hashed i) by (intros y Q; apply H; right; exact Q).
  destruct (gcalls digest (hreseed digest a0) l) as [g2 ts]. cbn [snd] in *. destruct k as [|k]; cbn [nth_error] in K, T.
  - injection K as _ ->. congruence.
  - eapply IH; eauto.
Qed.
Lemma own_salt digest pid : forall l g, by_process pid l -> hg_pid g = pid ->
  forall k a id t, nth_error l k = Some (a, Hashed id) -> nth_error (snd (gcalls digest g l)) k = Some t -> t = int2hexguid digest g id.
Proof. intros l g H <-. apply (same_process digest g l H). Qed.
Lemma fork_calls digest a0 pid : pid <> ar_pid a0 -> forall l k0 k1 a id0 b id t, by_process pid l ->
  nth_error l k0 = Some (a, Seq id0) -> (k0 < k1)%nat -> nth_error l k1 = Some (b, Hashed id) -> nth_error (snd (gcalls digest (hreseed digest a0) l)) k1 = Some t ->
  exists c, In c l /\ t = int2hexguid digest (hreseed digest (fst c)) id.
Proof.
  intros NP. induction l as [|[c x] l IH]; intros k0 k1 a id0 b id t H K0 L K1 T; [destruct k0; discriminate|].
  inversion H as [|? ? E F]; subst. cbn in NP. cbn [fst] in F. destruct k1 as [|k1]; [lia|]. cbn [nth_error] in K1. cbn [gcalls] in T.
  destruct x as [i|i]; cbn [gcall_step] in T.
  - destruct k0 as [|k0]; [discriminate|]. cbn [nth_error] in K0. destruct (gcalls digest (hreseed digest a0) l) as [g2 ts] eqn:EG. cbn [snd nth_error] in T.
    destruct (IH k0 k1 a id0 b id t F K0) as (d & D & ->); [lia|exact K1|exact T|]. exists d. split; [right; exact D|reflexivity].
  - cbn [hreseed hg_pid] in T. destruct (N.eqb_spec (ar_pid c) (ar_pid a0)) as [Q|_]; [contradiction|]. cbn [negb] in T.
    destruct (gcalls digest (hreseed digest c) l) as [g2 ts] eqn:EG. cbn [snd nth_error] in T. exists (c, Seq i). split; [left; reflexivity|]. cbn [fst].
    eapply (own_salt digest (ar_pid c) l); [exact F|reflexivity|exact K1|rewrite EG; exact T].
Qed.
(** Once the fork has called int2hexguid_seq, its hashed ids differ from those of the parent, for
    all numbers (unless texts that are hashed collide). *)
Theorem C104_fork_after_seq digest a0 pid child parent k0 k1 k2 a id0 b id1 c id2 t1 t2 :
  four_bytes (ar_random a0) -> Forall (fun x => four_bytes (ar_random (fst x))) child -> pid <> ar_pid a0 -> by_process pid child -> by_process (ar_pid a0) parent ->
  nth_error child k0 = Some (a, Seq id0) -> (k0 < k1)%nat -> nth_error child k1 = Some (b, Hashed id1) -> nth_error parent k2 = Some (c, Hashed id2) ->
  nth_error (snd (gcalls digest (hreseed digest a0) child)) k1 = Some t1 -> nth_error (snd (gcalls digest (hreseed digest a0) parent)) k2 = Some t2 ->
  (forall x, In x child -> no_collision digest (salt_of (fst x) ++ str_of_N id1) (salt_of a0 ++ str_of_N id2)) -> t1 <> t2.
Proof.
  intros Fa Fc NP HC HP K0 L K1 K2 T1 T2 NC. destruct (fork_calls digest a0 pid NP child k0 k1 a id0 b id1 t1 HC K0 L K1 T1) as (x & X & ->).
  rewrite (own_salt digest (ar_pid a0) parent (hreseed digest a0) HP eq_refl _ _ _ _ K2 T2). rewrite Forall_forall in Fc.
  apply C104_processes; [apply (Fc x X)|exact Fa|apply NC, X|]. left. left. unfold by_process in HC. rewrite Forall_forall in HC. rewrite (HC x X). exact NP.
Qed.

(** A digest for the examples: the text backwards, in digits, filled up with zeros. *)
Definition toy (x : text) : text := firstn 40 (map (fun c => if c <? 48 then 48 else if 57 <? c then 97 else c) (rev x) ++ repeat 48 40).
Example C104_toy : digests toy.
Proof.
  intros x. unfold toy. split.
  - rewrite firstn_length, app_length, map_length, repeat_length. lia.
  - apply firstn_forall, Forall_app. split; [|apply Forall_forall; intros c K; apply repeat_spec in K; subst; left; lia].
    apply Forall_forall. intros c K. apply in_map_iff in K as (d & <- & _). destruct (N.ltb_spec d 48); [left; lia|]. destruct (N.ltb_spec 57 d); [right; lia|left; lia].
Qed.
Example C104_parent_and_child :
  let a0 := mkAround 7 (lit "h") (lit "1.5") [171; 205; 239; 1] in let b := mkAround 8 (lit "h") (lit "2.5") [1; 2; 3; 4] in
  four_bytes (ar_random a0) /\ four_bytes (ar_random b) /\ by_process 8 [(b, Hashed 12); (b, Seq 3); (b, Hashed 12)] /\
  salt_of a0 = lit "7-h-1.5-abcdef01" /\ no_collision toy (salt_of b ++ str_of_N 12) (salt_of a0 ++ str_of_N 12) /\
  snd (gcalls toy (hreseed toy a0) [(b, Hashed 12); (b, Seq 3); (b, Hashed 12)]) =
    [lit "2110aaaaaa05010a07000000"; hex (int16 (firstn 24 (toy (salt_of b))) + 3); lit "214030201005020a08000000"].
Proof.
  split; [split; [reflexivity|repeat constructor]|]. split; [split; [reflexivity|repeat constructor]|]. split; [repeat constructor|]. split; [reflexivity|]. split; [intros H; vm_compute in H; discriminate|]. vm_compute. reflexivity.
Qed.
(** One process asks for three ids, one of them twice; its fork, which only asks for hashed ids, gets
    one of its parent's. *)
Example C104_same :
  let a0 := mkAround 7 (lit "h") (lit "1.5") [171; 205; 239; 1] in let b := mkAround 8 [] (lit "2.5") [1; 2; 3; 4] in
  let parent := [(a0, Hashed 12); (a0, Seq 1); (a0, Hashed 13); (a0, Hashed 12)] in
  by_process 7 parent /\ no_collision toy (salt_of a0 ++ str_of_N 12) (salt_of a0 ++ str_of_N 13) /\
  (forall c, In c [(b, Hashed 13)] -> ar_pid (fst c) <> ar_pid a0 /\ exists i, snd c = Hashed i) /\
  snd (gcalls toy (hreseed toy a0) parent) =
    [lit "2110aaaaaa05010a07000000"; lit "10aaaaaa05010a0700000001"; lit "3110aaaaaa05010a07000000"; lit "2110aaaaaa05010a07000000"] /\
  snd (gcalls toy (hreseed toy a0) [(b, Hashed 13)]) = [lit "3110aaaaaa05010a07000000"] /\ salt_of b = lit "8-<nohostname>-2.5-01020304" /\ told_apart a0 b.
Proof.
  split; [repeat constructor|]. split; [intros H; vm_compute in H; discriminate|]. split; [intros c [<-|[]]; split; [discriminate|eexists; reflexivity]|]. repeat match goal with |- _ /\ _ => split; [vm_compute; reflexivity|] end. left. discriminate.
Qed.

Print Assumptions C104_form.
Print Assumptions C104_fixed.
Print Assumptions C104_distinct.
Print Assumptions C104_processes.
Print Assumptions C104_fork_refuted.
Print Assumptions C104_fork_after_seq.
