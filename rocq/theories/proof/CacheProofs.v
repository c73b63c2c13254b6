From Verif Require Import spec.CallSpec proof.CallProofs2.
From Verif Require Import proof.CoreLib proof.CoreTrans proof.CoreInv proof.CoreWith proof.CoreDispatch proof.CoreFinal proof.CoreAsync proof.CoreData proof.PipelineProofs.
From Verif Require Import model.PyBase model.Core model.Levels model.Sensible model.Timestamps model.Pipeline model.Format model.Fields model.MessageCache
  spec.CoreSpec spec.PipelineSpec spec.FormatSpec spec.FieldSpec proof.FieldProofs.
Open Scope nat_scope.

Lemma field_names_eq t : field_names t = names_in t.
Proof.
  unfold field_names, names_in. destruct (tokenize t) as [is|]; [|reflexivity]. f_equal. induction is as [|[x|k] is IH]; cbn; [reflexivity|exact IH|f_equal; exact IH].
Qed.

(** ** Tables that differ in their getters only *)
Section T.
Context {V E : Type}.
Lemma table_pair (g g' : string -> E -> gres V) name :
  match dget text_eqb name (field_map (builtin_fields g) []), dget text_eqb name (field_map (builtin_fields g') []) with
  | Some f, Some f' => fd_fspec f = fd_fspec f' /\ fd_quote f = fd_quote f' /\ exists n s q, In (n, s, q) BUILTIN_FIELDS /\ name = lit n /\ fd_getter f = g n /\ fd_getter f' = g' n
  | None, None => True
  | _, _ => False
  end.
Proof.
  unfold field_map, builtin_fields. cbn [map].
  set (rel := fun (d d' : list (text * sfield V E)) =>
    match dget text_eqb name d, dget text_eqb name d' with
    | Some f, Some f' => fd_fspec f = fd_fspec f' /\ fd_quote f = fd_quote f' /\ exists n s q, In (n, s, q) BUILTIN_FIELDS /\ name = lit n /\ fd_getter f = g n /\ fd_getter f' = g' n
    | None, None => True | _, _ => False end).
  assert (G : forall B d d', (forall x, In x B -> In x BUILTIN_FIELDS) -> rel d d' ->
    rel (dupdate text_eqb d (map (fun f => (fd_name f, f)) (map (fun x => match x with (n, s, q) => make_field (lit n) (lit s) q (g n) end) B)))
        (dupdate text_eqb d' (map (fun f => (fd_name f, f)) (map (fun x => match x with (n, s, q) => make_field (lit n) (lit s) q (g' n) end) B)))).
  { unfold dupdate. induction B as [|[[n s] q] B IH]; intros d d' HB H; [exact H|]. cbn [map fold_left fst snd]. apply IH; [intros; apply HB; right; assumption|].
    unfold rel. rewrite !dget_dset_text. change (fd_name (make_field (lit n) (lit s) q (g n))) with (lit n). change (fd_name (make_field (lit n) (lit s) q (g' n))) with (lit n).
    destruct (text_eqb name (lit n)) eqn:En; [|exact H]. split; [reflexivity|]. split; [reflexivity|]. exists n, s, q. split; [apply HB; left; reflexivity|].
    split; [apply text_eqb_iff, En|]. split; reflexivity. }
  apply (G BUILTIN_FIELDS [] []); [auto|exact I].
Qed.
Lemma compile_ext (fm fm' : list (text * sfield V E)) q d is :
  (forall name, match dget text_eqb name fm, dget text_eqb name fm' with Some f, Some f' => fd_fspec f = fd_fspec f' | None, None => True | _, _ => False end) ->
  compile fm q d is = compile fm' q d is.
Proof.
  intros P. induction is as [|i is IH]; [reflexivity|]. cbn [compile].
  rewrite IH. assert (Ei : compile_item fm q d i = compile_item fm' q d i); [|rewrite Ei; reflexivity].
  destruct i as [x|k]; [reflexivity|]. cbn [compile_item]. destruct (d k); try reflexivity. destruct (q k); try reflexivity. destruct (tk_fspec k); [|reflexivity].
  specialize (P (tk_fname k)). destruct (dget text_eqb (tk_fname k) fm); destruct (dget text_eqb (tk_fname k) fm'); try contradiction; [|reflexivity].
  rewrite P. reflexivity.
Qed.
Lemma formatter_table (g g' : string -> E -> gres V) q d t :
  make_formatter (field_map (builtin_fields g) []) q d t = make_formatter (field_map (builtin_fields g') []) q d t.
Proof.
  unfold make_formatter. destruct (tokenize t) as [is|]; [|reflexivity]. apply compile_ext. intros name. pose proof (table_pair g g' name) as P.
  destruct (dget text_eqb name (field_map (builtin_fields g) [])); destruct (dget text_eqb name (field_map (builtin_fields g') [])); try contradiction; [apply P|exact I].
Qed.
Lemma render_table vnone fn fnest dof (g g' : string -> E -> gres V) q d t cs x :
  make_formatter (field_map (builtin_fields g) []) q d t = Some cs ->
  (forall n, In (lit n) (names_in t) -> (exists s q, In (n, s, q) BUILTIN_FIELDS) -> g n x = g' n x) ->
  render vnone fn fnest dof (field_map (builtin_fields g) []) x [] [] cs = render vnone fn fnest dof (field_map (builtin_fields g') []) x [] [] cs.
Proof.
  intros Hc H. assert (Hn : forall k dt qe, In (CFld k dt qe) cs -> In (base_name (tk_fname k)) (names_in t)) by (intros k dt qe Hi; exact (formatter_names _ _ _ _ _ Hc k dt qe Hi)).
  clear Hc. induction cs as [|c cs IH]; [reflexivity|]. cbn [render]. rewrite IH by (intros; eapply Hn; right; eauto).
  destruct c as [y|k dt qe]; [reflexivity|]. unfold field_segment.
  assert (R : resolve vnone dof (field_map (builtin_fields g) []) [] x (base_name (tk_fname k)) = resolve vnone dof (field_map (builtin_fields g') []) [] x (base_name (tk_fname k))).
  { unfold resolve. cbn [dget]. destruct (dget text_eqb _ (dof x)); [reflexivity|]. pose proof (table_pair g g' (base_name (tk_fname k))) as P.
    destruct (dget text_eqb _ (field_map (builtin_fields g) [])) as [f|]; destruct (dget text_eqb _ (field_map (builtin_fields g') [])) as [f'|]; try contradiction; [|reflexivity].
    destruct P as (_ & _ & n & s & qq & P1 & P2 & -> & ->). rewrite H; [reflexivity|rewrite <- P2; eapply Hn; left; reflexivity|eauto]. }
  rewrite R. reflexivity.
Qed.
End T.

Section F.
Variable env : fenv.
Variable fn : ftoken -> fval -> option text.
Variable fnest : ftoken -> list fval -> option text.
Notation msg_at := (msg_at env fn fnest).
Notation cgetter := (cgetter env fn fnest).
Notation getter := (getter env fn fnest).
Notation stored := (stored env fn fnest).

Definition cmsg_at (c : mcache) (fuel : nat) (e : event) (a : action) (d : nat) : gres fval :=
  match fuel with
  | O => GOther
  | S f =>
    match fst (event_message VNone fn fnest data_of (field_map (builtin_fields (cgetter c f)) []) (e, Some a, d) (lit (e_msg e)) [] (c e)) with
    | Some t => gtext t | None => GOther end
  end.
Lemma cgetter_eq c fuel n x : cgetter c fuel n x = from_table (getters env (cmsg_at c fuel)) n x.
Proof. destruct fuel; reflexivity. Qed.
(** Getters look at messages only where they say so. *)
Lemma table_msg (m m' : event -> action -> nat -> gres fval) e a d n :
  (In n ["event_message"; "event_message_raw"]%string -> m e a d = m' e a d) ->
  (In n ["begin_message"]%string -> forall b, a_begin a = Some b -> m b a d = m' b a d) ->
  (In n ["end_message"]%string -> forall b, a_end a = Some b -> m b a d = m' b a d) ->
  from_table (getters env m) n (e, Some a, d) = from_table (getters env m') n (e, Some a, d).
Proof.
  intros H1 H2 H3. unfold from_table, getters. cbn [dget].
  repeat match goal with |- context [String.eqb n ?s] => destruct (String.eqb_spec n s) as [->|]; [
    unfold with_begin, with_end, with_exc, with_act; try reflexivity;
    try (apply H1; cbn; tauto);
    try (destruct (a_begin a) as [b|]; [apply H2; [cbn; tauto|reflexivity]|reflexivity]);
    try (destruct (a_end a) as [b|]; [apply H3; [cbn; tauto|reflexivity]|reflexivity])|] end. reflexivity.
Qed.
Lemma cgetter_plain c fuel n e a d : ~ In n message_fields -> cgetter c fuel n (e, Some a, d) = getter fuel n (e, Some a, d).
Proof.
  intros H. rewrite cgetter_eq, getter_eq. apply table_msg; intros X; exfalso; apply H; unfold message_fields; cbn in *; tauto.
Qed.
Definition flat (x : event) : Prop := forall m, In m message_fields -> ~ In (lit m) (names_in (lit (e_msg x))).
(** A message that was not rendered yet *)
Lemma fresh_message c f x a d : flat x -> c x = [] ->
  event_message VNone fn fnest data_of (field_map (builtin_fields (cgetter c f)) []) (x, Some a, d) (lit (e_msg x)) [] (c x) =
  event_message VNone fn fnest data_of (field_table env fn fnest f) (x, Some a, d) (lit (e_msg x)) [] [].
Proof.
  intros Hf ->. unfold event_message. destruct (negb _); [reflexivity|].
  unfold field_table. rewrite (formatter_table (cgetter c f) (getter f)).
  destruct (make_formatter (field_map (builtin_fields (getter f)) []) no_quoter default_defaulter (lit (e_msg x))) as [cs|] eqn:Ec; [|reflexivity].
  rewrite (render_table VNone fn fnest data_of (getter f) (cgetter c f) no_quoter default_defaulter (lit (e_msg x)) cs (x, Some a, d) Ec); [reflexivity|].
  intros n Hn _. symmetry. apply cgetter_plain. intros Hm. exact (Hf n Hm Hn).
Qed.
Definition good_entry (c : mcache) (fuel : nat) (x : event) (a : action) (d : nat) : Prop := c x = [] \/ msg_at fuel x a d = gtext (c x).
Lemma cmsg_good c fuel x a d : flat x -> good_entry c fuel x a d -> cmsg_at c fuel x a d = msg_at fuel x a d.
Proof.
  intros Hf H. destruct fuel as [|f]; [reflexivity|]. unfold cmsg_at.
  assert (D : c x = [] \/ exists t ts, c x = t :: ts) by (destruct (c x); eauto). destruct D as [E|(t & ts & E)].
  - rewrite (fresh_message c f x a d Hf E). reflexivity.
  - destruct H as [H|H]; [congruence|]. rewrite H, E. reflexivity.
Qed.
Lemma stored_good c fuel x a d : flat x -> good_entry c fuel x a d -> stored c fuel x a d = [] \/ msg_at fuel x a d = gtext (stored c fuel x a d).
Proof.
  intros Hf H. destruct fuel as [|f]; [destruct H as [H|H]; [left; exact H|right; exact H]|]. unfold MessageCache.stored.
  assert (D : c x = [] \/ exists t ts, c x = t :: ts) by (destruct (c x); eauto). destruct D as [E|(t & ts & E)].
  - rewrite (fresh_message c f x a d Hf E). unfold FieldProofs.msg_at. clear H.
    unfold event_message. destruct (negb _); [right; reflexivity|]. destruct (make_formatter _ _ _ _) as [cs|]; [|left; reflexivity].
    destruct (render _ _ _ _ _ _ _ _ cs) as [t|]; [right; reflexivity|left; reflexivity].
  - right. destruct H as [H|H]; [congruence|]. rewrite H, E. reflexivity.
Qed.

(** A line *)
Lemma cached_out c fuel on fs q tpl k e a d :
  (forall x, msg_shown (tpl k) e a x -> flat x /\ good_entry c fuel x a d) ->
  out (cached_sink env fn fnest c fuel on fs q tpl) k (e, Some a, d) = out (sensible_sink env fn fnest fuel on fs q tpl) k (e, Some a, d).
Proof.
  intros H. unfold out, wb. cbn [cached_sink sensible_sink ap_filters ap_render ap_on].
  change (ss_has (sink_of (cached_sink env fn fnest c fuel on fs q tpl)) k) with (ss_has (sink_of (sensible_sink env fn fnest fuel on fs q tpl)) k).
  destruct (ss_has _ k && _); [|reflexivity]. f_equal. unfold field_table. rewrite (formatter_table (cgetter c fuel) (getter fuel)).
  destruct (make_formatter _ q default_defaulter (tpl k)) as [cs|] eqn:Ec; [|reflexivity].
  rewrite (render_table VNone fn fnest data_of (getter fuel) (cgetter c fuel) q default_defaulter (tpl k) cs (e, Some a, d) Ec); [reflexivity|].
  intros n Hn _. rewrite cgetter_eq, getter_eq. symmetry. apply table_msg.
  - intros X. apply cmsg_good; apply H, ms_event; destruct X as [<-|[<-|[]]]; auto.
  - intros [<-|[]] b Eb. apply cmsg_good; apply H, ms_begin; auto.
  - intros [<-|[]] b Eb. apply cmsg_good; apply H, ms_end; auto.
Qed.
Lemma reads_shown a t e x : (forall y, msg_shown t e a y -> flat y) -> reads_message a t e x -> msg_shown t e a x.
Proof.
  intros Hf H. induction H as [t e H|t e b H Hb|t e b H Hb|t e x y H1 IH1 H2 IH2]; rewrite ?field_names_eq in *; try (constructor; assumption).
  specialize (IH1 Hf). pose proof (Hf x IH1) as Fx. exfalso.
  assert (M : forall z, ~ msg_shown (lit (e_msg x)) x a z).
  { intros z Hz. destruct Hz as [[Z|Z]|b Z _|b Z _]; (eapply Fx; [|exact Z]); unfold message_fields; cbn; tauto. }
  eapply M, IH2. intros z Hz. exfalso. exact (M z Hz).
Qed.
End F.

(** ** Runs *)
Local Opaque parent_depth show seen.
Section R.
Variable cfg : config.
Hypothesis HQ : exc_quiet cfg.
Variable env : fenv.
Variable fn : ftoken -> fval -> option text.
Variable fnest : ftoken -> list fval -> option text.
Variable fuel : nat.
Variable on : list string.
Variable fs : list sfilter.
Variable q : quoter_fn.
Variable tpl : kind -> text.
Variable others : kind -> list text.
Notation ap := (sensible_sink env fn fnest fuel on fs q tpl).
Notation csink c := (cached_sink env fn fnest c fuel on fs q tpl).

Lemma alike_begin t e a aF b : alike t e a aF -> In (lit "begin_message") (names_in t) -> a_begin a = Some b -> a_begin aF = Some b.
Proof.
  intros H Hn Hb. rewrite <- (al_begin _ _ _ _ (ak_same _ _ _ _ H)); [exact Hb|]. exists "begin_message"%string. split; [cbn; tauto|apply il_template, Hn].
Qed.
Lemma alike_end t e a aF b : alike t e a aF -> In (lit "end_message") (names_in t) -> a_end a = Some b -> a_end aF = Some b.
Proof.
  intros H Hn Hb. rewrite <- (al_end _ _ _ _ (ak_same _ _ _ _ H)); [exact Hb|]. exists "end_message"%string. split; [cbn; tauto|apply il_template, Hn].
Qed.
Lemma shown_final t e a aF x : alike t e a aF -> msg_shown t e a x -> msg_shown t e aF x.
Proof.
  intros H [Hn|b Hn Hb|b Hn Hb]; [apply ms_event, Hn|apply ms_begin; [exact Hn|eapply alike_begin; eauto]|apply ms_end; [exact Hn|eapply alike_end; eauto]].
Qed.
Lemma alike_msg t e a aF x d : alike t e a aF -> msg_shown t e aF x -> msg_at env fn fnest fuel x a d = msg_at env fn fnest fuel x aF d.
Proof.
  intros [H HB HN] Hx. apply (msg_same env fn fnest fuel _ _ x a aF d H).
  - intros Hk. destruct Hx as [Hn|b Hn Hb|b Hn Hb]; [left; exact Hk| |right; exact Hn]. rewrite (HB b Hb) in Hk. discriminate.
  - intros n Hi. eapply il_message; eauto.
  - intros m. apply HN, Hx.
Qed.
Lemma shown_act wF t e aF x : reach cfg wF -> nth_error (w_acts wF) (e_act e) = Some aF -> msg_shown t e aF x -> e_act x = e_act e.
Proof.
  intros HR Ha Hx. destruct (record_of cfg wF (e_act e) aF HR Ha) as (_ & _ & B & N). destruct Hx as [Hn|b Hn Hb|b Hn Hb]; [reflexivity| |].
  - rewrite Hb in B. assert (Hi : In b (events_of (e_act e) KBegin (w_hist wF))) by (rewrite B; left; reflexivity). apply in_events in Hi. tauto.
  - rewrite Hb in N. symmetry in N. apply last_of_in in N. apply in_events in N. tauto.
Qed.

(** Everything stored is what the message is in the end. *)
Definition sound (wF : world) (c : mcache) : Prop := forall x aF, nth_error (w_acts wF) (e_act x) = Some aF ->
  good_entry env fn fnest c fuel x aF (parent_depth wF (e_act x)).
Lemma sound_line wF t e a aF d c x : reach cfg wF -> show wF e = (e, Some aF, d) -> alike t e a aF -> sound wF c ->
  msg_shown t e a x -> flat x /\ good_entry env fn fnest c fuel x a d.
Proof.
  intros HR Es HA HS Hx. pose proof (shown_final _ _ _ _ _ HA Hx) as HxF. split; [intros m; exact (ak_nested _ _ _ _ HA x m HxF)|].
  Local Transparent show. unfold show in Es. Local Opaque show. injection Es as Ea Ed.
  pose proof (shown_act wF t e aF x HR Ea HxF) as Er. rewrite <- Er in Ea, Ed. destruct (HS x aF Ea) as [H|H]; [left; exact H|right].
  rewrite (alike_msg _ _ _ _ _ _ HA HxF), <- Ed. exact H.
Qed.
Lemma sound_stores wF ts e a aF d c c' : reach cfg wF -> show wF e = (e, Some aF, d) -> (forall t, In t ts -> alike t e a aF) -> sound wF c ->
  stores env fn fnest fuel ts (e, Some a, d) c c' -> sound wF c'.
Proof.
  intros HR Es HA HS Hst x bF Hb. destruct (Hst x) as [E|(t & e' & a' & d' & E & Ht & Hr & Ec)]; [unfold good_entry; rewrite E; exact (HS x bF Hb)|].
  injection E as <- <- <-. specialize (HA t Ht).
  assert (Hx : msg_shown t e a x) by (apply reads_shown; [|exact Hr]; intros y Hy; exact (proj1 (sound_line wF t e a aF d c y HR Es HA HS Hy))).
  destruct (sound_line wF t e a aF d c x HR Es HA HS Hx) as [Hf Hg]. pose proof (shown_final _ _ _ _ _ HA Hx) as HxF.
  Local Transparent show. unfold show in Es. Local Opaque show. injection Es as Ea Ed.
  pose proof (shown_act wF t e aF x HR Ea HxF) as Er. rewrite Er in Hb. assert (bF = aF) by congruence. subst bF.
  unfold good_entry. rewrite Ec. destruct (stored_good env fn fnest c fuel x a d Hf Hg) as [H|H]; [left; exact H|right].
  rewrite Er, Ed, <- (alike_msg _ _ _ _ _ _ HA HxF). exact H.
Qed.
Lemma one_out p k x : map snd (ss_run (sink_of p) [(k, x)]) = out p k x.
Proof.
  cbn [ss_run]. rewrite app_nil_r. unfold out, wb. destruct (ss_has (sink_of p) k); cbn [andb]; [|reflexivity]. rewrite on_total. destruct (forallb _ _); reflexivity.
Qed.

Lemma line_view os1 o os2 w0 l s k e t : reach cfg w0 ->
  let os := os1 ++ o :: os2 in let w1 := run_ops cfg os1 w0 in let w2 := fst (step cfg o w1) in let wF := run_ops cfg os w0 in
  In (k, e) (received l s (skipn (length (w_trace w1)) (w_trace w2))) -> k <> KExc ->
  In (k, e) (received l s (w_trace wF)) /\
  ((forall aF, nth_error (w_acts wF) (e_act e) = Some aF -> line_ok cfg w0 os t e aF) ->
   exists a aF d, seen w1 w2 e = (e, Some a, d) /\ show wF e = (e, Some aF, d) /\ alike t e a aF).
Proof.
  intros HR os w1 w2 wF Hin Hk. pose proof (reach_run_ops cfg os1 w0 HR) as HR1. fold w1 in HR1.
  assert (HR2 : reach cfg w2) by (constructor; exact HR1).
  destruct (step_grows cfg o w1 (reach_winv cfg w1 HR1)) as (G & _ & _). apply (received_in l s w1 _ k e G) in Hin. fold w2 in Hin.
  assert (EF : wF = run_ops cfg os2 w2) by (unfold wF, os; rewrite run_ops_app; reflexivity).
  destruct (run_grows cfg os2 w2 (reach_winv cfg w2 HR2)) as ([nt Et] & K & _).
  split; [rewrite EF, Et, received_app; apply in_app_iff; left; exact Hin|]. intros HL.
  pose proof (received_ok cfg l s w2 k e (reach_winv cfg w2 HR2) Hin) as Hlt.
  destruct (nth_error (w_acts w2) (e_act e)) as [a2|] eqn:Ea2; [|apply nth_error_None in Ea2; lia].
  destruct (K _ _ Ea2) as (aF & HaF & _).
  assert (HLk : line_ok cfg w0 os t e aF) by (apply HL; rewrite EF; exact HaF).
  assert (Hlat : forall o0, In o0 os2 -> later cfg w0 os e o0).
  { intros o0 Ho. exists (os1 ++ [o]), os2. split; [unfold os; rewrite <- app_assoc; reflexivity|]. split; [|exact Ho]. rewrite run_ops_app. cbn [run_ops]. fold w1 w2.
    unfold received in Hin. apply in_flat_map in Hin as (ob & X1 & X2). destruct ob; try contradiction. destruct (Nat.eqb _ l && Nat.eqb _ s); [|contradiction].
    destruct X2 as [[= <- <-]|[]]. assert (Hoc : occurs w2 l0 k0 e0) by (right; eauto). apply (wi_occ _ _ (reach_winv cfg w2 HR2)) in Hoc. apply Hoc. }
  destruct (run_alike cfg HQ t os2 w2 w1 l s k e w0 os HR2 Hin Hk Hlat aF HaF HLk) as (a & d & E1 & E2 & HA & _).
  exists a, aF, d. rewrite EF. auto.
Qed.

Lemma lines_cached os1 o os2 w0 l s : reach cfg w0 ->
  let os := os1 ++ o :: os2 in let w1 := run_ops cfg os1 w0 in let w2 := fst (step cfg o w1) in let wF := run_ops cfg os w0 in
  (forall k e a t, In (k, e) (received l s (w_trace wF)) -> subscribed ap k -> nth_error (w_acts wF) (e_act e) = Some a ->
     In t (tpl k :: others k) -> line_ok cfg w0 os t e a) ->
  forall c evs ts c', cached_lines env fn fnest fuel on fs q tpl others c evs ts c' ->
  forall pes, evs = map (fun p => (fst p, seen w1 w2 (snd p))) pes ->
  (forall p, In p pes -> In p (received l s (skipn (length (w_trace w1)) (w_trace w2)))) ->
  sound wF c -> ts = txt ap (seen w1 w2) pes /\ sound wF c'.
Proof.
  intros HR os w1 w2 wF HL c evs ts c' H. assert (HRF : reach cfg wF) by (apply reach_run_ops; exact HR).
  induction H as [c|c k v evs ts c' Hs _ IH|c c1 c2 k v evs ts c' Hs H1 H2 _ IH]; intros pes E Hin HS.
  - destruct pes; [|discriminate]. split; [reflexivity|exact HS].
  - destruct pes as [|[k' e] pes]; [discriminate|]. cbn [map fst snd] in E. injection E as <- -> E.
    destruct (IH pes E (fun p Hp => Hin p (or_intror Hp)) HS) as [I1 I2]. split; [|exact I2]. rewrite txt_cons, <- I1. unfold out, wb.
    change (ss_has (sink_of ap) k) with (ss_has (sink_of (csink c)) k). rewrite Hs. reflexivity.
  - destruct pes as [|[k' e] pes]; [discriminate|]. cbn [map fst snd] in E. injection E as <- -> E.
    change (ss_has (sink_of (csink c)) k) with (ss_has (sink_of ap) k) in Hs. apply has_sub in Hs. assert (Hk : k <> KExc) by (intros ->; exact Hs).
    assert (V : forall t, In t (tpl k :: others k) -> exists a aF d, seen w1 w2 e = (e, Some a, d) /\ show wF e = (e, Some aF, d) /\ alike t e a aF).
    { intros t Ht. destruct (line_view os1 o os2 w0 l s k e t HR (Hin _ (or_introl eq_refl)) Hk) as [V1 V2]. apply V2. intros aF Ha. apply (HL k e aF t V1 Hs Ha Ht). }
    destruct (V (tpl k) (or_introl eq_refl)) as (a & aF & d & E1 & E2 & _).
    assert (HA : forall t, In t (tpl k :: others k) -> alike t e a aF).
    { intros t Ht. destruct (V t Ht) as (b & bF & d' & X1 & X2 & X3). rewrite E1 in X1. rewrite E2 in X2. injection X1 as <- _. injection X2 as <- _. exact X3. }
    rewrite E1 in H1, H2.
    pose proof (sound_stores wF (others k) e a aF d c c1 HRF E2 (fun t Ht => HA t (or_intror Ht)) HS H1) as S1.
    pose proof (sound_stores wF _ e a aF d c1 c2 HRF E2 HA S1 H2) as S2.
    destruct (IH pes E (fun p Hp => Hin p (or_intror Hp)) S2) as [I1 I2]. split; [|exact I2].
    rewrite txt_cons, <- I1, one_out, E1. f_equal. apply cached_out. intros x Hx. exact (sound_line wF (tpl k) e a aF d c1 x HRF E2 (HA _ (or_introl eq_refl)) S1 Hx).
Qed.

Lemma run_cached os w0 l s : reach cfg w0 ->
  (forall k e a t, In (k, e) (received l s (w_trace (run_ops cfg os w0))) -> subscribed ap k -> nth_error (w_acts (run_ops cfg os w0)) (e_act e) = Some a ->
     In t (tpl k :: others k) -> line_ok cfg w0 os t e a) ->
  forall ts c, cached_run env fn fnest fuel on fs q tpl others cfg l s os w0 no_messages ts c -> ts = snd (run_logged cfg ap l s os w0).
Proof.
  intros HR HL ts c H. set (wF := run_ops cfg os w0) in *.
  assert (G : forall os2 w c1 ts c, cached_run env fn fnest fuel on fs q tpl others cfg l s os2 w c1 ts c ->
    forall os1, os = os1 ++ os2 -> w = run_ops cfg os1 w0 -> sound wF c1 -> ts = snd (run_logged cfg ap l s os2 w)).
  { clear ts c H. intros os2 w c1 ts c H. induction H as [w c|o os2 w c c1 c2 ts ts' H _ IH]; intros os1 E Ew HS; [reflexivity|].
    cbn [run_logged]. subst w. rewrite E in HL.
    assert (EW : wF = run_ops cfg (os1 ++ o :: os2) w0) by (unfold wF; rewrite E; reflexivity).
    rewrite to_sink_received in H. rewrite EW in HL, HS.
    destruct (lines_cached os1 o os2 w0 l s HR HL _ _ _ _ H _ eq_refl (fun p Hp => Hp) HS) as [L1 L2].
    rewrite <- EW in L2. rewrite (IH (os1 ++ [o])); [|rewrite <- app_assoc; exact E|rewrite run_ops_app; reflexivity|exact L2].
    rewrite L1, <- entries_txt. destruct (run_logged cfg ap l s os2 _) as [x y]. reflexivity. }
  apply (G os w0 no_messages ts c H [] eq_refl eq_refl). intros x aF _. left. reflexivity.
Qed.
End R.
