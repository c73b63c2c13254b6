From Verif Require Import spec.CallSpec proof.CallProofs2.
From Verif Require Import proof.CoreLib proof.CoreTrans proof.CoreInv proof.CoreWith proof.CoreDispatch proof.CoreFinal proof.CoreAsync proof.CoreData proof.PipelineProofs.
From Verif Require Import model.PyBase model.Core model.Levels model.Sensible model.Timestamps model.Pipeline model.Format model.Fields
  spec.CoreSpec spec.PipelineSpec spec.FormatSpec spec.FieldSpec.
From Coq Require Import Ascii.
Open Scope nat_scope.

Lemma text_eqb_iff a b : text_eqb a b = true <-> a = b.
Proof.
  revert b. induction a as [|x a IH]; intros [|y b]; cbn; try (split; [discriminate|congruence]); [tauto|].
  rewrite andb_true_iff, N.eqb_eq, IH. split; [intros [-> ->]|intros [= -> ->]]; auto.
Qed.
Lemma dget_dset_lit (v : Z -> fval) name k x (d : data) : lit k <> name ->
  dget text_eqb name (map (fun p => (lit (fst p), v (snd p))) (dset String.eqb k x d)) = dget text_eqb name (map (fun p => (lit (fst p), v (snd p))) d).
Proof.
  intros Hn. assert (E : text_eqb name (lit k) = false).
  { destruct (text_eqb name (lit k)) eqn:E; [|reflexivity]. apply text_eqb_iff in E. congruence. }
  induction d as [|[k' y] d IH]; cbn [dset map dget fst snd].
  - rewrite E. reflexivity.
  - destruct (String.eqb_spec k k') as [<-|]; cbn [map dget fst snd].
    + rewrite E. reflexivity.
    + destruct (text_eqb name (lit k')); [reflexivity|exact IH].
Qed.
Lemma dget_dupdate_lit (v : Z -> fval) name ws : (forall k x, In (k, x) ws -> lit k <> name) -> forall d : data,
  dget text_eqb name (map (fun p => (lit (fst p), v (snd p))) (dupdate String.eqb d ws)) = dget text_eqb name (map (fun p => (lit (fst p), v (snd p))) d).
Proof.
  unfold dupdate. induction ws as [|[k x] ws IH]; intros H d; [reflexivity|]. cbn [fold_left fst snd]. rewrite IH by (intros; eapply H; right; eauto).
  apply dget_dset_lit. eapply H. left. reflexivity.
Qed.
Lemma dget_dupdate_str flag ws : (forall k x, In (k, x) ws -> k <> flag) -> forall d : data,
  dget String.eqb flag (dupdate String.eqb d ws) = dget String.eqb flag d.
Proof.
  unfold dupdate. induction ws as [|[k x] ws IH]; intros H d; [reflexivity|]. cbn [fold_left fst snd]. rewrite IH by (intros; eapply H; right; eauto).
  rewrite dget_dset. destruct (String.eqb_spec flag k) as [->|]; [|reflexivity]. exfalso. eapply H; [left; reflexivity|reflexivity].
Qed.

(** ** Compiled templates *)
Lemma compile_names {V E} (fm : list (text * sfield V E)) q d is : forall cs, compile fm q d is = Some cs ->
  forall k dt qe, In (CFld k dt qe) cs -> In (tk_fname k) (map tk_fname (fields is)).
Proof.
  induction is as [|i is IH]; cbn [compile]; intros cs H k dt qe Hin; [injection H as <-; destruct Hin|].
  destruct (compile_item fm q d i) as [c|] eqn:Ec; [|discriminate]. destruct (compile fm q d is) as [cs'|]; [|discriminate].
  injection H as <-. destruct Hin as [->|Hin].
  - destruct i as [t|k0]; cbn in Ec; [discriminate|]. cbn [fields map]. left. destruct (d k0); try discriminate; [|injection Ec as <- _ _; reflexivity].
    destruct (q k0); try discriminate; injection Ec as E1 _ _; subst k; [|reflexivity]. destruct (tk_fspec k0); [|reflexivity].
    destruct (dget text_eqb (tk_fname k0) fm); reflexivity.
  - destruct i; cbn [fields map]; [|right]; eapply IH; eauto.
Qed.
Lemma formatter_names {V E} (fm : list (text * sfield V E)) q d t cs : make_formatter fm q d t = Some cs ->
  forall k dt qe, In (CFld k dt qe) cs -> In (base_name (tk_fname k)) (names_in t).
Proof.
  unfold make_formatter, names_in. destruct (tokenize t) as [is|]; [|discriminate]. intros H k dt qe Hin.
  pose proof (compile_names fm q d is cs H k dt qe Hin) as X. apply in_map_iff in X as (k' & Ek & X). apply in_map_iff. exists k'. rewrite Ek. auto.
Qed.
Lemma render_ext {V E} vnone fn fnest dof (fm : list (text * sfield V E)) x x' args kw cs :
  (forall k dt qe, In (CFld k dt qe) cs -> resolve vnone dof fm kw x (base_name (tk_fname k)) = resolve vnone dof fm kw x' (base_name (tk_fname k))) ->
  render vnone fn fnest dof fm x args kw cs = render vnone fn fnest dof fm x' args kw cs.
Proof.
  induction cs as [|c cs IH]; intros H; [reflexivity|]. cbn [render]. rewrite IH by (intros; eapply H; right; eauto).
  destruct c as [t|k dt qe]; [reflexivity|]. unfold field_segment. rewrite (H k dt qe) by (left; reflexivity). reflexivity.
Qed.

Lemma dget_dset_text {A} name k (x : A) d : dget text_eqb name (dset text_eqb k x d) = if text_eqb name k then Some x else dget text_eqb name d.
Proof.
  induction d as [|[k' y] d IH]; [reflexivity|]. cbn [dset dget]. destruct (text_eqb k k') eqn:E1; cbn [dget].
  - apply text_eqb_iff in E1 as ->. destruct (text_eqb name k'); reflexivity.
  - rewrite IH. destruct (text_eqb name k') eqn:E2; [|reflexivity]. destruct (text_eqb name k) eqn:E3; [|reflexivity].
    apply text_eqb_iff in E2, E3. subst. rewrite (proj2 (text_eqb_iff _ _) eq_refl) in E1. discriminate.
Qed.
Lemma dget_fields {V E} name (fs : list (sfield V E)) : forall d f,
  dget text_eqb name (dupdate text_eqb d (map (fun f => (fd_name f, f)) fs)) = Some f -> In f fs /\ fd_name f = name \/ dget text_eqb name d = Some f.
Proof.
  unfold dupdate. induction fs as [|g fs IH]; intros d f H; [right; exact H|]. cbn [map fold_left fst snd] in H.
  apply IH in H as [[H1 H2]|H]; [left; split; [right|]; assumption|]. rewrite dget_dset_text in H.
  destruct (text_eqb name (fd_name g)) eqn:Eg; [|right; exact H]. injection H as ->. apply text_eqb_iff in Eg. left. split; [left; reflexivity|congruence].
Qed.
Lemma dget_builtin {V E} (g : string -> E -> gres V) name f : dget text_eqb name (field_map (builtin_fields g) []) = Some f ->
  exists n s q, In (n, s, q) BUILTIN_FIELDS /\ name = lit n /\ fd_getter f = g n.
Proof.
  unfold field_map. cbn [map]. intros H.
  assert (H' : dget text_eqb name (dupdate text_eqb [] (map (fun f => (fd_name f, f)) (builtin_fields g))) = Some f) by exact H.
  apply dget_fields in H' as [[H1 H2]|H']; [|discriminate]. unfold builtin_fields in H1. apply in_map_iff in H1 as ([[n s] q] & <- & H1).
  exists n, s, q. split; [exact H1|]. split; [symmetry; exact H2|reflexivity].
Qed.

Section F.
Variable env : fenv.
Variable fmt_named : ftoken -> fval -> option text.
Variable fmt_nested : ftoken -> list fval -> option text.
Notation getter := (getter env fmt_named fmt_nested).
Notation field_table := (field_table env fmt_named fmt_nested).

(** Names [P] do not see the difference. *)
Definition hits (P : text -> Prop) (ns : list string) : Prop := exists n, In n ns /\ P (lit n).
Record same_for (P : text -> Prop) (kd : Prop) (a a' : action) : Prop := {
  al_static : same_static a a';
  al_begin : hits P begin_fields -> a_begin a = a_begin a';
  al_end : hits P end_fields -> a_end a = a_end a';
  al_exc : hits P exc_fields -> a_excs a = a_excs a';
  al_data : hits P data_fields -> a_data a = a_data a';
  al_trans : hits P ["status_char"]%string -> kd -> a_trans a = a_trans a';
  al_keys : forall n, P n -> forall e d, dget text_eqb n (data_of (e, Some a, d)) = dget text_eqb n (data_of (e, Some a', d)) }.
(** The messages shown are those of these actions. *)
Record alike (t : text) (e : event) (a a' : action) : Prop := {
  ak_same : same_for (in_line t e a') (e_kind e = KEnd \/ In (lit "end_message") (names_in t)) a a';
  ak_begin : forall b, a_begin a' = Some b -> e_kind b = KBegin;
  ak_nested : forall x m, msg_shown t e a' x -> In m message_fields -> ~ In (lit m) (names_in (lit (e_msg x))) }.

Definition msg_at (fuel : nat) (e : event) (a : action) (d : nat) : gres fval :=
  match fuel with
  | O => GOther
  | S f =>
    match fst (event_message VNone fmt_named fmt_nested data_of (field_table f) (e, Some a, d) (lit (e_msg e)) [] []) with
    | Some t => gtext t | None => GOther end
  end.
Lemma getter_eq fuel n x : getter fuel n x = from_table (getters env (msg_at fuel)) n x.
Proof. destruct fuel; reflexivity. Qed.
Lemma getter_same fuel (P : text -> Prop) (kd : Prop) e a a' d n s q : same_for P kd a a' -> (e_kind e = KEnd -> kd) -> In (n, s, q) BUILTIN_FIELDS -> P (lit n) ->
  (In n ["event_message"; "event_message_raw"]%string -> msg_at fuel e a d = msg_at fuel e a' d) ->
  (In n ["begin_message"]%string -> forall b, a_begin a' = Some b -> msg_at fuel b a d = msg_at fuel b a' d) ->
  (In n ["end_message"]%string -> forall b, a_end a' = Some b -> msg_at fuel b a d = msg_at fuel b a' d) ->
  getter fuel n (e, Some a, d) = getter fuel n (e, Some a', d).
Proof.
  intros H Hkd Hin Hn HM HBM HEM.
  assert (HX : forall l, In n l -> hits P l) by (intros l X; exists n; split; assumption).
  pose proof (al_static _ _ _ _ H) as S. unfold same_static in S. destruct S as (S1 & S2 & S3 & S4 & S5 & S6).
  assert (HB : In n begin_fields -> a_begin a = a_begin a') by (intro X; apply (al_begin _ _ _ _ H), HX, X).
  assert (HE : In n end_fields -> a_end a = a_end a') by (intro X; apply (al_end _ _ _ _ H), HX, X).
  assert (HC : In n exc_fields -> a_excs a = a_excs a') by (intro X; apply (al_exc _ _ _ _ H), HX, X).
  assert (HD : In n data_fields -> a_data a = a_data a') by (intro X; apply (al_data _ _ _ _ H), HX, X).
  assert (HT : In n ["status_char"]%string -> e_kind e = KEnd -> a_trans a = a_trans a') by (intros X K; apply (al_trans _ _ _ _ H); [apply HX, X|apply Hkd, K]).
  rewrite !getter_eq. set (msg := msg_at fuel) in *. clearbody msg. clear H Hn HX.
  repeat (destruct Hin as [Hin|Hin]; [injection Hin as <- _ _; unfold from_table, getters; cbn [dget String.eqb Ascii.eqb Bool.eqb];
    unfold with_begin, with_end, with_exc, with_act, duration;
    rewrite ?S1, ?S2, ?S3, ?S4;
    try reflexivity;
    try (rewrite HB by (cbn; tauto)); try (rewrite HE by (cbn; tauto)); try (rewrite HC by (cbn; tauto)); try (rewrite HD by (cbn; tauto));
    try reflexivity;
    try (destruct (a_begin a') as [b|]; [apply HBM; [cbn; tauto|reflexivity]|reflexivity]);
    try (destruct (a_end a') as [b|]; [apply HEM; [cbn; tauto|reflexivity]|reflexivity]);
    try (apply HM; cbn; tauto);
    try (unfold status_char; destruct (e_kind e) eqn:K; try reflexivity; rewrite HT by (cbn; tauto); reflexivity)|]).
  destruct Hin.
Qed.
Lemma resolve_same fuel (P : text -> Prop) (kd : Prop) e a a' d n : same_for P kd a a' -> (e_kind e = KEnd -> kd) -> P n ->
  (forall m, n = lit m -> In m ["event_message"; "event_message_raw"]%string -> msg_at fuel e a d = msg_at fuel e a' d) ->
  (forall m, n = lit m -> In m ["begin_message"]%string -> forall b, a_begin a' = Some b -> msg_at fuel b a d = msg_at fuel b a' d) ->
  (forall m, n = lit m -> In m ["end_message"]%string -> forall b, a_end a' = Some b -> msg_at fuel b a d = msg_at fuel b a' d) ->
  resolve VNone data_of (field_table fuel) [] (e, Some a, d) n = resolve VNone data_of (field_table fuel) [] (e, Some a', d) n.
Proof.
  intros H Hkd Hn HM HBM HEM.
  unfold resolve. cbn [dget]. rewrite (al_keys _ _ _ _ H _ Hn). destruct (dget text_eqb _ (data_of _)); [reflexivity|].
  destruct (dget text_eqb _ (field_table fuel)) as [f|] eqn:Ef; [|reflexivity].
  destruct (dget_builtin _ _ _ Ef) as (m & s & q' & Hb & En & ->).
  rewrite (getter_same fuel P kd e a a' d m s q'); auto; [rewrite <- En; exact Hn|..]; intros X; eauto.
Qed.
Lemma msg_same fuel (P : text -> Prop) (kd : Prop) x a a' d : same_for P kd a a' -> (e_kind x = KEnd -> kd) ->
  (forall n, In n (names_in (lit (e_msg x))) -> P n) ->
  (forall m, In m message_fields -> ~ In (lit m) (names_in (lit (e_msg x)))) ->
  msg_at fuel x a d = msg_at fuel x a' d.
Proof.
  intros H Hkd HP HN. destruct fuel as [|f]; [reflexivity|]. unfold msg_at. unfold event_message.
  destruct (negb (existsb _ _)); [reflexivity|]. destruct (make_formatter (field_table f) no_quoter default_defaulter (lit (e_msg x))) as [cs|] eqn:Ec; [|reflexivity].
  rewrite (render_ext VNone fmt_named fmt_nested data_of (field_table f) (x, Some a, d) (x, Some a', d) [] [] cs); [reflexivity|].
  intros k dt qe Hin. pose proof (formatter_names _ _ _ _ _ Ec k dt qe Hin) as Hn.
  apply (resolve_same f P kd); auto; intros m Em Hm; exfalso; (apply (HN m); [cbn in *; tauto|rewrite <- Em; exact Hn]).
Qed.
Lemma render_alike fuel t e a a' d q cs : alike t e a a' -> make_formatter (field_table fuel) q default_defaulter t = Some cs ->
  render VNone fmt_named fmt_nested data_of (field_table fuel) (e, Some a, d) [] [] cs =
  render VNone fmt_named fmt_nested data_of (field_table fuel) (e, Some a', d) [] [] cs.
Proof.
  intros [H HB HN] Hc. apply render_ext. intros k dt qe Hin. pose proof (formatter_names _ _ _ _ _ Hc k dt qe Hin) as Hn.
  assert (Hm : forall x, msg_shown t e a' x -> (e_kind x = KEnd -> e_kind e = KEnd \/ In (lit "end_message") (names_in t)) -> msg_at fuel x a d = msg_at fuel x a' d).
  { intros x Hx Hk. apply (msg_same fuel _ _ x a a' d H Hk); [|intros m; apply HN, Hx]. intros n Hi. eapply il_message; eauto. }
  apply (resolve_same fuel _ _ e a a' d _ H); auto; [apply il_template; exact Hn|..].
  - intros m Em Hi. apply Hm; [|auto]. apply ms_event. destruct Hi as [<-|[<-|[]]]; [left|right]; rewrite <- Em; exact Hn.
  - intros m Em [<-|[]] b Eb. apply Hm; [apply ms_begin; [rewrite <- Em; exact Hn|exact Eb]|]. rewrite (HB b Eb). discriminate.
  - intros m Em [<-|[]] b Eb. apply Hm; [apply ms_end; [rewrite <- Em; exact Hn|exact Eb]|]. intros _. right. rewrite <- Em. exact Hn.
Qed.
Lemma filter_alike f flag k e a a' d : flag_filter f flag -> a_level a = a_level a' -> dget String.eqb flag (a_data a) = dget String.eqb flag (a_data a') ->
  f_on f k (filter_view env k (e, Some a, d)) = f_on f k (filter_view env k (e, Some a', d)).
Proof.
  intros (rg & fa & -> & Hc & Hf) Hl Hd. unfold filter_view. rewrite Hl.
  set (v := mkSev k _ _ (a_data a)). set (v' := mkSev k _ _ (a_data a')).
  assert (E : sf_verbose (make_filter rg fa) v = sf_verbose (make_filter rg fa) v').
  { unfold make_filter. cbn [sf_verbose]. rewrite Hc, <- Hf. unfold verbose_by_flag, v, v'. cbn [sv_data]. rewrite Hd. reflexivity. }
  destruct k; unfold f_on, f_on_begin, f_on_end, f_on_warn, f_on_comment; rewrite ?E; reflexivity.
Qed.
Lemma out_alike fuel on fs q tpl k e a a' d : alike (tpl k) e a a' ->
  (forall f, In f fs -> exists flag, flag_filter f flag /\ dget String.eqb flag (a_data a) = dget String.eqb flag (a_data a')) ->
  out (sensible_sink env fmt_named fmt_nested fuel on fs q tpl) k (e, Some a, d) = out (sensible_sink env fmt_named fmt_nested fuel on fs q tpl) k (e, Some a', d).
Proof.
  intros H Hf. unfold out, wb. cbn [sensible_sink ap_filters ap_render].
  assert (E : forallb (fun f : kind -> shown -> bool => f k (e, Some a, d)) (map (fun f k x => f_on f k (filter_view env k x)) fs) =
              forallb (fun f : kind -> shown -> bool => f k (e, Some a', d)) (map (fun f k x => f_on f k (filter_view env k x)) fs)).
  { pose proof (al_static _ _ _ _ (ak_same _ _ _ _ H)) as S. unfold same_static in S. destruct S as (_ & _ & S3 & _). clear H. induction fs as [|f fs IH]; [reflexivity|].
    cbn [map forallb]. rewrite IH by (intros; apply Hf; right; assumption). destruct (Hf f (or_introl eq_refl)) as (flag & F1 & F2).
    rewrite (filter_alike f flag k e a a' d F1); [reflexivity|congruence|exact F2]. }
  rewrite E. destruct (ss_has _ k && _); [|reflexivity]. f_equal.
  destruct (make_formatter (field_table fuel) q default_defaulter (tpl k)) as [cs|] eqn:Ec; [|reflexivity].
  rewrite (render_alike fuel (tpl k) e a a' d q cs H Ec). reflexivity.
Qed.
End F.

(** ** What changes about an action after an event was delivered *)
Lemma incr_app_lt lo a b hi i j : incr_from lo (a ++ b) hi -> In i a -> In j b -> i < j.
Proof.
  revert lo. induction a as [|x a IH]; intros lo H Hi Hj; [destruct Hi|]. cbn [app] in H. inversion H; subst. destruct Hi as [->|Hi]; [|eapply IH; eauto].
  assert (Z : forall lo l hi, incr_from lo l hi -> In j l -> lo <= j).
  { clear. induction 1 as [|lo i l hi Hle Hinc IH]; intros Hin; [destruct Hin|]. destruct Hin as [->|Hin]; [assumption|]. specialize (IH Hin). lia. }
  pose proof (Z _ _ _ H5 (proj2 (in_app_iff _ _ _) (or_intror Hj))). lia.
Qed.
Lemma in_events r k h x : In x (events_of r k h) -> In (HEvent x) h /\ e_act x = r /\ e_kind x = k.
Proof.
  unfold events_of. intros H. apply in_flat_map in H as (y & H1 & H2). destruct y as [| |]; try contradiction.
  destruct (Nat.eqb (e_act e) r && kind_eqb (e_kind e) k) eqn:E; [|contradiction]. destruct H2 as [<-|[]]. apply andb_true_iff in E as [E1 E2].
  apply Nat.eqb_eq in E1. split; [exact H1|]. split; [exact E1|]. destruct (e_kind e), k; try discriminate; reflexivity.
Qed.
Lemma events_in r k h x : In (HEvent x) h -> e_act x = r -> e_kind x = k -> In x (events_of r k h).
Proof.
  intros H <- <-. unfold events_of. apply in_flat_map. exists (HEvent x). split; [exact H|]. rewrite Nat.eqb_refl.
  assert (E : kind_eqb (e_kind x) (e_kind x) = true) by (destruct (e_kind x); reflexivity). rewrite E. left. reflexivity.
Qed.
Lemma last_of_in {A} (l : list A) x : last_of l = Some x -> In x l.
Proof.
  induction l as [|y l IH]; [discriminate|]. destruct l as [|z l]; [intros [= ->]; left; reflexivity|]. intro H. right. apply IH. exact H.
Qed.
Lemma last_of_none {A} (l : list A) : last_of l = None -> l = [].
Proof. induction l as [|y l IH]; [reflexivity|]. destruct l; [discriminate|]. intro H. specialize (IH H). discriminate. Qed.
Lemma last_of_app {A} (a b : list A) : b <> [] -> last_of (a ++ b) = last_of b.
Proof.
  intros H. induction a as [|x a IH]; [reflexivity|]. cbn [app]. rewrite <- IH. destruct (a ++ b) eqn:E; [|reflexivity].
  apply app_eq_nil in E as [_ E]. contradiction.
Qed.

Section W.
Variable cfg : config.
Hypothesis HQ : exc_quiet cfg.

Lemma run_hist os w : winv cfg w -> exists h, w_hist (run_ops cfg os w) = w_hist w ++ h.
Proof.
  revert w. induction os as [|o os IH]; intros w HW; cbn [run_ops]; [exists []; rewrite app_nil_r; reflexivity|].
  destruct (chain_hist cfg _ _ _ (step_chain cfg o w (wi_b _ _ HW))) as [h1 E1].
  destruct (IH _ (proj2 (proj2 (step_grows cfg o w HW)))) as [h2 E2]. exists (h1 ++ h2). rewrite E2, E1, app_assoc. reflexivity.
Qed.
Lemma run_alike t os w w0 l s k e (wI : world) (osI : list op) : reach cfg w ->
  In (k, e) (received l s (w_trace w)) -> k <> KExc ->
  (forall o, In o os -> later cfg wI osI e o) ->
  forall aF, nth_error (w_acts (run_ops cfg os w)) (e_act e) = Some aF -> line_ok cfg wI osI t e aF ->
  exists a d, seen w0 w e = (e, Some a, d) /\ show (run_ops cfg os w) e = (e, Some aF, d) /\ alike t e a aF /\
    (forall flag, (forall o v, In o os -> ~ In (flag, v) (writes (e_act e) o)) -> dget String.eqb flag (a_data a) = dget String.eqb flag (a_data aF)).
Proof.
  intros HR Hin Hk HLat aF HaF HL. pose proof (reach_winv cfg w HR) as HW.
  set (r := e_act e) in *. set (wF := run_ops cfg os w) in *.
  assert (HRF : reach cfg wF) by (apply reach_run_ops; exact HR). pose proof (reach_winv cfg wF HRF) as HWF.
  assert (Ho : okev w l k e).
  { apply (wi_occ _ _ HW). right. exists s. unfold received in Hin. apply in_flat_map in Hin as (o & H1 & H2). destruct o; try contradiction.
    destruct (Nat.eqb _ l && Nat.eqb _ s) eqn:E; [|contradiction]. destruct H2 as [[= <- <-]|[]]. apply andb_true_iff in E as [E1 E2].
    apply Nat.eqb_eq in E1, E2. subst. exact H1. }
  destruct Ho as (Hek & Heh & a2 & Ha2 & _). fold r in Ha2.
  destruct (run_grows cfg os w HW) as (_ & HK & _). fold wF in HK.
  destruct (show_keep w wF e HK (wi_act _ _ HW) (nth_error_lt _ _ _ Ha2)) as (b2 & bF & d & E2 & EF & SS).
  assert (b2 = a2) by (unfold show in E2; fold r in E2; rewrite Ha2 in E2; congruence). subst b2.
  assert (bF = aF) by (unfold show in EF; fold r in EF; rewrite HaF in EF; congruence). subst bF.
  destruct (run_hist os w HW) as [h Eh]. fold wF in Eh.
  destruct (record_of cfg w r a2 HR Ha2) as (_ & X2 & B2 & N2). destruct (record_of cfg wF r aF HRF HaF) as (_ & XF & BF & NF).
  assert (Hnew : forall x, In (HEvent x) h -> e_id e < e_id x).
  { intros x Hx. pose proof (proj1 (wi_id _ _ HWF)) as Hi. unfold ids in Hi. rewrite Eh, flat_map_app in Hi.
    eapply incr_app_lt; [exact Hi| |]; apply in_flat_map; [exists (HEvent e)|exists (HEvent x)]; (split; [assumption|left; reflexivity]). }
  assert (Hb : not_after (a_begin aF) e -> a_begin a2 = a_begin aF).
  { intros H. rewrite Eh, events_app, B2 in BF. destruct (a_begin aF) as [x|].
    - destruct (a_begin a2) as [y|]; [injection BF as -> _; reflexivity|]. exfalso.
      assert (Hx : In x (events_of r KBegin h)) by (cbn [app] in BF; rewrite BF; left; reflexivity).
      apply in_events in Hx as (Hx & _). specialize (Hnew x Hx). specialize (H x eq_refl). lia.
    - destruct (a_begin a2); [discriminate|reflexivity]. }
  assert (He : not_after (a_end aF) e -> a_end a2 = a_end aF).
  { intros H. rewrite Eh, events_app in NF. destruct (events_of r KEnd h) as [|x xs] eqn:Ex; [rewrite app_nil_r in NF; congruence|].
    exfalso. rewrite last_of_app in NF by discriminate. destruct (last_of (x :: xs)) as [y|] eqn:El; [|apply last_of_none in El; discriminate].
    apply last_of_in in El. rewrite <- Ex in El. apply in_events in El as (Hx & _). specialize (Hnew y Hx). specialize (H y NF). lia. }
  assert (Hx : (forall x, In x (a_excs aF) -> e_id x <= e_id e) -> a_excs a2 = a_excs aF).
  { intros H. rewrite Eh, events_app, <- X2 in XF. rewrite XF in *. destruct (events_of r KExc h) as [|x xs] eqn:Ex; [rewrite app_nil_r; reflexivity|].
    exfalso. assert (Hx : In x (events_of r KExc h)) by (rewrite Ex; left; reflexivity). apply in_events in Hx as (Hx & _). specialize (Hnew x Hx).
    assert (H' : In x (a_excs a2 ++ x :: xs)) by (apply in_or_app; right; left; reflexivity). specialize (H x H'). lia. }
  destruct (dt_run cfg r os w a2 HQ Ha2) as (aD & HaD & ED). fold wF in HaD. assert (aD = aF) by congruence. subst aD.
  destruct (seen_static w0 w e) as (a & d' & Es & Hs). fold r in Hs. rewrite Ha2 in Hs. destruct a as [a|]; [|contradiction].
  destruct Hs as (Ed & Ss & Sb & Sx & Sd & St & Send).
  assert (Edd : d' = d) by (unfold show in E2; fold r in E2; congruence). rewrite Edd in Es. clear Ed Edd.
  exists a, d. split; [exact Es|]. split; [exact EF|].
  assert (Hend : not_after (a_end aF) e -> a_end a = a_end aF).
  { intro H. destruct Send as [->|(E0 & x & E1 & E3)]; [apply He, H|]. exfalso. rewrite <- (He H), E1 in H. specialize (H x eq_refl). lia. }
  split.
  - constructor; [constructor|..].
    + apply (same_static_trans _ a2); [apply same_static_sym; exact Ss|exact SS].
    + intro H. rewrite Sb. apply Hb, (lo_begin _ _ _ _ _ _ HL), H.
    + intro H. apply Hend, (lo_end _ _ _ _ _ _ HL), H.
    + intro H. rewrite Sx. apply Hx, (lo_exc _ _ _ _ _ _ HL), H.
    + intro H. rewrite Sd, ED. assert (E0 : flat_map (writes r) os = []).
      { assert (Z : forall o, In o os -> writes r o = []) by (intros o Ho; apply (lo_data _ _ _ _ _ _ HL H), HLat, Ho).
        clear -Z. induction os as [|o os IH]; [reflexivity|]. cbn [flat_map]. rewrite (Z o (or_introl eq_refl)), IH; [reflexivity|]. intros; apply Z; right; assumption. }
      rewrite E0. reflexivity.
    + intros H K. rewrite St. destruct (tr_run cfg r os w) with (a := a2) as (aT & HaT & ET); [|exact Ha2|fold wF in HaT; congruence].
      intros Hi. apply (lo_char _ _ _ _ _ _ HL H K). apply HLat, Hi.
    + intros n Hn e0 d0. unfold data_of. cbn [fst snd]. rewrite Sd, ED. symmetry. apply (dget_dupdate_lit VInt). intros k0 x Hw E.
      apply in_flat_map in Hw as (o & Ho & Hw). apply (lo_keys _ _ _ _ _ _ HL o k0 x (HLat o Ho) Hw). rewrite E. exact Hn.
    + intros b Eb. assert (Hbi : In b (events_of r KBegin (w_hist wF))) by (rewrite BF, Eb; left; reflexivity). apply in_events in Hbi. tauto.
    + exact (lo_nested _ _ _ _ _ _ HL).
  - intros flag Hf. rewrite Sd, ED. symmetry. apply dget_dupdate_str. intros k0 x Hw ->.
    apply in_flat_map in Hw as (o & Ho & Hw). apply (Hf o x Ho Hw).
Qed.
End W.

Section L.
Variable cfg : config.
Hypothesis HQ : exc_quiet cfg.
Variable env : fenv.
Variable fmt_named : ftoken -> fval -> option text.
Variable fmt_nested : ftoken -> list fval -> option text.
Variable fuel : nat.
Variable on : list string.
Variable fs : list sfilter.
Variable q : quoter_fn.
Variable tpl : kind -> text.
Notation ap := (sensible_sink env fmt_named fmt_nested fuel on fs q tpl).

Lemma logged_fields os w0 l s : reach cfg w0 ->
  (forall k e a, In (k, e) (received l s (w_trace (run_ops cfg os w0))) -> subscribed ap k ->
     nth_error (w_acts (run_ops cfg os w0)) (e_act e) = Some a -> line_ok cfg w0 os (tpl k) e a) ->
  (forall f, In f fs -> exists flag, flag_filter f flag /\
     forall k e o v, In (k, e) (received l s (w_trace (run_ops cfg os w0))) -> subscribed ap k -> later cfg w0 os e o -> ~ In (flag, v) (writes (e_act e) o)) ->
  snd (run_logged cfg ap l s os w0) = txt ap (show (run_ops cfg os w0)) (received l s (skipn (length (w_trace w0)) (w_trace (run_ops cfg os w0)))).
Proof.
  intros HR HL HF. apply logged_view; [apply reach_winv; exact HR|]. intros os1 o os2 k e Eo Hin.
  destruct (ss_has (sink_of ap) k) eqn:Hsub; [|unfold out, wb; rewrite Hsub; reflexivity].
  apply has_sub in Hsub. assert (Hk : k <> KExc) by (intros ->; exact Hsub).
  pose proof (reach_run_ops cfg os1 w0 HR) as HR1. set (w1 := run_ops cfg os1 w0) in *.
  assert (HR2 : reach cfg (fst (step cfg o w1))) by (constructor; exact HR1).
  destruct (step_grows cfg o w1 (reach_winv cfg w1 HR1)) as (G & _ & _). apply (received_in l s w1 _ k e G) in Hin.
  set (w2 := fst (step cfg o w1)) in *.
  assert (EF : run_ops cfg os w0 = run_ops cfg os2 w2) by (rewrite Eo, run_ops_app; reflexivity).
  destruct (run_grows cfg os2 w2 (reach_winv cfg w2 HR2)) as ([nt Et] & K & _).
  pose proof (received_ok cfg l s w2 k e (reach_winv cfg w2 HR2) Hin) as Hlt.
  destruct (nth_error (w_acts w2) (e_act e)) as [a2|] eqn:Ea2; [|apply nth_error_None in Ea2; lia].
  destruct (K _ _ Ea2) as (aF & HaF & _).
  assert (HiF : In (k, e) (received l s (w_trace (run_ops cfg os w0)))) by (rewrite EF, Et, received_app; apply in_app_iff; left; exact Hin).
  assert (HLk : line_ok cfg w0 os (tpl k) e aF) by (apply HL; [exact HiF|exact Hsub|rewrite EF; exact HaF]).
  assert (Hlat : forall o0, In o0 os2 -> later cfg w0 os e o0).
  { intros o0 Ho. exists (os1 ++ [o]), os2. split; [rewrite Eo, <- app_assoc; reflexivity|]. split; [|exact Ho]. rewrite run_ops_app. cbn [run_ops]. fold w1 w2.
    unfold received in Hin. apply in_flat_map in Hin as (ob & X1 & X2). destruct ob; try contradiction. destruct (Nat.eqb _ l && Nat.eqb _ s); [|contradiction].
    destruct X2 as [[= <- <-]|[]]. assert (Hoc : occurs w2 l0 k0 e0) by (right; eauto). apply (wi_occ _ _ (reach_winv cfg w2 HR2)) in Hoc. apply Hoc. }
  destruct (run_alike cfg HQ (tpl k) os2 w2 w1 l s k e w0 os HR2 Hin Hk Hlat aF HaF HLk) as (a & d & -> & E2 & HA & HD).
  rewrite EF, E2. apply out_alike; [exact HA|]. intros f Hf. destruct (HF f Hf) as (flag & F1 & F2). exists flag. split; [exact F1|].
  apply HD. intros o0 v Ho. apply (F2 k e o0 v HiF Hsub (Hlat o0 Ho)).
Qed.
Lemma logged_app a l s w b : snd (run_logged cfg ap l s (a ++ b) w) = snd (run_logged cfg ap l s a w) ++ snd (run_logged cfg ap l s b (run_ops cfg a w)).
Proof.
  revert w. induction a as [|o a IH]; intros w; [reflexivity|]. cbn [app run_logged run_ops]. specialize (IH (fst (step cfg o w))).
  destruct (run_logged cfg ap l s (a ++ b) _) as [x y]. destruct (run_logged cfg ap l s a _) as [x' y']. cbn [snd] in *. rewrite IH, app_assoc. reflexivity.
Qed.
Lemma logged_setup l s os : (forall o, In o os -> is_setup o) -> forall w, snd (run_logged cfg ap l s os w) = [].
Proof.
  induction os as [|o os IH]; intros H w; [reflexivity|]. cbn [run_logged]. specialize (IH (fun x Hx => H x (or_intror Hx)) (fst (step cfg o w))).
  destruct (run_logged cfg ap l s os _) as [x y]. cbn [snd] in *. rewrite IH, app_nil_r, entries_txt.
  assert (E : w_trace (fst (step cfg o w)) = w_trace w) by (apply (setup_trace cfg [o]); intros z [<-|[]]; apply H; left; reflexivity).
  rewrite E, skipn_all. reflexivity.
Qed.
End L.

(** ** Letters *)
Definition stat_inv (w : world) : Prop := forall e, In (HEvent e) (w_hist w) -> e_kind e = KEnd -> e_status e <> None.
Lemma T_stat cfg lb w w' : T cfg lb w w' -> stat_inv w -> stat_inv w'.
Proof.
  intros HT HI e.
  assert (Z : forall h, w_hist w' = w_hist w ++ h -> (forall x, In (HEvent x) h -> e_kind x = KEnd -> e_status x <> None) ->
    In (HEvent e) (w_hist w') -> e_kind e = KEnd -> e_status e <> None).
  { intros h -> H Hi. apply in_app_iff in Hi as [Hi|Hi]; [apply HI, Hi|apply H, Hi]. }
  inversion HT; subst; clear HT.
  all: first [ apply (Z []); [pubrw; cbn; rewrite ?app_nil_r; reflexivity|intros ? []] | idtac ].
  all: eapply Z; [pubrw; cbn; rewrite <- ?app_assoc; reflexivity|].
  all: intros y Hx Hk; cbn in Hx; repeat (destruct Hx as [Hx|Hx]; [injection Hx as <-; cbn in *; congruence|] || (destruct Hx as [Hx|Hx]; [discriminate|])); destruct Hx.
Qed.
Lemma reach_stat cfg w : reach cfg w -> stat_inv w.
Proof.
  induction 1.
  - intros e [].
  - eapply (chain_inv cfg stat_inv Pany); [intros lb w1 w2 _; apply T_stat | apply step_chain, (reach_winv cfg); auto | auto].
  - eapply (chain_inv cfg stat_inv Pany); [intros lb w1 w2 _; apply T_stat | apply eval_chain, (reach_winv cfg); auto | auto].
  - eapply (T_stat cfg); [|exact IHreach]. eapply T_env; auto.
Qed.

(** Entering an action makes it a transaction, and it stays one. *)
Lemma enter_trans cfg r w a : nth_error (w_acts w) r = Some a ->
  exists a', nth_error (w_acts (fst (enter cfg r w))) r = Some a' /\ a_trans a' = true.
Proof.
  intros Ha. unfold enter. unfold bind at 1. unfold mod_act. rewrite Ha.
  set (w1 := set_acts _ w). set (a1 := a_set_defer true (a_set_trans true a)).
  assert (Ha1 : nth_error (w_acts w1) r = Some a1) by (unfold w1; cbn; rewrite nth_error_list_set, Nat.eqb_refl, Ha; reflexivity).
  assert (HP : pres bool a_trans r (a0 <- get_act r ;; set_active_parent (a_log a0) (Some r) ;;; begin cfg r None [])).
  { apply pres_bind; [apply pres_get_act|]. intros x. apply pres_bind; [apply pres_set_active_parent|]. intros []. apply tr_begin. }
  destruct (HP w1 a1 Ha1) as (a' & H1 & H2). exists a'. split; [exact H1|]. rewrite H2. reflexivity.
Qed.
Lemma step_trans cfg r o w a : nth_error (w_acts w) r = Some a -> a_trans a = true ->
  exists a', nth_error (w_acts (fst (step cfg o w))) r = Some a' /\ a_trans a' = true.
Proof.
  intros Ha Ht. assert (D : o = OpEnter r \/ o <> OpEnter r).
  { destruct o; try (right; discriminate). destruct (Nat.eq_dec r0 r) as [->|]; [left; reflexivity|right; congruence]. }
  destruct D as [->|D]; [|destruct (tr_step cfg r o D w a Ha) as (a' & H1 & H2); exists a'; split; [exact H1|congruence]].
  apply (enter_trans cfg r w a Ha).
Qed.
Lemma run_trans cfg r os : forall w a, nth_error (w_acts w) r = Some a -> a_trans a = true ->
  exists a', nth_error (w_acts (run_ops cfg os w)) r = Some a' /\ a_trans a' = true.
Proof.
  induction os as [|o os IH]; intros w a Ha Ht; [exists a; auto|]. cbn [run_ops].
  destruct (step_trans cfg r o w a Ha Ht) as (a1 & H1 & H2). eapply IH; eauto.
Qed.
Definition not_trans (r : nat) (w : world) : Prop := forall a, nth_error (w_acts w) r = Some a -> a_trans a = false.
Lemma T_not_trans cfg r lb w w' : T cfg lb w w' -> lb <> LFlag r -> not_trans r w -> not_trans r w'.
Proof.
  intros HT Hl HN a' Ha'. destruct (nth_error (w_acts w) r) as [a|] eqn:Ea.
  - destruct (T_frame cfg r _ _ _ HT Hl a Ea) as (b & Hb & _ & Ht & _). rewrite Hb in Ha'. injection Ha' as <-. rewrite Ht. apply HN, Ea.
  - destruct (T_acts cfg _ _ _ HT) as [E|[(r0 & a0 & a1 & E1 & E2 & _)|(a1 & E1 & E2 & E3)]].
    + congruence.
    + apply nth_error_lt in Ha'. apply nth_error_None in Ea. rewrite E2, list_set_length in Ha'. lia.
    + rewrite E1 in Ha'. apply nth_error_None in Ea. rewrite nth_error_app2 in Ha' by lia.
      destruct (r - length (w_acts w)) as [|n]; [|destruct n; discriminate]. injection Ha' as <-. exact (proj1 E3).
Qed.
Lemma chain_not_trans cfg r (P : lbl -> Prop) w w' : (forall lb, P lb -> lb <> LFlag r) -> chain cfg P w w' -> not_trans r w -> not_trans r w'.
Proof. intros HP. apply (chain_inv cfg (not_trans r)). intros lb w1 w2 Hlb HT. eapply T_not_trans; [exact HT|apply HP, Hlb]. Qed.
Lemma step_not_trans cfg r o w : binv cfg w -> o <> OpEnter r \/ length (w_acts w) <= r -> not_trans r w -> not_trans r (fst (step cfg o w)).
Proof.
  intros HB HO HN.
  assert (PO : forall lb, Pother lb -> lb <> LFlag r) by (intros lb ->; discriminate).
  assert (PE : forall q lb, Pend q lb -> lb <> LFlag r) by (intros q lb [->| ->]; discriminate).
  assert (PL : forall q, q <> r -> forall lb, Pall q lb -> lb <> LFlag r) by (intros q Hq lb [->|[->| ->]]; congruence).
  destruct o; cbn [step].
  - destruct parent as [q|].
    + unfold bind, get_act. destruct (nth_error (w_acts w) q) as [a|] eqn:Hq; [|exact HN]. rewrite fst_discard.
      eapply (chain_not_trans cfg); [exact PO| |exact HN]. apply new_action_chain. eapply nth_error_lt; eauto.
    + rewrite fst_discard. eapply (chain_not_trans cfg); [exact PO| |exact HN]. apply new_action_chain. exact I.
  - eapply (chain_not_trans cfg); [exact PO|apply begin_chain|exact HN].
  - eapply (chain_not_trans cfg); [exact PO|apply warn_chain|exact HN].
  - eapply (chain_not_trans cfg); [apply PE|apply success_chain, HB|exact HN].
  - eapply (chain_not_trans cfg); [apply PE|apply failure_chain, HB|exact HN].
  - eapply (chain_not_trans cfg); [apply PE|apply exception_chain, HB|exact HN].
  - destruct (Nat.eq_dec r0 r) as [->|Hq].
    + destruct HO as [HO|HO]; [congruence|]. apply nth_error_None in HO. unfold enter, bind at 1, mod_act. rewrite HO. exact HN.
    + eapply (chain_not_trans cfg); [apply (PL _ Hq)|apply enter_chain|exact HN].
  - rewrite fst_discard. destruct (Nat.eq_dec r0 r) as [->|Hq].
    + intros a' Ha'. destruct (nth_error (w_acts w) r) as [a|] eqn:Ea.
      * destruct (tr_exit cfg r r x w a Ea) as (b & Hb & Ht). rewrite Hb in Ha'. injection Ha' as <-. rewrite Ht. apply HN, Ea.
      * unfold exit_, bind at 1, mod_act in Ha'. rewrite Ea in Ha'. cbn in Ha'. congruence.
    + eapply (chain_not_trans cfg); [apply (PL _ Hq)|apply exit_chain, HB|exact HN].
  - eapply (chain_not_trans cfg); [exact PO|apply setitem_chain|exact HN].
  - rewrite fst_discard. eapply (chain_not_trans cfg); [exact PO|apply elapsed_chain|exact HN].
  - destruct parent as [q|].
    + unfold bind, get_act. destruct (nth_error (w_acts w) q) as [a|] eqn:Hq; [|exact HN].
      eapply (chain_not_trans cfg); [exact PO| |exact HN]. apply comment_chain. eapply nth_error_lt; eauto.
    + eapply (chain_not_trans cfg); [exact PO| |exact HN]. apply comment_chain. exact I.
  - eapply (chain_not_trans cfg); [exact PO|apply flush_chain|exact HN].
  - exact HN.
  - exact HN.
  - exact HN.
  - exact HN.
Qed.
Lemma run_not_trans cfg r os : forall w, reach cfg w -> not_trans r w ->
  (forall os1 os2, os = os1 ++ OpEnter r :: os2 -> length (w_acts (run_ops cfg os1 w)) <= r) -> not_trans r (run_ops cfg os w).
Proof.
  induction os as [|o os IH]; intros w HR HN H; [exact HN|]. cbn [run_ops]. apply IH.
  - apply reach_call, HR.
  - apply step_not_trans; [apply (wi_b _ _ (reach_winv cfg w HR))| |exact HN].
    assert (D : o = OpEnter r \/ o <> OpEnter r).
    { destruct o; try (right; discriminate). destruct (Nat.eq_dec r0 r) as [->|]; [left; reflexivity|right; congruence]. }
    destruct D as [->|D]; [right; apply (H [] os eq_refl)|left; exact D].
  - intros os1 os2 ->. apply (H (o :: os1) os2 eq_refl).
Qed.
