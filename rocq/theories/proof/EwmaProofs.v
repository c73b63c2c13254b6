From Coq Require Import Lra.
From Verif Require Import model.PyBase model.Ewma spec.EwmaSpec.
Open Scope R_scope.

Lemma total_app a b : total (a ++ b) = total a + total b.
Proof. induction a as [|x a IH]; unfold total in *; simpl; [lra | rewrite IH; lra]. Qed.
Lemma total_one x : total [x] = x.
Proof. unfold total; simpl; lra. Qed.
Lemma ma_snoc p segs g : moving_average p (segs ++ [g]) =
  match moving_average p segs with
  | None => Some (seg_rate g)
  | Some r => Some (exp (- snd g / p) * r + (1 - exp (- snd g / p)) * seg_rate g)
  end.
Proof. unfold moving_average. rewrite fold_left_app. reflexivity. Qed.
Lemma ma_some p segs : segs <> [] -> exists r, moving_average p segs = Some r.
Proof.
  induction segs as [|g segs IH] using rev_ind; [congruence|]. intros _. rewrite ma_snoc. destruct (moving_average p segs); eauto.
Qed.
Lemma decay_bounds p d : 0 < p -> 0 < d -> 0 < exp (- d / p) < 1.
Proof.
  intros Hp Hd. split; [apply exp_pos|]. rewrite <- exp_0. apply exp_increasing.
  unfold Rdiv. rewrite Ropp_mult_distr_l_reverse. assert (0 < d * / p) by (apply Rmult_lt_0_compat; auto; apply Rinv_0_lt_compat; auto). lra.
Qed.
(** The average lies between any bounds of the interval rates. *)
Lemma ma_bounds p segs r lo hi : 0 < p -> (forall g, In g segs -> 0 < snd g /\ lo <= seg_rate g <= hi) ->
  moving_average p segs = Some r -> lo <= r <= hi.
Proof.
  intros Hp. revert r. induction segs as [|g segs IH] using rev_ind; intros r H E; [discriminate|].
  rewrite ma_snoc in E. destruct (H g) as [Hd Hg]; [apply in_or_app; right; left; auto|].
  destruct (moving_average p segs) as [r'|]; [|inversion E; subst; auto].
  inversion E; subst. destruct (decay_bounds p (snd g) Hp Hd) as [B1 B2].
  destruct (IH r' (fun g' Hg' => H g' (in_or_app _ _ _ (or_introl Hg'))) eq_refl) as [I1 I2].
  set (b := exp (- snd g / p)) in *. split; nra.
Qed.

Definition ew_inv (start : R) (periods : list R) (interval : R) (ops : list eop) (s : ewma) (segs : list segment) (pending : list R) : Prop :=
  ew_interval s = interval /\ map fst (ew_rates s) = periods /\
  concat (map fst segs) ++ pending = added_values ops /\ ew_uncounted s = total pending /\
  start + total (map snd segs) = ew_last s /\ (forall g, In g segs -> 0 < snd g) /\
  (forall p r, In (p, r) (ew_rates s) -> r = moving_average p segs) /\
  (segs = [] -> ew_force s = true /\ has_read ops = false) /\ (has_read ops = true -> segs <> []).

Lemma ew_steps_ok u d l : d <> 0 -> (forall p r, In (p, r) l -> 0 < p) ->
  exists l', ew_steps u d l = Some l' /\ map fst l' = map fst l /\
    forall p r', In (p, r') l' -> exists r, In (p, r) l /\
      r' = match r with None => Some (u / d) | Some r => Some (exp (- d / p) * r + (1 - exp (- d / p)) * (u / d)) end.
Proof.
  intros Hd. induction l as [|[p r] l IH]; intros Hp; [exists []; split; auto; split; auto; intros ? ? []|].
  destruct IH as (l' & E & M & F); [intros; eapply Hp; right; eauto|].
  assert (H0 : 0 < p) by (eapply Hp; left; eauto).
  cbn [ew_steps ew_step]. destruct (Req_EM_T d 0); [contradiction|]. rewrite E.
  assert (Hstep : exists r', (match r with None => Some (p, Some (u / d)) | Some r => if Req_EM_T p 0 then None else Some (p, Some (r + (1 - exp (- d / p)) * (u / d - r))) end) = Some (p, r') /\
     r' = match r with None => Some (u / d) | Some r => Some (exp (- d / p) * r + (1 - exp (- d / p)) * (u / d)) end).
  { destruct r as [r|]; [|eauto]. destruct (Req_EM_T p 0); [lra|]. eexists. split; [reflexivity|]. f_equal. ring. }
  destruct Hstep as (r' & Er & Hr). cbv zeta. rewrite Er. exists ((p, r') :: l'). split; auto. split; [cbn [map fst]; congruence|].
  intros p0 r0 [H|H]; [inversion H; subst p0 r0; exists r; split; [left; auto | exact Hr]|].
  destruct (F p0 r0 H) as (r1 & Hin & Hr1). exists r1. split; [right; auto | auto].
Qed.
Lemma ew_run_app s ops1 ops2 : ew_run s (ops1 ++ ops2) = match ew_run s ops1 with Some s' => ew_run s' ops2 | None => None end.
Proof.
  revert s. induction ops1 as [|[v|t1 t2] ops1 IH]; intros s; auto; cbn [app ew_run]; auto. destruct (ew_read t1 t2 s); auto.
Qed.
Lemma added_values_app a b : added_values (a ++ b) = added_values a ++ added_values b.
Proof. induction a as [|[v|t1 t2] a IH]; auto. cbn [app added_values]. f_equal. auto. Qed.
Lemma has_read_app a b : has_read (a ++ b) = has_read a || has_read b.
Proof. induction a as [|[v|t1 t2] a IH]; auto. Qed.
(** The last clock reading. *)
Fixpoint latest (last : R) (ops : list eop) : R :=
  match ops with [] => last | EAdd _ :: ops' => latest last ops' | ERead _ t2 :: ops' => latest t2 ops' end.
Lemma advancing_app l a b : advancing l (a ++ b) <-> advancing l a /\ advancing (latest l a) b.
Proof. revert l. induction a as [|[v|t1 t2] a IH]; intros l; cbn [app advancing latest]; [tauto | apply IH|]. rewrite IH. tauto. Qed.
Lemma latest_app l a b : latest l (a ++ b) = latest (latest l a) b.
Proof. revert l. induction a as [|[v|t1 t2] a IH]; intros l; cbn [app latest]; auto. Qed.

Lemma period_map_fst seen ps : forall p r, In (p, r) (period_map seen ps) -> In p ps /\ r = None.
Proof.
  revert seen. induction ps as [|q ps IH]; intros seen p r H; [destruct H|]. simpl in H.
  destruct (in_dec Req_EM_T q seen); [destruct (IH _ _ _ H); split; [right|]; auto|].
  destruct H as [H|H]; [inversion H; subst; split; [left|]; auto|]. destruct (IH _ _ _ H); split; [right|]; auto.
Qed.
Lemma period_map_all seen ps p : In p ps -> In p seen \/ In p (map fst (period_map seen ps)).
Proof.
  revert seen. induction ps as [|q ps IH]; intros seen H; [destruct H|]. simpl. destruct (in_dec Req_EM_T q seen).
  - destruct H as [<-|H]; auto.
  - destruct H as [<-|H]; [right; left; auto|]. destruct (IH (q :: seen) H) as [[<-|?]|?]; [right; left; auto | auto | right; right; auto].
Qed.
Lemma period_map_nodup seen ps : NoDup (map fst (period_map seen ps)) /\ forall p, In p (map fst (period_map seen ps)) -> ~ In p seen.
Proof.
  revert seen. induction ps as [|q ps IH]; intros seen; [split; [constructor | intros ? []]|]. simpl.
  destruct (in_dec Req_EM_T q seen); auto. destruct (IH (q :: seen)) as [N D]. cbn [map fst]. split.
  - constructor; auto. intros H. apply (D q H). left; auto.
  - intros p [<-|H]; auto. intros Hs. apply (D p H). right; auto.
Qed.

Definition rare (interval : R) (force : bool) (segs : list segment) : Prop :=
  (force = true -> forall g, In g segs -> interval <= snd g) /\
  (forall a g b, segs = a ++ g :: b -> snd g < interval -> forall h, In h (a ++ b) -> interval <= snd h).
Lemma app_snoc_case {A} (l : list A) x a g b : l ++ [x] = a ++ g :: b -> (b = [] /\ a = l /\ g = x) \/ (exists b', b = b' ++ [x] /\ l = a ++ g :: b').
Proof.
  intros H. destruct b as [|y b] using rev_ind.
  - left. apply app_inj_tail in H as [H1 H2]. auto.
  - right. exists b. split; [|]; change (a ++ g :: b ++ [y]) with (a ++ (g :: b) ++ [y]) in H; rewrite app_assoc in H; apply app_inj_tail in H as [H1 H2]; subst; auto.
Qed.
Lemma rare_due interval force segs g : rare interval force segs -> interval <= snd g -> rare interval force (segs ++ [g]).
Proof.
  intros [R1 R2] H. split.
  - intros F h Hh. apply in_app_iff in Hh as [Hh|[<-|[]]]; auto.
  - intros a x b E L h Hh. apply app_snoc_case in E as [(-> & -> & ->)|(b' & -> & ->)]; [lra|].
    apply in_app_iff in Hh as [Hh|Hh]; [eapply R2; [reflexivity|exact L|apply in_app_iff; auto]|].
    apply in_app_iff in Hh as [Hh|[<-|[]]]; [eapply R2; [reflexivity|exact L|apply in_app_iff; auto]|exact H].
Qed.
Lemma rare_forced interval segs g : rare interval true segs -> rare interval false (segs ++ [g]).
Proof.
  intros [R1 R2]. split; [discriminate|]. intros a x b E L h Hh. apply app_snoc_case in E as [(-> & -> & ->)|(b' & -> & ->)].
  - rewrite app_nil_r in Hh. auto.
  - exfalso. specialize (R1 eq_refl x ltac:(apply in_app_iff; right; left; reflexivity)). lra.
Qed.
Theorem ew_run_ok periods interval start s0 : (forall p, In p periods -> 0 < p) -> ew_new periods interval start = Some s0 ->
  forall ops, advancing start ops -> exists s segs pending, ew_run s0 ops = Some s /\
    ew_inv start (map fst (period_map [] periods)) interval ops s segs pending /\ ew_last s <= latest start ops /\ rare interval (ew_force s) segs.
Proof.
  intros Hp Hn. unfold ew_new in Hn. destruct (Rlt_dec 0 interval) as [Hi|]; [|discriminate]. inversion Hn; subst s0. clear Hn.
  assert (Hpos : forall p (r : option R) l, map fst l = map fst (period_map [] periods) -> In (p, r) l -> 0 < p).
  { intros p r l Hl Hin. assert (Hm : In p (map fst l)) by (apply in_map_iff; exists (p, r); auto). rewrite Hl in Hm.
    apply in_map_iff in Hm. destruct Hm as ([p' r'] & <- & Hm). apply Hp. eapply period_map_fst; eauto. }
  induction ops as [|o ops IH] using rev_ind; intros Ha.
  - eexists. exists [], []. split; [reflexivity|]. split; [|split; [simpl; lra|split; [intros _ ? []|intros a g b X; destruct a; discriminate]]]. unfold ew_inv. cbn [ew_interval ew_rates ew_uncounted ew_last ew_force].
    split; auto. split; auto. split; auto. split; auto. split; [unfold total; simpl; lra|]. split; [intros ? []|].
    split; [intros p r H; apply period_map_fst in H; apply H|]. split; auto. discriminate.
  - apply advancing_app in Ha. destruct Ha as [Ha Ho]. destruct (IH Ha) as (s & segs & pending & E & (I1 & I2 & I3 & I4 & I5 & I6 & I7 & I8 & I9) & IL & IR).
    rewrite ew_run_app, E, latest_app. unfold ew_inv. rewrite added_values_app, has_read_app.
    destruct o as [v|t1 t2]; cbn [ew_run added_values has_read latest].
    + exists (ew_add s v), segs, (pending ++ [v]). split; auto. unfold ew_add. cbn [ew_interval ew_rates ew_uncounted ew_last ew_force].
      rewrite orb_false_r. split; [|auto]. split; auto. split; auto. split; [rewrite app_assoc, I3; auto|].
      split; [rewrite total_app, I4; unfold total; simpl; lra|]. auto.
    + cbn [advancing] in Ho. destruct Ho as (Ho1 & Ho2 & _). rewrite orb_true_r, app_nil_r.
      assert (Hup : forall s', ew_interval s' = ew_interval s -> ew_rates s' = ew_rates s -> ew_uncounted s' = ew_uncounted s -> ew_last s' = ew_last s ->
        exists s2 segs2 pend2, ew_update t2 s' = Some s2 /\ (ew_interval s2 = interval /\
          map fst (ew_rates s2) = map fst (period_map [] periods) /\ concat (map fst segs2) ++ pend2 = added_values ops /\
          ew_uncounted s2 = total pend2 /\ start + total (map snd segs2) = ew_last s2 /\ (forall g, In g segs2 -> 0 < snd g) /\
          (forall p r, In (p, r) (ew_rates s2) -> r = moving_average p segs2) /\ (segs2 = [] -> ew_force s2 = true /\ true = false) /\ (true = true -> segs2 <> [])) /\ ew_last s2 <= t2 /\ segs2 = segs ++ [(pending, t2 - ew_last s)] /\ ew_force s2 = ew_force s').
      { intros s' K1 K2 K3 K4. unfold ew_update. rewrite K1, K2, K3, K4. assert (Hd : 0 < t2 - ew_last s) by lra.
        destruct (ew_steps_ok (ew_uncounted s) (t2 - ew_last s) (ew_rates s)) as (l' & El & Ml & Fl); [lra | intros; eapply Hpos; eauto|].
        rewrite El. eexists. exists (segs ++ [(pending, t2 - ew_last s)]), []. split; [reflexivity|]. cbn [ew_interval ew_rates ew_uncounted ew_last ew_force].
        split; [|split; [lra|split; reflexivity]]. split; auto. split; [congruence|]. split; [rewrite app_nil_r, map_app, concat_app; simpl; rewrite app_nil_r; auto|].
        split; [reflexivity|]. split.
 { rewrite map_app, total_app; cbn [map snd]; rewrite total_one.
 unfold segment in *; lra. }
        split; [intros g Hg; apply in_app_or in Hg; destruct Hg as [Hg|[<-|[]]]; auto|].
        split; [|split; [intros Hx; destruct segs; discriminate | intros _ Hx; destruct segs; discriminate]].
        intros p r Hin. destruct (Fl p r Hin) as (r0 & Hr0 & ->). rewrite ma_snoc, <- (I7 p r0 Hr0). unfold seg_rate. cbn [fst snd]. rewrite <- I4.
        destruct r0; reflexivity. }
      unfold ew_read. destruct (Rle_dec (ew_interval s) (t1 - ew_last s)).
      * destruct (Hup s) as (s2 & segs2 & pend2 & E2 & Inv & L2 & Es & Ef); auto. rewrite E2. exists s2, segs2, pend2.
        split; auto. split; auto. split; auto. rewrite Es, Ef. apply rare_due; auto. cbn [snd]. lra.
      * destruct (ew_force s) eqn:Ef.
        -- destruct (Hup (mkEwma (ew_interval s) (ew_rates s) (ew_uncounted s) (ew_last s) false)) as (s2 & segs2 & pend2 & E2 & Inv & L2 & Es & Ef2); auto.
           rewrite E2. exists s2, segs2, pend2. split; auto. split; auto. split; auto. rewrite Es, Ef2. cbn [ew_force]. apply rare_forced; auto.
        -- exists s, segs, pending. split; auto. split; [|split; [lra|rewrite Ef; auto]]. split; auto. split; auto. split; auto. split; auto. split; auto. split; auto. split; auto.
           assert (Hns : segs <> []) by (intros Hs; destruct (I8 Hs); congruence). split; [intros; contradiction | auto].
Qed.

Lemma steady_run c : forall ops s last pend, (forall p r, In (p, r) (ew_rates s) -> 0 < p /\ (r = None \/ r = Some c)) ->
  ew_last s <= last -> ew_uncounted s = c * (last - ew_last s) + pend -> advancing last ops -> steady c last pend ops ->
  exists s', ew_run s ops = Some s' /\ forall p r, In (p, r) (ew_rates s') -> r = None \/ r = Some c.
Proof.
  induction ops as [|[v|t1 t2] ops IH]; intros s last pend Hr Hl Hu Ha Hs.
  - exists s. split; auto. intros p r H. apply (Hr p r H).
  - cbn [ew_run]. apply (IH (ew_add s v) last (pend + v)); auto. unfold ew_add. cbn [ew_uncounted ew_last]. lra.
  - cbn [ew_run advancing steady] in *. destruct Ha as (A1 & A2 & A3). destruct Hs as [S1 S2].
    assert (Hup : forall s', ew_rates s' = ew_rates s -> ew_uncounted s' = ew_uncounted s -> ew_last s' = ew_last s ->
      exists s2, ew_update t2 s' = Some s2 /\ ew_last s2 = t2 /\ ew_uncounted s2 = 0 /\ forall p r, In (p, r) (ew_rates s2) -> 0 < p /\ (r = None \/ r = Some c)).
    { intros s' K2 K3 K4. unfold ew_update. rewrite K2, K3, K4.
      destruct (ew_steps_ok (ew_uncounted s) (t2 - ew_last s) (ew_rates s)) as (l' & El & Ml & Fl); [lra | intros; eapply Hr; eauto|].
      rewrite El. eexists. split; [reflexivity|]. split; auto. split; auto. cbn [ew_rates]. intros p r' Hin.
      destruct (Fl p r' Hin) as (r & Hr0 & ->). destruct (Hr p r Hr0) as [Hp Hc]. split; auto. right.
      assert (Hc0 : ew_uncounted s / (t2 - ew_last s) = c).
      { replace (ew_uncounted s) with (c * (t2 - ew_last s)) by lra. field. lra. }
      rewrite Hc0. destruct Hc as [->| ->]; auto. f_equal. ring. }
    unfold ew_read. destruct (Rle_dec (ew_interval s) (t1 - ew_last s)).
    + destruct (Hup s) as (s2 & E2 & L2 & U2 & R2); auto. rewrite E2. apply (IH s2 t2 0); auto; [lra|]. rewrite L2, U2. lra.
    + destruct (ew_force s).
      * destruct (Hup (mkEwma (ew_interval s) (ew_rates s) (ew_uncounted s) (ew_last s) false)) as (s2 & E2 & L2 & U2 & R2); auto.
        rewrite E2. apply (IH s2 t2 0); auto; [lra|]. rewrite L2, U2. lra.
      * apply (IH s t2 0); auto; [lra|]. rewrite Hu, S1. lra.
Qed.
Lemma ew_steps_fail u l : l <> [] -> ew_steps u 0 l = None.
Proof. destruct l as [|[p r] l]; [congruence|]. intros _. cbn [ew_steps ew_step]. destruct (Req_EM_T 0 0); [auto | contradiction]. Qed.
