(** P2Estimator in floating point arithmetic. *)
From Coq Require Import Lqa.
From Verif Require Import model.PyBase model.Quantile model.FloatStats spec.QuantileSpec spec.FloatSpec
  proof.QuantileProofs proof.P2Proofs proof.FloatProofs.
Open Scope nat_scope.

Definition heights (l : list marker) : Prop := Forall double (map snd l).
Section FP2.
Variable rnd : Q -> Q.
Hypothesis HR : to_nearest rnd.

Lemma fdiv_ok a b : ~ (b == 0)%Q -> fdiv rnd a b = Ok (rnd (a / b)).
Proof. intros H. unfold fdiv. rewrite qdiv_ok by auto. reflexivity. Qed.
Lemma fadjust_ok prev q l c r : (fst l < fst c)%Z -> (fst c < fst r)%Z -> (snd l <= snd c)%Q -> (snd c <= snd r)%Q ->
  double (snd l) -> double (snd c) -> double (snd r) ->
  exists c', fadjust rnd prev q l c r = Ok c' /\ (fst l < fst c' < fst r)%Z /\ (snd l <= snd c')%Q /\ (snd c' <= snd r)%Q /\ double (snd c').
Proof.
  destruct l as [ln lq], c as [cn cq], r as [rn rq]. cbn [fst snd]. intros H1 H2 H3 H4 Dl Dc Dr. unfold fadjust.
  destruct (qtrunc _ =? 0)%Z; [exists (cn, cq); cbn [fst snd]; auto|].
  match goal with |- context [if (0 <? ?t)%Z then 1%Z else (-1)%Z] => set (d := (if (0 <? t)%Z then 1 else -1)%Z) end.
  assert (Hd : d = 1%Z \/ d = (-1)%Z) by (unfold d; destruct (0 <? _)%Z; auto). clearbody d. cbv zeta.
  destruct (negb ((ln <? cn + d) && (cn + d <? rn))%Z) eqn:E; [exists (cn, cq); cbn [fst snd]; auto|].
  apply negb_false_iff, andb_true_iff in E. rewrite !Z.ltb_lt in E.
  assert (P1 := injZ_pos (rn - ln) ltac:(lia)). assert (P2 := injZ_pos (rn - cn) ltac:(lia)). assert (P3 := injZ_pos (cn - ln) ltac:(lia)).
  assert (En : (inject_Z (ln - cn) == - inject_Z (cn - ln))%Q) by (unfold Zminus; rewrite !inject_Z_plus, !inject_Z_opp; ring).
  rewrite fdiv_ok by lra. cbn [rbind]. rewrite fdiv_ok by lra. cbn [rbind]. rewrite fdiv_ok by lra. cbn [rbind].
  match goal with |- context [qlt lq ?x] => set (nq := x) end.
  destruct (qlt lq nq && qlt nq rq) eqn:E1.
  - apply andb_true_iff in E1 as [E1 E2]. apply qlt_true in E1, E2. exists ((cn + d)%Z, nq). cbn [fst snd]. split; auto. split; auto.
    split; [lra|]. split; [lra|]. apply rnd_double, HR.
  - destruct (Z.eqb_spec d 1) as [->|Hne].
    + rewrite fdiv_ok by lra. cbn [rbind]. eexists. split; [reflexivity|]. cbn [fst snd]. split; auto.
      destruct (share_up rnd HR cq rq (rn - cn)) as [S1 S2]; auto; [lia|].
      split; [|split; [|apply rnd_double, HR]].
      * apply Qle_trans with cq; auto. apply rnd_ge; auto. lra.
      * apply rnd_le; auto. lra.
    + assert (d = (-1)%Z) by lia. subst d.
      rewrite fdiv_ok by lra. cbn [rbind]. eexists. split; [reflexivity|]. cbn [fst snd]. split; auto.
      destruct (share_down rnd HR lq cq (cn - ln)) as [S1 S2]; auto; [lia|]. replace (- (cn - ln))%Z with (ln - cn)%Z in * by lia.
      split; [|split; [|apply rnd_double, HR]].
      * apply rnd_ge; auto. lra.
      * apply Qle_trans with cq; auto. apply rnd_le; auto. lra.
Qed.
Lemma fquad_pass_ok prev : forall l qs lft, mono (lft :: l) -> heights (lft :: l) ->
  exists l', fquad_pass rnd prev qs lft l = Ok l' /\ mono (lft :: l') /\ length l' = length l /\ last l' (0%Z, 0%Q) = last l (0%Z, 0%Q) /\ heights (lft :: l').
Proof.
  induction l as [|c l IH]; intros qs lft Hm Hh.
  - exists []. destruct qs; auto.
  - destruct l as [|r l].
    + exists [c]. destruct qs; auto.
    + destruct qs as [|q qs]; [exists (c :: r :: l); auto|].
      destruct Hm as (M1 & M2 & M3 & M4 & M5).
      unfold heights in Hh. cbn [map] in Hh. inversion Hh as [|? ? D1 Hh1]; subst. inversion Hh1 as [|? ? D2 Hh2]; subst. inversion Hh2 as [|? ? D3 Hh3]; subst.
      destruct (fadjust_ok prev q lft c r M1 M3 M2 M4 D1 D2 D3) as (c' & Ea & Hp & Hl & Hr & Dc).
      destruct (IH qs c') as (l' & Eq & Ml & Ll & La & Hl').
      { simpl. split; [lia|]. split; auto. }
      { constructor; auto. }
      change (fquad_pass rnd prev (q :: qs) lft (c :: r :: l)) with
        (let? cur' := fadjust rnd prev q lft c r in let? rest := fquad_pass rnd prev qs cur' (r :: l) in Ok (cur' :: rest)).
      rewrite Ea. cbn [rbind]. rewrite Eq. cbn [rbind]. exists (c' :: l').
      split; auto. split; [|split; [|split]].
      * simpl. split; [lia|]. split; auto.
      * simpl in *. lia.
      * destruct l' as [|x l']; [simpl in Ll; discriminate|]. exact La.
      * constructor; auto.
Qed.
Lemma extremes_heights v l : heights l -> double v -> heights (p2_extremes v l).
Proof.
  intros H Hv. destruct l as [|mn l]; [exact H|]. destruct (exists_last (l := mn :: l)) as (mid & mx & E); [discriminate|].
  destruct mid as [|a mid]; cbn [app] in E; injection E as -> ->.
  - unfold p2_extremes, heights in *. cbn. inversion H; subst. destruct (qlt v (snd mx)); [repeat constructor; auto|]. destruct (qlt (snd mx) v); repeat constructor; auto.
  - rewrite extremes_form. unfold heights in *. cbn [map] in *. rewrite map_app in *. inversion H as [|? ? A B]; subst. apply Forall_app in B as [B C]. inversion C as [|? ? C1 ?]; subst.
    constructor; [unfold mn'; destruct (qlt v (snd a)); auto|]. apply Forall_app. split; auto. constructor; auto. unfold mx'. cbn [snd].
    destruct (qlt v (snd a)); auto. destruct (qlt (snd mx) v); auto.
Qed.
Lemma fp2_add_ok qps data s v : p2_inv qps data s -> heights (p2_vals s) -> double v ->
  exists s', fp2_add rnd s v = Ok s' /\ p2_inv qps (data ++ [v]) s' /\ heights (p2_vals s').
Proof.
  intros H Hh Hv. destruct (p2_step qps data s v H) as (mn1 & rest & E & Hm & Hs & K). unfold fp2_add.
  pose proof (extremes_heights v _ Hh Hv) as He. rewrite E in *.
  destruct (fquad_pass_ok (fst (last (p2_vals s) (0%Z, 0%Q))) _ (tl (p2_qps s)) mn1 Hm) as (l' & Eq & Ml & Ll & La & Hl').
  { unfold heights in *. cbn [map] in *. rewrite Hs. exact He. }
  rewrite Eq, (pi_qps _ _ _ H). cbn [rbind]. eexists. split; [reflexivity|]. split; [apply K; auto|exact Hl'].
Qed.
Lemma fp2_adds_ok qps vs : forall data s, p2_inv qps data s -> heights (p2_vals s) -> Forall double vs ->
  exists s', fp2_adds rnd s vs = Ok s' /\ p2_inv qps (data ++ vs) s' /\ heights (p2_vals s').
Proof.
  induction vs as [|v vs IH]; intros data s H Hh Hv; [exists s; rewrite app_nil_r; auto|]. inversion Hv; subst.
  destruct (fp2_add_ok qps data s v H Hh) as (s1 & E & I1 & J1); auto. destruct (IH _ s1 I1 J1) as (s2 & E2 & I2 & J2); auto.
  cbn [fp2_adds]. rewrite E. cbn [rbind]. exists s2. split; auto. rewrite <- app_assoc in I2. auto.
Qed.
Lemma number_snd l : forall i, map snd (number_from i l) = l.
Proof. induction l; intros i; cbn; f_equal; auto. Qed.
Lemma fp2_new_ok q_points qs data : process_q_points q_points = Ok qs -> length qs + 2 <= length data -> Forall double data ->
  exists s, fp2_new rnd q_points data = Ok s /\ p2_inv (0%Q :: qs ++ [1%Q]) data s /\ heights (p2_vals s).
Proof.
  intros Hq Hl Hd. unfold fp2_new. rewrite Hq. cbn [rbind].
  set (qps := 0%Q :: qs ++ [1%Q]) in *. assert (Hk : length qps = length qs + 2) by (unfold qps; simpl; rewrite app_length; simpl; lia).
  rewrite Hk. replace (length data <? length qs + 2) with false by (symmetry; apply Nat.ltb_ge; auto).
  set (k := length qs + 2) in *. rewrite <- (firstn_skipn k data) in Hd. apply Forall_app in Hd as [D1 D2].
  destruct (fp2_adds_ok qps (skipn k data) (firstn k data) (mkP2 qps (number_from 1 (qsort (firstn k data))))) as (s & E & Is & Js); auto.
  - apply p2_init_ok; [lia|]. rewrite firstn_length. lia.
  - unfold heights. cbn [p2_vals]. rewrite number_snd. destruct (qsort_spec (firstn k data)) as [_ P].
    rewrite Forall_forall in *. intros x Hx. apply D1. eapply Permutation_in; [apply Permutation_sym; exact P|exact Hx].
  - rewrite firstn_skipn in Is. exists s. auto.
Qed.
Lemma fp2_estimates q_points qs data more : process_q_points q_points = Ok qs -> length qs + 2 <= length data -> Forall double (data ++ more) ->
  exists s lo mid hi, (let? s0 := fp2_new rnd q_points data in fp2_adds rnd s0 more) = Ok s /\
    p2_get_quantiles s = combine (0%Q :: qs ++ [1%Q]) (lo :: mid ++ [hi]) /\ length mid = length qs /\
    qasc (lo :: mid ++ [hi]) /\ Forall double mid /\
    least_of (data ++ more) (Some lo) /\ greatest_of (data ++ more) (Some hi) /\
    increasing (map fst (p2_vals s)) /\
    hd_error (map fst (p2_vals s)) = Some 1%Z /\ last (map fst (p2_vals s)) 0%Z = Z.of_nat (length (data ++ more)).
Proof.
  intros Hq Hl Hd. apply Forall_app in Hd as [D1 D2]. destruct (fp2_new_ok q_points qs data Hq Hl D1) as (s0 & E0 & I0 & J0).
  destruct (fp2_adds_ok _ more data s0 I0 J0 D2) as (s & E & [Iq Il Im Ifo] & Js).
  rewrite E0. cbn [rbind]. destruct Ifo as (mn & mid & mx & Ev & F1 & Fn & Lm & Lx).
  exists s, (snd mn), (map snd mid), (snd mx). split; auto.
  assert (Em : map snd (p2_vals s) = snd mn :: map snd mid ++ [snd mx]) by (rewrite Ev; simpl; rewrite map_app; auto).
  split; [unfold p2_get_quantiles; rewrite Iq, Em; auto|].
  split; [rewrite map_length; rewrite Ev in Il; cbn [length] in Il; rewrite !app_length in Il; cbn [length] in Il; unfold marker in *; lia|].
  split; [rewrite <- Em; apply mono_qasc; auto|].
  split; [unfold heights in Js; rewrite Em in Js; inversion Js as [|? ? _ Jt]; subst; apply Forall_app in Jt; apply Jt|].
  split; auto. split; auto.
  split; [apply mono_increasing; auto|]. rewrite Ev. split; [simpl; congruence|].
  change (mn :: mid ++ [mx]) with ((mn :: mid) ++ [mx]). rewrite map_app. cbn [map]. rewrite last_last. auto.
Qed.
End FP2.
