(** C87: quantiles in floating point arithmetic. *)
From Coq Require Import Lqa.
From Verif Require Import model.PyBase model.Bisect model.Quantile model.FloatStats spec.QuantileSpec spec.FloatSpec
  proof.QuantileProofs proof.P2Proofs proof.FloatProofs proof.FloatP2 proof.FloatReservoir.
Open Scope nat_scope.

(** IEEE 754 rounding is one of the roundings the theorems below are about, and without
    rounding the model is the one of C29-C36. *)
Theorem C87_ieee : to_nearest rn64 /\ (forall x, single (rn32 x)).
Proof. split; [exact rn64_nearest|]. intros x. apply round_float. lia. Qed.
Print Assumptions C87_ieee.
Theorem C87_exact_arithmetic :
  (forall s q, fr_get_quantile (fun x => x) s q = r_get_quantile s q) /\
  (forall q_points data, fp2_new (fun x => x) q_points data = p2_new q_points data) /\
  (forall s vs, fp2_adds (fun x => x) s vs = p2_adds s vs).
Proof.
  assert (D : forall a b, fdiv (fun x => x) a b = qdiv a b) by (intros a b; unfold fdiv, qdiv; destruct (Qeq_bool b 0); reflexivity).
  assert (A : forall prev q l c r, fadjust (fun x => x) prev q l c r = adjust prev q l c r).
  { intros prev q [ln lq] [cn cq] [rn rq]. unfold fadjust, adjust. rewrite !D. reflexivity. }
  assert (P : forall prev l qs lft, fquad_pass (fun x => x) prev qs lft l = quad_pass prev qs lft l).
  { intros prev l. induction l as [|c l IH]; intros [|q qs] lft; cbn [fquad_pass quad_pass]; auto. destruct l as [|r l]; auto. rewrite A.
    destruct (adjust prev q lft c r); cbn [rbind]; auto. rewrite IH. reflexivity. }
  assert (S : forall vs s, fp2_adds (fun x => x) s vs = p2_adds s vs).
  { induction vs as [|v vs IH]; intros s; cbn [fp2_adds p2_adds]; auto. unfold fp2_add, p2_add.
    destruct (p2_extremes v (p2_vals s)) as [|mn rest]; [reflexivity|]. rewrite P. destruct (quad_pass _ _ _ _); cbn [rbind]; auto. }
  split; [reflexivity|]. split; [|auto]. intros q_points data. unfold fp2_new, p2_new. destruct (process_q_points q_points) as [qs| | |]; cbn [rbind]; auto.
  destruct (length data <? _); auto.
Qed.
Print Assumptions C87_exact_arithmetic.

(** The estimates of a P2Estimator are in order, between the exact minimum and maximum, after
    every sequence of floats: rounding never upsets the markers. *)
Theorem C87_p2_estimates : forall rnd q_points qs data more,
  to_nearest rnd -> Forall double (data ++ more) ->
  process_q_points q_points = Ok qs -> length qs + 2 <= length data ->
  exists s lo mid hi, (let? s0 := fp2_new rnd q_points data in fp2_adds rnd s0 more) = Ok s /\
    p2_get_quantiles s = combine (0%Q :: qs ++ [1%Q]) (lo :: mid ++ [hi]) /\ length mid = length qs /\
    qasc (lo :: mid ++ [hi]) /\ Forall double mid /\
    least_of (data ++ more) (Some lo) /\ greatest_of (data ++ more) (Some hi) /\
    increasing (map fst (p2_vals s)) /\
    hd_error (map fst (p2_vals s)) = Some 1%Z /\ last (map fst (p2_vals s)) 0%Z = Z.of_nat (length (data ++ more)).
Proof. intros rnd q_points qs data more HR Hd Hq Hl. apply fp2_estimates; auto. Qed.
Print Assumptions C87_p2_estimates.
Definition tenths : list Q := map rn64 [1#10; 7#10; 3#10; 12#10; 2#10; 25#10; 3#10; 9#10]%Q.
Example C87_p2_ex : Forall double tenths /\
  exists s, (let? s0 := fp2_new rn64 [mkQp 0 (Some (1#2)%Q)] (firstn 3 tenths) in fp2_adds rn64 s0 (skipn 3 tenths)) = Ok s /\
    map (fun p => (Qfloor (1000 * snd p))) (p2_get_quantiles s) = [100; 299; 2500]%Z.
Proof.
  split; [unfold tenths; apply Forall_forall; intros x Hx; apply in_map_iff in Hx as (y & <- & _); apply rn64_nearest|].
  eexists. split; vm_compute; reflexivity.
Qed.

(** The quartiles and the median of a ReservoirAccumulator are the exact ones, rounded once;
    so they are in order, between values stored, and the interquartile range is not negative. *)
Theorem C87_quartiles : forall rnd store cap ops s,
  to_nearest rnd -> (forall x, single (store x)) -> r_run store (r_new cap) ops = Ok s ->
  r_data s <> [] -> (Z.of_nat (length (r_data s)) <= 2 ^ 50)%Z ->
  exists a b c a' b' c',
    linear_quantile (r_data s) (1#4) a' /\ linear_quantile (r_data s) (1#2) b' /\ linear_quantile (r_data s) (3#4) c' /\
    snd (quartiles (fr_get_quantile rnd) s) = Ok (a, b, c) /\ (a == rnd a')%Q /\ (b == rnd b')%Q /\ (c == rnd c')%Q /\
    (a <= b)%Q /\ (b <= c)%Q /\
    (exists lo hi, In lo (r_data s) /\ In hi (r_data s) /\ (lo <= a)%Q /\ (c <= hi)%Q) /\
    (exists i, snd (fiqr rnd (fr_get_quantile rnd) s) = Ok i /\ (i == rnd (c - a))%Q /\ (0 <= i)%Q).
Proof.
  intros rnd store cap ops s HR HS H Hd Hn. apply fquartile_stats; auto; [eapply reach_sorted; eauto|].
  eapply run_stored; eauto.
Qed.
Print Assumptions C87_quartiles.

(** Any other quantile: up to rounding errors it is the exact quantile of a point next to the
    one asked for. *)
Theorem C87_quantile_error : forall rnd store cap ops s q m,
  to_nearest rnd -> r_run store (r_new cap) ops = Ok s ->
  r_data s <> [] -> (Z.of_nat (length (r_data s)) <= 2 ^ 53)%Z -> in01 q -> (forall x, In x (r_data s) -> Qabs x <= m)%Q ->
  exists v q' v', snd (fr_get_quantile rnd s q) = Ok v /\ linear_quantile (r_data s) q' v' /\
    (Qabs (q' - q) <= (2 # 1) ^ (-53) * q + (2 # 1) ^ (-1075))%Q /\
    (Qabs (v - v') <= (2 # 1) ^ (-50) * m + (2 # 1) ^ (-1072))%Q.
Proof.
  intros rnd store cap ops s q m HR H Hd Hn Hq Hm. apply fquantile_error; auto; [eapply reach_sorted; eauto|lia].
Qed.
Print Assumptions C87_quantile_error.
Definition threes : list rop := [RAdd 3 0; RAdd 3 0].
Example C87_reservoir_ex : exists s, r_run rn32 (r_new None) [RAdd (1#10) 0; RAdd (7#10) 0; RAdd 3 0; RAdd (5#3) 0]%Q = Ok s /\
  r_data s <> [] /\ (length (r_data s) = 4) /\
  exists i, snd (fiqr rn64 (fr_get_quantile rn64) s) = Ok i /\ Qfloor (1000 * i) = 1449%Z.
Proof. eexists. split; [reflexivity|]. split; [vm_compute; discriminate|]. split; [reflexivity|]. eexists. split; vm_compute; reflexivity. Qed.

(** But it need not be between the smallest and the largest value: of the values 3.0 and 3.0
    the 1% quantile is less than 3.0, so that get_quantiles with the default points is not
    monotone (C31 and C32 hold up to rounding only). *)
Definition QP_PRAG : list Q := map rn64 [1#100; 5#100; 25#100; 50#100; 75#100; 90#100; 95#100; 99#100]%Q.
Theorem C87_between_refuted : exists s v rest, r_run rn32 (r_new None) threes = Ok s /\
  snd (fr_get_quantiles rn64 s QP_PRAG) = Ok ((0%Q, Some 3%Q) :: (rn64 (1#100), Some v) :: rest) /\ (v < 3)%Q.
Proof. eexists. eexists. eexists. split; [reflexivity|]. split; vm_compute; reflexivity. Qed.
Print Assumptions C87_between_refuted.
