(** C24-C26: HistogramCounter, MaxAccumulator and MinAccumulator. *)
From Verif Require Import model.PyBase model.Bisect model.Accumulators spec.AccSpec proof.AccProofs.
From Coq Require Import Permutation.

(** C24.  The results are the ranges with their exact counts, for every
    history of adds; an add raises IndexError exactly for +inf and NaN and then
    changes nothing ([h_adds] keeps the counter). *)
Theorem C24_exact_counts : forall bounds h0 vs, h_new bounds = Some h0 ->
  h_results (h_adds h0 vs) = map (fun r => (r, length (filter (fun v => in_range v r) vs))) (map fst (h_results h0)).
Proof. exact hist_exact_counts. Qed.
Print Assumptions C24_exact_counts.
Example C24_exact_counts_ex :
  option_map (fun h => h_results (h_adds h [Fin 10; Fin 9; Fin (-3); NegInf; Fin 20; PosInf; Fin 15; Fin 10])) (h_new [Fin 10; Fin 20; Fin 10])
  = Some [((NegInf, Fin 10), 3); ((Fin 10, Fin 20), 3); ((Fin 20, PosInf), 1)].
Proof. vm_compute; reflexivity. Qed.

(** The ranges partition the line: each value below +inf lies in exactly one;
    they are contiguous, start at -inf, end at +inf and break at exactly the given bounds. *)
Theorem C24_ranges_partition : forall bounds h0, h_new bounds = Some h0 ->
  let ranges := map fst (h_results h0) in
  (forall v, v <> NaN -> v <> PosInf -> exists! i, exists r, nth_error ranges i = Some r /\ in_range v r = true) /\
  (forall i r r', nth_error ranges i = Some r -> nth_error ranges (S i) = Some r' -> snd r = fst r') /\
  option_map fst (nth_error ranges 0) = Some NegInf /\
  option_map snd (nth_error ranges (length ranges - 1)) = Some PosInf /\
  (forall b, b <> NegInf -> b <> PosInf -> ((exists r, In r ranges /\ fst r = b) <-> In b bounds)).
Proof. exact hist_ranges_partition. Qed.
Print Assumptions C24_ranges_partition.
Example C24_ranges_partition_ex : option_map (fun h => map fst (h_results h)) (h_new [Fin 2; Fin (-7); Fin 2; PosInf])
  = Some [(NegInf, Fin (-7)); (Fin (-7), Fin 2); (Fin 2, PosInf)].
Proof. vm_compute; reflexivity. Qed.

Theorem C24_counts_sum : forall bounds h0 vs, h_new bounds = Some h0 ->
  (forall v, In v vs -> v <> NaN /\ v <> PosInf) ->
  sum (map snd (h_results (h_adds h0 vs))) = length vs.
Proof. exact hist_counts_sum. Qed.
Print Assumptions C24_counts_sum.

(** After any adds, a further add raises IndexError exactly for +inf and NaN. *)
Theorem C24_index_error : forall bounds h0 vs v, h_new bounds = Some h0 ->
  (h_add (h_adds h0 vs) v = None <-> v = NaN \/ v = PosInf).
Proof. exact hist_index_error. Qed.
Print Assumptions C24_index_error.

(** NaN bounds are refused (ValueError) and no others. *)
Theorem C24_nan_bounds : forall bounds, h_new bounds = None <-> In NaN bounds.
Proof. exact hist_nan_bounds. Qed.
Print Assumptions C24_nan_bounds.

(** C25.  The full claim is false, even for the maximum itself. *)
Theorem C25_keeps_largest_refuted :
  (exists vs, ~ largest 3 vs (max_adds 3 vs)) /\
  (exists vs m, is_max vs m /\ ~ In m (max_adds 3 vs)).
Proof.
  split.
  - exists [3; 2; 1]%Z. intros (_ & H & _). vm_compute in H. discriminate.
  - exists [10; 20; 30; 25]%Z, 30%Z. split.
    + split; [simpl; auto 10|]. intros v Hv. simpl in Hv. lia.
    + vm_compute. intros [H|[H|[H|[]]]]; discriminate.
Qed.
Print Assumptions C25_keeps_largest_refuted.

(** What holds for every input: a sorted sample of at most N added values. *)
Theorem C25_sorted_sample_partial : forall n vs,
  ascending (max_adds n vs) /\ length (max_adds n vs) <= n /\ drawn_from (max_adds n vs) vs.
Proof. exact max_adds_ok. Qed.
Print Assumptions C25_sorted_sample_partial.
(** The claim holds for N = 1, and for strictly increasing input at any N. *)
Theorem C25_single_partial : forall vs, vs <> [] -> exists m, max_adds 1 vs = [m] /\ is_max vs m.
Proof. exact max_one. Qed.
Print Assumptions C25_single_partial.
Example C25_single_ex : max_adds 1 [3; 8; -2; 8; 5]%Z = [8%Z].
Proof. vm_compute; reflexivity. Qed.
Theorem C25_increasing_partial : forall n vs, strictly_ascending vs -> largest n vs (max_adds n vs).
Proof. exact max_increasing_largest. Qed.
Print Assumptions C25_increasing_partial.
Example C25_increasing_ex : max_adds 2 [1; 5; 7; 12]%Z = [7; 12]%Z.
Proof. vm_compute; reflexivity. Qed.

(** C26. *)
Theorem C26_head_is_minimum : forall n vs, 1 <= n ->
  ascending (min_adds n vs) /\ length (min_adds n vs) <= n /\ drawn_from (min_adds n vs) vs /\
  (vs <> [] -> exists m l, min_adds n vs = m :: l /\ is_min vs m).
Proof.
  intros n vs Hn. destruct (min_adds_ok n vs Hn) as (H1 & H2 & H3 & H4 & H5). split; [exact H1|]. split; [exact H2|].
  split; [exact H3|]. intros Hne. destruct (min_adds n vs) as [|m l] eqn:E; [exfalso; exact (H4 Hne eq_refl)|].
  exists m, l. split; [reflexivity|]. exact (H5 m l eq_refl).
Qed.
Print Assumptions C26_head_is_minimum.
Example C26_head_is_minimum_ex : min_adds 3 [40; 20; 30; 25; 10; 50]%Z = [10; 20; 25]%Z.
Proof. vm_compute; reflexivity. Qed.
Theorem C26_n_smallest_refuted : exists vs, ~ smallest 3 vs (min_adds 3 vs).
Proof. exists [1; 2; 3]%Z. intros (_ & H & _). vm_compute in H. discriminate. Qed.
Print Assumptions C26_n_smallest_refuted.
