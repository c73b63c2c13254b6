(** The moments of FloatMoments.v without rounding are those of Moments.v. *)
From Coq Require Import QArith Qreals Reals Lra Lia.
From Verif Require Import model.PyBase model.Bisect model.Levels model.Quantile model.FloatStats model.FloatMoments proof.QuantileProofs.
From Verif Require Import model.Moments.
Open Scope R_scope.

Lemma Q2R_int z : Q2R (inject_Z z) = IZR z.
Proof. unfold Q2R, inject_Z. cbn. field. Qed.
Lemma qlt_R a b : qlt a b = if Rlt_dec (Q2R a) (Q2R b) then true else false.
Proof.
  destruct (qlt a b) eqn:E; [apply qlt_true in E|apply qlt_false in E]; destruct (Rlt_dec (Q2R a) (Q2R b)) as [L|L]; auto.
  - elim L. apply Qlt_Rlt, E.
  - apply Rlt_Qlt in L. exfalso. apply (Qlt_not_le _ _ L E).
Qed.
Definition as_real (s : fmoments) : moments :=
  mkMoments (Z.to_nat (fm_count s)) (option_map Q2R (fm_min s)) (option_map Q2R (fm_max s))
    (Q2R (fm_mean s)) (Q2R (fm_m2 s)) (Q2R (fm_m3 s)) (Q2R (fm_m4 s)).
Lemma exact_add s v : (0 <= fm_count s)%Z -> mo_add (as_real s) (Q2R v) = as_real (fm_add (fun x => x) s v).
Proof.
  intros C. unfold mo_add, fm_add, as_real. cbn [mo_count mo_min mo_max mo_mean mo_m2 mo_m3 mo_m4].
  assert (E : (if above_max (Q2R v) (option_map Q2R (fm_max s)) then ((if Nat.eqb (Z.to_nat (fm_count s)) 0 then Some (Q2R v) else option_map Q2R (fm_min s)), Some (Q2R v))
    else if below_min (Q2R v) (option_map Q2R (fm_min s)) then (Some (Q2R v), option_map Q2R (fm_max s)) else (option_map Q2R (fm_min s), option_map Q2R (fm_max s))) =
    (option_map Q2R (fst (fm_extremes s v)), option_map Q2R (snd (fm_extremes s v)))).
  { unfold fm_extremes. assert (Ec : Nat.eqb (Z.to_nat (fm_count s)) 0 = (fm_count s =? 0)%Z).
    { destruct (Z.eqb_spec (fm_count s) 0) as [->|N]; [reflexivity|]. apply Nat.eqb_neq. lia. }
    rewrite Ec. destruct (fm_max s) as [mx|]; cbn [option_map above_max].
    - rewrite <- qlt_R. destruct (qlt mx v); [destruct (fm_count s =? 0)%Z; reflexivity|].
      destruct (fm_min s) as [mn|]; cbn [option_map below_min]; [rewrite <- qlt_R; destruct (qlt v mn)|]; reflexivity.
    - destruct (fm_count s =? 0)%Z; reflexivity. }
  rewrite E. destruct (fm_extremes s v) as [mn mx]. cbn [fst snd]. unfold of_int.
  cbn [fm_count fm_min fm_max fm_mean fm_m2 fm_m3 fm_m4].
  assert (En : INR (S (Z.to_nat (fm_count s))) = Q2R (inject_Z (fm_count s + 1))) by (rewrite Q2R_int, INR_IZR_INZ; f_equal; lia).
  assert (Nz : ~ (inject_Z (fm_count s + 1) == 0)%Q) by (change 0%Q with (inject_Z 0); rewrite inject_Z_injective; lia).
  rewrite En. f_equal; [lia|..];
    repeat first [rewrite Q2R_plus|rewrite Q2R_minus|rewrite Q2R_mult|rewrite Q2R_div by exact Nz|rewrite Q2R_int]; rewrite ?plus_IZR, ?minus_IZR, ?mult_IZR.
  - reflexivity.
  - rewrite plus_IZR. field. rewrite <- plus_IZR. apply not_0_IZR. lia.
  - change (Q2R 3) with (Q2R (inject_Z 3)). rewrite Q2R_int. rewrite plus_IZR. field. rewrite <- plus_IZR. apply not_0_IZR. lia.
  - change (Q2R 4) with (Q2R (inject_Z 4)). change (Q2R 6) with (Q2R (inject_Z 6)). rewrite !Q2R_int.
    rewrite <- !plus_IZR. set (n := (fm_count s + 1)%Z) in *. assert (N : IZR n <> 0) by (apply not_0_IZR; lia).
    replace (n ^ 2)%Z with (n * n)%Z by ring. rewrite !mult_IZR. field. exact N.
Qed.
Lemma exact_moments vs : mo_adds (map Q2R vs) = as_real (fm_adds (fun x => x) vs).
Proof.
  unfold mo_adds, fm_adds. assert (E0 : mo_new = as_real fm_new) by (unfold mo_new, as_real, fm_new; cbn [fm_count fm_min fm_max fm_mean fm_m2 fm_m3 fm_m4 option_map]; replace (Q2R 0) with 0 by (unfold Q2R; cbn; field); reflexivity).
  rewrite E0. assert (C0 : (0 <= fm_count fm_new)%Z) by (cbn; lia). revert C0. generalize fm_new as s. induction vs as [|v vs IH]; intros s C; [reflexivity|].
  cbn [map fold_left]. rewrite exact_add by auto. apply IH. unfold fm_add. destruct (fm_extremes s v). cbn [fm_count]. lia.
Qed.
