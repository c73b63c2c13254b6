(** Proofs about the actor. *)
From Coq Require Import QArith Qpower Lqa.
From Verif Require Import model.PyBase model.Actor spec.ActorSpec.
Open Scope nat_scope.

Lemma py_min_spec a b : (py_min a b <= a)%Q /\ (py_min a b <= b)%Q /\ (py_min a b == a \/ py_min a b == b)%Q.
Proof.
  unfold py_min. destruct (Qle_bool a b) eqn:E.
  - apply Qle_bool_iff in E. split; [lra|]. split; [lra|]. left; lra.
  - assert (~ (a <= b)%Q) by (rewrite <- Qle_bool_iff; congruence). split; [lra|]. split; [lra|]. right; lra.
Qed.
Lemma py_max_spec a b : (a <= py_max a b)%Q /\ (b <= py_max a b)%Q /\ (py_max a b == a \/ py_max a b == b)%Q.
Proof.
  unfold py_max. destruct (Qle_bool b a) eqn:E.
  - apply Qle_bool_iff in E. split; [lra|]. split; [lra|]. left; lra.
  - assert (~ (b <= a)%Q) by (rewrite <- Qle_bool_iff; congruence). split; [lra|]. split; [lra|]. right; lra.
Qed.

Definition good (a : actor) : Prop := (0 <= ac_orig a)%Q /\ (ac_orig a <= ac_interval a)%Q /\ (ac_interval a <= ac_max a)%Q.
Lemma body_params a o : ac_orig (fst (loop_body a o)) = ac_orig a /\ ac_max (fst (loop_body a o)) = ac_max a /\ ac_daemon (fst (loop_body a o)) = ac_daemon a.
Proof. destruct o as [|[]|]; cbn; auto. Qed.
Lemma body_good a o : good a -> good (fst (loop_body a o)).
Proof.
  intros (H1 & H2 & H3). destruct o as [|[]|]; unfold good; cbn [loop_body fst ac_interval ac_orig ac_max]; auto.
  - destruct (py_max_spec (ac_interval a - (ac_max a - ac_orig a) / 8) (ac_orig a)) as (A & B & [C|C]); repeat split; try lra.
    rewrite C. setoid_replace ((ac_max a - ac_orig a) / 8)%Q with ((ac_max a - ac_orig a) * (1 # 8))%Q by (field). lra.
  - destruct (py_min_spec (ac_interval a * 2) (ac_max a)) as (A & B & [C|C]); repeat split; lra.
Qed.
Lemma run_good os : forall a, good a -> good (fst (fst (run_loop a os))).
Proof.
  induction os as [|o os IH]; intros a H; auto. cbn [run_loop]. pose proof (body_good a o H) as HB. destruct (loop_body a o) as [a1 go]. cbn [fst] in HB.
  destruct go; auto. specialize (IH a1 HB). destruct (run_loop a1 os) as [[a2 n] al]. auto.
Qed.
Lemma run_params os : forall a, ac_orig (fst (fst (run_loop a os))) = ac_orig a /\ ac_max (fst (fst (run_loop a os))) = ac_max a.
Proof.
  induction os as [|o os IH]; intros a; auto. cbn [run_loop]. pose proof (body_params a o) as (P1 & P2 & _). destruct (loop_body a o) as [a1 go]. cbn [fst] in *.
  destruct go; auto. specialize (IH a1). destruct (run_loop a1 os) as [[a2 n] al]. cbn [fst] in *. rewrite P1, P2 in IH. auto.
Qed.
Lemma run_app os1 : forall os2 a, snd (run_loop a os1) = true ->
  run_loop a (os1 ++ os2) = let '(a1, n1, _) := run_loop a os1 in let '(a2, n2, al) := run_loop a1 os2 in (a2, n1 + n2, al).
Proof.
  induction os1 as [|o os1 IH]; intros os2 a H; [cbn; destruct (run_loop a os2) as [[? ?] ?]; auto|]. cbn [app run_loop] in *. destruct (loop_body a o) as [a1 go]. destruct go; [|discriminate].
  specialize (IH os2 a1). destruct (run_loop a1 os1) as [[a1' n1] al1]. cbn [snd] in *. rewrite IH by auto. destruct (run_loop a1' os2) as [[a2 n2] al]. auto.
Qed.

Lemma failures_interval k : forall a, good a -> (interval_after a (failures k) == py_min (ac_interval a * (2 ^ Z.of_nat k)) (ac_max a))%Q.
Proof.
  unfold interval_after, failures. induction k as [|k IH]; intros a (H1 & H2 & H3).
  - cbn [repeat run_loop fst Z.of_nat]. destruct (py_min_spec (ac_interval a * 2 ^ 0) (ac_max a)) as (A & B & C). change (2 ^ 0)%Q with 1%Q in *. destruct C as [C|C]; rewrite C; lra.
  - cbn [repeat run_loop loop_body]. match goal with |- context [run_loop ?b] => set (a1 := b) end.
    assert (G : good a1) by (apply (body_good a (TaskRaises false)); repeat split; auto).
    specialize (IH a1 G). destruct (run_loop a1 (repeat (TaskRaises false) k)) as [[a2 n] al]. cbn [fst] in *. rewrite IH. unfold a1. cbn [ac_interval ac_max].
    assert (P : (2 ^ Z.of_nat (S k) == 2 * 2 ^ Z.of_nat k)%Q).
    { rewrite Nat2Z.inj_succ. unfold Z.succ. rewrite Qpower_plus by lra. change (2 ^ 1)%Q with 2%Q. lra. }
    assert (P1 : (1 <= 2 ^ Z.of_nat k)%Q).
    { clear. induction k as [|k IH]; [cbn; lra|]. rewrite Nat2Z.inj_succ. unfold Z.succ. rewrite Qpower_plus by lra. change (2 ^ 1)%Q with 2%Q. lra. }
    set (e := (2 ^ Z.of_nat k)%Q) in *.
    destruct (py_min_spec (ac_interval a * 2) (ac_max a)) as (A1 & A2 & A3).
    destruct (py_min_spec (py_min (ac_interval a * 2) (ac_max a) * e) (ac_max a)) as (B1 & B2 & B3).
    destruct (py_min_spec (ac_interval a * 2 ^ Z.of_nat (S k)) (ac_max a)) as (C1 & C2 & C3).
    set (m1 := py_min (ac_interval a * 2) (ac_max a)) in *. set (m2 := py_min (m1 * e) (ac_max a)) in *. set (m3 := py_min (ac_interval a * 2 ^ Z.of_nat (S k)) (ac_max a)) in *.
    clearbody m1 m2 m3. rewrite P in C1, C3. clearbody e. clear P IH.
    assert (0 <= ac_interval a)%Q by lra.
    destruct A3 as [A3|A3], B3 as [B3|B3], C3 as [C3|C3]; rewrite ?A3 in *; nra.
Qed.

Lemma success_step a : good a -> (ac_interval (fst (loop_body a TaskOk)) == py_max (ac_interval a - (ac_max a - ac_orig a) * (1 # 8)) (ac_orig a))%Q.
Proof.
  intros _. cbn [loop_body fst ac_interval]. destruct (py_max_spec (ac_interval a - (ac_max a - ac_orig a) / 8) (ac_orig a)) as (A1 & A2 & A3).
  destruct (py_max_spec (ac_interval a - (ac_max a - ac_orig a) * (1 # 8)) (ac_orig a)) as (B1 & B2 & B3).
  assert (E : ((ac_max a - ac_orig a) / 8 == (ac_max a - ac_orig a) * (1 # 8))%Q) by field.
  set (x := py_max (ac_interval a - (ac_max a - ac_orig a) / 8) (ac_orig a)) in *. set (y := py_max (ac_interval a - (ac_max a - ac_orig a) * (1 # 8)) (ac_orig a)) in *. clearbody x y.
  rewrite E in A1, A3. destruct A3, B3; lra.
Qed.
Lemma successes_bound k : forall a, good a ->
  (interval_after a (successes k) <= py_max (ac_interval a - inject_Z (Z.of_nat k) * ((ac_max a - ac_orig a) * (1 # 8))) (ac_orig a))%Q.
Proof.
  unfold interval_after, successes. induction k as [|k IH]; intros a G.
  - cbn [repeat run_loop fst]. destruct (py_max_spec (ac_interval a - inject_Z (Z.of_nat 0) * ((ac_max a - ac_orig a) * (1 # 8))) (ac_orig a)) as (A & _). change (inject_Z (Z.of_nat 0)) with 0%Q in *. lra.
  - cbn [repeat run_loop]. pose proof (success_step a G) as Es. pose proof (body_good a TaskOk G) as G1. pose proof (body_params a TaskOk) as (P1 & P2 & _).
    assert (Ego : snd (loop_body a TaskOk) = true) by reflexivity. destruct (loop_body a TaskOk) as [a1 go]. cbn [fst snd] in *. subst go.
    specialize (IH a1 G1). destruct (run_loop a1 (repeat TaskOk k)) as [[a2 n] al]. cbn [fst] in *. rewrite P1, P2 in IH.
    destruct (py_max_spec (ac_interval a1 - inject_Z (Z.of_nat k) * ((ac_max a - ac_orig a) * (1 # 8))) (ac_orig a)) as (A1 & A2 & A3).
    destruct (py_max_spec (ac_interval a - inject_Z (Z.of_nat (S k)) * ((ac_max a - ac_orig a) * (1 # 8))) (ac_orig a)) as (B1 & B2 & B3).
    destruct (py_max_spec (ac_interval a - (ac_max a - ac_orig a) * (1 # 8)) (ac_orig a)) as (C1 & C2 & C3).
    rewrite Nat2Z.inj_succ in *. unfold Z.succ in *. rewrite inject_Z_plus in *. change (inject_Z 1) with 1%Q in *.
    assert (K : (0 <= inject_Z (Z.of_nat k))%Q) by (change 0%Q with (inject_Z 0); rewrite <- Zle_Qle; lia).
    destruct G as (G1' & G2' & G3').
    set (kk := inject_Z (Z.of_nat k)) in *. set (d := ((ac_max a - ac_orig a) * (1 # 8))%Q) in *.
    assert (0 <= d)%Q by (unfold d; lra).
    match goal with |- (_ <= ?y)%Q => set (Y := y) in * end. clearbody kk d Y.
    assert (0 <= kk * d)%Q by nra.
    destruct A3 as [A3|A3]; [|lra]. rewrite A3 in IH. rewrite Es in IH. destruct C3 as [C3|C3]; rewrite C3 in IH; lra.
Qed.
Lemma eight_successes a : good a -> (interval_after a (successes 8) == ac_orig a)%Q.
Proof.
  intros G. pose proof (successes_bound 8 a G) as H. pose proof (run_good (successes 8) a G) as (_ & R & _). destruct (run_params (successes 8) a) as [P _]. rewrite P in R.
  unfold interval_after in *. destruct (py_max_spec (ac_interval a - inject_Z (Z.of_nat 8) * ((ac_max a - ac_orig a) * (1 # 8))) (ac_orig a)) as (A1 & A2 & A3).
  destruct G as (G1 & G2 & G3). set (I := ac_interval (fst (fst (run_loop a (successes 8))))) in *. clearbody I.
  change (inject_Z (Z.of_nat 8)) with 8%Q in *. destruct A3 as [A3|A3]; rewrite A3 in H; lra.
Qed.

Lemma loop_continues os : forall a, (forall o, In o os -> ordinary o \/ (o = TaskExits /\ ac_daemon a = true)) -> calls a os = length os /\ still_running a os = true.
Proof.
  unfold calls, still_running. induction os as [|o os IH]; intros a H; auto. cbn [run_loop].
  assert (Ho : snd (loop_body a o) = true) by (destruct (H o (or_introl eq_refl)) as [[->| ->]|[-> E]]; cbn; auto).
  pose proof (body_params a o) as (_ & _ & P). destruct (loop_body a o) as [a1 go]. cbn [fst snd] in *. subst go.
  destruct (IH a1) as [I1 I2]; [intros o' Ho'; rewrite P; apply H; right; auto|]. destruct (run_loop a1 os) as [[a2 n] al]. cbn [fst snd length] in *. auto.
Qed.

(** With [max_interval] below [interval] every success adds the difference. *)
Lemma inverted_step a : (ac_max a < ac_orig a)%Q -> (ac_orig a <= ac_interval a)%Q ->
  (ac_interval a + (ac_orig a - ac_max a) * (1 # 8) <= ac_interval (fst (loop_body a TaskOk)))%Q.
Proof.
  intros H1 H2. cbn [loop_body fst ac_interval]. destruct (py_max_spec (ac_interval a - (ac_max a - ac_orig a) / 8) (ac_orig a)) as (A1 & _).
  assert (E : ((ac_max a - ac_orig a) / 8 == (ac_max a - ac_orig a) * (1 # 8))%Q) by field.
  set (x := py_max (ac_interval a - (ac_max a - ac_orig a) / 8) (ac_orig a)) in *. clearbody x. rewrite E in A1. lra.
Qed.
Lemma inverted_grows k : forall a, (ac_max a < ac_orig a)%Q -> (ac_orig a <= ac_interval a)%Q ->
  (ac_interval a + inject_Z (Z.of_nat k) * ((ac_orig a - ac_max a) * (1 # 8)) <= interval_after a (successes k))%Q.
Proof.
  unfold interval_after, successes. induction k as [|k IH]; intros a H1 H2; [cbn [repeat run_loop fst]; change (inject_Z (Z.of_nat 0)) with 0%Q; lra|].
  cbn [repeat run_loop]. pose proof (inverted_step a H1 H2) as S0. pose proof (body_params a TaskOk) as (P1 & P2 & _).
  assert (Ego : snd (loop_body a TaskOk) = true) by reflexivity. destruct (loop_body a TaskOk) as [a1 go]. cbn [fst snd] in *. subst go.
  specialize (IH a1). rewrite P1, P2 in IH. specialize (IH H1). destruct (run_loop a1 (repeat TaskOk k)) as [[a2 n] al]. cbn [fst] in *.
  rewrite Nat2Z.inj_succ. unfold Z.succ. rewrite inject_Z_plus. change (inject_Z 1) with 1%Q.
  assert (IH' := IH ltac:(lra)). lra.
Qed.
