(** Invariants of the actor lifecycle. *)
From Verif Require Import model.PyBase model.Actor spec.ActorSpec.
Open Scope nat_scope.

Lemma set_nth_length {A} i (x : A) l : length (set_nth i x l) = length l.
Proof. revert i. induction l as [|y l IH]; intros [|i]; simpl; auto. Qed.
Lemma nth_set_nth {A} i (x : A) l j : nth_error (set_nth i x l) j = if (j =? i) && (j <? length l) then Some x else nth_error l j.
Proof.
  revert i j. induction l as [|y l IH]; intros i j.
  - destruct i, j; simpl; rewrite ?andb_false_r; auto.
  - destruct i as [|i], j as [|j]; auto. apply (IH i j).
Qed.
Lemma nth_some_lt {A} (l : list A) i x : nth_error l i = Some x -> i < length l.
Proof. intros H. apply nth_error_Some. congruence. Qed.

(** Only the current thread can be alive; the controller's knowledge about
    dead threads is stable. *)
Definition only_current (s : lstate) : Prop := forall i p, nth_error (l_workers s) i = Some p -> pc_alive p = true -> l_thread s = Some i.
Definition none_alive (s : lstate) : Prop := forall i p, nth_error (l_workers s) i = Some p -> pc_alive p = false.
Definition thread_ok (s : lstate) : Prop := forall i, l_thread s = Some i -> i < length (l_workers s).
Definition knows_dead (c : cpc) : bool := match c with CStart2 | CStart3 | CStart4 | CStopClear | CJoinClear | CJoinRet false => true | _ => false end.
Definition linv (s : lstate) : Prop := only_current s /\ thread_ok s /\ (knows_dead (l_ctl s) = true -> none_alive s).

Lemma not_alive_none s : only_current s -> thread_ok s -> l_alive s = false -> none_alive s.
Proof.
  intros H T A i p Hi. destruct (pc_alive p) eqn:E; auto. specialize (H i p Hi E). unfold l_alive in A. rewrite H, Hi in A. congruence.
Qed.
Lemma at_w_inv s i p p' : nth_error (l_workers s) i = Some p -> pc_alive p = true -> linv s -> linv (at_w s i p').
Proof.
  intros Hi Hp (I1 & I2 & I3). split; [|split].
  - intros j q Hj Hq. cbn [at_w l_workers l_thread] in *. rewrite nth_set_nth in Hj. destruct ((j =? i) && (j <? length (l_workers s))) eqn:E.
    + apply andb_true_iff in E. destruct E as [E _]. apply Nat.eqb_eq in E. subst j. eapply I1; eauto.
    + eapply I1; eauto.
  - intros j Hj. cbn [at_w l_workers l_thread] in *. rewrite set_nth_length. auto.
  - intros K. exfalso. cbn [at_w l_ctl] in K. specialize (I3 K i p Hi). congruence.
Qed.
Lemma with_stop_inv s b : linv s -> linv (with_stop s b). Proof. auto. Qed.
Lemma at_c_inv s c : linv s -> (knows_dead c = true -> none_alive s) -> linv (at_c s c). Proof. intros (I1 & I2 & I3) H. split; [|split]; auto. Qed.

Lemma lstep_inv s l s' : lstep s l s' -> linv s -> linv s'.
Proof.
  intros St I. pose proof I as (I1 & I2 & I3).
  destruct St; try (eapply at_w_inv; eauto; fail); try (apply at_c_inv; [auto | cbn; try discriminate; auto using not_alive_none]; fail).
  - apply at_c_inv; auto. intros _. apply I3. rewrite H. auto.
  - split; [|split]; auto. intros _. apply I3. cbn [l_ctl]. rewrite H. auto.
  - assert (NA : none_alive s) by (apply I3; rewrite H; auto). split; [|split].
    + intros i p Hi Hp. cbn [l_workers l_thread] in *. destruct (Nat.lt_ge_cases i (length (l_workers s))) as [L|L].
      * rewrite nth_error_app1 in Hi by auto. specialize (NA i p Hi). congruence.
      * rewrite nth_error_app2 in Hi by auto. destruct (i - length (l_workers s)) as [|k] eqn:E; [f_equal; lia|]. destruct k; discriminate.
    + intros i Hi. cbn [l_workers l_thread] in *. inversion Hi; subst. rewrite app_length. simpl. lia.
    + discriminate.
  - apply at_c_inv; auto. intros _. intros i p Hi. cbn [with_stop l_workers] in Hi. eapply I3; eauto. rewrite H. auto.
  - split; [|split]; [| |discriminate].
    + intros i p Hi Hp. cbn [l_workers] in Hi. rewrite nth_error_map in Hi. destruct (nth_error (l_workers s) i); inversion Hi; subst. discriminate.
    + intros i Hi. cbn [l_workers l_thread] in *. rewrite map_length. auto.
Qed.
Lemma lsteps_inv s tr s' : lsteps s tr s' -> linv s -> linv s'.
Proof. induction 1; auto. intros. apply IHlsteps. eapply lstep_inv; eauto. Qed.
Lemma init_inv pid : linv (l_init pid).
Proof. split; [|split]; try discriminate; intros i p Hi; destruct i; discriminate. Qed.
Lemma exec_inv tr s : execution tr s -> linv s.
Proof. intros (pid & H). eapply lsteps_inv; eauto. apply init_inv. Qed.

Lemma at_most_one s : linv s -> alive_workers s <= 1.
Proof.
  intros (I1 & _). unfold alive_workers.
  assert (H : forall (l : list wpc) (t : option nat) k, (forall i p, nth_error l i = Some p -> pc_alive p = true -> t = Some (k + i)) -> length (filter pc_alive l) <= 1).
  { induction l as [|p l IH]; intros t k Hl; [simpl; lia|]. simpl. destruct (pc_alive p) eqn:E.
    - assert (Z0 : filter pc_alive l = []).
      { destruct (filter pc_alive l) as [|q r] eqn:F; auto. exfalso. assert (Hq : In q (filter pc_alive l)) by (rewrite F; left; auto). apply filter_In in Hq. destruct Hq as [Hq1 Hq2].
        apply In_nth_error in Hq1. destruct Hq1 as (j & Hj). pose proof (Hl 0 p eq_refl E). pose proof (Hl (S j) q Hj Hq2). assert (Some (k + 0) = Some (k + S j)) by congruence. inversion H1; lia. }
      rewrite Z0. simpl. lia.
    - apply (IH t (S k)). intros i q Hi Hq. rewrite (Hl (S i) q Hi Hq). f_equal. lia. }
  apply (H (l_workers s) (l_thread s) 0). intros i p Hi Hp. apply (I1 i p Hi Hp).
Qed.
Lemma none_alive_zero s : none_alive s -> alive_workers s = 0.
Proof.
  intros H. unfold alive_workers. assert (G : forall l, (forall i p, nth_error l i = Some p -> pc_alive p = false) -> filter pc_alive l = []).
  { induction l as [|p l IH]; intros Hl; auto. simpl. rewrite (Hl 0 p eq_refl). apply IH. intros i q Hi. apply (Hl (S i) q Hi). }
  rewrite (G _ H). auto.
Qed.

(** Nothing alive and no start under way. *)
Definition in_start (c : cpc) : bool := match c with CStart1 | CStart2 | CStart3 | CStart4 => true | _ => false end.
Lemma quiet_step s l s' : lstep s l s' -> none_alive s -> in_start (l_ctl s) = false -> l <> LCall OStart ->
  none_alive s' /\ in_start (l_ctl s') = false /\ (forall w, l <> LTask w).
Proof.
  intros St NA NS NL. destruct St; try (exfalso; specialize (NA _ _ H); discriminate); try (exfalso; rewrite H in NS; discriminate);
    try (split; [|split; [auto|intros; discriminate]]; auto; fail).
  - congruence.
  - split; [|split; [auto|discriminate]]. intros i p Hi. cbn [l_workers] in Hi. rewrite nth_error_map in Hi. destruct (nth_error (l_workers s) i); inversion Hi; subst. auto.
Qed.
Lemma quiet_steps s tr s' : lsteps s tr s' -> none_alive s -> in_start (l_ctl s) = false -> no_start tr -> task_calls tr = 0 /\ none_alive s'.
Proof.
  induction 1 as [s|s l s1 tr s2 St Ss IH]; intros NA NS HN; [auto|].
  destruct (quiet_step s l s1 St NA NS) as (Q1 & Q2 & Q3); [intros ->; apply HN; left; auto|].
  destruct (IH Q1 Q2) as [R1 R2]; [intros Hin; apply HN; right; auto|]. split; auto.
  unfold task_calls in *. simpl. destruct l; auto. exfalso. eapply Q3; reflexivity.
Qed.

(** Stop requested and not withdrawn: at most [n] further task calls. *)
Definition stopped (n : nat) (s : lstate) : Prop :=
  in_start (l_ctl s) = false /\
  (none_alive s \/ exists i p, l_thread s = Some i /\ nth_error (l_workers s) i = Some p /\
     match p with
     | WTask => 1 <= n /\ l_stopping s = true
     | WTest | WWait => l_stopping s = true
     | _ => True
     end).
Lemma stopped_step n s l s' : lstep s l s' -> linv s -> stopped n s -> l <> LCall OStart ->
  match l with LTask _ => 1 <= n /\ stopped (n - 1) s' | _ => stopped n s' end.
Proof.
  intros St I [NS D] NL. pose proof I as (I1 & I2 & I3).
  destruct D as [NA|(i & p & Ht & Hi & Hp)].
  { destruct (quiet_step s l s' St NA NS NL) as (Q1 & Q2 & Q3). destruct l; try (split; auto; fail). exfalso. eapply Q3; reflexivity. }
  assert (HL : i < length (l_workers s)) by (eapply nth_some_lt; eauto).
  assert (Hget : forall q, nth_error (set_nth i q (l_workers s)) i = Some q).
  { intros q. rewrite nth_set_nth, Nat.eqb_refl. destruct (Nat.ltb_spec i (length (l_workers s))); auto; lia. }
  assert (Same : forall j q, nth_error (l_workers s) j = Some q -> pc_alive q = true -> j = i) by (intros j q Hj Hq; specialize (I1 j q Hj Hq); congruence).
  assert (KD : knows_dead (l_ctl s) = true -> pc_alive p = false) by (intros K; exact (I3 K i p Hi)).
  destruct St; try (exfalso; rewrite H in NS; discriminate);
    try (pose proof (Same _ _ H eq_refl); subst i0; rewrite H in Hi; injection Hi as Hi; subst p; cbn beta iota in Hp).
  - split; auto. right. exists i, WFinally. split; [exact Ht|]. split; [apply Hget|auto].
  - exfalso. congruence.
  - destruct Hp as [Hn Hs]. split; auto. split; auto. right. exists i, WWait. split; [exact Ht|]. split; [apply Hget|auto].
  - destruct Hp as [Hn Hs]. split; auto. split; auto. right. exists i, WFinally. split; [exact Ht|]. split; [apply Hget|auto].
  - split; auto. right. exists i, WTest. split; [exact Ht|]. split; [apply Hget|auto].
  - split; auto. right. exists i, WExit. split; [exact Ht|]. split; [apply Hget|auto].
  - split; auto. right. exists i, WDead. split; [exact Ht|]. split; [apply Hget|auto].
  - congruence.
  - split; auto. right. exists i, p. auto.
  - split; auto. right. exists i, p. auto.
  - split; auto. right. exists i, p. auto.
  - split; auto. right. exists i, p. auto.
  - split; auto. right. exists i, p. split; auto. split; auto. cbn [at_c with_stop l_stopping]. destruct p; auto. destruct Hp; auto.
  - split; auto. right. exists i, p. split; auto. split; auto. rewrite H in KD. specialize (KD eq_refl). destruct p; auto; discriminate.
  - split; auto. right. exists i, p. auto.
  - split; auto. right. exists i, p. auto.
  - split; auto. right. exists i, p. auto.
  - split; auto. right. exists i, p. auto.
  - split; auto. right. exists i, p. auto.
  - split; auto. right. exists i, p. auto.
  - split; auto. right. exists i, p. split; auto. split; auto. rewrite H in KD. specialize (KD eq_refl). destruct p; auto; discriminate.
  - split; auto. right. exists i, p. auto.
  - split; auto. left. intros j q Hj. cbn [l_workers] in Hj. rewrite nth_error_map in Hj. destruct (nth_error (l_workers s) j); inversion Hj; subst. auto.
Qed.
Lemma stopped_steps s tr s' : lsteps s tr s' -> forall n, linv s -> stopped n s -> no_start tr -> task_calls tr <= n.
Proof.
  induction 1 as [s|s l s1 tr s2 St Ss IH]; intros n I S0 HN; [unfold task_calls; simpl; lia|].
  pose proof (stopped_step n s l s1 St I S0) as H. assert (NL : l <> LCall OStart) by (intros ->; apply HN; left; auto). specialize (H NL).
  pose proof (lstep_inv s l s1 St I) as I'. assert (HN' : no_start tr) by (intros Hin; apply HN; right; auto).
  destruct l; try (specialize (IH n I' H HN'); unfold task_calls in *; simpl; exact IH).
  destruct H as [H1 H2]. specialize (IH (n - 1) I' H2 HN'). unfold task_calls in *. simpl. lia.
Qed.
Lemma stop_returns s r s' : linv s -> (l_ctl s = CStopSet \/ l_ctl s = CStopClear) -> lstep s (LRet r) s' -> stopped 1 s'.
Proof.
  intros I C St. pose proof I as (I1 & I2 & I3). destruct C as [C|C]; inversion St; subst; try congruence.
  - split; auto. destruct (l_alive s) eqn:A; [right | left; apply not_alive_none in A; auto].
    unfold l_alive in A. destruct (l_thread s) as [i|] eqn:Et; [|discriminate]. destruct (nth_error (l_workers s) i) as [p|] eqn:Ei; [|discriminate].
    exists i, p. split; auto. split; auto. destruct p; auto.
  - split; auto. left. intros i p Hi. apply (I3 ltac:(rewrite C; auto) i p Hi).
Qed.

(** ** Starting again, and the end of a stopped worker *)
Definition wlabel (l : label) : Prop := match l with LTau | LTask _ => True | _ => False end.
Lemma none_alive_count s : none_alive s -> alive_workers s = 0.
Proof.
  unfold none_alive, alive_workers. intros H. destruct (filter pc_alive (l_workers s)) as [|p r] eqn:E; auto. exfalso.
  assert (Hp : In p (filter pc_alive (l_workers s))) by (rewrite E; left; auto). apply filter_In in Hp as [Hp A]. apply In_nth_error in Hp as (i & Hi). specialize (H i p Hi). congruence.
Qed.
(** What start knows: no worker, and no reason to refuse. *)
Definition startable (s : lstate) : Prop := none_alive s /\ (l_apid s <> Some (l_pid s) \/ l_stopping s = false).
Lemma not_alive_l s : none_alive s -> l_alive s = false.
Proof.
  intros NA. unfold l_alive. destruct (l_thread s) as [i|]; auto. destruct (nth_error (l_workers s) i) as [p|] eqn:E; auto. exact (NA i p E).
Qed.
Definition starting (s : lstate) : Prop :=
  none_alive s /\
  match l_ctl s with
  | CStart1 | CStart2 => l_apid s <> Some (l_pid s) \/ l_stopping s = false
  | CStart3 => True
  | CStart4 => l_stopping s = false
  | _ => False
  end.
Lemma starting_step s l s' : starting s -> lstep s l s' ->
  match l with
  | LRet r => r = RNone /\ l_ctl s' = CIdle /\ l_stopping s' = false /\ alive_workers s' = 1 /\ l_alive s' = true
  | _ => starting s'
  end.
Proof.
  intros [NA C] St. pose proof (not_alive_l s NA) as NL.
  destruct St; try (exfalso; specialize (NA _ _ H); discriminate); rewrite H in C; try contradiction; try (split; [exact NA|cbn; auto]; fail).
  - congruence.
  - destruct C as [C|C]; congruence.
  - split; [reflexivity|]. split; [reflexivity|]. split; [exact C|]. split.
    + unfold alive_workers. cbn [l_workers]. rewrite filter_app, app_length. pose proof (none_alive_count s NA) as Z0. unfold alive_workers in Z0. rewrite Z0. reflexivity.
    + unfold l_alive. cbn [l_thread l_workers]. rewrite nth_error_app2, Nat.sub_diag by lia. reflexivity.
Qed.
Lemma starting_steps s tr s' : lsteps s tr s' -> starting s -> (forall r, ~ In (LRet r) tr) -> starting s'.
Proof.
  induction 1 as [s|s l s1 tr s2 St Ss IH]; intros C N; auto. apply IH; [|intros r Hr; apply (N r); right; auto].
  pose proof (starting_step s l s1 C St) as H. destruct l; auto. exfalso. apply (N r). left. auto.
Qed.
Lemma starting_progress s : starting s -> exists l s', lstep s l s'.
Proof.
  intros [NA C]. pose proof (not_alive_l s NA). destruct (l_ctl s) eqn:E; try contradiction.
  - do 2 eexists. apply C_start_dead; auto.
  - do 2 eexists. apply C_start_ok; auto.
  - do 2 eexists. apply C_start_clear; auto.
  - do 2 eexists. apply C_start_spawn; auto.
Qed.

(** How many steps a worker has left once the flag is set. *)
Definition left (p : wpc) : nat := match p with WTask => 5 | WWait => 4 | WTest => 3 | WFinally => 2 | WExit => 1 | WDead => 0 end.
Definition winding_down (s : lstate) (n : nat) : Prop :=
  l_ctl s = CIdle /\
  ((none_alive s /\ n = 0) \/ exists i p, l_thread s = Some i /\ nth_error (l_workers s) i = Some p /\ pc_alive p = true /\ n = left p /\
     match p with WTask | WTest | WWait => l_stopping s = true | _ => True end).
Lemma winding_step s l s' n : linv s -> winding_down s n -> lstep s l s' -> wlabel l -> exists m, m < n /\ winding_down s' m.
Proof.
  intros I [C D] St WL. pose proof I as (I1 & I2 & I3).
  destruct D as [[NA ->]|(i & p & Ht & Hi & Ha & Hn & Hp)].
  { destruct St; try (exfalso; specialize (NA _ _ H); discriminate); try (exfalso; congruence); contradiction. }
  assert (HL : i < length (l_workers s)) by (eapply nth_some_lt; eauto).
  assert (Hget : forall q, nth_error (set_nth i q (l_workers s)) i = Some q).
  { intros q. rewrite nth_set_nth, Nat.eqb_refl. destruct (Nat.ltb_spec i (length (l_workers s))); auto; lia. }
  assert (Same : forall j q, nth_error (l_workers s) j = Some q -> pc_alive q = true -> j = i) by (intros j q Hj Hq; specialize (I1 j q Hj Hq); congruence).
  destruct St; try (exfalso; congruence); try contradiction;
    pose proof (Same _ _ H eq_refl); subst i0; rewrite H in Hi; injection Hi as Hi; subst p; cbn [left] in *.
  - exists 2. split; [lia|]. split; auto. right. exists i, WFinally. split; [exact Ht|]. split; [apply Hget|auto].
  - exfalso. congruence.
  - exists 4. split; [lia|]. split; auto. right. exists i, WWait. split; [exact Ht|]. split; [apply Hget|auto].
  - exists 2. split; [lia|]. split; auto. right. exists i, WFinally. split; [exact Ht|]. split; [apply Hget|auto].
  - exists 3. split; [lia|]. split; auto. right. exists i, WTest. split; [exact Ht|]. split; [apply Hget|auto].
  - exists 1. split; [lia|]. split; auto. right. exists i, WExit. split; [exact Ht|]. split; [apply Hget|auto].
  - exists 0. split; [lia|]. split; auto. left. split; auto. intros j q Hj. cbn [at_w l_workers] in Hj. rewrite nth_set_nth in Hj.
    destruct ((j =? i) && (j <? length (l_workers s))) eqn:E; [injection Hj as <-; auto|].
    destruct (pc_alive q) eqn:Eq; auto. specialize (Same j q Hj Eq). subst j. rewrite Nat.eqb_refl in E. cbn in E. apply Nat.ltb_ge in E. lia.
Qed.
Lemma winding_steps s tr s' : lsteps s tr s' -> forall n, linv s -> winding_down s n -> Forall wlabel tr -> exists m, length tr + m <= n /\ winding_down s' m.
Proof.
  induction 1 as [s|s l s1 tr s2 St Ss IH]; intros n I W F; [exists n; auto|]. inversion F; subst.
  destruct (winding_step _ _ _ _ I W St) as (m & Hm & W'); auto. destruct (IH m) as (k & Hk & W2); auto; [eapply lstep_inv; eauto|]. exists k. split; auto. cbn [length]. lia.
Qed.
Lemma winding_progress s n : winding_down s n -> n <> 0 -> exists l s', lstep s l s' /\ wlabel l.
Proof.
  intros [C [[_ ->]|(i & p & Ht & Hi & Ha & Hn & Hp)]] N; [congruence|]. destruct p; try discriminate.
  - do 2 eexists. split; [apply W_stop; eauto|exact I].
  - do 2 eexists. split; [eapply W_task; eauto|exact I].
  - do 2 eexists. split; [eapply W_wake; eauto|exact I].
  - do 2 eexists. split; [eapply W_finally; eauto|exact I].
  - do 2 eexists. split; [eapply W_dead; eauto|exact I].
Qed.
Lemma stop_winding s r s' : linv s -> (l_ctl s = CStopSet \/ l_ctl s = CStopClear) -> lstep s (LRet r) s' -> exists n, n <= 5 /\ winding_down s' n.
Proof.
  intros I C St. pose proof I as (I1 & I2 & I3). destruct C as [C|C]; inversion St; subst; try congruence.
  - destruct (l_alive s) eqn:A.
    + unfold l_alive in A. destruct (l_thread s) as [i|] eqn:Et; [|discriminate]. destruct (nth_error (l_workers s) i) as [p|] eqn:Ei; [|discriminate].
      exists (left p). split; [destruct p; cbn; lia|]. split; auto. right. exists i, p. repeat (split; auto). destruct p; auto.
    + apply not_alive_none in A; auto. exists 0. split; [lia|]. split; auto.
  - exists 0. split; [lia|]. split; auto. left. split; auto. intros i p Hi. apply (I3 ltac:(rewrite C; auto) i p Hi).
Qed.
(** Where the controlling thread is inside a call of [stop] or [join]. *)
Lemma stop_inside s tr s' : lsteps s tr s' -> (forall r, ~ In (LRet r) tr) ->
  l_ctl s = CStop1 \/ l_ctl s = CStopSet \/ l_ctl s = CStopClear -> l_ctl s' = CStop1 \/ l_ctl s' = CStopSet \/ l_ctl s' = CStopClear.
Proof.
  induction 1 as [s|s l s1 tr s2 St Ss IH]; intros N C; auto. apply IH; [intros r Hr; apply (N r); right; auto|].
  destruct St; cbn; auto; try (exfalso; rewrite H in C; destruct C as [C|[C|C]]; discriminate); exfalso; eapply N; left; reflexivity.
Qed.
Lemma join_inside s tr s' : lsteps s tr s' -> (forall r, ~ In (LRet r) tr) -> linv s ->
  (l_ctl s = CJoin1 false \/ l_ctl s = CJoin2 false \/ (l_ctl s = CJoin3 /\ none_alive s) \/ l_ctl s = CJoinClear \/ l_ctl s = CJoinRet false) ->
  (l_ctl s' = CJoin1 false \/ l_ctl s' = CJoin2 false \/ (l_ctl s' = CJoin3 /\ none_alive s') \/ l_ctl s' = CJoinClear \/ l_ctl s' = CJoinRet false).
Proof.
  induction 1 as [s|s l s1 tr s2 St Ss IH]; intros N I C; auto. apply IH; [intros r Hr; apply (N r); right; auto|eapply lstep_inv; eauto|].
  pose proof I as (I1 & I2 & I3).
  destruct St; try (exfalso; eapply N; left; reflexivity); cbn [at_c at_w with_stop l_ctl];
    try (destruct C as [C|[C|[[C NA]|[C|C]]]]; try (exfalso; congruence); auto; try (exfalso; specialize (NA _ _ H); discriminate); fail).
  - destruct C as [C|[C|[[C NA]|[C|C]]]]; try congruence. rewrite H in C. injection C as ->. auto.
  - right. right. left. split; auto. apply not_alive_none; auto.
  - destruct C as [C|[C|[[C NA]|[C|C]]]]; try congruence. rewrite (not_alive_l _ NA) in H0. discriminate.
Qed.
(** When [join] is about to return False nobody can set the flag again. *)
Lemma flag_steps s tr s' : lsteps s tr s' -> linv s -> (l_ctl s = CJoinRet false -> l_stopping s = false) -> (l_ctl s' = CJoinRet false -> l_stopping s' = false).
Proof.
  induction 1 as [s|s l s1 tr s2 St Ss IH]; intros I F; auto. apply IH; [eapply lstep_inv; eauto|]. pose proof I as (_ & _ & I3).
  intros C. destruct St; cbn in *; try discriminate; auto; try congruence.
Qed.
Lemma join_flag tr s : execution tr s -> l_ctl s = CJoinRet false -> l_stopping s = false.
Proof. intros (pid & E). apply (flag_steps _ _ _ E); [apply init_inv|discriminate]. Qed.

(** A worker that leaves its loop clears the flag on its way out. *)
Definition in_loop (p : wpc) : bool := match p with WTest | WTask | WWait => true | _ => false end.
Definition ending_ok (s : lstate) : Prop :=
  l_ctl s = CIdle /\ (l_stopping s = false \/ exists i p, nth_error (l_workers s) i = Some p /\ (in_loop p = true \/ p = WFinally)).
Lemma ending_step s l s' : ending_ok s -> lstep s l s' -> wlabel l -> ending_ok s'.
Proof.
  intros [C D] St WL.
  assert (K : forall i p q, nth_error (l_workers s) i = Some p -> (in_loop q = true \/ q = WFinally) -> ending_ok (at_w s i q)).
  { intros i p q Hi Hq. split; [exact C|]. right. exists i, q. split; auto. cbn. rewrite nth_set_nth, Nat.eqb_refl.
    assert (HL : i < length (l_workers s)) by (eapply nth_some_lt; eauto). apply Nat.ltb_lt in HL. rewrite HL. reflexivity. }
  destruct St; try contradiction; try (exfalso; congruence); try (eapply K; [eassumption|cbn; auto]; fail).
  - split; [exact C|]. left. reflexivity.
  - split; [exact C|]. destruct D as [D|(j & p & Hj & Hp)]; [left; exact D|]. right. exists j, p. split; auto. cbn. rewrite nth_set_nth.
    destruct (j =? i) eqn:E; auto. apply Nat.eqb_eq in E. subst j. rewrite H in Hj. injection Hj as <-. destruct Hp; discriminate.
Qed.
Lemma ending_steps s tr s' : lsteps s tr s' -> ending_ok s -> Forall wlabel tr -> ending_ok s'.
Proof. induction 1 as [s|s l s1 tr s2 St Ss IH]; intros C F; auto. inversion F; subst. apply IH; auto. eapply ending_step; eauto. Qed.
Lemma count_none_alive s : alive_workers s = 0 -> none_alive s.
Proof.
  unfold alive_workers, none_alive. intros H i p Hi. destruct (pc_alive p) eqn:E; auto. exfalso. apply nth_error_In in Hi.
  assert (Hf : In p (filter pc_alive (l_workers s))) by (apply filter_In; auto). destruct (filter pc_alive (l_workers s)); [destruct Hf|discriminate].
Qed.
Lemma ending_startable s : ending_ok s -> alive_workers s = 0 -> l_stopping s = false.
Proof.
  intros [_ [D|(i & p & Hi & Hp)]] A; auto. pose proof (count_none_alive s A i p Hi) as N. destruct p, Hp; try discriminate.
Qed.
(** A stop that finds no worker leaves the flag cleared. *)
Lemma stop_dead_inside s tr s' : lsteps s tr s' -> (forall r, ~ In (LRet r) tr) -> none_alive s ->
  l_ctl s = CStop1 \/ l_ctl s = CStopClear -> none_alive s' /\ (l_ctl s' = CStop1 \/ l_ctl s' = CStopClear).
Proof.
  induction 1 as [s|s l s1 tr s2 St Ss IH]; intros N NA C; auto. apply IH; [intros r Hr; apply (N r); right; auto| |].
  - assert (Q : none_alive s1 /\ in_start (l_ctl s1) = false /\ (forall w, l <> LTask w)).
    { apply (quiet_step s l s1 St NA); [destruct C as [->| ->]; reflexivity|]. intros ->. inversion St; subst. destruct C; congruence. }
    apply Q.
  - pose proof (not_alive_l s NA) as NL.
    destruct St; try (exfalso; specialize (NA _ _ H); discriminate); try (exfalso; destruct C as [C|C]; congruence); try (exfalso; eapply N; left; reflexivity); cbn; auto.
Qed.
