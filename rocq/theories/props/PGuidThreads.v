(** Guids with threads and forks: C74. *)
From Verif Require Import model.PyBase model.Json model.Core model.GuidThreads spec.GuidSpec proof.CoreLib props.PGuid.
Open Scope N_scope.

(** The ids thread [t] got guids for, in order. *)
Definition ids_of (t : nat) (out : list (nat * N * text)) : list N :=
  flat_map (fun x => if Nat.eqb (fst (fst x)) t then [snd (fst x)] else []) out.
(** Every guid in [out] is hexadecimal and stands for [base] plus the id. *)
Definition based (base : N) (out : list (nat * N * text)) : Prop :=
  forall t id x, In (t, id, x) out -> hex_value x = base + id /\ Forall hex_char x.

Definition passing (th : gthread) : Prop := match gt_pc th with GIdle | GCheck _ | GRead _ => True | _ => False end.
(** The globals belong to this process and no thread is reseeding. *)
Definition owned (base : N) (w : gproc) : Prop :=
  g_pid (gp_glob w) = gp_me w /\ g_start (gp_glob w) = base /\ forall i th, nth_error (gp_threads w) i = Some th -> passing th.
Lemma hex_based base id : hex_value (hex (base + id)) = base + id /\ Forall hex_char (hex (base + id)).
Proof. split; [apply hex_value_hex | apply hex_digits_chars]. Qed.
Lemma gset_nth {A} (l : list A) t i a b : nth_error (list_set l t a) i = Some b -> b = a \/ nth_error l i = Some b.
Proof.
  destruct (Nat.eq_dec i t) as [->|N]; [|rewrite nth_error_list_set_neq by auto; auto].
  intros H. left. assert (L : (t < length l)%nat) by (rewrite <- (list_set_length l t a); apply nth_error_Some; congruence).
  rewrite nth_error_list_set_eq in H by auto. congruence.
Qed.
Lemma owned_step base t seed w w' : owned base w -> gstep t seed w = Some w' ->
  owned base w' /\ gp_me w' = gp_me w /\ gp_seeds w' = gp_seeds w /\ exists out, gp_out w' = gp_out w ++ out /\ based base out.
Proof.
  intros (P & S & T) H. unfold gstep in H. destruct (nth_error (gp_threads w) t) as [th|] eqn:E; [|discriminate].
  pose proof (T t th E) as Tt. unfold passing in Tt.
  assert (K : forall p todo g out, (match p with GIdle | GCheck _ | GRead _ => True | _ => False end) -> g = gp_glob w -> owned base (gat t p todo g out [] w)).
  { intros p todo g out Hp ->. split; [exact P|]. split; [exact S|]. intros i th' H'. cbn [gat gp_threads] in H'. apply gset_nth in H' as [->|H']; [exact Hp | exact (T i th' H')]. }
  destruct (gt_pc th) as [|id|id|id|id] eqn:Ep; try contradiction.
  - destruct (gt_todo th) as [|id todo]; [discriminate|]. injection H as <-. split; [apply K; auto|]. cbn. rewrite app_nil_r. repeat split. exists []. split; [reflexivity|intros ? ? ? []].
  - injection H as <-. rewrite P, N.eqb_refl. split; [apply K; auto|]. cbn. rewrite app_nil_r. repeat split. exists []. split; [reflexivity|intros ? ? ? []].
  - injection H as <-. split; [apply K; auto|]. cbn. rewrite app_nil_r. repeat split. eexists. split; [reflexivity|]. intros t' id' x [H|[]]. injection H as <- <- <-. rewrite S. apply hex_based.
Qed.
Lemma owned_run base sc : forall w, owned base w ->
  owned base (gsched sc w) /\ gp_seeds (gsched sc w) = gp_seeds w /\ exists out, gp_out (gsched sc w) = gp_out w ++ out /\ based base out.
Proof.
  induction sc as [|[t seed] sc IH]; intros w O; cbn [gsched].
  - repeat split; try apply O. exists []. rewrite app_nil_r. split; [reflexivity|intros ? ? ? []].
  - destruct (gstep t seed w) as [w'|] eqn:E; [|apply IH, O]. destruct (owned_step _ _ _ _ _ O E) as (O' & _ & S & out & H1 & H2).
    destruct (IH w' O') as (A & B & out' & C & D). split; [exact A|]. split; [congruence|]. exists (out ++ out'). rewrite C, H1, app_assoc. split; [reflexivity|].
    intros t0 i x Hx. apply in_app_or in Hx as [Hx|Hx]; eauto.
Qed.
Lemma start_owned me start progs : owned start (process me (mkGuids me start) progs).
Proof.
  split; [reflexivity|]. split; [reflexivity|]. intros i th H. cbn in H. apply nth_error_In, in_map_iff in H as (p & <- & _). exact I.
Qed.
(** The answers of a thread are for its own requests, in order. *)
Definition pending (p : gpc) : list N := match p with GIdle => [] | GCheck i | GSetPid i | GSetStart i | GRead i => [i] end.
Definition answered_ok (progs : list (list N)) (w : gproc) : Prop :=
  length (gp_threads w) = length progs /\
  forall t th prog, nth_error (gp_threads w) t = Some th -> nth_error progs t = Some prog ->
    prog = ids_of t (gp_out w) ++ pending (gt_pc th) ++ gt_todo th.
Lemma ids_of_app t a b : ids_of t (a ++ b) = ids_of t a ++ ids_of t b.
Proof. apply flat_map_app. Qed.
Lemma answered_step progs t seed w w' : answered_ok progs w -> gstep t seed w = Some w' -> answered_ok progs w'.
Proof.
  intros [L A] H. unfold gstep in H. destruct (nth_error (gp_threads w) t) as [th|] eqn:E; [|discriminate].
  assert (Lt : (t < length (gp_threads w))%nat) by (apply nth_error_Some; congruence).
  assert (K : forall p todo g out seeds, (forall prog, nth_error progs t = Some prog -> prog = ids_of t (gp_out w ++ out) ++ pending p ++ todo) ->
    (forall t', t' <> t -> ids_of t' out = []) -> answered_ok progs (gat t p todo g out seeds w)).
  { intros p todo g out seeds H1 H2. split; [cbn; rewrite list_set_length; exact L|]. intros t' th' prog Ht Hp. cbn [gat gp_threads gp_out] in *.
    destruct (Nat.eq_dec t' t) as [->|N]; [rewrite nth_error_list_set_eq in Ht by auto; injection Ht as <-; cbn; auto|].
    rewrite nth_error_list_set_neq in Ht by auto. rewrite ids_of_app, H2, app_nil_r by auto. eauto. }
  pose proof (fun prog => A t th prog E) as At.
  destruct (gt_pc th) as [|id|id|id|id] eqn:Ep; cbn [pending app] in At.
  - destruct (gt_todo th) as [|id todo]; [discriminate|]. injection H as <-. apply K; [|reflexivity]. intros prog Hp. rewrite app_nil_r. rewrite (At prog Hp). reflexivity.
  - injection H as <-. apply K; [|reflexivity]. intros prog Hp. rewrite app_nil_r, (At prog Hp). destruct (gp_me w =? g_pid (gp_glob w)); reflexivity.
  - injection H as <-. apply K; [|reflexivity]. intros prog Hp. rewrite app_nil_r, (At prog Hp). reflexivity.
  - injection H as <-. apply K; [|reflexivity]. intros prog Hp. rewrite app_nil_r, (At prog Hp). reflexivity.
  - injection H as <-. apply K.
    + intros prog Hp. rewrite ids_of_app. cbn [ids_of flat_map fst snd]. rewrite Nat.eqb_refl. cbn [app pending]. rewrite <- app_assoc. exact (At prog Hp).
    + intros t' N. cbn. destruct (Nat.eqb_spec t t'); [congruence|reflexivity].
Qed.
Lemma answered_run progs sc : forall w, answered_ok progs w -> answered_ok progs (gsched sc w).
Proof.
  induction sc as [|[t seed] sc IH]; intros w H; cbn [gsched]; [exact H|]. destruct (gstep t seed w) as [w'|] eqn:E; [|apply IH, H]. apply IH. eapply answered_step; eauto.
Qed.
Lemma answered_start me g progs : answered_ok progs (process me g progs).
Proof.
  split; [cbn; apply map_length|]. intros t th prog H1 H2. cbn in *. rewrite (map_nth_error _ _ _ H2) in H1. injection H1 as <-. reflexivity.
Qed.

(** C74.  Without a fork: whatever the threads and the schedule, every guid is the
    process's start plus the id, so guids of different ids differ, and each thread
    gets the guids of its own requests in order. *)
Theorem C74_threads : forall me start progs sc,
  let w := gsched sc (process me (mkGuids me start) progs) in
  (forall t id x, In (t, id, x) (gp_out w) -> hex_value x = start + id /\ Forall hex_char x) /\
  (forall t id x t' id' x', In (t, id, x) (gp_out w) -> In (t', id', x') (gp_out w) -> id <> id' -> x <> x') /\
  (forall t prog, nth_error progs t = Some prog -> exists rest, prog = ids_of t (gp_out w) ++ rest).
Proof.
  intros me start progs sc w. destruct (owned_run start sc _ (start_owned me start progs)) as (_ & _ & out & H1 & H2). cbn [process gp_out app] in H1.
  assert (B : based start (gp_out w)) by (unfold w; rewrite H1; exact H2).
  split; [exact B|]. split.
  - intros t id x t' id' x' A A' N X. subst x'. destruct (B _ _ _ A) as [V _]. destruct (B _ _ _ A') as [V' _]. lia.
  - intros t prog Hp. destruct (answered_run progs sc _ (answered_start me (mkGuids me start) progs)) as [L Q]. fold w in L, Q.
    destruct (nth_error (gp_threads w) t) as [th|] eqn:E.
    + exists (pending (gt_pc th) ++ gt_todo th). eauto.
    + apply nth_error_None in E. rewrite L in E. apply nth_error_None in E. congruence.
Qed.
Print Assumptions C74_threads.

(** After a fork (the globals are the parent's): if one thread gets a guid before any
    other thread asks for one, it drew one seed and every guid of the process, before
    and after, is that seed plus the id. *)
Definition alone (t : nat) (w : gproc) : Prop := forall i th, nth_error (gp_threads w) i = Some th -> i <> t -> gt_pc th = GIdle.
Definition solo_inv (t : nat) (w : gproc) : Prop :=
  alone t w /\
  ((g_pid (gp_glob w) <> gp_me w /\ gp_out w = [] /\ gp_seeds w = [] /\
     forall th, nth_error (gp_threads w) t = Some th -> match gt_pc th with GIdle | GCheck _ | GSetPid _ => True | _ => False end) \/
   (g_pid (gp_glob w) = gp_me w /\ gp_out w = [] /\ gp_seeds w = [] /\ exists th, nth_error (gp_threads w) t = Some th /\ match gt_pc th with GSetStart _ => True | _ => False end) \/
   (exists s, owned s w /\ gp_seeds w = [s] /\ based s (gp_out w))).
Lemma solo_step t seed w w' : solo_inv t w -> gstep t seed w = Some w' -> solo_inv t w'.
Proof.
  intros [A I] H.
  assert (Al : forall p todo g out seeds, alone t (gat t p todo g out seeds w)).
  { intros p todo g out seeds i th H' N. cbn in H'. rewrite nth_error_list_set_neq in H' by auto. eauto. }
  destruct I as [(P & O & S & Th)|[(P & O & S & th0 & E0 & Th)|(s & Ow & S & B)]].
  - unfold gstep in H. destruct (nth_error (gp_threads w) t) as [th|] eqn:E; [|discriminate]. specialize (Th th eq_refl).
    assert (Lt : (t < length (gp_threads w))%nat) by (apply nth_error_Some; congruence).
    assert (K : forall p todo, (match p with GIdle | GCheck _ | GSetPid _ => True | _ => False end) -> solo_inv t (gat t p todo (gp_glob w) [] [] w)).
    { intros p todo Hp. split; [apply Al|]. left. cbn. rewrite O, S. repeat split; auto. intros th' H'. rewrite nth_error_list_set_eq in H' by auto. injection H' as <-. exact Hp. }
    destruct (gt_pc th) as [|id|id|id|id]; try contradiction.
    + destruct (gt_todo th) as [|id todo]; [discriminate|]. injection H as <-. apply K. exact I.
    + injection H as <-. destruct (N.eqb_spec (gp_me w) (g_pid (gp_glob w))); [congruence|]. apply K. exact I.
    + injection H as <-. split; [apply Al|]. right. left. cbn. rewrite O, S. repeat split. eexists. rewrite nth_error_list_set_eq by auto. split; [reflexivity|exact I].
  - unfold gstep in H. rewrite E0 in H. assert (Lt : (t < length (gp_threads w))%nat) by (apply nth_error_Some; congruence).
    destruct (gt_pc th0) as [|id|id|id|id]; try contradiction. injection H as <-. split; [apply Al|]. right. right. exists seed. repeat split; cbn; try exact P; try (rewrite S; reflexivity).
    + intros i th' H'. destruct (Nat.eq_dec i t) as [->|N].
      * rewrite nth_error_list_set_eq in H' by auto. injection H' as <-. exact I.
      * rewrite nth_error_list_set_neq in H' by auto. unfold passing. rewrite (A i th' H' N). exact I.
    + exfalso. match goal with H : In _ _ |- _ => cbn in H; rewrite O in H; exact H end.
    + exfalso. match goal with H : In _ _ |- _ => cbn in H; rewrite O in H; exact H end.
  - destruct (owned_step _ _ _ _ _ Ow H) as (O' & _ & S' & out & H1 & H2). split.
    + intros i th H' N. unfold gstep in H. destruct (nth_error (gp_threads w) t) as [th0|] eqn:E; [|discriminate].
      assert (X : nth_error (gp_threads w') i = nth_error (gp_threads w) i).
      { destruct (gt_pc th0); [destruct (gt_todo th0); [discriminate|]|..]; injection H as <-; cbn; apply nth_error_list_set_neq; auto. }
      rewrite X in H'. eauto.
    + right. right. exists s. split; [exact O'|]. split; [congruence|]. rewrite H1. intros t0 i x Hx. apply in_app_or in Hx as [Hx|Hx]; eauto.
Qed.
Lemma solo_run t sc : Forall (fun p => fst p = t) sc -> forall w, solo_inv t w -> solo_inv t (gsched sc w).
Proof.
  induction 1 as [|[t' seed] sc H F IH]; intros w I; cbn [gsched]; [exact I|]. cbn in H. subst t'. destruct (gstep t seed w) as [w'|] eqn:E; [|apply IH, I]. apply IH. eapply solo_step; eauto.
Qed.
Lemma gsched_app a b w : gsched (a ++ b) w = gsched b (gsched a w).
Proof. revert w. induction a as [|[t s] a IH]; intros w; cbn [app gsched]; auto. Qed.
Theorem C74_first_call_alone : forall me parent start progs t sc1 sc2,
  parent <> me -> Forall (fun p => fst p = t) sc1 ->
  let w1 := gsched sc1 (process me (mkGuids parent start) progs) in
  let w := gsched (sc1 ++ sc2) (process me (mkGuids parent start) progs) in
  gp_out w1 <> [] ->
  exists seed, gp_seeds w = [seed] /\ forall t id x, In (t, id, x) (gp_out w) -> hex_value x = seed + id.
Proof.
  intros me parent start progs t sc1 sc2 N F w1 w Ho.
  assert (I : solo_inv t (process me (mkGuids parent start) progs)).
  { split.
    - intros i th H _. cbn in H. apply nth_error_In, in_map_iff in H as (p & <- & _). reflexivity.
    - left. cbn. repeat split; auto. intros th H. apply nth_error_In, in_map_iff in H as (p & <- & _). exact I. }
  apply (solo_run t sc1 F) in I. fold w1 in I. destruct I as [_ [(_ & O & _)|[(_ & O & _)|(s & Ow & S & B)]]]; [congruence..|].
  exists s. unfold w. rewrite gsched_app. fold w1. destruct (owned_run s sc2 w1 Ow) as (_ & S2 & out & H1 & H2). split; [congruence|].
  rewrite H1. intros t0 id x Hx. apply in_app_or in Hx as [Hx|Hx]; [destruct (B _ _ _ Hx) | destruct (H2 _ _ _ Hx)]; auto.
Qed.
Print Assumptions C74_first_call_alone.
(** Whatever the schedule: once any thread has finished reseeding, every guid issued
    from then on is based on a seed drawn in this process. *)
Lemma seed_step t seed w w' : In (g_start (gp_glob w)) (gp_seeds w) -> gstep t seed w = Some w' ->
  In (g_start (gp_glob w')) (gp_seeds w') /\ incl (gp_seeds w) (gp_seeds w') /\
  exists out, gp_out w' = gp_out w ++ out /\ forall t id x, In (t, id, x) out -> exists s, In s (gp_seeds w') /\ hex_value x = s + id.
Proof.
  intros Hi H. unfold gstep in H. destruct (nth_error (gp_threads w) t) as [th|]; [|discriminate].
  assert (K : forall p todo, let w' := gat t p todo (gp_glob w) [] [] w in In (g_start (gp_glob w')) (gp_seeds w') /\ incl (gp_seeds w) (gp_seeds w') /\
    exists out, gp_out w' = gp_out w ++ out /\ forall t id x, In (t, id, x) out -> exists s, In s (gp_seeds w') /\ hex_value x = s + id).
  { intros p todo. cbn. rewrite app_nil_r. split; [exact Hi|]. split; [apply incl_refl|]. exists []. split; [reflexivity|intros ? ? ? []]. }
  destruct (gt_pc th) as [|id|id|id|id].
  - destruct (gt_todo th); [discriminate|]. injection H as <-. apply K.
  - injection H as <-. apply K.
  - injection H as <-. cbn. rewrite app_nil_r. split; [exact Hi|]. split; [apply incl_refl|]. exists []. split; [reflexivity|intros ? ? ? []].
  - injection H as <-. cbn. split; [apply in_or_app; right; left; reflexivity|]. split; [apply incl_appl, incl_refl|]. exists []. split; [reflexivity|intros ? ? ? []].
  - injection H as <-. cbn. rewrite app_nil_r. split; [exact Hi|]. split; [apply incl_refl|]. eexists. split; [reflexivity|]. intros t' id' x [X|[]]. injection X as <- <- <-. exists (g_start (gp_glob w)). split; [exact Hi|apply hex_value_hex].
Qed.
Lemma seed_run sc : forall w, In (g_start (gp_glob w)) (gp_seeds w) ->
  incl (gp_seeds w) (gp_seeds (gsched sc w)) /\
  exists out, gp_out (gsched sc w) = gp_out w ++ out /\ forall t id x, In (t, id, x) out -> exists s, In s (gp_seeds (gsched sc w)) /\ hex_value x = s + id.
Proof.
  induction sc as [|[t seed] sc IH]; intros w H; cbn [gsched].
  - split; [apply incl_refl|]. exists []. rewrite app_nil_r. split; [reflexivity|intros ? ? ? []].
  - destruct (gstep t seed w) as [w'|] eqn:E; [|apply IH, H]. destruct (seed_step _ _ _ _ H E) as (H' & I & out & O & B). destruct (IH w' H') as (I' & out' & O' & B').
    split; [eapply incl_tran; eauto|]. exists (out ++ out'). rewrite O', O, app_assoc. split; [reflexivity|]. intros t0 id x Hx. apply in_app_or in Hx as [Hx|Hx]; [|eauto]. destruct (B _ _ _ Hx) as (s & Hs & Hv). exists s. split; [apply I', Hs|exact Hv].
Qed.
Lemma seeded sc : forall w, (gp_seeds w = [] \/ In (g_start (gp_glob w)) (gp_seeds w)) -> gp_seeds (gsched sc w) = [] \/ In (g_start (gp_glob (gsched sc w))) (gp_seeds (gsched sc w)).
Proof.
  induction sc as [|[t seed] sc IH]; intros w H; cbn [gsched]; [exact H|]. destruct (gstep t seed w) as [w'|] eqn:E; [|apply IH, H]. apply IH.
  unfold gstep in E. destruct (nth_error (gp_threads w) t) as [th|]; [|discriminate].
  destruct (gt_pc th) as [|id|id|id|id]; [destruct (gt_todo th); [discriminate|]|..]; injection E as <-; cbn; rewrite ?app_nil_r; auto.
  right. apply in_or_app. right. left. reflexivity.
Qed.
Theorem C74_after_first_reseed : forall me parent start progs sc1 sc2,
  let w1 := gsched sc1 (process me (mkGuids parent start) progs) in
  let w := gsched sc2 w1 in
  gp_seeds w1 <> [] ->
  exists later, gp_out w = gp_out w1 ++ later /\
    forall t id x, In (t, id, x) later -> exists seed, In seed (gp_seeds w) /\ hex_value x = seed + id.
Proof.
  intros me parent start progs sc1 sc2 w1 w H. destruct (seeded sc1 (process me (mkGuids parent start) progs)) as [X|X]; [left; reflexivity|contradiction|]. apply (seed_run sc2 w1 X).
Qed.
Print Assumptions C74_after_first_reseed.
(** But between the assignments of _PID and of _GUID_START another thread passes the
    test and gets a guid of the parent: the child's second thread and the parent
    return the same guid for different actions with the same id. *)
Theorem C74_threads_after_fork_refuted : exists parent me start progs sc x,
  parent <> me /\
  let child := gsched sc (process me (mkGuids parent start) progs) in
  let par := gsched [(0%nat, 0); (0%nat, 0); (0%nat, 0)] (process parent (mkGuids parent start) [[8]]) in
  In (1%nat, 8, x) (gp_out child) /\ In (0%nat, 8, x) (gp_out par) /\ In (16 ^ 23) (gp_seeds child).
Proof.
  exists 7, 9, 1000, [[7]; [8]], [(0%nat, 0); (0%nat, 0); (0%nat, 0); (1%nat, 0); (1%nat, 0); (1%nat, 0); (0%nat, 16 ^ 23); (0%nat, 0)]. eexists. split; [discriminate|].
  cbv zeta. split; [|split]; vm_compute; auto.
Qed.
Print Assumptions C74_threads_after_fork_refuted.
Example C74_ex :
  let p := process 9 (mkGuids 7 1000) [[7; 11]; [8]] in
  let sc1 := [(0%nat, 0); (0%nat, 0); (0%nat, 0); (0%nat, 160); (0%nat, 0)] in
  map (fun x => hex_value (snd x)) (gp_out (gsched sc1 p)) = [167] /\
  map (fun x => hex_value (snd x)) (gp_out (gsched (sc1 ++ [(1%nat, 5); (0%nat, 5); (1%nat, 5); (0%nat, 5); (0%nat, 5); (1%nat, 5)]) p)) = [167; 171; 168] /\ gp_seeds (gsched sc1 p) = [160].
Proof. vm_compute. auto. Qed.

(** The guid of an action is fixed once read, also across a fork ... *)
Theorem C74_guid_fixed : forall g pid seed id c g1 x c1, action_guid g pid seed id c = (g1, x, c1) ->
  forall g' pid' seed', action_guid g' pid' seed' id c1 = (g', x, c1).
Proof.
  intros g pid seed id c g1 x c1 H g' pid' seed'. unfold action_guid in *. destruct c as [t|]; [injection H as <- <- <-; reflexivity|].
  destruct (int2hexguid_seq g pid seed id) as [g2 t]. injection H as <- <- <-. reflexivity.
Qed.
Print Assumptions C74_guid_fixed.
(** ... and differs in parent and child if it was not read before the fork, unless the
    seed drawn is the parent's start. *)
Theorem C74_guid_across_fork_refuted : forall parent child start seed id, parent <> child -> seed <> start ->
  let g := mkGuids parent start in
  snd (fst (action_guid g parent 0 id None)) <> snd (fst (action_guid g child seed id None)).
Proof.
  intros parent child start seed id N S g. subst g. unfold action_guid, int2hexguid_seq. cbn [g_pid]. rewrite N.eqb_refl. cbn [negb]. destruct (N.eqb_spec child parent); [congruence|]. cbn [negb fst snd reseed g_start].
  intros X. apply (f_equal hex_value) in X. rewrite !hex_value_hex in X. lia.
Qed.
Print Assumptions C74_guid_across_fork_refuted.
