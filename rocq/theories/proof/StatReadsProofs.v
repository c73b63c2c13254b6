(** Reading a RateSink under concurrency: C96. *)
From Verif Require Import model.PyBase model.Core model.StatReads spec.StatReadsSpec proof.CoreLib proof.HookThreadsProofs.
Open Scope nat_scope.

(** *** Steps *)
Inductive SSt (t : nat) (w : sstate) : spc -> list sop -> sstate -> spc -> list sop -> Prop :=
| T_deliver g todo : SSt t w QIdle (Deliver g :: todo) (sat t (QTop g) todo [SCalled t g] w) (QTop g) todo
| T_read todo : SSt t w QIdle (ReadTotals :: todo) (sat t QBegin todo [SReadStart t] w) QBegin todo
| T_top l n s todo : SSt t w (QTop (l, n, s)) todo (sat t (QName (l, n, s)) todo [] (set_top (add_key l (s_top w)) w)) (QName (l, n, s)) todo
| T_name l n s todo : SSt t w (QName (l, n, s)) todo (sat t (QLook (l, n, s)) todo [] (set_names l (add_key n (s_names w l)) w)) (QLook (l, n, s)) todo
| T_found l n s a todo : look s (s_stats w l n) = Some a -> SSt t w (QLook (l, n, s)) todo (sat t (QLoad (l, n, s) a) todo [] w) (QLoad (l, n, s) a) todo
| T_missing l n s todo : look s (s_stats w l n) = None -> SSt t w (QLook (l, n, s)) todo (sat t (QStore (l, n, s)) todo [] w) (QStore (l, n, s)) todo
| T_store l n s todo : SSt t w (QStore (l, n, s)) todo (sat t (QLoad (l, n, s) (s_next w)) todo [] (store l n s w)) (QLoad (l, n, s) (s_next w)) todo
| T_load g a todo : SSt t w (QLoad g a) todo (sat t (QWrite g a (s_count w a)) todo [] w) (QWrite g a (s_count w a)) todo
| T_write g a c todo : SSt t w (QWrite g a c) todo (sat t (QTimes g) todo [SWrote t g] (set_count a (S c) w)) (QTimes g) todo
| T_times g todo : SSt t w (QTimes g) todo (sat t QIdle todo [SDone t g] w) QIdle todo
| T_begin todo : SSt t w QBegin todo (sat t (QReading (PTop (start_iter (s_top w))) [] 0 0 0) todo [] w) (QReading (PTop (start_iter (s_top w))) [] 0 0 0) todo
| T_reading p out cn cl ca q todo : read_step w p out cn cl ca = inl q -> SSt t w (QReading p out cn cl ca) todo (sat t q todo [] w) q todo
| T_read_done p out cn cl ca r todo : read_step w p out cn cl ca = inr (Some r) -> SSt t w (QReading p out cn cl ca) todo (sat t QIdle todo [SReadDone t r] w) QIdle todo
| T_read_failed p out cn cl ca todo : read_step w p out cn cl ca = inr None -> SSt t w (QReading p out cn cl ca) todo (sat t QIdle todo [SReadFailed t] w) QIdle todo.
Lemma sstep_SSt t w w' : sstep t w = Some w' -> exists pc todo pc' todo', nth_error (s_threads w) t = Some (mkST pc todo) /\ SSt t w pc todo w' pc' todo'.
Proof.
  unfold sstep. destruct (nth_error (s_threads w) t) as [[pc todo]|] eqn:E; [|discriminate]. cbn [st_pc st_todo]. intros E1. exists pc, todo.
  destruct pc as [|[[l n] s]|[[l n] s]|[[l n] s]|[[l n] s]|g a|g a c|g| |p out cn cl ca]; try (injection E1 as <-; do 2 eexists; split; [reflexivity|]; constructor; fail).
  - destruct todo as [|[g|] todo]; [discriminate| |]; injection E1 as <-; do 2 eexists; (split; [reflexivity|constructor]).
  - destruct (look s (s_stats w l n)) eqn:L; injection E1 as <-; do 2 eexists; (split; [reflexivity|]); [apply T_found|apply T_missing]; exact L.
  - destruct (read_step w p out cn cl ca) as [q|[r|]] eqn:R; injection E1 as <-; do 2 eexists; (split; [reflexivity|]); [apply T_reading|apply T_read_done with (1 := R)|apply T_read_failed with (1 := R)]; exact R.
Qed.
Lemma SSt_threads t w pc todo w' pc' todo' : SSt t w pc todo w' pc' todo' -> s_threads w' = list_set (s_threads w) t (mkST pc' todo').
Proof. intros []; reflexivity. Qed.
Lemma srun_inv (I : sstate -> Prop) sc w :
  (forall t w w' pc todo pc' todo', nth_error (s_threads w) t = Some (mkST pc todo) -> SSt t w pc todo w' pc' todo' -> I w -> I w') -> I w -> I (srun sc w).
Proof.
  intros St. revert w. induction sc as [|t sc IH]; intros w Iw; [exact Iw|]. cbn [srun]. apply IH. destruct (sstep t w) as [w'|] eqn:E; [|exact Iw].
  destruct (sstep_SSt _ _ _ E) as (pc & todo & pc' & todo' & A & S). exact (St _ _ _ _ _ _ _ A S Iw).
Qed.
Lemma start_thread progs t th : nth_error (s_threads (sstart progs)) t = Some th -> exists p, nth_error progs t = Some p /\ th = mkST QIdle p.
Proof. cbn [sstart s_threads]. rewrite nth_error_map. destruct (nth_error progs t) as [p|]; [|discriminate]. intros [= <-]. exists p. split; reflexivity. Qed.

(** *** The dicts only grow, at the end *)
Definition keys (d : list (nat * nat)) : list nat := map fst d.
Lemma add_key_grows k d : exists more, add_key k d = d ++ more.
Proof. unfold add_key. destruct (existsb (Nat.eqb k) d); [exists []; symmetry; apply app_nil_r|exists [k]; reflexivity]. Qed.
Lemma add_key_in k d : In k (add_key k d).
Proof.
  unfold add_key. destruct (existsb (Nat.eqb k) d) eqn:E; [|apply in_or_app; right; left; reflexivity].
  apply existsb_exists in E. destruct E as (x & I & E). apply Nat.eqb_eq in E. subst x. exact I.
Qed.
Lemma add_key_only k d x : In x (add_key k d) -> x = k \/ In x d.
Proof. unfold add_key. destruct (existsb (Nat.eqb k) d); [tauto|]. intros I. apply in_app_or in I. destruct I as [I|[->|[]]]; tauto. Qed.
Lemma add_key_nodup k d : NoDup d -> NoDup (add_key k d).
Proof.
  unfold add_key. intros D. destruct (existsb (Nat.eqb k) d) eqn:E; [exact D|]. apply NoDup_rev in D. rewrite <- (rev_involutive (d ++ [k])). apply NoDup_rev.
  rewrite rev_app_distr. cbn. constructor; [|exact D]. rewrite <- in_rev. intros I. enough (existsb (Nat.eqb k) d = true) by congruence. apply existsb_exists. exists k. split; [exact I|apply Nat.eqb_refl].
Qed.
Lemma put_keys s a d : keys (put s a d) = add_key s (keys d).
Proof.
  unfold add_key, keys. induction d as [|[s' a'] d IH]; [reflexivity|]. cbn [put map fst existsb]. rewrite (Nat.eqb_sym s s'). destruct (Nat.eqb_spec s' s) as [->|]; cbn [orb map fst]; [reflexivity|].
  rewrite IH. destruct (existsb (Nat.eqb s) (map fst d)); reflexivity.
Qed.
Lemma look_in s a d : look s d = Some a -> In (s, a) d.
Proof. induction d as [|[s' a'] d IH]; [discriminate|]. cbn. destruct (Nat.eqb_spec s' s) as [->|]; [intros [= ->]; left; reflexivity|]. intros E. right. exact (IH E). Qed.
Lemma in_look s a d : NoDup (keys d) -> In (s, a) d -> look s d = Some a.
Proof.
  induction d as [|[s' a'] d IH]; [intros _ []|]. cbn [keys map fst look]. intros D [E|I]; [injection E as -> ->; rewrite Nat.eqb_refl; reflexivity|].
  inversion D as [|? ? D1 D2]; subst. destruct (Nat.eqb_spec s' s) as [->|]; [destruct D1; apply (in_map fst _ _ I)|exact (IH D2 I)].
Qed.
Lemma look_put s a s' d : look s' (put s a d) = if Nat.eqb s' s then Some a else look s' d.
Proof.
  induction d as [|[s0 a0] d IH]; cbn [put look]; [rewrite (Nat.eqb_sym s' s); reflexivity|]. destruct (Nat.eqb_spec s0 s) as [->|Hn]; cbn [look].
  - rewrite (Nat.eqb_sym s' s). destruct (Nat.eqb s s'); reflexivity.
  - rewrite IH. destruct (Nat.eqb_spec s0 s') as [->|]; [|reflexivity]. destruct (Nat.eqb_spec s' s); [congruence|reflexivity].
Qed.
Lemma put_in s a s' a' d : In (s', a') (put s a d) -> (s', a') = (s, a) \/ In (s', a') d.
Proof.
  induction d as [|[s0 a0] d IH]; cbn [put]; [intros [E|[]]; left; congruence|]. destruct (Nat.eqb_spec s0 s) as [->|].
  - intros [E|I]; [left; congruence|right; right; exact I].
  - intros [E|I]; [right; left; exact E|]. destruct (IH I); [left; assumption|right; right; assumption].
Qed.

Definition in_dict (w : sstate) (g : group) : Prop :=
  let '(l, n, s) := g in In l (s_top w) /\ In n (s_names w l) /\ In s (keys (s_stats w l n)).
Definition grows (w w' : sstate) : Prop :=
  (exists m, s_top w' = s_top w ++ m) /\ (forall l, exists m, s_names w' l = s_names w l ++ m) /\ (forall l n, exists m, keys (s_stats w' l n) = keys (s_stats w l n) ++ m).
Lemma SSt_grows t w pc todo w' pc' todo' : SSt t w pc todo w' pc' todo' -> grows w w'.
Proof.
  assert (R : forall X (d : list X), exists m, d = d ++ m) by (intros; exists []; symmetry; apply app_nil_r).
  intros S. destruct S; split; [| split| |split| |split| |split| |split| |split| |split| |split| |split| |split| |split| |split| |split| |split];
    cbn [sat set_top set_names store set_count s_top s_names s_stats s_threads s_trace]; try apply R; try (intros; apply R).
  - apply add_key_grows.
  - intros l0. destruct (Nat.eqb_spec l0 l) as [->|]; [apply add_key_grows|apply R].
  - intros l0 n0. destruct (Nat.eqb_spec l0 l) as [->|]; cbn [andb]; [|apply R]. destruct (Nat.eqb_spec n0 n) as [->|]; [|apply R]. rewrite put_keys. apply add_key_grows.
Qed.
Lemma grows_in w w' g : grows w w' -> in_dict w g -> in_dict w' g.
Proof.
  intros ([m1 E1] & G2 & G3). destruct g as [[l n] s]. intros (I1 & I2 & I3). destruct (G2 l) as [m2 E2]. destruct (G3 l n) as [m3 E3].
  repeat split; [rewrite E1|rewrite E2|rewrite E3]; apply in_or_app; left; assumption.
Qed.

Definition pc_group (pc : spc) : option group :=
  match pc with QTop g | QName g | QLook g | QStore g | QLoad g _ | QWrite g _ _ | QTimes g => Some g | _ => None end.
Definition pc_place (w : sstate) (pc : spc) : Prop :=
  match pc with
  | QName (l, n, s) => In l (s_top w)
  | QLook (l, n, s) | QStore (l, n, s) => In l (s_top w) /\ In n (s_names w l)
  | QLoad g _ | QWrite g _ _ | QTimes g => in_dict w g
  | _ => True
  end.
Lemma grows_place w w' pc : grows w w' -> pc_place w pc -> pc_place w' pc.
Proof.
  intros G. destruct G as ([m1 E1] & G2 & G3).
  destruct pc as [|g|[[l n] s]|[[l n] s]|[[l n] s]|g a|g a c|g| |]; cbn [pc_place]; try tauto.
  - intros I. rewrite E1. apply in_or_app. left. exact I.
  - intros [I J]. destruct (G2 l) as [m2 E2]. rewrite E1, E2. split; apply in_or_app; left; assumption.
  - intros [I J]. destruct (G2 l) as [m2 E2]. rewrite E1, E2. split; apply in_or_app; left; assumption.
  - apply grows_in. repeat split; eauto.
  - apply grows_in. repeat split; eauto.
  - apply grows_in. repeat split; eauto.
Qed.

(** *** Dicts and trace *)
Record dict_inv (w : sstate) : Prop := mkDI {
  di_top : NoDup (s_top w);
  di_names : forall l, NoDup (s_names w l);
  di_stats : forall l n, NoDup (keys (s_stats w l n));
  di_place : forall t th, nth_error (s_threads w) t = Some th -> pc_place w (st_pc th);
  di_pc_called : forall t th g, nth_error (s_threads w) t = Some th -> pc_group (st_pc th) = Some g -> In (SCalled t g) (s_trace w);
  di_done : forall t g, In (SDone t g) (s_trace w) -> in_dict w g;
  di_top_called : forall l, In l (s_top w) -> exists t n s, In (SCalled t (l, n, s)) (s_trace w);
  di_names_called : forall l n, In n (s_names w l) -> exists t s, In (SCalled t (l, n, s)) (s_trace w);
  di_stats_called : forall l n s, In s (keys (s_stats w l n)) -> exists t, In (SCalled t (l, n, s)) (s_trace w) }.
Lemma SSt_trace t w pc todo w' pc' todo' : SSt t w pc todo w' pc' todo' -> exists new, s_trace w' = s_trace w ++ new /\
  (forall t0 g, In (SDone t0 g) new -> pc = QTimes g) /\ (forall g, pc_group pc' = Some g -> pc_group pc = Some g \/ In (SCalled t g) new).
Proof.
  intros S. destruct S; eexists; (split; [reflexivity|]); (split; [intros t0 g0 I; cbn in I; intuition congruence|]); cbn [pc_group]; intros g0 E; try (left; exact E); try discriminate.
  - injection E as ->. right. left. reflexivity.
  - exfalso. destruct p; cbn [read_step] in *; repeat (match type of H with context [match ?x with _ => _ end] => destruct x end); try discriminate; injection H as <-; discriminate.
Qed.
Lemma SSt_place t w pc todo w' pc' todo' : SSt t w pc todo w' pc' todo' -> pc_place w pc -> pc_place w' pc'.
Proof.
  intros S P. destruct S; cbn [pc_place] in *; try exact I; try exact P.
  - cbn. apply add_key_in.
  - cbn. split; [exact P|]. rewrite Nat.eqb_refl. apply add_key_in.
  - cbn. destruct P as [P1 P2]. repeat split; try assumption. apply (in_map fst _ (s, a)). apply look_in. exact H.
  - cbn. destruct P as [P1 P2]. repeat split; try assumption. rewrite !Nat.eqb_refl. cbn [andb]. rewrite put_keys. apply add_key_in.
  - destruct p; cbn [read_step] in *; repeat (match type of H with context [match ?x with _ => _ end] => destruct x end); try discriminate; injection H as <-; exact I.
Qed.
Lemma SSt_dict t w pc todo w' pc' todo' : nth_error (s_threads w) t = Some (mkST pc todo) -> SSt t w pc todo w' pc' todo' -> dict_inv w -> dict_inv w'.
Proof.
  intros A S D. pose proof (SSt_grows _ _ _ _ _ _ _ S) as G. pose proof (SSt_threads _ _ _ _ _ _ _ S) as Th.
  destruct (SSt_trace _ _ _ _ _ _ _ S) as (new & Tr & Nd & Nc).
  assert (Old : forall o, In o (s_trace w) -> In o (s_trace w')) by (intros o I; rewrite Tr; apply in_or_app; left; exact I).
  constructor.
  - destruct S; try exact (di_top w D). apply add_key_nodup, (di_top w D).
  - intros l0. pose proof (di_names w D) as K. destruct S; try exact (K l0). cbn. destruct (Nat.eqb_spec l0 l); [apply add_key_nodup, K|apply K].
  - intros l0 n0. pose proof (di_stats w D) as K. destruct S; try exact (K l0 n0). cbn. destruct (Nat.eqb_spec l0 l) as [->|]; cbn [andb]; [|apply K].
    destruct (Nat.eqb_spec n0 n) as [->|]; [|apply K]. rewrite put_keys. apply add_key_nodup, K.
  - intros t0 th0 A0. rewrite Th in A0. destruct (set_cases _ _ _ _ _ A0) as [[-> ->]|[Hn E]]; [exact (SSt_place _ _ _ _ _ _ _ S (di_place w D _ _ A))|]. exact (grows_place _ _ _ G (di_place w D _ _ E)).
  - intros t0 th0 g A0 E. rewrite Th in A0. rewrite Tr. apply in_or_app. destruct (set_cases _ _ _ _ _ A0) as [[-> ->]|[Hn E0]].
    + destruct (Nc _ E) as [K|K]; [left; exact (di_pc_called w D _ _ _ A K)|right; exact K].
    + left. exact (di_pc_called w D _ _ _ E0 E).
  - intros t0 g I. rewrite Tr in I. apply in_app_or in I. destruct I as [I|I]; [exact (grows_in _ _ _ G (di_done w D _ _ I))|].
    rewrite (Nd _ _ I) in *. pose proof (di_place w D _ _ A) as K. cbn in K. exact (grows_in _ _ _ G K).
  - intros l0 I. assert (K : In l0 (s_top w) \/ exists n s, pc_group pc = Some (l0, n, s)).
    { destruct S; try (left; exact I). cbn in I. apply add_key_only in I. destruct I as [->|I]; [right; exists n, s; reflexivity|left; exact I]. }
    destruct K as [K|(n & s & K)]; [destruct (di_top_called w D _ K) as (t0 & n & s & K1); exists t0, n, s; exact (Old _ K1)|]. exists t, n, s. apply Old. exact (di_pc_called w D _ _ _ A K).
  - intros l0 n0 I. assert (K : In n0 (s_names w l0) \/ exists s, pc_group pc = Some (l0, n0, s)).
    { destruct S; try (left; exact I). cbn in I. destruct (Nat.eqb_spec l0 l) as [->|]; [|left; exact I]. apply add_key_only in I. destruct I as [->|I]; [right; exists s; reflexivity|left; exact I]. }
    destruct K as [K|(s & K)]; [destruct (di_names_called w D _ _ K) as (t0 & s & K1); exists t0, s; exact (Old _ K1)|]. exists t, s. apply Old. exact (di_pc_called w D _ _ _ A K).
  - intros l0 n0 s0 I. assert (K : In s0 (keys (s_stats w l0 n0)) \/ pc_group pc = Some (l0, n0, s0)).
    { destruct S; try (left; exact I). cbn in I. destruct (Nat.eqb_spec l0 l) as [->|]; cbn [andb] in I; [|left; exact I]. destruct (Nat.eqb_spec n0 n) as [->|]; [|left; exact I].
      rewrite put_keys in I. apply add_key_only in I. destruct I as [->|I]; [right; reflexivity|left; exact I]. }
    destruct K as [K|K]; [destruct (di_stats_called w D _ _ _ K) as (t0 & K1); exists t0; exact (Old _ K1)|]. exists t. apply Old. exact (di_pc_called w D _ _ _ A K).
Qed.
Lemma start_dict progs : dict_inv (sstart progs).
Proof.
  constructor; try (cbn; intros; contradiction); try (cbn; intros; constructor; fail).
  - intros t th A. destruct (start_thread progs t th A) as (p & _ & ->). exact I.
  - intros t th g A E. destruct (start_thread progs t th A) as (p & _ & ->). discriminate.
Qed.
Lemma run_dict progs sc : dict_inv (srun sc (sstart progs)).
Proof. apply srun_inv; [intros t w w' pc todo pc' todo' A S; exact (SSt_dict _ _ _ _ _ _ _ A S)|apply start_dict]. Qed.
