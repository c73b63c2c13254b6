(** Counts a reader of a RateSink sees, against the deliveries called and returned: C96. *)
From Verif Require Import model.PyBase model.Core model.StatReads spec.StatReadsSpec proof.CoreLib proof.HookThreadsProofs proof.StatReadsProofs proof.StatReadsReader.
Open Scope nat_scope.

Definition wrote (g : group) (tr : list sobs) : nat :=
  length (filter (fun o => match o with SWrote _ h => is_group g h | _ => false end) tr).
Definition nb (b : bool) : nat := if b then 1 else 0.
Lemma is_group_refl g : is_group g g = true.
Proof. unfold is_group. destruct (group_dec g g); congruence. Qed.
Lemma is_group_ne g h : g <> h -> is_group g h = false.
Proof. unfold is_group. destruct (group_dec g h); congruence. Qed.
Lemma called_app g a b : called g (a ++ b) = called g a + called g b.
Proof. unfold called. rewrite filter_app, app_length. reflexivity. Qed.
Lemma done_app g a b : done g (a ++ b) = done g a + done g b.
Proof. unfold done. rewrite filter_app, app_length. reflexivity. Qed.
Lemma wrote_app g a b : wrote g (a ++ b) = wrote g a + wrote g b.
Proof. unfold wrote. rewrite filter_app, app_length. reflexivity. Qed.
Lemma done_in g a : done g a > 0 -> exists t, In (SDone t g) a.
Proof.
  induction a as [|o a IH]; [cbn; lia|]. intros D. unfold done in D. cbn [filter] in D.
  destruct o as [t h|t h|t h|t|t out|t]; try (destruct (IH D) as [t' I]; exists t'; right; exact I).
  destruct (group_dec g h) as [->|N]; [exists t; left; reflexivity|]. rewrite (is_group_ne _ _ N) in D. destruct (IH D) as [t' I]. exists t'. right. exact I.
Qed.
Lemma in_called t g a : In (SCalled t g) a -> called g a > 0.
Proof. intros I. apply in_split in I. destruct I as (x & y & ->). rewrite called_app. unfold called at 2. cbn [filter]. rewrite is_group_refl. cbn. lia. Qed.

(** *** Called = written + under way; written = returned + returning *)
Definition pend (g : group) (pc : spc) : bool :=
  match pc with QTop h | QName h | QLook h | QStore h | QLoad h _ | QWrite h _ _ => is_group g h | _ => false end.
Definition ret (g : group) (pc : spc) : bool := match pc with QTimes h => is_group g h | _ => false end.
Definition cnt (f : spc -> bool) (ths : list sthread) : nat := length (filter (fun th => f (st_pc th)) ths).
Lemma cnt_set f ths t th th' : nth_error ths t = Some th -> cnt f (list_set ths t th') + nb (f (st_pc th)) = cnt f ths + nb (f (st_pc th')).
Proof.
  unfold cnt. revert t. induction ths as [|x ths IH]; intros [|t] E; try discriminate; cbn [list_set filter].
  - injection E as ->. destruct (f (st_pc th)), (f (st_pc th')); cbn; lia.
  - specialize (IH _ E). destruct (f (st_pc x)); cbn [length]; lia.
Qed.
Definition count_inv (w : sstate) : Prop := forall g,
  called g (s_trace w) = wrote g (s_trace w) + cnt (pend g) (s_threads w) /\ wrote g (s_trace w) = done g (s_trace w) + cnt (ret g) (s_threads w).
Lemma read_step_reading w p out cn cl ca q : read_step w p out cn cl ca = inl q -> exists p' out' cn' cl' ca', q = QReading p' out' cn' cl' ca'.
Proof.
  destruct p; cbn [read_step]; intros E; repeat (match type of E with context [match ?x with _ => _ end] => destruct x end); try discriminate; injection E as <-; do 5 eexists; reflexivity.
Qed.
Lemma SSt_new t w pc todo w' pc' todo' : SSt t w pc todo w' pc' todo' -> exists new, s_trace w' = s_trace w ++ new /\ length new <= 1 /\
  (forall t', t' <> t -> ~ In (SReadStart t') new) /\
  forall g, called g new + nb (pend g pc) = wrote g new + nb (pend g pc') /\ wrote g new + nb (ret g pc) = done g new + nb (ret g pc').
Proof.
  intros S. destruct S; eexists; (split; [reflexivity|]); (split; [cbn; lia|]); (split; [intros t' Hn; cbn; intros K; intuition congruence|]); intros g0;
    cbn [pend ret]; unfold called, wrote, done; cbn [filter length];
    try (match goal with R : read_step _ _ _ _ _ _ = inl _ |- _ => destruct (read_step_reading _ _ _ _ _ _ _ R) as (? & ? & ? & ? & ? & ->); cbn [pend ret] end);
    try (match goal with |- context [is_group ?x ?y] => destruct (is_group x y) end); cbn [nb length]; lia.
Qed.
Lemma SSt_count t w pc todo w' pc' todo' : nth_error (s_threads w) t = Some (mkST pc todo) -> SSt t w pc todo w' pc' todo' -> count_inv w -> count_inv w'.
Proof.
  intros A S C g. destruct (SSt_new _ _ _ _ _ _ _ S) as (new & Tr & _ & _ & N). rewrite Tr, (SSt_threads _ _ _ _ _ _ _ S), called_app, wrote_app, done_app.
  destruct (C g) as [C1 C2]. destruct (N g) as [N1 N2]. pose proof (cnt_set (pend g) _ _ _ (mkST pc' todo') A) as K1. pose proof (cnt_set (ret g) _ _ _ (mkST pc' todo') A) as K2. cbn [st_pc] in *. lia.
Qed.
Lemma cnt_start f progs : f QIdle = false -> cnt f (s_threads (sstart progs)) = 0.
Proof. intros F. unfold cnt. cbn [sstart s_threads]. induction progs as [|p progs IH]; [reflexivity|]. cbn [map filter st_pc]. rewrite F. exact IH. Qed.
Lemma run_count progs sc : count_inv (srun sc (sstart progs)).
Proof.
  apply srun_inv; [intros t w w' pc todo pc' todo' A S; exact (SSt_count _ _ _ _ _ _ _ A S)|]. intros g. rewrite !cnt_start by reflexivity. split; reflexivity.
Qed.

(** *** No accumulator counts more than was written to its group *)
Definition own_pc (own : nat -> group) (w : sstate) (pc : spc) : Prop :=
  match pc with
  | QLoad g a => own a = g /\ a < s_next w
  | QWrite g a c => own a = g /\ a < s_next w /\ c <= wrote g (s_trace w)
  | QReading p out _ _ _ =>
    (forall g c, In (g, c) (stats_of out) -> c <= wrote g (s_trace w) /\ in_dict w g) /\
    match p with PCount _ l _ n _ s a => own a = (l, n, s) /\ a < s_next w /\ in_dict w (l, n, s) | PStat _ l _ n _ | PStats _ l _ n => In l (s_top w) /\ In n (s_names w l) | PNames _ l | PName _ l _ => In l (s_top w) | PTop _ => True end
  | _ => True
  end.
Record own_inv (own : nat -> group) (w : sstate) : Prop := mkOI {
  oi_stats : forall l n s a, In (s, a) (s_stats w l n) -> own a = (l, n, s) /\ a < s_next w;
  oi_pc : forall t th, nth_error (s_threads w) t = Some th -> own_pc own w (st_pc th);
  oi_count : forall a, a < s_next w -> s_count w a <= wrote (own a) (s_trace w) }.
Lemma own_pc_mono own own' w w' pc : grows w w' -> s_next w <= s_next w' -> (forall a, a < s_next w -> own' a = own a) -> (forall g, wrote g (s_trace w) <= wrote g (s_trace w')) ->
  own_pc own w pc -> own_pc own' w' pc.
Proof.
  intros G Nx Ow Wr. assert (T : forall l, In l (s_top w) -> In l (s_top w')) by (intros l I; destruct G as ([m E] & _); rewrite E; apply in_or_app; left; exact I).
  assert (Nm : forall l n, In n (s_names w l) -> In n (s_names w' l)) by (intros l n I; destruct G as (_ & G2 & _); destruct (G2 l) as [m E]; rewrite E; apply in_or_app; left; exact I).
  destruct pc as [|g|g|g|g|g a|g a c|g| |p out cn cl ca]; cbn [own_pc]; try tauto.
  - intros [E L]. rewrite (Ow _ L). split; [exact E|lia].
  - intros (E & L & C). rewrite (Ow _ L). specialize (Wr g). split; [exact E|]. lia.
  - intros [O P]. split; [intros g c I; destruct (O _ _ I) as [O1 O2]; specialize (Wr g); split; [lia|exact (grows_in _ _ _ G O2)]|].
    destruct p as [i|i l|i l j|i l j n|i l j n k|i l j n k s a]; try (auto; fail); try (destruct P; auto; fail). destruct P as (E & L & D). rewrite (Ow _ L). split; [exact E|]. split; [lia|exact (grows_in _ _ _ G D)].
Qed.
Lemma SSt_own t w pc todo w' pc' todo' own : nth_error (s_threads w) t = Some (mkST pc todo) -> SSt t w pc todo w' pc' todo' -> own_inv own w ->
  exists own', own_inv own' w' /\ (forall a, a < s_next w -> own' a = own a) /\ s_next w <= s_next w'.
Proof.
  intros A S O. pose proof (SSt_grows _ _ _ _ _ _ _ S) as G. pose proof (SSt_threads _ _ _ _ _ _ _ S) as Th. destruct (SSt_new _ _ _ _ _ _ _ S) as (new & Tr & _).
  assert (Wr : forall g, wrote g (s_trace w) <= wrote g (s_trace w')) by (intros g; rewrite Tr, wrote_app; lia).
  pose proof (oi_pc _ _ O _ _ A) as Pc. cbn [st_pc] in Pc.
  assert (Go : forall own', (forall a, a < s_next w -> own' a = own a) -> s_next w <= s_next w' -> own_pc own' w' pc' ->
    (forall l n s a, In (s, a) (s_stats w' l n) -> own' a = (l, n, s) /\ a < s_next w') -> (forall a, a < s_next w' -> s_count w' a <= wrote (own' a) (s_trace w')) ->
    exists own', own_inv own' w' /\ (forall a, a < s_next w -> own' a = own a) /\ s_next w <= s_next w').
  { intros own' Ow Nx P1 P2 P3. exists own'. split; [|split; assumption]. constructor; [exact P2| |exact P3]. intros t0 th0 A0. rewrite Th in A0.
    destruct (set_cases _ _ _ _ _ A0) as [[-> ->]|[Hn E]]; [exact P1|]. exact (own_pc_mono _ _ _ _ _ G Nx Ow Wr (oi_pc _ _ O _ _ E)). }
  assert (Same : s_next w' = s_next w -> s_stats w' = s_stats w -> s_count w' = s_count w -> own_pc own w' pc' ->
    exists own', own_inv own' w' /\ (forall a, a < s_next w -> own' a = own a) /\ s_next w <= s_next w').
  { intros E1 E2 E3 P. apply (Go own); [reflexivity|lia|exact P|rewrite E1, E2; exact (oi_stats _ _ O)|]. intros a L. rewrite E1 in L. rewrite E3. pose proof (oi_count _ _ O a L). specialize (Wr (own a)). lia. }
  destruct S; try (apply Same; (reflexivity || exact I); fail).
  - apply Same; try reflexivity. exact (oi_stats _ _ O _ _ _ _ (look_in _ _ _ H)).
  - apply (Go (fun a => if Nat.eqb a (s_next w) then (l, n, s) else own a)).
    + intros a L. destruct (Nat.eqb_spec a (s_next w)); [lia|reflexivity].
    + cbn. lia.
    + cbn. rewrite Nat.eqb_refl. split; [reflexivity|lia].
    + intros l0 n0 s0 a0 I0. cbn [sat store s_stats s_next] in *.
      assert (K : In (s0, a0) (s_stats w l0 n0) \/ ((l0, n0, s0) = (l, n, s) /\ a0 = s_next w)).
      { destruct (Nat.eqb_spec l0 l) as [->|]; cbn [andb] in I0; [|left; exact I0]. destruct (Nat.eqb_spec n0 n) as [->|]; [|left; exact I0]. apply put_in in I0. destruct I0 as [[= -> ->]|I0]; [right; split; reflexivity|left; exact I0]. }
      destruct K as [K|[[= -> -> ->] ->]]; [destruct (oi_stats _ _ O _ _ _ _ K) as [K1 K2]; destruct (Nat.eqb_spec a0 (s_next w)); [lia|split; [exact K1|lia]]|]. rewrite Nat.eqb_refl. split; [reflexivity|lia].
    + intros a L. cbn [sat store s_count s_next s_trace] in *. destruct (Nat.eqb_spec a (s_next w)); [lia|]. rewrite app_nil_r. apply (oi_count _ _ O). lia.
  - apply Same; try reflexivity. cbn [own_pc] in *. destruct Pc as [P1 P2]. split; [exact P1|]. split; [exact P2|]. cbn [sat s_trace]. rewrite app_nil_r. subst g. exact (oi_count _ _ O a P2).
  - cbn [own_pc] in Pc. destruct Pc as (P1 & P2 & P3). apply (Go own); [reflexivity|cbn; lia|exact I|exact (oi_stats _ _ O)|].
    intros a0 L. cbn [sat set_count s_count s_next s_trace] in *. rewrite wrote_app. destruct (Nat.eqb_spec a0 a) as [->|].
    + rewrite P1. unfold wrote at 2. cbn [filter]. rewrite is_group_refl. cbn [length]. lia.
    + pose proof (oi_count _ _ O a0 L). lia.
  - apply Same; try reflexivity. cbn [own_pc]. split; [intros g c []|exact I].
  - destruct Pc as [Po Pp]. apply Same; try reflexivity.
    assert (Add : forall x, (forall g c, In (g, c) (stats_of x) -> c <= wrote g (s_trace w) /\ in_dict w g) -> forall g c, In (g, c) (stats_of (out ++ x)) -> c <= wrote g (s_trace w) /\ in_dict w g).
    { intros x Hx g c I0. rewrite stats_app in I0. apply in_app_or in I0. destruct I0 as [I0|I0]; [exact (Po _ _ I0)|exact (Hx _ _ I0)]. }
    destruct p as [i|i l|i l j|i l j n|i l j n k|i l j n k s a]; cbn [read_step] in H.
    + destruct (advance i (s_top w)) as [[l|]|] eqn:Ad; try discriminate. injection H as <-. cbn [own_pc sat s_trace]. rewrite app_nil_r. split; [exact Po|]. exact (nth_error_In _ _ (advance_some _ _ _ Ad)).
    + injection H as <-. cbn [own_pc sat s_trace]. rewrite app_nil_r. split; [exact Po|exact Pp].
    + destruct (advance j (s_names w l)) as [[n|]|] eqn:Ad; try discriminate; injection H as <-; cbn [own_pc sat s_trace]; rewrite app_nil_r.
      * split; [exact Po|]. split; [exact Pp|]. exact (nth_error_In _ _ (advance_some _ _ _ Ad)).
      * split; [|exact I]. apply Add. intros g c [].
    + injection H as <-. cbn [own_pc sat s_trace]. rewrite app_nil_r. split; [exact Po|exact Pp].
    + destruct (advance k (s_stats w l n)) as [[[s a]|]|] eqn:Ad; try discriminate; injection H as <-; cbn [own_pc sat s_trace]; rewrite app_nil_r.
      * split; [exact Po|]. apply advance_some, nth_error_In in Ad. destruct (oi_stats _ _ O _ _ _ _ Ad) as [K1 K2]. split; [exact K1|]. split; [exact K2|]. destruct Pp as [Q1 Q2]. repeat split; try assumption. exact (in_map fst _ _ Ad).
      * split; [|exact (proj1 Pp)]. apply Add. intros g c [].
    + injection H as <-. cbn [own_pc sat s_trace]. rewrite app_nil_r. destruct Pp as (Q1 & Q2 & Q3). split; [|exact (conj (proj1 Q3) (proj1 (proj2 Q3)))].
      apply Add. intros g c [[= <- <-]|[]]. split; [|exact Q3]. rewrite <- Q1. exact (oi_count _ _ O a Q2).
Qed.
Lemma start_own progs own : own_inv own (sstart progs).
Proof.
  constructor; try (cbn; intros; contradiction); try (cbn; intros; lia). intros t th A. destruct (start_thread progs t th A) as (p & _ & ->). exact I.
Qed.
Lemma run_own progs sc : exists own, own_inv own (srun sc (sstart progs)).
Proof.
  apply (srun_inv (fun w => exists own, own_inv own w)); [|exists (fun _ => (0, 0, 0)); apply start_own]. intros t w w' pc todo pc' todo' A S [own O].
  destruct (SSt_own _ _ _ _ _ _ _ _ A S O) as (own' & O' & _). exists own'. exact O'.
Qed.

(** *** A group only one thread delivers to *)
Section Alone.
Variables (t0 l n s : nat).
Let g : group := (l, n, s).
Definition cell_is (w : sstate) (a : nat) : Prop := look s (s_stats w l n) = Some a.
Definition alone_pc (w : sstate) (pc : spc) : Prop :=
  match pc with
  | QStore h => h = g -> look s (s_stats w l n) = None
  | QLoad h a => h = g -> cell_is w a
  | QWrite h a c => h = g -> cell_is w a /\ c = s_count w a
  | QReading (PCount _ l' _ n' _ s' a) _ _ _ _ => (l', n', s') = g -> cell_is w a
  | _ => True
  end.
Record alone_inv (w : sstate) : Prop := mkAI {
  ai_others : forall t th, nth_error (s_threads w) t = Some th -> t <> t0 -> pc_group (st_pc th) <> Some g /\ ~ In (Deliver g) (st_todo th);
  ai_pc : forall t th, nth_error (s_threads w) t = Some th -> alone_pc w (st_pc th);
  ai_count : match look s (s_stats w l n) with Some a => s_count w a = wrote g (s_trace w) | None => wrote g (s_trace w) = 0 end }.
Lemma SSt_todo t w pc todo w' pc' todo' : SSt t w pc todo w' pc' todo' -> (forall o, In o todo' -> In o todo) /\ (forall h, pc_group pc' = Some h -> pc_group pc = Some h \/ In (Deliver h) todo).
Proof.
  intros S. destruct S; (split; [intros o I0; try (right; exact I0); exact I0|]); cbn [pc_group]; intros h E; try discriminate; try (left; exact E).
  - injection E as ->. right. left. reflexivity.
  - destruct (read_step_reading _ _ _ _ _ _ _ H) as (? & ? & ? & ? & ? & ->). discriminate.
Qed.
Lemma alone_pc_same w w' pc : s_stats w' l n = s_stats w l n -> (forall a, cell_is w a -> s_count w' a = s_count w a) -> alone_pc w pc -> alone_pc w' pc.
Proof.
  intros E1 E2. destruct pc as [|h|h|h|h|h a|h a c|h| |p out cn cl ca]; cbn [alone_pc]; try tauto; unfold cell_is in *; rewrite ?E1; try tauto.
  - intros K Eh. destruct (K Eh) as [K1 K2]. split; [exact K1|]. rewrite (E2 _ K1). exact K2.
Qed.
Lemma SSt_alone t w pc todo w' pc' todo' own : nth_error (s_threads w) t = Some (mkST pc todo) -> SSt t w pc todo w' pc' todo' -> dict_inv w -> own_inv own w -> alone_inv w -> alone_inv w'.
Proof.
  intros A S D O AI. pose proof (SSt_threads _ _ _ _ _ _ _ S) as Th. pose proof (oi_pc _ _ O _ _ A) as Op. pose proof (ai_pc w AI _ _ A) as Pc. cbn [st_pc] in Op, Pc.
  assert (P1 : forall t1 th1, nth_error (s_threads w') t1 = Some th1 -> t1 <> t0 -> pc_group (st_pc th1) <> Some g /\ ~ In (Deliver g) (st_todo th1)).
  { intros t1 th1 A1 Hn. rewrite Th in A1. destruct (set_cases _ _ _ _ _ A1) as [[-> ->]|[Hn1 E]]; [|exact (ai_others w AI _ _ E Hn)].
    destruct (ai_others w AI _ _ A Hn) as [B1 B2]. cbn [st_pc st_todo] in *. destruct (SSt_todo _ _ _ _ _ _ _ S) as [T1 T2]. split; [|intros I0; exact (B2 (T1 _ I0))]. intros E. destruct (T2 _ E); tauto. }
  assert (Go : alone_pc w' pc' -> (forall t1 th1, t1 <> t -> nth_error (s_threads w) t1 = Some th1 -> alone_pc w' (st_pc th1)) ->
     match look s (s_stats w' l n) with Some a => s_count w' a = wrote g (s_trace w') | None => wrote g (s_trace w') = 0 end -> alone_inv w').
  { intros Q1 Q2 Q3. constructor; [exact P1| |exact Q3]. intros t1 th1 A1. rewrite Th in A1. destruct (set_cases _ _ _ _ _ A1) as [[-> ->]|[Hn E]]; [exact Q1|exact (Q2 _ _ Hn E)]. }
  assert (Same : s_stats w' l n = s_stats w l n -> (forall a, cell_is w a -> s_count w' a = s_count w a) -> wrote g (s_trace w') = wrote g (s_trace w) -> alone_pc w' pc' -> alone_inv w').
  { intros E1 E2 E3 Q. apply Go; [exact Q|intros t1 th1 _ E; exact (alone_pc_same _ _ _ E1 E2 (ai_pc w AI _ _ E))|]. rewrite E1, E3. pose proof (ai_count w AI) as C. destruct (look s (s_stats w l n)) eqn:L; [|exact C]. rewrite (E2 _ L). exact C. }
  assert (NW : forall new, wrote g new = 0 -> wrote g (s_trace w ++ new) = wrote g (s_trace w)) by (intros new E; rewrite wrote_app, E; lia).
  destruct S as [h todo|todo|l1 n1 s1 todo|l1 n1 s1 todo|l1 n1 s1 a todo Lk|l1 n1 s1 todo Lk|l1 n1 s1 todo|h a todo|h a c todo|h todo|todo|p out cn cl ca q todo R|p out cn cl ca r todo R|p out cn cl ca todo R];
    try (apply Same; first [exact I | apply NW; reflexivity | reflexivity | intros; reflexivity]; fail).
  - (* found *) apply Same; try reflexivity; [apply NW; reflexivity|]. cbn [alone_pc]. intros [= -> -> ->]. exact Lk.
  - (* missing *) apply Same; try reflexivity; [apply NW; reflexivity|]. cbn [alone_pc]. intros [= -> -> ->]. exact Lk.
  - (* store *) destruct (group_dec (l1, n1, s1) g) as [[= -> -> ->]|Ne].
    + (* the group itself, by t0 *) assert (Lk : look s (s_stats w l n) = None) by (apply Pc; reflexivity).
      assert (Me : t = t0). { destruct (Nat.eq_dec t t0) as [E|Hn]; [exact E|]. destruct (ai_others w AI _ _ A Hn) as [K _]. destruct K. reflexivity. }
      pose proof (ai_count w AI) as C. rewrite Lk in C.
      assert (Lk' : look s (s_stats (store l n s w) l n) = Some (s_next w)) by (cbn; rewrite !Nat.eqb_refl; cbn [andb]; rewrite look_put, Nat.eqb_refl; reflexivity).
      apply Go; [intros _; exact Lk'| |].
      * intros t1 th1 Hn E. pose proof (ai_pc w AI _ _ E) as K. destruct (ai_others w AI _ _ E) as [K1 _]; [congruence|].
        destruct (st_pc th1) as [|h|h|h|h|h a|h a c|h| |p out cn cl ca]; cbn [alone_pc pc_group] in *; try exact I; try (intros ->; congruence).
        destruct p; try exact I. intros Eh. specialize (K Eh). unfold cell_is in K. congruence.
      * cbn [sat s_stats s_count s_trace] in *. rewrite Lk'. cbn [store s_count]. rewrite Nat.eqb_refl, app_nil_r. symmetry. exact C.
    + assert (E1 : s_stats (store l1 n1 s1 w) l n = s_stats w l n \/ (l1 = l /\ n1 = n /\ s1 <> s)).
      { cbn. destruct (Nat.eqb_spec l l1) as [<-|]; cbn [andb]; [|left; reflexivity]. destruct (Nat.eqb_spec n n1) as [<-|]; [|left; reflexivity]. right. repeat split. intros ->. apply Ne. reflexivity. }
      assert (L1 : look s (s_stats (store l1 n1 s1 w) l n) = look s (s_stats w l n)).
      { destruct E1 as [E1|(-> & -> & Hs)]; [rewrite E1; reflexivity|]. cbn. rewrite !Nat.eqb_refl. cbn [andb]. rewrite look_put. destruct (Nat.eqb_spec s s1); [congruence|reflexivity]. }
      assert (C1 : forall a, cell_is w a -> s_count (store l1 n1 s1 w) a = s_count w a).
      { intros a L. apply look_in in L. destruct (oi_stats _ _ O _ _ _ _ L) as [_ K]. cbn. destruct (Nat.eqb_spec a (s_next w)); [lia|reflexivity]. }
      assert (Keep : forall pc1, alone_pc w pc1 -> alone_pc (sat t (QLoad (l1, n1, s1) (s_next w)) todo [] (store l1 n1 s1 w)) pc1).
      { intros pc1. destruct pc1 as [|h|h|h|h|h a|h a c|h| |p out cn cl ca]; cbn [alone_pc]; try tauto; unfold cell_is; cbn [sat s_stats s_count] in *; rewrite ?L1; try tauto.
        - intros K Eh. destruct (K Eh) as [K1 K2]. split; [exact K1|]. rewrite (C1 _ K1). exact K2. }
      apply Go; [intros Eh; congruence|intros t1 th1 _ E; exact (Keep _ (ai_pc w AI _ _ E))|]. cbn [sat s_stats s_count s_trace] in *. rewrite L1, app_nil_r. pose proof (ai_count w AI) as C. destruct (look s (s_stats w l n)) eqn:L; [|exact C]. rewrite (C1 _ L). exact C.
  - (* load *) apply Same; try reflexivity; [apply NW; reflexivity|]. cbn [alone_pc] in *. intros Eh. split; [exact (Pc Eh)|reflexivity].
  - (* write *) cbn [own_pc] in Op. destruct Op as (Ow & Lt & _). destruct (group_dec h g) as [->|Ne].
    + destruct (Pc eq_refl) as [Lk Ec].
      assert (Me : t = t0). { destruct (Nat.eq_dec t t0) as [E|Hn]; [exact E|]. destruct (ai_others w AI _ _ A Hn) as [K _]. destruct K. reflexivity. }
      pose proof (ai_count w AI) as C. unfold cell_is in Lk. rewrite Lk in C. apply Go; [exact I| |].
      * intros t1 th1 Hn E. pose proof (ai_pc w AI _ _ E) as K. destruct (ai_others w AI _ _ E) as [K1 _]; [congruence|].
        destruct (st_pc th1) as [|h|h|h|h|h a1|h a1 c1|h| |p out cn cl ca]; cbn [alone_pc pc_group] in *; try exact I; try (intros ->; congruence). exact K.
      * cbn [sat set_count s_stats s_count s_trace]. rewrite Lk, Nat.eqb_refl, wrote_app, <- C, <- Ec. unfold wrote. cbn [filter]. rewrite is_group_refl. cbn. lia.
    + apply Same; [reflexivity| | |exact I].
      * intros a0 L. cbn. destruct (Nat.eqb_spec a0 a) as [->|]; [|reflexivity]. apply look_in in L. destruct (oi_stats _ _ O _ _ _ _ L) as [K _]. destruct Ne. rewrite <- Ow. exact K.
      * apply NW. unfold wrote. cbn [filter]. rewrite is_group_ne by congruence. reflexivity.
  - (* reading *) apply Same; try reflexivity; [apply NW; reflexivity|].
    destruct p as [i|i l1|i l1 j|i l1 j n1|i l1 j n1 k|i l1 j n1 k s1 a]; cbn [read_step] in R; try (injection R as <-; exact I);
      repeat (match type of R with context [match ?x with _ => _ end] => destruct x eqn:? end); try discriminate; injection R as <-; try exact I.
    cbn [alone_pc]. intros [= -> -> ->]. unfold cell_is. cbn [sat s_stats]. apply (in_look _ _ _ (di_stats w D l n)). match goal with K : advance _ _ = Some (Some _) |- _ => exact (nth_error_In _ _ (advance_some _ _ _ K)) end.
Qed.
Lemma start_alone progs : delivers_alone t0 g progs -> alone_inv (sstart progs).
Proof.
  intros Al. constructor; [| |reflexivity].
  - intros t th A Hn. destruct (start_thread progs t th A) as (p & E & ->). split; [discriminate|]. intros I0. exact (Hn (Al _ _ E I0)).
  - intros t th A. destruct (start_thread progs t th A) as (p & _ & ->). exact I.
Qed.
Lemma run_alone progs sc : delivers_alone t0 g progs -> alone_inv (srun sc (sstart progs)).
Proof.
  intros Al. enough (K : dict_inv (srun sc (sstart progs)) /\ (exists own, own_inv own (srun sc (sstart progs))) /\ alone_inv (srun sc (sstart progs))) by tauto.
  apply (srun_inv (fun w => dict_inv w /\ (exists own, own_inv own w) /\ alone_inv w)).
  - intros t w w' pc todo pc' todo' A S (D & [own O] & AI). split; [exact (SSt_dict _ _ _ _ _ _ _ A S D)|]. split; [|exact (SSt_alone _ _ _ _ _ _ _ _ A S D O AI)].
    destruct (SSt_own _ _ _ _ _ _ _ _ A S O) as (own' & O' & _). exists own'. exact O'.
  - split; [apply start_dict|]. split; [exists (fun _ => (0, 0, 0)); apply start_own|apply start_alone, Al].
Qed.
End Alone.

(** *** A reader since its call *)
Definition it_i (p : rpos) : iter := match p with PTop i | PNames i _ | PName i _ _ | PStats i _ _ _ | PStat i _ _ _ _ | PCount i _ _ _ _ _ _ => i end.
Definition it_j (p : rpos) : option (nat * iter) := match p with PTop _ | PNames _ _ => None | PName _ l j | PStats _ l j _ | PStat _ l j _ _ | PCount _ l j _ _ _ _ => Some (l, j) end.
Definition it_k (p : rpos) : option (nat * nat * iter) := match p with PStat _ l _ n k | PCount _ l _ n k _ _ => Some (l, n, k) | _ => None end.
Record iters_inv (a : list sobs) (w : sstate) (p : rpos) : Prop := mkII {
  ii_i : snd (it_i p) <= length (s_top w) /\ forall l n s, done (l, n, s) a > 0 -> In l (firstn (snd (it_i p)) (s_top w));
  ii_j : forall l j, it_j p = Some (l, j) -> snd j <= length (s_names w l) /\ forall n s, done (l, n, s) a > 0 -> In n (firstn (snd j) (s_names w l));
  ii_k : forall l n k, it_k p = Some (l, n, k) -> snd k <= length (keys (s_stats w l n)) /\ forall s, done (l, n, s) a > 0 -> In s (firstn (snd k) (keys (s_stats w l n))) }.
Lemma grows_iters a w w' p : grows w w' -> iters_inv a w p -> iters_inv a w' p.
Proof.
  intros ([m1 E1] & G2 & G3) [[I1 I2] J K]. constructor.
  - rewrite E1. split; [rewrite app_length; lia|]. rewrite firstn_grow; assumption.
  - intros l j E. destruct (J _ _ E) as [J1 J2]. destruct (G2 l) as [m E2]. rewrite E2. split; [rewrite app_length; lia|]. rewrite firstn_grow; assumption.
  - intros l n k E. destruct (K _ _ _ E) as [K1 K2]. destruct (G3 l n) as [m E3]. rewrite E3. split; [rewrite app_length; lia|]. rewrite firstn_grow; assumption.
Qed.
Lemma read_step_iters a w p out cn cl ca p' out' cn' cl' ca' : (forall g, done g a > 0 -> in_dict w g) -> iters_inv a w p -> read_step w p out cn cl ca = inl (QReading p' out' cn' cl' ca') -> iters_inv a w p'.
Proof.
  intros Dn [I0 J K] E. destruct p as [i|i l|i l j|i l j n|i l j n k|i l j n k s acc]; cbn [read_step it_i it_j it_k] in *.
  - destruct (advance i (s_top w)) as [[l|]|] eqn:Ad; try discriminate. injection E as <- <- <- <- <-. constructor; [exact I0|discriminate|discriminate].
  - injection E as <- <- <- <- <-. constructor; [exact I0| |discriminate]. intros l0 j [= <- <-]. cbn [snd start_iter]. split; [lia|]. intros n s Dg. rewrite firstn_all. exact (proj1 (proj2 (Dn _ Dg))).
  - destruct (advance j (s_names w l)) as [[n|]|] eqn:Ad; try discriminate; injection E as <- <- <- <- <-; constructor; try exact I0; try discriminate.
    intros l0 j0 [= <- <-]. exact (J l j eq_refl).
  - injection E as <- <- <- <- <-. constructor; [exact I0|exact J|]. intros l0 n0 k [= <- <- <-]. cbn [snd start_iter]. unfold keys. rewrite map_length. split; [lia|]. intros s Dg. rewrite firstn_all2; [|rewrite map_length; lia]. exact (proj2 (proj2 (Dn _ Dg))).
  - destruct (advance k (s_stats w l n)) as [[[s acc]|]|] eqn:Ad; try discriminate; injection E as <- <- <- <- <-; constructor; try exact I0; try exact J; try discriminate.
    intros l0 n0 k0 [= <- <- <-]. exact (K l n k eq_refl).
  - injection E as <- <- <- <- <-. constructor; [exact I0|exact J|exact K].
Qed.
Lemma later_key (d : list nat) c : NoDup d -> c <= length d -> length d <> c -> exists x, In x d /\ ~ In x (firstn c d).
Proof.
  intros D L N. destruct (nth_error d c) as [x|] eqn:E; [|apply nth_error_None in E; lia]. exists x. split; [exact (nth_error_In _ _ E)|exact (nth_firstn_notin _ _ _ D E)].
Qed.
Lemma advance_fail {X} i (d : list X) : advance i d = None -> length d <> snd i.
Proof. unfold advance. destruct (Nat.eqb_spec (length d) (snd i)); [discriminate|tauto]. Qed.
Lemma read_step_fails a w p out cn cl ca : dict_inv w -> iters_inv a w p -> read_step w p out cn cl ca = inr None ->
  exists g, called g (s_trace w) > 0 /\ done g a = 0.
Proof.
  intros D [I0 J K] E.
  assert (Z : forall g, ~ done g a > 0 -> done g a = 0) by (intros; lia).
  destruct p as [i|i l|i l j|i l j n|i l j n k|i l j n k s acc]; cbn [read_step it_i it_j it_k] in *; try discriminate.
  - destruct (advance i (s_top w)) as [[l|]|] eqn:Ad; try discriminate. apply advance_fail in Ad. destruct I0 as [I1 I2].
    destruct (later_key _ _ (di_top w D) I1 Ad) as (l & L1 & L2). destruct (di_top_called w D _ L1) as (t & n & s & C). exists (l, n, s). split; [exact (in_called _ _ _ C)|]. apply Z. intros Dg. exact (L2 (I2 _ _ _ Dg)).
  - destruct (advance j (s_names w l)) as [[n|]|] eqn:Ad; try discriminate. apply advance_fail in Ad. destruct (J _ _ eq_refl) as [I1 I2].
    destruct (later_key _ _ (di_names w D l) I1 Ad) as (n & L1 & L2). destruct (di_names_called w D _ _ L1) as (t & s & C). exists (l, n, s). split; [exact (in_called _ _ _ C)|]. apply Z. intros Dg. exact (L2 (I2 _ _ Dg)).
  - destruct (advance k (s_stats w l n)) as [[[s acc]|]|] eqn:Ad; try discriminate. apply advance_fail in Ad. destruct (K _ _ _ eq_refl) as [I1 I2].
    destruct (later_key _ _ (di_stats w D l n) I1) as (s & L1 & L2); [unfold keys; rewrite map_length; exact Ad|]. destruct (di_stats_called w D _ _ _ L1) as (t & C). exists (l, n, s). split; [exact (in_called _ _ _ C)|]. apply Z. intros Dg. exact (L2 (I2 _ Dg)).
Qed.

Lemma split_last {X} (tr new a b : list X) x : tr ++ new = a ++ x :: b -> ~ In x new -> exists b', b = b' ++ new /\ tr = a ++ x :: b'.
Proof.
  revert b. induction new as [|y new IH] using rev_ind; intros b E N.
  - exists b. rewrite !app_nil_r in *. split; [reflexivity|exact E].
  - assert (b <> []). { intros ->. rewrite app_assoc in E. apply app_inj_tail in E. destruct E as [_ ->]. apply N. apply in_or_app. right. left. reflexivity. }
    destruct (exists_last H) as (b1 & z & ->). rewrite app_assoc in E. change (a ++ x :: b1 ++ [z]) with (a ++ (x :: b1) ++ [z]) in E. rewrite (app_assoc a) in E. apply app_inj_tail in E. destruct E as [E ->].
    destruct (IH _ E) as (b' & -> & Etr); [intros I0; apply N; apply in_or_app; left; exact I0|]. exists b'. split; [rewrite app_assoc; reflexivity|exact Etr].
Qed.
Definition reads_ok (alone : group -> Prop) (w : sstate) (t : nat) (pc : spc) : Prop :=
  match pc with
  | QReading p out cn cl ca => forall a b, s_trace w = a ++ SReadStart t :: b -> ~ In (SReadStart t) b ->
      read_inv a w p out cn cl ca /\ iters_inv a w p /\ forall g c, alone g -> In (g, c) (stats_of out) -> done g a <= c
  | _ => True
  end.
Definition rd_inv (alone : group -> Prop) (w : sstate) : Prop := forall t th, nth_error (s_threads w) t = Some th -> reads_ok alone w t (st_pc th).
Lemma done_prefix w a b g : dict_inv w -> s_trace w = a ++ b -> done g a > 0 -> in_dict w g.
Proof. intros D E Dg. destruct (done_in _ _ Dg) as [t I0]. apply (di_done w D t). rewrite E. apply in_or_app. left. exact I0. Qed.
Lemma SSt_reads (alone : group -> Prop) t w pc todo w' pc' todo' : nth_error (s_threads w) t = Some (mkST pc todo) -> SSt t w pc todo w' pc' todo' ->
  dict_inv w -> count_inv w -> (forall g, alone g -> exists t0, alone_inv t0 (fst (fst g)) (snd (fst g)) (snd g) w) -> rd_inv alone w -> rd_inv alone w'.
Proof.
  intros A S D Cn Al R t1 th1 A1. pose proof (SSt_threads _ _ _ _ _ _ _ S) as Th. pose proof (SSt_grows _ _ _ _ _ _ _ S) as G. destruct (SSt_new _ _ _ _ _ _ _ S) as (new & Tr & _ & Ns & _).
  rewrite Th in A1. destruct (set_cases _ _ _ _ _ A1) as [[-> ->]|[Hn E]].
  - pose proof (R _ _ A) as Me. cbn [st_pc] in *. destruct S; try exact I.
    + intros a b Et _. cbn [sat s_trace] in Et. rewrite app_nil_r in Et. split; [|split; [|intros g c _ []]].
      * apply (grows_read _ w); [exact G|apply start_read].
      * apply (grows_iters _ w _ _ G). constructor; [|discriminate|discriminate]. cbn [it_i snd start_iter]. split; [lia|]. intros l n s Dg. rewrite firstn_all. exact (proj1 (done_prefix _ _ _ _ D Et Dg)).
    + destruct (read_step_reading _ _ _ _ _ _ _ H) as (p' & out' & cn' & cl' & ca' & ->). cbn [reads_ok] in *. intros a b Et Nb. cbn [sat s_trace] in Et. rewrite app_nil_r in Et. destruct (Me a b Et Nb) as (R1 & R2 & R3).
      assert (Dn : forall g, done g a > 0 -> in_dict w g) by (intros g; exact (done_prefix _ _ _ _ D Et)).
      split; [|split].
      * apply (grows_read _ w); [exact G|]. destruct (read_step_inv _ _ _ _ _ _ _ _ D Dn R1 H) as (p2 & out2 & cn2 & cl2 & ca2 & [= <- <- <- <- <-] & R4). exact R4.
      * exact (grows_iters _ _ _ _ G (read_step_iters _ _ _ _ _ _ _ _ _ _ _ _ Dn R2 H)).
      * intros g c Ag I0. destruct p as [i|i l|i l j|i l j n|i l j n k|i l j n k s acc]; cbn [read_step] in H.
        -- destruct (advance i (s_top w)) as [[l|]|]; try discriminate. injection H as <- <- <- <- <-. exact (R3 _ _ Ag I0).
        -- injection H as <- <- <- <- <-. exact (R3 _ _ Ag I0).
        -- destruct (advance j (s_names w l)) as [[n|]|]; try discriminate; injection H as <- <- <- <- <-; [exact (R3 _ _ Ag I0)|]. rewrite stats_app, app_nil_r in I0. exact (R3 _ _ Ag I0).
        -- injection H as <- <- <- <- <-. exact (R3 _ _ Ag I0).
        -- destruct (advance k (s_stats w l n)) as [[[s acc]|]|]; try discriminate; injection H as <- <- <- <- <-; [exact (R3 _ _ Ag I0)|]. rewrite stats_app, app_nil_r in I0. exact (R3 _ _ Ag I0).
        -- injection H as <- <- <- <- <-. rewrite stats_app in I0. apply in_app_or in I0. destruct I0 as [I0|[[= <- <-]|[]]]; [exact (R3 _ _ Ag I0)|].
           destruct (Al _ Ag) as [t0 AI]. cbn [fst snd] in AI. pose proof (ai_pc _ _ _ _ w AI _ _ A) as K. cbn [st_pc alone_pc] in K. specialize (K eq_refl). unfold cell_is in K.
           pose proof (ai_count _ _ _ _ w AI) as C. rewrite K in C. rewrite C. destruct (Cn (l, n, s)) as [_ C2]. rewrite Et in C2. rewrite Et. rewrite C2, done_app. lia.
  - pose proof (R _ _ E) as K. destruct (st_pc th1) as [|h|h|h|h|h x|h x c|h| |p out cn cl ca]; try exact I. cbn [reads_ok] in *. intros a b Et Nb. rewrite Tr in Et. destruct (split_last _ _ _ _ _ Et (Ns _ Hn)) as (b' & -> & Et').
    destruct (K a b' Et') as (R1 & R2 & R3); [intros I0; apply Nb; apply in_or_app; left; exact I0|]. split; [exact (grows_read _ _ _ _ _ _ _ _ G R1)|]. split; [exact (grows_iters _ _ _ _ G R2)|exact R3].
Qed.
Definition alone_of (progs : list (list sop)) (g : group) : Prop := exists t0, delivers_alone t0 g progs.
Lemma run_reads progs sc : rd_inv (alone_of progs) (srun sc (sstart progs)).
Proof.
  assert (Al : forall sc g, alone_of progs g -> exists t0, alone_inv t0 (fst (fst g)) (snd (fst g)) (snd g) (srun sc (sstart progs))).
  { intros sc0 [[l n] s] [t0 K]. exists t0. exact (run_alone t0 l n s progs sc0 K). }
  induction sc as [|t sc IH] using rev_ind.
  - intros t th A. destruct (start_thread progs t th A) as (p & _ & ->). exact I.
  - assert (E : srun (sc ++ [t]) (sstart progs) = match sstep t (srun sc (sstart progs)) with Some w' => w' | None => srun sc (sstart progs) end).
    { clear. generalize (sstart progs). induction sc as [|x sc IH]; intros w; [reflexivity|]. cbn [srun app]. apply IH. }
    rewrite E. destruct (sstep t (srun sc (sstart progs))) as [w'|] eqn:St; [|exact IH]. destruct (sstep_SSt _ _ _ St) as (pc & todo & pc' & todo' & A & S).
    exact (SSt_reads _ _ _ _ _ _ _ _ A S (run_dict progs sc) (run_count progs sc) (Al sc) IH).
Qed.

(** *** The moment of an observation *)
Lemma srun_snoc sc t w : srun (sc ++ [t]) w = match sstep t (srun sc w) with Some w' => w' | None => srun sc w end.
Proof. revert w. induction sc as [|x sc IH]; intros w; [reflexivity|]. cbn [srun app]. apply IH. Qed.
Lemma moment progs sc p o c : s_trace (srun sc (sstart progs)) = p ++ o :: c -> exists sc1 t w2, s_trace (srun sc1 (sstart progs)) = p /\ sstep t (srun sc1 (sstart progs)) = Some w2 /\ s_trace w2 = p ++ [o].
Proof.
  revert p o c. induction sc as [|t sc IH] using rev_ind; intros p o c E; [destruct p; discriminate|]. rewrite srun_snoc in E. destruct (sstep t (srun sc (sstart progs))) as [w'|] eqn:St; [|exact (IH _ _ _ E)].
  destruct (sstep_SSt _ _ _ St) as (pc & todo & pc' & todo' & A & S). destruct (SSt_new _ _ _ _ _ _ _ S) as (new & Tr & L & _). destruct new as [|x [|y new]]; [|  |cbn in L; lia].
  - rewrite app_nil_r in Tr. rewrite Tr in E. exact (IH _ _ _ E).
  - destruct c as [|z c] using rev_ind.
    + rewrite Tr in E. apply app_inj_tail in E. destruct E as [E ->]. exists sc, t, w'. split; [exact E|]. split; [exact St|]. rewrite Tr, E. reflexivity.
    + rewrite Tr in E. change (p ++ o :: c ++ [z]) with (p ++ (o :: c) ++ [z]) in E. rewrite app_assoc in E. apply app_inj_tail in E. destruct E as [E _]. exact (IH _ _ _ E).
Qed.
Lemma read_ends progs sc t a b out c : s_trace (srun sc (sstart progs)) = a ++ SReadStart t :: b ++ SReadDone t out :: c -> ~ In (SReadStart t) b ->
  NoDup (map fst (stats_of out)) /\ (forall g, done g a > 0 -> In g (map fst (stats_of out))) /\ adds_up out /\
  (forall g n, In (g, n) (stats_of out) -> n <= called g (a ++ b) /\ called g (a ++ b) > 0 /\ (alone_of progs g -> done g a <= n)).
Proof.
  intros E Nb. change (a ++ SReadStart t :: b ++ SReadDone t out :: c) with (a ++ (SReadStart t :: b) ++ SReadDone t out :: c) in E. rewrite app_assoc in E.
  destruct (moment _ _ _ _ _ E) as (sc1 & t1 & w2 & E1 & St & E2). destruct (sstep_SSt _ _ _ St) as (pc & todo & pc' & todo' & A & S). set (w := srun sc1 (sstart progs)) in *.
  assert (K : exists p out0 cn cl ca, t1 = t /\ pc = QReading p out0 cn cl ca /\ read_step w p out0 cn cl ca = inr (Some out)).
  { rewrite <- E1 in E2. destruct S; cbn [sat set_top set_names store set_count s_trace] in E2;
      try (apply app_inv_head in E2; injection E2 as E2 E2'; try discriminate E2; subst; do 5 eexists; split; [reflexivity|]; split; [reflexivity|]; assumption);
      try (apply app_inv_head in E2; discriminate E2). }
  destruct K as (p & out0 & cn & cl & ca & -> & -> & Rs). pose proof (run_reads progs sc1 t _ A) as R. cbn [st_pc reads_ok] in R. destruct (R a b E1 Nb) as (R1 & R2 & R3).
  assert (Dn : forall g, done g a > 0 -> in_dict w g) by (intros g; exact (done_prefix _ _ _ _ (run_dict progs sc1) E1)).
  destruct (read_end _ _ _ _ _ _ _ _ Dn R1 Rs) as (F1 & F2 & F3 & F4). split; [exact F1|]. split; [exact F2|]. split; [exact F3|]. intros g n I0. rewrite F4 in I0.
  assert (Ca : called g (s_trace w) = called g (a ++ b)) by (rewrite E1, !called_app; unfold called; reflexivity).
  destruct (run_own progs sc1) as [own O]. pose proof (oi_pc _ _ O _ _ A) as Op. cbn [st_pc own_pc] in Op. destruct Op as [Op _]. destruct (Op _ _ I0) as [U1 U2]. destruct (run_count progs sc1 g) as [C1 _]. fold w in C1, U1, U2. rewrite <- Ca.
  split; [lia|]. split; [|intros Ag; exact (R3 _ _ Ag I0)]. destruct g as [[l1 n1] s1]. destruct U2 as (_ & _ & U2). destruct (di_stats_called _ (run_dict progs sc1) _ _ _ U2) as [t2 K]. exact (in_called _ _ _ K).
Qed.
Lemma read_fails progs sc t a b c : s_trace (srun sc (sstart progs)) = a ++ SReadStart t :: b ++ SReadFailed t :: c -> ~ In (SReadStart t) b ->
  exists g, called g (a ++ b) > 0 /\ done g a = 0.
Proof.
  intros E Nb. change (a ++ SReadStart t :: b ++ SReadFailed t :: c) with (a ++ (SReadStart t :: b) ++ SReadFailed t :: c) in E. rewrite app_assoc in E.
  destruct (moment _ _ _ _ _ E) as (sc1 & t1 & w2 & E1 & St & E2). destruct (sstep_SSt _ _ _ St) as (pc & todo & pc' & todo' & A & S). set (w := srun sc1 (sstart progs)) in *.
  assert (K : exists p out0 cn cl ca, t1 = t /\ pc = QReading p out0 cn cl ca /\ read_step w p out0 cn cl ca = inr None).
  { rewrite <- E1 in E2. destruct S; cbn [sat set_top set_names store set_count s_trace] in E2;
      try (apply app_inv_head in E2; injection E2 as E2; try discriminate E2; subst; do 5 eexists; split; [reflexivity|]; split; [reflexivity|]; assumption);
      try (apply app_inv_head in E2; discriminate E2). }
  destruct K as (p & out0 & cn & cl & ca & -> & -> & Rs). pose proof (run_reads progs sc1 t _ A) as R. cbn [st_pc reads_ok] in R. destruct (R a b E1 Nb) as (R1 & R2 & R3).
  destruct (read_step_fails _ _ _ _ _ _ _ (run_dict progs sc1) R2 Rs) as (g & G1 & G2). exists g. split; [|exact G2]. fold w in G1. rewrite E1 in G1. rewrite called_app in *. exact G1.
Qed.

(** *** Every delivery is made *)
Definition todo_count (g : group) (ths : list sthread) : nat := planned g (map st_todo ths).
Lemma planned_cons g p progs : planned g (p :: progs) = planned g [p] + planned g progs.
Proof. unfold planned. cbn [concat]. rewrite app_nil_r, filter_app, app_length. reflexivity. Qed.
Lemma planned_set g ths t th th' : nth_error ths t = Some th -> todo_count g (list_set ths t th') + planned g [st_todo th] = todo_count g ths + planned g [st_todo th'].
Proof.
  unfold todo_count. revert t. induction ths as [|x ths IH]; intros [|t] E; try discriminate; cbn [list_set map].
  - injection E as ->. rewrite (planned_cons g (st_todo th') (map st_todo ths)), (planned_cons g (st_todo th) (map st_todo ths)). lia.
  - specialize (IH _ E). rewrite (planned_cons g (st_todo x) (map st_todo (list_set ths t th'))), (planned_cons g (st_todo x) (map st_todo ths)). lia.
Qed.
Definition plan_inv (progs : list (list sop)) (w : sstate) : Prop := forall g, called g (s_trace w) + todo_count g (s_threads w) = planned g progs.
Lemma SSt_plan progs t w pc todo w' pc' todo' : nth_error (s_threads w) t = Some (mkST pc todo) -> SSt t w pc todo w' pc' todo' -> plan_inv progs w -> plan_inv progs w'.
Proof.
  intros A S P g. pose proof (planned_set g _ _ _ (mkST pc' todo') A) as K. rewrite <- (SSt_threads _ _ _ _ _ _ _ S) in K. specialize (P g). cbn [st_todo] in K.
  assert (N : exists new, s_trace w' = s_trace w ++ new /\ called g new + planned g [todo'] = planned g [todo]).
  { destruct S; eexists; (split; [reflexivity|]); unfold called, planned; cbn [filter concat app length]; rewrite ?app_nil_r; try reflexivity. destruct (is_group g g0); reflexivity. }
  destruct N as (new & E & N). rewrite E, called_app. lia.
Qed.
Lemma run_plan progs sc : plan_inv progs (srun sc (sstart progs)).
Proof.
  apply srun_inv; [intros t w w' pc todo pc' todo' A S; exact (SSt_plan _ _ _ _ _ _ _ _ A S)|]. intros g. cbn. unfold todo_count. cbn [s_threads sstart]. rewrite map_map. cbn. rewrite map_id. reflexivity.
Qed.
Lemma all_delivered progs sc g : (forall t, sstep t (srun sc (sstart progs)) = None) -> done g (s_trace (srun sc (sstart progs))) = planned g progs.
Proof.
  set (w := srun sc (sstart progs)). intros Q.
  assert (Id : forall th, In th (s_threads w) -> th = mkST QIdle []).
  { intros th I0. apply In_nth_error in I0. destruct I0 as [t E]. specialize (Q t). unfold sstep in Q. rewrite E in Q. destruct th as [pc todo]. cbn [st_pc st_todo] in Q.
    destruct pc as [|[[l n] s]|[[l n] s]|[[l n] s]|[[l n] s]|h a|h a c|h| |p out cn cl ca]; try discriminate.
    - destruct todo as [|[h|] todo]; [reflexivity|discriminate|discriminate].
    - destruct (read_step w p out cn cl ca) as [q|[r|]]; discriminate. }
  pose proof (run_plan progs sc g) as P. destruct (run_count progs sc g) as [C1 C2]. fold w in P, C1, C2.
  assert (Z : forall f, f QIdle = false -> cnt f (s_threads w) = 0).
  { intros f F. unfold cnt. revert Id. generalize (s_threads w). induction l as [|x l IH]; intros Id; [reflexivity|]. cbn [filter]. rewrite (Id x (or_introl eq_refl)). cbn [st_pc]. rewrite F. apply IH. intros th I0. apply Id. right. exact I0. }
  assert (Zt : todo_count g (s_threads w) = 0).
  { unfold todo_count. revert Id. generalize (s_threads w). induction l as [|x l IH]; intros Id; [reflexivity|]. cbn [map]. rewrite planned_cons, (Id x (or_introl eq_refl)). cbn [st_todo]. rewrite IH; [reflexivity|]. intros th I0. apply Id. right. exact I0. }
  rewrite (Z (pend g) eq_refl) in C1. rewrite (Z (ret g) eq_refl) in C2. lia.
Qed.
