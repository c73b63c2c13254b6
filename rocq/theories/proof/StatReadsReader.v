(** What a reader of a RateSink has seen so far: C96. *)
From Verif Require Import model.PyBase model.Core model.StatReads spec.StatReadsSpec proof.CoreLib proof.HookThreadsProofs proof.StatReadsProofs.
Open Scope nat_scope.

(** Finished loggers, current logger, finished names of it, current name, finished statuses. *)
Definition li (p : rpos) : nat :=
  match p with PTop i => fst i | PNames i _ | PName i _ _ | PStats i _ _ _ | PStat i _ _ _ _ | PCount i _ _ _ _ _ _ => pred (fst i) end.
Definition cur_l (p : rpos) : option nat :=
  match p with PTop _ => None | PNames _ l | PName _ l _ | PStats _ l _ _ | PStat _ l _ _ _ | PCount _ l _ _ _ _ _ => Some l end.
Definition nj (p : rpos) : nat :=
  match p with PTop _ | PNames _ _ => 0 | PName _ _ j => fst j | PStats _ _ j _ | PStat _ _ j _ _ | PCount _ _ j _ _ _ _ => pred (fst j) end.
Definition cur_n (p : rpos) : option nat :=
  match p with PTop _ | PNames _ _ | PName _ _ _ => None | PStats _ _ _ n | PStat _ _ _ n _ | PCount _ _ _ n _ _ _ => Some n end.
Definition sk (p : rpos) : nat :=
  match p with PStat _ _ _ _ k => fst k | PCount _ _ _ _ k _ _ => pred (fst k) | _ => 0 end.
Definition cur_s (p : rpos) : option nat := match p with PCount _ _ _ _ _ s _ => Some s | _ => None end.
Definition iter_ok (p : rpos) : Prop :=
  match p with
  | PTop _ => True
  | PNames i _ | PName i _ _ => fst i = S (li p)
  | PStats i _ j _ | PStat i _ j _ _ => fst i = S (li p) /\ fst j = S (nj p)
  | PCount i _ j _ k _ _ => fst i = S (li p) /\ fst j = S (nj p) /\ fst k = S (sk p)
  end.
Definition placed (w : sstate) (p : rpos) : Prop :=
  iter_ok p /\ li p <= length (s_top w) /\
  (forall l, cur_l p = Some l -> nth_error (s_top w) (li p) = Some l /\ nj p <= length (s_names w l) /\
    forall n, cur_n p = Some n -> nth_error (s_names w l) (nj p) = Some n /\ sk p <= length (keys (s_stats w l n)) /\
      forall s, cur_s p = Some s -> nth_error (keys (s_stats w l n)) (sk p) = Some s).
Definition named (w : sstate) (p : rpos) (l n : nat) : Prop :=
  In l (firstn (li p) (s_top w)) \/ (cur_l p = Some l /\ In n (firstn (nj p) (s_names w l))).
Definition passed (w : sstate) (p : rpos) (g : group) : Prop :=
  let '(l, n, s) := g in named w p l n \/ (cur_l p = Some l /\ cur_n p = Some n /\ In s (firstn (sk p) (keys (s_stats w l n)))).

Lemma firstn_grow {X} k (d m : list X) : k <= length d -> firstn k (d ++ m) = firstn k d.
Proof. intros L. rewrite firstn_app. replace (k - length d) with 0 by lia. apply app_nil_r. Qed.
Lemma nth_grow {X} k (d m : list X) x : nth_error d k = Some x -> nth_error (d ++ m) k = Some x.
Proof. intros E. rewrite nth_error_app1; [exact E|]. apply nth_error_Some. congruence. Qed.
Lemma grows_placed w w' p : grows w w' -> placed w p -> placed w' p.
Proof.
  intros ([m1 E1] & G2 & G3) (A & B & C). split; [exact A|]. split; [rewrite E1, app_length; lia|]. intros l El. destruct (C l El) as (C1 & C2 & C3). destruct (G2 l) as [m2 E2].
  split; [rewrite E1; apply nth_grow; exact C1|]. split; [rewrite E2, app_length; lia|]. intros n En. destruct (C3 n En) as (C4 & C5 & C6). destruct (G3 l n) as [m3 E3].
  split; [rewrite E2; apply nth_grow; exact C4|]. split; [rewrite E3, app_length; lia|]. intros s Es. rewrite E3. apply nth_grow, C6, Es.
Qed.
Lemma grows_named w w' p l n : grows w w' -> placed w p -> (named w p l n <-> named w' p l n).
Proof.
  intros ([m1 E1] & G2 & G3) (A & B & C). unfold named. rewrite E1, (firstn_grow _ _ _ B). destruct (G2 l) as [m2 E2]. rewrite E2.
  split; (intros [K|[K1 K2]]; [left; exact K|]; right; split; [exact K1|]; destruct (C l K1) as (_ & C2 & _)); [rewrite firstn_grow|rewrite firstn_grow in K2]; assumption.
Qed.
Lemma grows_passed w w' p g : grows w w' -> placed w p -> (passed w p g <-> passed w' p g).
Proof.
  intros G P. destruct g as [[l n] s]. unfold passed. rewrite (grows_named _ _ _ l n G P). destruct G as ([m1 E1] & G2 & G3). destruct P as (A & B & C). destruct (G3 l n) as [m3 E3]. rewrite E3.
  split; (intros [K|(K1 & K2 & K3)]; [left; exact K|]; right; repeat split; try assumption; destruct (C l K1) as (_ & _ & C3); destruct (C3 n K2) as (_ & C4 & _)); [rewrite firstn_grow|rewrite firstn_grow in K3]; assumption.
Qed.

(** *** Sums *)
Lemma stats_app a b : stats_of (a ++ b) = stats_of a ++ stats_of b. Proof. apply flat_map_app. Qed.
Lemma names_app a b : names_of (a ++ b) = names_of a ++ names_of b. Proof. apply flat_map_app. Qed.
Lemma loggers_app a b : loggers_of (a ++ b) = loggers_of a ++ loggers_of b. Proof. apply flat_map_app. Qed.
Lemma totals_app a b : totals_of (a ++ b) = totals_of a ++ totals_of b. Proof. apply flat_map_app. Qed.
Lemma sum_app f a b : sum_where f (a ++ b) = sum_where f a + sum_where f b.
Proof. unfold sum_where. rewrite stats_app, filter_app, map_app, list_sum_app. reflexivity. Qed.
Lemma sum_stat f g c : sum_where f [LStat g c] = if f g then c else 0.
Proof. unfold sum_where. cbn. destruct (f g); cbn; lia. Qed.
Lemma sum_none f out : (forall g, In g (map fst (stats_of out)) -> f g = false) -> sum_where f out = 0.
Proof.
  unfold sum_where. intros N. enough (filter (fun p => f (fst p)) (stats_of out) = []) as -> by reflexivity.
  induction (stats_of out) as [|[g c] l IH]; [reflexivity|]. cbn [filter fst]. rewrite (N g (or_introl eq_refl)). apply IH. intros g' I. apply N. right. exact I.
Qed.
Lemma of_name_true l n g : of_name l n g = true <-> exists s, g = (l, n, s).
Proof.
  destruct g as [[l' n'] s]. unfold of_name. cbn [fst snd]. rewrite andb_true_iff, !Nat.eqb_eq. split; [intros [-> ->]; exists s; reflexivity|]. intros [s' [= -> -> _]]. split; reflexivity.
Qed.
Lemma of_logger_true l g : of_logger l g = true <-> exists n s, g = (l, n, s).
Proof. destruct g as [[l' n'] s]. unfold of_logger. cbn [fst snd]. rewrite Nat.eqb_eq. split; [intros ->; exists n', s; reflexivity|]. intros (n & s' & [= -> _ _]). reflexivity. Qed.

(** *** The reader *)
Record read_inv (a : list sobs) (w : sstate) (p : rpos) (out : list sline) (cn cl ca : nat) : Prop := mkRI {
  ri_placed : placed w p;
  ri_only : forall g, In g (map fst (stats_of out)) -> passed w p g;
  ri_all : forall g, passed w p g -> done g a > 0 -> In g (map fst (stats_of out));
  ri_once : NoDup (map fst (stats_of out));
  ri_names : forall l n c, In (l, n, c) (names_of out) -> named w p l n /\ c = sum_where (of_name l n) out;
  ri_loggers : forall l c, In (l, c) (loggers_of out) -> In l (firstn (li p) (s_top w)) /\ c = sum_where (of_logger l) out;
  ri_has_name : forall l n s, In (l, n, s) (map fst (stats_of out)) -> named w p l n -> exists c, In (l, n, c) (names_of out);
  ri_has_logger : forall l n s, In (l, n, s) (map fst (stats_of out)) -> In l (firstn (li p) (s_top w)) -> exists c, In (l, c) (loggers_of out);
  ri_totals : totals_of out = [];
  ri_cn : forall l n, cur_l p = Some l -> cur_n p = Some n -> cn = sum_where (of_name l n) out;
  ri_cl : forall l, cur_l p = Some l -> cl = sum_where (of_logger l) out;
  ri_ca : ca = sum_where (fun _ => true) out }.
Lemma grows_read a w w' p out cn cl ca : grows w w' -> read_inv a w p out cn cl ca -> read_inv a w' p out cn cl ca.
Proof.
  intros G [P O Al On Na Lo Hn Hl To Cn Cl Ca]. constructor; try assumption.
  - exact (grows_placed _ _ _ G P).
  - intros g I. apply (grows_passed _ _ _ g G P), O, I.
  - intros g I. apply Al, (grows_passed _ _ _ g G P), I.
  - intros l n c I. destruct (Na _ _ _ I) as [N1 N2]. split; [apply (grows_named _ _ _ _ _ G P), N1|exact N2].
  - intros l c I. destruct (Lo _ _ I) as [N1 N2]. split; [|exact N2]. destruct G as ([m1 E1] & _). rewrite E1, firstn_grow; [exact N1|exact (proj1 (proj2 P))].
  - intros l n s I N1. apply (Hn l n s I), (grows_named _ _ _ _ _ G P), N1.
  - intros l n s I N1. apply (Hl l n s I). destruct G as ([m1 E1] & _). rewrite E1, firstn_grow in N1; [exact N1|exact (proj1 (proj2 P))].
Qed.
Lemma nth_firstn_notin {X} (d : list X) k x : NoDup d -> nth_error d k = Some x -> ~ In x (firstn k d).
Proof.
  revert k. induction d as [|y d IH]; intros [|k] D E; try discriminate; cbn; [tauto|]. inversion D as [|? ? D1 D2]; subst. intros [->|I]; [exact (D1 (nth_error_In d k E))|exact (IH _ D2 E I)].
Qed.
Lemma firstn_S {X} (d : list X) k x : nth_error d k = Some x -> firstn (S k) d = firstn k d ++ [x].
Proof. revert k. induction d as [|y d IH]; intros [|k] E; try discriminate; cbn in *; [congruence|]. rewrite (IH _ E). reflexivity. Qed.
Lemma advance_some {X} i (d : list X) x : advance i d = Some (Some x) -> nth_error d (fst i) = Some x.
Proof. unfold advance. destruct (length d =? snd i); [congruence|discriminate]. Qed.
Lemma advance_end {X} i (d : list X) : advance i d = Some None -> firstn (fst i) d = d.
Proof. unfold advance. destruct (length d =? snd i); [|discriminate]. intros [= E]. apply firstn_all2, nth_error_None, E. Qed.
Lemma advance_end_keys i d : advance i d = Some None -> firstn (fst i) (keys d) = keys d.
Proof. unfold advance. destruct (length d =? snd i); [|discriminate]. intros [= E]. apply nth_error_None in E. apply firstn_all2. unfold keys. rewrite map_length. exact E. Qed.

Lemma start_read a w : read_inv a w (PTop (start_iter (s_top w))) [] 0 0 0.
Proof.
  constructor; try (cbn; intros; contradiction); try (cbn; intros; discriminate); try reflexivity.
  - split; [exact I|]. split; [cbn; lia|]. discriminate.
  - intros [[l n] s] [K|(K & _)]; [|discriminate]. destruct K as [[]|[K _]]. discriminate.
  - constructor.
Qed.

Lemma read_step_inv a w p out cn cl ca q : dict_inv w -> (forall g, done g a > 0 -> in_dict w g) -> read_inv a w p out cn cl ca -> read_step w p out cn cl ca = inl q ->
  exists p' out' cn' cl' ca', q = QReading p' out' cn' cl' ca' /\ read_inv a w p' out' cn' cl' ca'.
Proof.
  intros D Dn [P O Al On Na Lo Hn Hl To Cn Cl Ca] E. destruct P as (Pi & Pl & Pc). destruct p as [i|i l|i l j|i l j n|i l j n k|i l j n k s acc]; cbn [read_step li cur_l nj cur_n sk cur_s iter_ok] in *.
  - (* next logger *) destruct (advance i (s_top w)) as [[l|]|] eqn:Ad; try discriminate. injection E as <-. do 5 eexists. split; [reflexivity|]. apply advance_some in Ad.
    assert (Same : forall g, passed w (PNames (past i) l) g <-> passed w (PTop i) g).
    { intros [[l' n'] s']. unfold passed, named. cbn [li cur_l nj cur_n sk past fst pred firstn In]. intuition discriminate. }
    constructor; try assumption.
    + split; [reflexivity|]. split; [exact Pl|]. intros l0 [= <-]. split; [exact Ad|]. split; [cbn; lia|discriminate].
    + intros g I. apply Same, O, I.
    + intros g I. apply Al, Same, I.
    + intros l' n' c I. destruct (Na _ _ _ I) as [[K|[K _]] N2]; [|discriminate]. split; [left; exact K|exact N2].
    + intros l' n' s' I [K|[_ []]]. apply (Hn l' n' s' I). left. exact K.
    + discriminate.
    + intros l0 [= <-]. symmetry. apply sum_none. intros g I. destruct (of_logger l g) eqn:F; [|reflexivity]. apply of_logger_true in F. destruct F as (n' & s' & ->).
      apply O in I. destruct I as [[I|[I _]]|(I & _)]; try discriminate. destruct (nth_firstn_notin _ _ _ (di_top w D) Ad I).
  - (* names *) injection E as <-. do 5 eexists. split; [reflexivity|]. destruct (Pc l eq_refl) as (P1 & P2 & _).
    assert (Same : forall g, passed w (PName i l (start_iter (s_names w l))) g <-> passed w (PNames i l) g).
    { intros [[l' n'] s']. unfold passed, named. cbn [li cur_l nj cur_n sk start_iter fst pred firstn In]. intuition discriminate. }
    constructor; try assumption.
    + split; [exact Pi|]. split; [exact Pl|]. intros l0 [= <-]. split; [exact P1|]. split; [cbn; lia|discriminate].
  - (* next name *) destruct (Pc l eq_refl) as (P1 & P2 & _). destruct (advance j (s_names w l)) as [[n|]|] eqn:Ad; try discriminate; injection E as <-; do 5 eexists; (split; [reflexivity|]).
    + apply advance_some in Ad.
      assert (Same : forall g, passed w (PStats i l (past j) n) g <-> passed w (PName i l j) g).
      { intros [[l' n'] s']. unfold passed, named. cbn [li cur_l nj cur_n sk past fst pred firstn In]. intuition discriminate. }
      constructor; try assumption.
      * split; [split; [exact Pi|reflexivity]|]. split; [exact Pl|]. intros l0 [= <-]. split; [exact P1|]. split; [exact P2|]. intros n0 [= <-]. split; [exact Ad|]. split; [cbn; lia|discriminate].
      * intros g I. apply Same, O, I.
      * intros g I. apply Al, Same, I.
      * intros l0 n0 [= <-] [= <-]. symmetry. apply sum_none. intros g I. destruct (of_name l n g) eqn:F; [|reflexivity]. apply of_name_true in F. destruct F as (s' & ->).
        apply O in I. destruct I as [[I|[_ I]]|(_ & I & _)]; try discriminate.
        -- destruct (nth_firstn_notin _ _ _ (di_top w D) P1 I).
        -- destruct (nth_firstn_notin _ _ _ (di_names w D l) Ad I).
    + (* the logger is finished *) pose proof (advance_end _ _ Ad) as Fu.
      assert (Up : firstn (fst i) (s_top w) = firstn (pred (fst i)) (s_top w) ++ [l]) by (rewrite Pi at 1; apply firstn_S, P1).
      assert (Sub : forall g, passed w (PName i l j) g -> passed w (PTop i) g).
      { intros [[l' n'] s'] K. left. left. cbn [li]. rewrite Up. apply in_or_app. destruct K as [[K|[[= ->] _]]|(_ & K & _)]; [left; exact K|right; left; reflexivity|discriminate]. }
      constructor; rewrite ?stats_app, ?names_app, ?totals_app, ?app_nil_r; try assumption.
      * split; [exact I|]. split; [|discriminate]. cbn [li]. rewrite Pi. enough (pred (fst i) < length (s_top w)) by lia. apply nth_error_Some. congruence.
      * intros g I. apply Sub, O, I.
      * intros [[l' n'] s'] K Dg. apply Al; [|exact Dg]. destruct K as [[K|[K _]]|(K & _)]; try discriminate. cbn [li] in K. rewrite Up in K. apply in_app_or in K. destruct K as [K|[->|[]]]; [left; left; exact K|].
        left. right. split; [reflexivity|]. cbn [nj]. rewrite Fu. exact (proj1 (proj2 (Dn _ Dg))).
      * intros l' n' c I. destruct (Na _ _ _ I) as [N1 N2]. split; [|rewrite sum_app; cbn; lia]. left. cbn [li]. rewrite Up. apply in_or_app. destruct N1 as [N1|[[= ->] _]]; [left; exact N1|right; left; reflexivity].
      * intros l' c I. rewrite loggers_app in I. apply in_app_or in I. rewrite sum_app. cbn [li]. rewrite Up. destruct I as [I|[[= <- <-]|[]]].
        -- destruct (Lo _ _ I) as [N1 N2]. split; [apply in_or_app; left; exact N1|cbn; lia].
        -- split; [apply in_or_app; right; left; reflexivity|]. cbn. rewrite (Cl l eq_refl). lia.
      * intros l' n' s' I _. apply (Hn l' n' s' I). destruct (O _ I) as [K|(_ & K & _)]; [exact K|discriminate].
      * intros l' n' s' I K. rewrite loggers_app. cbn [li] in K. rewrite Up in K. apply in_app_or in K. destruct K as [K|[->|[]]].
        -- destruct (Hl _ _ _ I K) as [c I1]. exists c. apply in_or_app. left. exact I1.
        -- exists cl. apply in_or_app. right. left. reflexivity.
      * discriminate.
      * discriminate.
      * rewrite sum_app. cbn. lia.
  - (* statuses *) injection E as <-. do 5 eexists. split; [reflexivity|]. destruct (Pc l eq_refl) as (P1 & P2 & P3). destruct (P3 n eq_refl) as (P4 & P5 & _).
    assert (Same : forall g, passed w (PStat i l j n (start_iter (s_stats w l n))) g <-> passed w (PStats i l j n) g).
    { intros [[l' n'] s']. unfold passed, named. cbn [li cur_l nj cur_n sk start_iter fst pred firstn In]. tauto. }
    constructor; try assumption.
    + split; [exact Pi|]. split; [exact Pl|]. intros l0 [= <-]. split; [exact P1|]. split; [exact P2|]. intros n0 [= <-]. split; [exact P4|]. split; [cbn; lia|discriminate].
  - (* next status *) destruct (Pc l eq_refl) as (P1 & P2 & P3). destruct (P3 n eq_refl) as (P4 & P5 & _). destruct Pi as [Pi Pj].
    destruct (advance k (s_stats w l n)) as [[[s acc]|]|] eqn:Ad; try discriminate; injection E as <-; do 5 eexists; (split; [reflexivity|]).
    + apply advance_some in Ad.
      assert (Same : forall g, passed w (PCount i l j n (past k) s acc) g <-> passed w (PStat i l j n k) g).
      { intros [[l' n'] s']. unfold passed, named. cbn [li cur_l nj cur_n sk past fst pred firstn In]. tauto. }
      constructor; try assumption.
      * split; [split; [exact Pi|split; [exact Pj|reflexivity]]|]. split; [exact Pl|]. intros l0 [= <-]. split; [exact P1|]. split; [exact P2|]. intros n0 [= <-]. split; [exact P4|]. split; [exact P5|].
        intros s0 [= <-]. cbn [sk past fst pred]. unfold keys. rewrite nth_error_map, Ad. reflexivity.
    + (* the name is finished *) pose proof (advance_end_keys _ _ Ad) as Fu.
      assert (Up : firstn (fst j) (s_names w l) = firstn (pred (fst j)) (s_names w l) ++ [n]) by (rewrite Pj at 1; apply firstn_S, P4).
      assert (Sub : forall g, passed w (PStat i l j n k) g -> passed w (PName i l j) g).
      { intros [[l' n'] s'] K. left. destruct K as [[K|[[= ->] K]]|([= ->] & [= ->] & _)]; [left; exact K| |]; right; (split; [reflexivity|]); cbn [nj]; rewrite Up; apply in_or_app; [left; exact K|right; left; reflexivity]. }
      constructor; rewrite ?stats_app, ?loggers_app, ?totals_app, ?app_nil_r; try assumption.
      * split; [exact Pi|]. split; [exact Pl|]. intros l0 [= <-]. split; [exact P1|]. split; [|discriminate]. cbn [nj]. rewrite Pj. enough (pred (fst j) < length (s_names w l)) by lia. apply nth_error_Some. congruence.
      * intros g I. apply Sub, O, I.
      * intros [[l' n'] s'] K Dg. apply Al; [|exact Dg]. destruct K as [[K|[[= <-] K]]|(_ & K & _)]; [left; left; exact K| |discriminate]. cbn [nj] in K. rewrite Up in K. apply in_app_or in K.
        destruct K as [K|[<-|[]]]; [left; right; split; [reflexivity|exact K]|]. right. repeat split; try reflexivity. cbn [sk]. rewrite Fu. exact (proj2 (proj2 (Dn _ Dg))).
      * intros l' n' c I. rewrite names_app in I. rewrite sum_app. apply in_app_or in I. destruct I as [I|[[= <- <- <-]|[]]].
        -- destruct (Na _ _ _ I) as [N1 N2]. split; [|cbn; lia]. destruct N1 as [N1|[[= <-] N1]]; [left; exact N1|]. right. split; [reflexivity|]. cbn [nj]. rewrite Up. apply in_or_app. left. exact N1.
        -- split; [|cbn; rewrite (Cn l n eq_refl eq_refl); lia]. right. split; [reflexivity|]. cbn [nj]. rewrite Up. apply in_or_app. right. left. reflexivity.
      * intros l' c I. destruct (Lo _ _ I) as [N1 N2]. split; [exact N1|]. rewrite sum_app. cbn. lia.
      * intros l' n' s' I K. rewrite names_app. destruct (O _ I) as [K1|([= ->] & [= ->] & _)].
        -- destruct (Hn _ _ _ I K1) as [c I1]. exists c. apply in_or_app. left. exact I1.
        -- exists cn. apply in_or_app. right. left. reflexivity.
      * discriminate.
      * intros l0 [= <-]. rewrite sum_app, (Cl l eq_refl). cbn. lia.
      * rewrite sum_app. cbn. lia.
  - (* count *) injection E as <-. do 5 eexists. split; [reflexivity|]. destruct (Pc l eq_refl) as (P1 & P2 & P3). destruct (P3 n eq_refl) as (P4 & P5 & P6). specialize (P6 s eq_refl). destruct Pi as (Pi & Pj & Pk).
    set (c := s_count w acc).
    assert (Up : firstn (fst k) (keys (s_stats w l n)) = firstn (pred (fst k)) (keys (s_stats w l n)) ++ [s]) by (rewrite Pk at 1; apply firstn_S, P6).
    assert (Both : forall g, passed w (PStat i l j n k) g <-> passed w (PCount i l j n k s acc) g \/ g = (l, n, s)).
    { intros [[l' n'] s']. unfold passed. cbn [cur_l cur_n sk]. split.
      - intros [K|([= ->] & [= ->] & K)]; [left; left; exact K|]. rewrite Up in K. apply in_app_or in K. destruct K as [K|[->|[]]]; [left; right; repeat split; try reflexivity; exact K|right; reflexivity].
      - intros [[K|([= ->] & [= ->] & K)]|[= -> -> ->]]; [left; exact K| |]; right; repeat split; try reflexivity; rewrite Up; apply in_or_app; [left; exact K|right; left; reflexivity]. }
    assert (Fresh : ~ passed w (PCount i l j n k s acc) (l, n, s)).
    { intros [[K|[_ K]]|(_ & _ & K)].
      - exact (nth_firstn_notin _ _ _ (di_top w D) P1 K).
      - exact (nth_firstn_notin _ _ _ (di_names w D l) P4 K).
      - exact (nth_firstn_notin _ _ _ (di_stats w D l n) P6 K). }
    constructor; rewrite ?stats_app, ?names_app, ?loggers_app, ?totals_app, ?app_nil_r, ?map_app; cbn [stats_of flat_map map fst app]; rewrite ?app_nil_r; try assumption.
    + split; [split; assumption|]. split; [exact Pl|]. intros l0 [= <-]. split; [exact P1|]. split; [exact P2|]. intros n0 [= <-]. split; [exact P4|]. split; [|discriminate]. cbn [sk]. rewrite Pk.
      enough (pred (fst k) < length (keys (s_stats w l n))) by lia. apply nth_error_Some. congruence.
    + intros g I. apply Both. apply in_app_or in I. destruct I as [I|[<-|[]]]; [left; exact (O _ I)|right; reflexivity].
    + intros g K Dg. apply in_or_app. apply Both in K. destruct K as [K| ->]; [left; exact (Al _ K Dg)|right; left; reflexivity].
    + apply NoDup_rev in On. rewrite <- (rev_involutive (_ ++ _)). apply NoDup_rev. rewrite rev_app_distr. cbn. constructor; [|exact On]. rewrite <- in_rev. intros I. exact (Fresh (O _ I)).
    + intros l' n' c0 I. cbn in I. rewrite ?app_nil_r in I. destruct (Na _ _ _ I) as [N1 N2]. split; [exact N1|]. rewrite sum_app, sum_stat. destruct (of_name l' n' (l, n, s)) eqn:F; [|lia]. apply of_name_true in F. destruct F as [s' [= <- <- <-]].
      destruct Fresh. left. exact N1.
    + intros l' c0 I. cbn in I. rewrite ?app_nil_r in I. destruct (Lo _ _ I) as [N1 N2]. split; [exact N1|]. rewrite sum_app, sum_stat. destruct (of_logger l' (l, n, s)) eqn:F; [|lia]. apply of_logger_true in F. destruct F as (n' & s' & [= <- <- <-]).
      destruct Fresh. left. left. exact N1.
    + intros l' n' s' I K. cbn. rewrite ?app_nil_r. apply in_app_or in I. destruct I as [I|[[= <- <- <-]|[]]]; [exact (Hn _ _ _ I K)|]. destruct Fresh. left. exact K.
    + intros l' n' s' I K. cbn. rewrite ?app_nil_r. apply in_app_or in I. destruct I as [I|[[= <- <- <-]|[]]]; [exact (Hl _ _ _ I K)|]. destruct Fresh. left. left. exact K.
    + intros l0 n0 [= <-] [= <-]. rewrite sum_app, sum_stat, (Cn l n eq_refl eq_refl). replace (of_name l n (l, n, s)) with true; [reflexivity|]. symmetry. apply of_name_true. exists s. reflexivity.
    + intros l0 [= <-]. rewrite sum_app, sum_stat, (Cl l eq_refl). replace (of_logger l (l, n, s)) with true; [reflexivity|]. symmetry. apply of_logger_true. exists n, s. reflexivity.
    + rewrite sum_app, sum_stat. lia.
Qed.

Lemma read_end a w p out cn cl ca r : (forall g, done g a > 0 -> in_dict w g) -> read_inv a w p out cn cl ca -> read_step w p out cn cl ca = inr (Some r) ->
  NoDup (map fst (stats_of r)) /\ (forall g, done g a > 0 -> In g (map fst (stats_of r))) /\ adds_up r /\ stats_of r = stats_of out.
Proof.
  intros Dn [P O Al On Na Lo Hn Hl To Cn Cl Ca] E. destruct p as [i|i l|i l j|i l j n|i l j n k|i l j n k s acc]; cbn [read_step] in E; try discriminate.
  - destruct (advance i (s_top w)) as [[l|]|] eqn:Ad; try discriminate. injection E as <-. apply advance_end in Ad.
    rewrite stats_app. cbn [stats_of flat_map]. rewrite app_nil_r. split; [exact On|]. split; [|split; [|reflexivity]].
    + intros [[l n] s] Dg. apply Al; [|exact Dg]. left. left. cbn [li]. rewrite Ad. exact (proj1 (Dn _ Dg)).
    + split; [|split; [|split]].
      * intros l n c I. rewrite names_app in I. cbn in I. cbn in I. rewrite ?app_nil_r in I. rewrite sum_app. cbn. rewrite (proj2 (Na _ _ _ I)). lia.
      * intros l c I. rewrite loggers_app in I. cbn in I. rewrite app_nil_r in I. rewrite sum_app. cbn. rewrite (proj2 (Lo _ _ I)). lia.
      * rewrite totals_app, To, sum_app. cbn. rewrite Ca. f_equal. lia.
      * intros l n s c I. rewrite stats_app in I. cbn in I. rewrite app_nil_r in I. apply (in_map fst) in I. cbn [fst] in I.
        assert (K : In l (firstn (fst i) (s_top w))) by (destruct (O _ I) as [[K|[K _]]|(K & _)]; [exact K|discriminate|discriminate]).
        rewrite names_app, loggers_app. destruct (Hn l n s I (or_introl K)) as [c1 I1]. destruct (Hl l n s I K) as [c2 I2].
        split; [exists c1|exists c2]; apply in_or_app; left; assumption.
  - destruct (advance j (s_names w l)) as [[n|]|]; discriminate.
  - destruct (advance k (s_stats w l n)) as [[[s a0]|]|]; discriminate.
Qed.
