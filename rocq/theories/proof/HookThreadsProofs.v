(** Registration of sinks under concurrency: C93. *)
From Verif Require Import model.PyBase model.Core model.HookThreads spec.HookThreadsSpec proof.CoreLib.
Open Scope nat_scope.

Definition adr (k : kind) : nat := match k with KBegin => 1 | KWarn => 2 | KEnd => 3 | KExc => 4 | KComment => 5 end.
Definition H (w : hstate) (k : kind) : list nat := hs_heap w (adr k).
Definition A (w : hstate) : list nat := hs_heap w 0.
Definition owed (th : hthread) : list nat :=
  (match ht_pc th with HIter _ e _ _ => [e] | _ => [] end) ++ events_of (ht_todo th).
Definition adding (th : hthread) (s : nat) : Prop :=
  match ht_pc th with HAdding s' _ | HHave s' _ _ _ | HLast s' _ => s' = s | _ => False end.

Lemma adr_inj k k' : adr k = adr k' -> k = k'.
Proof. destruct k, k'; cbn; congruence. Qed.
Lemma adr_pos k : adr k <> 0. Proof. destruct k; discriminate. Qed.

Lemma set_cases {X} (l : list X) t x i y : nth_error (list_set l t x) i = Some y -> (i = t /\ y = x) \/ (i <> t /\ nth_error l i = Some y).
Proof.
  intros E. destruct (Nat.eq_dec i t) as [->|Hn]; [left|right].
  - split; [reflexivity|]. revert t E. induction l as [|a l IH]; intros [|t] E; cbn in E; try discriminate; [congruence|exact (IH t E)].
  - split; [exact Hn|]. revert t i E Hn. induction l as [|a l IH]; intros [|t] [|i] E Hn; cbn in *; auto; try congruence. apply (IH t i E). congruence.
Qed.

Section Inv.
Variable has : nat -> kind -> bool.
Variable progs : list (list hop).
Hypothesis HNS : no_set progs.
Hypothesis HDE : distinct_events progs.

(** What a thread's place says about the logger. *)
Definition place (w : hstate) (t : nat) (pc : hpc) : Prop :=
  match pc with
  | HIdle => True
  | HAdding s ks => In (ACalled t s) (hs_trace w) /\ exists done, ADD_ORDER = done ++ ks /\ forall k, In k done -> has s k = true -> In s (H w k)
  | HHave s k l ks => In (ACalled t s) (hs_trace w) /\ l = adr k /\ has s k = true /\ exists done, ADD_ORDER = done ++ k :: ks /\ forall k, In k done -> has s k = true -> In s (H w k)
  | HLast s l => In (ACalled t s) (hs_trace w) /\ l = 0 /\ forall k, has s k = true -> In s (H w k)
  | HResetting _ => False
  | HIter k e l i => l = adr k /\ i <= length (H w k) /\ callees e (hs_trace w) = firstn i (H w k) /\ In (PStarted t k e) (hs_trace w)
  end.

Record hinv (w : hstate) : Prop := {
  hi_all : hs_all w = 0;
  hi_hooks : forall k, hs_hooks w k = adr k;
  hi_todo : forall t th, nth_error (hs_threads w) t = Some th -> exists p done, nth_error progs t = Some p /\ p = done ++ ht_todo th;
  hi_place : forall t th, nth_error (hs_threads w) t = Some th -> place w t (ht_pc th);
  hi_has : forall k s, In s (H w k) -> has s k = true /\ add_called s (hs_trace w);
  hi_full : forall s k, In s (A w) -> has s k = true -> In s (H w k);
  hi_added : forall s, added s (hs_trace w) -> In s (A w);
  hi_owed : forall i j thi thj e, i <> j -> nth_error (hs_threads w) i = Some thi -> nth_error (hs_threads w) j = Some thj -> In e (owed thi) -> In e (owed thj) -> False;
  hi_owed1 : forall t th, nth_error (hs_threads w) t = Some th -> NoDup (owed th);
  hi_fresh : forall t th e, nth_error (hs_threads w) t = Some th -> In e (events_of (ht_todo th)) ->
     callees e (hs_trace w) = [] /\ forall t' k, ~ In (PStarted t' k e) (hs_trace w);
  hi_kind : forall t k e t' k', In (PStarted t k e) (hs_trace w) -> In (PStarted t' k' e) (hs_trace w) -> k = k';
  hi_started : forall t k e, In (PStarted t k e) (hs_trace w) -> exists n, callees e (hs_trace w) = firstn n (H w k);
  hi_done : forall t k e, In (PDone t k e) (hs_trace w) -> In (PStarted t k e) (hs_trace w) /\
     (forall i th, nth_error (hs_threads w) i = Some th -> ~ In e (owed th)) /\
     forall x y t' k' s, hs_trace w = x ++ PStarted t' k' e :: y -> added s x -> has s k = true -> In s (callees e (hs_trace w));
  hi_order : forall k a s2 b, H w k = a ++ s2 :: b -> forall s1 x t y, has s1 k = true -> hs_trace w = x ++ ACalled t s2 :: y ->
     ~ add_called s2 x -> added s1 x -> In s1 a }.

Lemma callees_app e a b : callees e (a ++ b) = callees e a ++ callees e b.
Proof. apply flat_map_app. Qed.
Lemma split_old {X} (tr o x y : list X) p : tr ++ o = x ++ p :: y -> ~ In p o -> exists y', tr = x ++ p :: y'.
Proof.
  revert x. induction tr as [|a tr IH]; intros x E Hn.
  - exfalso. apply Hn. cbn in E. rewrite E. apply in_elt.
  - destruct x as [|b x]; cbn in E.
    + injection E as -> E. exists tr. reflexivity.
    + injection E as -> E. destruct (IH x E Hn) as [y' ->]. exists y'. reflexivity.
Qed.
Lemma split_first {X} (tr o x y : list X) p : tr ++ o = x ++ p :: y -> (exists y', tr = x ++ p :: y') \/ exists o1, x = tr ++ o1.
Proof.
  revert x. induction tr as [|a tr IH]; intros x E; [right; exists x; reflexivity|].
  destruct x as [|b x]; cbn in E; injection E as -> E.
  - left. exists tr. reflexivity.
  - destruct (IH x E) as [[y' ->]|[o1 ->]]; [left; exists y'; reflexivity|right; exists o1; reflexivity].
Qed.
Lemma firstn_prefix {X} (l m : list X) n : n <= length l -> firstn n (l ++ m) = firstn n l.
Proof. intros Hn. rewrite firstn_app. replace (n - length l) with 0 by lia. cbn. apply app_nil_r. Qed.
Lemma firstn_grow {X} (l m : list X) n : exists n', firstn n l = firstn n' (l ++ m).
Proof.
  exists (Nat.min n (length l)). rewrite firstn_prefix by lia. destruct (Nat.le_gt_cases n (length l)).
  - f_equal. lia.
  - rewrite firstn_all2 by lia. rewrite firstn_all2 by lia. reflexivity.
Qed.

(** A step of thread [t] that appends [new k] to the hook lists and [newa] to the sinks, and
    observes [o]. *)
Definition grows (w w' : hstate) (new : kind -> list nat) (newa : list nat) (o : list hobs) : Prop :=
  (forall k, H w' k = H w k ++ new k) /\ A w' = A w ++ newa /\ hs_trace w' = hs_trace w ++ o.

Lemma place_keep w w' new newa o t pc : grows w w' new newa o ->
  (forall k e l i, pc = HIter k e l i -> callees e o = []) -> place w t pc -> place w' t pc.
Proof.
  intros (G1 & G2 & G3) He HP. destruct pc as [|s ks|s k l ks|s l|ks|k e l i]; cbn in *; auto.
  - destruct HP as (P0 & done & E & P). split; [rewrite G3; apply in_or_app; auto|]. exists done. split; [exact E|]. intros k Hk Hh. rewrite G1. apply in_or_app. left. auto.
  - destruct HP as (P0 & El & Ek & done & E & P). split; [rewrite G3; apply in_or_app; auto|]. split; [exact El|]. split; [exact Ek|].
    exists done. split; [exact E|]. intros k' Hk Hh. rewrite G1. apply in_or_app. left. auto.
  - destruct HP as (P0 & El & P). split; [rewrite G3; apply in_or_app; auto|]. split; [exact El|]. intros k Hh. rewrite G1. apply in_or_app. left. auto.
  - destruct HP as (El & Hi & Hc & Hs). split; [exact El|]. rewrite G1, G3, callees_app, (He k e l i eq_refl), app_nil_r, Hc, app_length.
    split; [lia|]. split; [symmetry; apply firstn_prefix; exact Hi|apply in_or_app; auto].
Qed.

Lemma step_gen w w' t th th' new newa o d dt : hinv w -> grows w w' new newa o ->
  hs_all w' = hs_all w -> hs_hooks w' = hs_hooks w ->
  nth_error (hs_threads w) t = Some th -> hs_threads w' = list_set (hs_threads w) t th' ->
  ht_todo th = dt ++ ht_todo th' -> owed th = d ++ owed th' ->
  place w' t (ht_pc th') ->
  (forall k s, In s (new k) -> has s k = true /\ add_called s (hs_trace w)) ->
  (forall k, new k <> [] -> o = []) ->
  (forall s k, In s newa -> has s k = true -> In s (H w' k)) ->
  (forall s, added s o -> In s (A w')) ->
  (forall e, callees e o <> [] -> In e (owed th) /\ ~ In e (events_of (ht_todo th')) /\ exists k l i, ht_pc th' = HIter k e l i) ->
  (forall t1 k e, In (PStarted t1 k e) o -> In e (events_of (ht_todo th)) /\ ~ In e (events_of (ht_todo th')) /\ callees e o = [] /\
      forall t2 k2, In (PStarted t2 k2 e) o -> k = k2) ->
  (forall t1 k e, In (PDone t1 k e) o -> In (PStarted t1 k e) (hs_trace w) /\ In e (owed th) /\ ~ In e (owed th') /\
      callees e (hs_trace w) = H w k /\ callees e o = [] /\ forall t2 k2, ~ In (PStarted t2 k2 e) o) ->
  hinv w'.
Proof.
  intros I G Ea Eh Et Ets Etodo Eowed HP Hnew Hno Hnewa Hadd Hcall Hst Hdone.
  destruct G as (G1 & G2 & G3). assert (G : grows w w' new newa o) by (repeat split; assumption).
  assert (Osub : forall e, In e (owed th') -> In e (owed th)) by (intros e He; rewrite Eowed; apply in_or_app; auto).
  assert (Tsub : forall e, In e (events_of (ht_todo th')) -> In e (events_of (ht_todo th)))
    by (intros e He; rewrite Etodo; unfold events_of in *; rewrite flat_map_app; apply in_or_app; auto).
  assert (TO : forall x e, In e (events_of (ht_todo x)) -> In e (owed x)) by (intros x e He; unfold owed; apply in_or_app; auto).
  assert (Qn : forall e, ~ In e (owed th) -> callees e o = []).
  { intros e He. destruct (callees e o) eqn:E; [reflexivity|]. exfalso. apply He, Hcall. rewrite E. discriminate. }
  assert (Qs : forall e t2 k2, ~ In e (owed th) -> ~ In (PStarted t2 k2 e) o).
  { intros e t2 k2 He Hi. apply He, TO, (proj1 (Hst _ _ _ Hi)). }
  assert (Other : forall i thi e, i <> t -> nth_error (hs_threads w) i = Some thi -> In e (owed thi) -> ~ In e (owed th)).
  { intros i thi e Hn Ei Hi Hj. exact (hi_owed w I i t thi th e Hn Ei Et Hi Hj). }
  constructor.
  - rewrite Ea. apply I.
  - intros k. rewrite Eh. apply I.
  - intros i thi E. rewrite Ets in E. destruct (set_cases _ _ _ _ _ E) as [[-> ->]|[Hn E']]; [|apply (hi_todo w I i thi E')].
    destruct (hi_todo w I t th Et) as (p & dn & E1 & E2). exists p, (dn ++ dt). split; [exact E1|]. rewrite E2, Etodo. apply app_assoc.
  - intros i thi E. rewrite Ets in E. destruct (set_cases _ _ _ _ _ E) as [[-> ->]|[Hn E']]; [exact HP|].
    apply (place_keep w w' new newa o i (ht_pc thi) G); [|apply (hi_place w I i thi E')].
    intros k e l j Epc. apply Qn, (Other i thi e Hn E'). unfold owed. rewrite Epc. left. reflexivity.
  - intros k s Hs. rewrite G1 in Hs. apply in_app_or in Hs. destruct Hs as [Hs|Hs].
    + destruct (hi_has w I k s Hs) as [E [t1 E']]. split; [exact E|]. exists t1. rewrite G3. apply in_or_app. auto.
    + destruct (Hnew k s Hs) as [E [t1 E']]. split; [exact E|]. exists t1. rewrite G3. apply in_or_app. auto.
  - intros s k Hs Hh. rewrite G2 in Hs. apply in_app_or in Hs. destruct Hs as [Hs|Hs]; [|exact (Hnewa s k Hs Hh)].
    rewrite G1. apply in_or_app. left. exact (hi_full w I s k Hs Hh).
  - intros s [t1 Hs]. rewrite G3 in Hs. apply in_app_or in Hs. destruct Hs as [Hs|Hs].
    + rewrite G2. apply in_or_app. left. apply (hi_added w I). exists t1. exact Hs.
    + apply Hadd. exists t1. exact Hs.
  - intros i j thi thj e Hn Ei Ej Hi Hj. rewrite Ets in Ei, Ej.
    destruct (set_cases _ _ _ _ _ Ei) as [[-> ->]|[Hni Ei']]; destruct (set_cases _ _ _ _ _ Ej) as [[-> ->]|[Hnj Ej']].
    + congruence.
    + exact (Other j thj e Hnj Ej' Hj (Osub e Hi)).
    + exact (Other i thi e Hni Ei' Hi (Osub e Hj)).
    + exact (hi_owed w I i j thi thj e Hn Ei' Ej' Hi Hj).
  - intros i thi Ei. rewrite Ets in Ei. destruct (set_cases _ _ _ _ _ Ei) as [[-> ->]|[Hni Ei']]; [|exact (hi_owed1 w I i thi Ei')].
    pose proof (hi_owed1 w I t th Et) as N. rewrite Eowed in N. clear - N. induction d as [|a d IH]; [exact N|]. inversion N; auto.
  - intros i thi e Ei Hi. rewrite Ets in Ei. rewrite G3, callees_app. destruct (set_cases _ _ _ _ _ Ei) as [[-> ->]|[Hni Ei']].
    + destruct (hi_fresh w I t th e Et (Tsub e Hi)) as [F1 F2]. split.
      * rewrite F1. destruct (callees e o) eqn:E; [reflexivity|]. exfalso. refine (proj1 (proj2 (Hcall e _)) Hi). rewrite E. discriminate.
      * intros t1 k Hin. apply in_app_or in Hin. destruct Hin as [Hin|Hin]; [exact (F2 t1 k Hin)|]. exact (proj1 (proj2 (Hst _ _ _ Hin)) Hi).
    + pose proof (Other i thi e Hni Ei' (TO thi e Hi)) as Ho. destruct (hi_fresh w I i thi e Ei' Hi) as [F1 F2].
      rewrite F1, (Qn e Ho). split; [reflexivity|]. intros t1 k Hin. apply in_app_or in Hin. destruct Hin as [Hin|Hin]; [exact (F2 t1 k Hin)|exact (Qs e t1 k Ho Hin)].
  - intros t1 k1 e t2 k2 H1 H2. rewrite G3 in H1, H2. apply in_app_or in H1. apply in_app_or in H2. destruct H1 as [H1|H1], H2 as [H2|H2].
    + exact (hi_kind w I t1 k1 e t2 k2 H1 H2).
    + exfalso. destruct (Hst _ _ _ H2) as (F & _). exact (proj2 (hi_fresh w I t th e Et F) t1 k1 H1).
    + exfalso. destruct (Hst _ _ _ H1) as (F & _). exact (proj2 (hi_fresh w I t th e Et F) t2 k2 H2).
    + destruct (Hst _ _ _ H1) as (_ & _ & _ & F). exact (F t2 k2 H2).
  - intros t1 k e Hs. rewrite G3 in Hs. apply in_app_or in Hs. destruct Hs as [Hs|Hs].
    + destruct (callees e o) eqn:E.
      * destruct (hi_started w I t1 k e Hs) as [n En]. rewrite G3, callees_app, E, app_nil_r, En, G1. apply firstn_grow.
      * destruct (Hcall e) as (_ & _ & k' & l' & i & Epc); [rewrite E; discriminate|].
        rewrite Epc in HP. cbn in HP. destruct HP as (_ & _ & Hc & Hin).
        assert (k' = k) as ->; [|exists i; exact Hc].
        rewrite G3 in Hin. apply in_app_or in Hin. destruct Hin as [Hin|Hin]; [exact (hi_kind w I _ _ _ _ _ Hin Hs)|].
        destruct (Hst _ _ _ Hin) as (_ & _ & Ec & _). congruence.
    + exists 0. destruct (Hst _ _ _ Hs) as (F & _ & Ec & _). rewrite G3, callees_app, Ec, (proj1 (hi_fresh w I t th e Et F)). reflexivity.
  - intros t1 k e Hd. rewrite G3 in Hd. apply in_app_or in Hd. destruct Hd as [Hd|Hd].
    + destruct (hi_done w I t1 k e Hd) as (D1 & D2 & D3). pose proof (D2 t th Et) as Ho. split; [rewrite G3; apply in_or_app; auto|]. split.
      * intros i thi Ei Hi. rewrite Ets in Ei. destruct (set_cases _ _ _ _ _ Ei) as [[-> ->]|[Hni Ei']]; [exact (Ho (Osub e Hi))|exact (D2 i thi Ei' Hi)].
      * intros x y t2 k2 s Ex Hs Hh. rewrite G3 in Ex. destruct (split_old _ _ _ _ _ Ex (Qs e t2 k2 Ho)) as [y' Ey].
        rewrite G3, callees_app. apply in_or_app. left. exact (D3 x y' t2 k2 s Ey Hs Hh).
    + destruct (Hdone t1 k e Hd) as (D1 & D2 & D3 & D4 & D5 & D6). split; [rewrite G3; apply in_or_app; auto|]. split.
      * intros i thi Ei Hi. rewrite Ets in Ei. destruct (set_cases _ _ _ _ _ Ei) as [[-> ->]|[Hni Ei']]; [exact (D3 Hi)|exact (Other i thi e Hni Ei' Hi D2)].
      * intros x y t2 k2 s Ex Hs Hh. rewrite G3 in Ex. destruct (split_old _ _ _ _ _ Ex (D6 t2 k2)) as [y' Ey].
        rewrite G3, callees_app, D4. apply in_or_app. left. apply (hi_full w I); [|exact Hh]. apply (hi_added w I). destruct Hs as [t3 Hs]. exists t3. rewrite Ey. apply in_or_app. auto.
  - intros k a s2 b Ek s1 x t1 y Hh Ex Hn Hs. rewrite G1 in Ek.
    assert (C : (exists b', H w k = a ++ s2 :: b') \/ exists a', a = H w k ++ a' /\ new k = a' ++ s2 :: b).
    { clear - Ek. revert Ek. generalize (H w k) as l. intros l. revert a. induction l as [|c l IH]; intros a E; [right; exists a; split; [reflexivity|exact E]|].
      destruct a as [|c' a]; cbn in E; injection E as -> E; [left; exists l; reflexivity|]. destruct (IH a E) as [[b' ->]|[a' [-> E']]]; [left; exists b'; reflexivity|right; exists a'; auto]. }
    rewrite G3 in Ex. destruct C as [[b' Eb]|[a' [-> Ea']]].
    + destruct (split_first _ _ _ _ _ Ex) as [[y' Ey]|[o1 ->]].
      * exact (hi_order w I k a s2 b' Eb s1 x t1 y' Hh Ey Hn Hs).
      * exfalso. apply Hn. destruct (hi_has w I k s2) as [_ [t2 Ht2]]; [rewrite Eb; apply in_elt|]. exists t2. apply in_or_app. auto.
    + assert (o = []) as -> by (apply (Hno k); rewrite Ea'; destruct a'; discriminate). rewrite app_nil_r in Ex.
      apply in_or_app. left. apply (hi_full w I); [|exact Hh]. apply (hi_added w I). destruct Hs as [t3 Hs]. exists t3. rewrite Ex. apply in_or_app. auto.
Qed.

Lemma heap_append w l s l' : hs_heap (happend l s w) l' = hs_heap w l' ++ (if l' =? l then [s] else []).
Proof. cbn. destruct (Nat.eqb_spec l' l) as [->|Hn]; [reflexivity|symmetry; apply app_nil_r]. Qed.
Lemma adr_eqb k k' : (adr k =? adr k') = kind_eqb k k'.
Proof. destruct k, k'; reflexivity. Qed.

Lemma hstep_inv w t w' : hinv w -> hstep has t w = Some w' -> hinv w'.
Proof.
  intros I E. unfold hstep in E. destruct (nth_error (hs_threads w) t) as [th|] eqn:Et; [|discriminate].
  pose proof (hi_place w I t th Et) as HP. destruct th as [pc todo]. cbn [ht_pc ht_todo] in *.
  pose proof (hi_owed1 w I t _ Et) as HO. pose proof (fun e => hi_fresh w I t _ e Et) as HF.
  destruct pc as [|s ks|s k l ks|s l|ks|k e l i]; cbn [place] in HP.
  - destruct todo as [|[s|ss|k e] todo']; [discriminate| | |].
    + destruct (existsb (Nat.eqb s) (hs_heap w (hs_all w))) eqn:Ein; injection E as <-.
      * apply existsb_exists in Ein. destruct Ein as (s' & Hin & Es). apply Nat.eqb_eq in Es. subst s'. rewrite (hi_all w I) in Hin.
        eapply (step_gen w _ t _ (mkHT HIdle todo') (fun _ => []) [] [ACalled t s; AReturned t s] [] [HAdd s] I); try exact Et; try reflexivity; try exact Logic.I.
        -- repeat split; [intros k; symmetry; apply app_nil_r|symmetry; apply app_nil_r].
        -- intros k x [].
        -- intros k Hk. congruence.
        -- intros x k [].
        -- intros x [t1 [Hx|[Hx|[]]]]; [discriminate|]. injection Hx as -> ->. exact Hin.
        -- intros e He. cbn in He. congruence.
        -- intros t1 k e [He|[He|[]]]; discriminate.
        -- intros t1 k e [He|[He|[]]]; discriminate.
      * eapply (step_gen w _ t _ (mkHT (HAdding s ADD_ORDER) todo') (fun _ => []) [] [ACalled t s] [] [HAdd s] I); try exact Et; try reflexivity; try exact Logic.I.
        -- repeat split; [intros k; symmetry; apply app_nil_r|symmetry; apply app_nil_r].
        -- cbn. split; [apply in_or_app; right; left; reflexivity|]. exists []. split; [reflexivity|]. intros k [].
        -- intros k x [].
        -- intros k Hk. congruence.
        -- intros x k [].
        -- intros x [t1 [Hx|[]]]; discriminate.
        -- intros e He. cbn in He. congruence.
        -- intros t1 k e [He|[]]; discriminate.
        -- intros t1 k e [He|[]]; discriminate.
    + exfalso. destruct (hi_todo w I t _ Et) as (p & dn & E1 & E2). cbn in E2. apply (HNS p ss (nth_error_In _ _ E1)). rewrite E2. apply in_elt.
    + injection E as <-. destruct (HF e) as [F1 F2]; [left; reflexivity|].
      eapply (step_gen w _ t _ (mkHT (HIter k e (hs_hooks w k) 0) todo') (fun _ => []) [] [PStarted t k e] [] [HPub k e] I); try exact Et; try reflexivity; try exact Logic.I.
      * repeat split; [intros k'; symmetry; apply app_nil_r|symmetry; apply app_nil_r].
      * cbn [place ht_pc hmove hs_trace]. split; [apply (hi_hooks w I)|]. split; [lia|]. rewrite callees_app, F1. split; [reflexivity|]. apply in_or_app. right. left. reflexivity.
      * intros k' x [].
      * intros k' Hk. congruence.
      * intros x k' [].
      * intros x [t1 [Hx|[]]]; discriminate.
      * intros e' He. cbn in He. congruence.
      * intros t1 k1 e1 [He|[]]. injection He as <- <- <-. split; [left; reflexivity|]. split.
        -- cbn in HO. inversion HO; assumption.
        -- split; [reflexivity|]. intros t2 k2 [He2|[]]. congruence.
      * intros t1 k1 e1 [He|[]]; discriminate.
  - destruct HP as (P0 & dn & Edn & P). destruct ks as [|k ks]; [|destruct (has s k) eqn:Eh]; injection E as <-.
    + eapply (step_gen w _ t _ (mkHT (HLast s (hs_all w)) todo) (fun _ => []) [] [] [] [] I); try exact Et; try reflexivity; try exact Logic.I.
      * repeat split; [intros k'; symmetry; apply app_nil_r|symmetry; apply app_nil_r].
      * cbn. rewrite app_nil_r. split; [exact P0|]. split; [apply (hi_all w I)|]. rewrite app_nil_r in Edn. intros k Hh. apply (P k); [|exact Hh]. rewrite <- Edn. destruct k; cbn; auto 6.
      * intros k' x [].
      * intros x k' [].
      * intros x [t1 []].
      * intros e He. cbn in He. congruence.
      * intros t1 k1 e1 [].
      * intros t1 k1 e1 [].
    + eapply (step_gen w _ t _ (mkHT (HHave s k (hs_hooks w k) ks) todo) (fun _ => []) [] [] [] [] I); try exact Et; try reflexivity; try exact Logic.I.
      * repeat split; [intros k'; symmetry; apply app_nil_r|symmetry; apply app_nil_r].
      * cbn [place ht_pc hmove hs_trace]. rewrite app_nil_r. split; [exact P0|]. split; [apply (hi_hooks w I)|]. split; [exact Eh|]. exists dn. split; [exact Edn|exact P].
      * intros k' x [].
      * intros x k' [].
      * intros x [t1 []].
      * intros e He. cbn in He. congruence.
      * intros t1 k1 e1 [].
      * intros t1 k1 e1 [].
    + eapply (step_gen w _ t _ (mkHT (HAdding s ks) todo) (fun _ => []) [] [] [] [] I); try exact Et; try reflexivity; try exact Logic.I.
      * repeat split; [intros k'; symmetry; apply app_nil_r|symmetry; apply app_nil_r].
      * cbn [place ht_pc hmove hs_trace]. rewrite app_nil_r. split; [exact P0|]. exists (dn ++ [k]). split; [rewrite Edn, <- app_assoc; reflexivity|].
        intros k' Hk Hh. apply in_app_or in Hk. destruct Hk as [Hk|[<-|[]]]; [exact (P k' Hk Hh)|congruence].
      * intros k' x [].
      * intros x k' [].
      * intros x [t1 []].
      * intros e He. cbn in He. congruence.
      * intros t1 k1 e1 [].
      * intros t1 k1 e1 [].
  - destruct HP as (P0 & -> & Eh & dn & Edn & P). injection E as <-.
    assert (G : forall k', H (hmove t (HAdding s ks) todo [] (happend (adr k) s w)) k' = H w k' ++ (if kind_eqb k' k then [s] else [])).
    { intros k'. unfold H. cbn [hmove hs_heap]. rewrite heap_append, adr_eqb. reflexivity. }
    eapply (step_gen w _ t _ (mkHT (HAdding s ks) todo) (fun k' => if kind_eqb k' k then [s] else []) [] [] [] [] I); try exact Et; try reflexivity; try exact Logic.I.
    + split; [exact G|]. split; [|reflexivity]. unfold A. cbn [hmove hs_heap]. rewrite heap_append. destruct (Nat.eqb_spec 0 (adr k)) as [E0|_]; [symmetry in E0; apply adr_pos in E0; destruct E0|reflexivity].
    + cbn [place ht_pc]. split; [cbn; rewrite app_nil_r; exact P0|]. exists (dn ++ [k]). split; [rewrite Edn, <- app_assoc; reflexivity|].
      intros k' Hk Hh. rewrite G. apply in_or_app. apply in_app_or in Hk. destruct Hk as [Hk|[<-|[]]]; [left; exact (P k' Hk Hh)|].
      right. rewrite <- adr_eqb, Nat.eqb_refl. left. reflexivity.
    + intros k' x Hx. rewrite <- adr_eqb in Hx. destruct (Nat.eqb_spec (adr k') (adr k)) as [E0|_]; [|destruct Hx]. apply adr_inj in E0. subst k'.
      destruct Hx as [<-|[]]. split; [exact Eh|]. exists t. exact P0.
    + intros x k' [].
    + intros x [t1 []].
    + intros e He. cbn in He. congruence.
    + intros t1 k1 e1 [].
    + intros t1 k1 e1 [].
  - destruct HP as (P0 & -> & P). injection E as <-.
    assert (G : forall k', H (hmove t HIdle todo [AReturned t s] (happend 0 s w)) k' = H w k' ++ []).
    { intros k'. unfold H. cbn [hmove hs_heap]. rewrite heap_append. destruct (Nat.eqb_spec (adr k') 0) as [E0|_]; [apply adr_pos in E0; destruct E0|reflexivity]. }
    eapply (step_gen w _ t _ (mkHT HIdle todo) (fun k' => []) [s] [AReturned t s] [] [] I); try exact Et; try reflexivity; try exact Logic.I.
    + split; [exact G|]. split; [|reflexivity]. unfold A. cbn [hmove hs_heap]. rewrite heap_append. reflexivity.
    + intros k' x [].
    + intros k' Hk. congruence.
    + intros x k' [<-|[]] Hh. rewrite G, app_nil_r. exact (P k' Hh).
    + intros x [t1 [Hx|[]]]. injection Hx as -> ->. unfold A. cbn [hmove hs_heap]. rewrite heap_append. apply in_or_app. right. left. reflexivity.
    + intros e He. cbn in He. congruence.
    + intros t1 k1 e1 [He|[]]; discriminate.
    + intros t1 k1 e1 [He|[]]; discriminate.
  - destruct HP.
  - destruct HP as (-> & Hi & Hc & Hs). destruct (nth_error (hs_heap w (adr k)) i) as [s|] eqn:En; injection E as <-.
    + fold (H w k) in En. eapply (step_gen w _ t _ (mkHT (HIter k e (adr k) (S i)) todo) (fun _ => []) [] [PCall t k e s] [] [] I); try exact Et; try reflexivity; try exact Logic.I.
      * repeat split; [intros k'; symmetry; apply app_nil_r|symmetry; apply app_nil_r].
      * cbn [place ht_pc]. split; [reflexivity|]. change (H (hmove t (HIter k e (adr k) (S i)) todo [PCall t k e s] w) k) with (H w k). cbn [hmove hs_trace].
        split; [apply nth_error_Some; congruence|]. split; [|apply in_or_app; auto]. rewrite callees_app, Hc. cbn. rewrite Nat.eqb_refl. cbn.
        clear - En. revert i En. induction (H w k) as [|a l IH]; intros [|i] En; cbn in *; try discriminate; [congruence|]. f_equal. exact (IH i En).
      * intros k' x [].
      * intros k' Hk. congruence.
      * intros x k' [].
      * intros x [t1 [Hx|[]]]; discriminate.
      * intros e' He. cbn in He. destruct (Nat.eqb_spec e e') as [->|Hn]; [|cbn in He; congruence]. split; [left; reflexivity|]. split; [|exists k, (adr k), (S i); reflexivity]. cbn in HO. inversion HO; assumption.
      * intros t1 k1 e1 [He|[]]; discriminate.
      * intros t1 k1 e1 [He|[]]; discriminate.
    + fold (H w k) in En. eapply (step_gen w _ t _ (mkHT HIdle todo) (fun _ => []) [] [PDone t k e] [e] [] I); try exact Et; try reflexivity; try exact Logic.I.
      * repeat split; [intros k'; symmetry; apply app_nil_r|symmetry; apply app_nil_r].
      * intros k' x [].
      * intros k' Hk. congruence.
      * intros x k' [].
      * intros x [t1 [Hx|[]]]; discriminate.
      * intros e' He. cbn in He. congruence.
      * intros t1 k1 e1 [He|[]]; discriminate.
      * intros t1 k1 e1 [He|[]]. injection He as <- <- <-. split; [exact Hs|]. split; [left; reflexivity|]. cbn in HO. inversion HO; subst. split; [assumption|].
        split; [rewrite Hc; apply firstn_all2; apply nth_error_None; exact En|]. split; [reflexivity|]. intros t2 k2 [He2|[]]; discriminate.
Qed.

Lemma flat_map_apart {X Y} (f : X -> list Y) l : NoDup (flat_map f l) ->
  (forall i x, nth_error l i = Some x -> NoDup (f x)) /\
  forall i j x y e, i <> j -> nth_error l i = Some x -> nth_error l j = Some y -> In e (f x) -> In e (f y) -> False.
Proof.
  induction l as [|a l IH]; cbn; intros N; [split; [intros [|i]|intros [|i]]; discriminate|].
  assert (S : NoDup (f a) /\ NoDup (flat_map f l) /\ forall e, In e (f a) -> In e (flat_map f l) -> False).
  { clear IH. induction (f a) as [|b m IHm]; cbn in *; [split; [constructor|]; split; [exact N|intros e []]|].
    inversion N; subst. destruct (IHm H3) as (S1 & S2 & S3). split; [constructor; [|exact S1]; intros Hi; apply H2, in_or_app; auto|]. split; [exact S2|].
    intros e [<-|He] He2; [apply H2, in_or_app; auto|exact (S3 e He He2)]. }
  destruct S as (S1 & S2 & S3). destruct (IH S2) as [I1 I2]. split.
  - intros [|i] x E; cbn in E; [injection E as <-; exact S1|exact (I1 i x E)].
  - intros [|i] [|j] x y e Hn Ei Ej Hx Hy; cbn in Ei, Ej; [congruence| | |].
    + injection Ei as <-. apply (S3 e Hx). apply in_flat_map. exists y. split; [exact (nth_error_In _ _ Ej)|exact Hy].
    + injection Ej as <-. apply (S3 e Hy). apply in_flat_map. exists x. split; [exact (nth_error_In _ _ Ei)|exact Hx].
    + apply (I2 i j x y e); auto.
Qed.

Lemma hstart_inv : hinv (hstart progs).
Proof.
  assert (T : forall t th, nth_error (hs_threads (hstart progs)) t = Some th -> exists p, nth_error progs t = Some p /\ th = mkHT HIdle p).
  { intros t th E. cbn in E. rewrite nth_error_map in E. destruct (nth_error progs t); [|discriminate]. injection E as <-. eauto. }
  destruct (flat_map_apart _ _ HDE) as [D1 D2].
  constructor; try reflexivity; try (cbn; intros; contradiction).
  - intros t th E. destruct (T t th E) as (p & Ep & ->). exists p, []. split; [exact Ep|reflexivity].
  - intros t th E. destruct (T t th E) as (p & Ep & ->). exact Logic.I.
  - intros s [t []].
  - intros i j thi thj e Hn Ei Ej Hi Hj. destruct (T _ _ Ei) as (p & Ep & ->). destruct (T _ _ Ej) as (q & Eq & ->). exact (D2 i j p q e Hn Ep Eq Hi Hj).
  - intros t th E. destruct (T t th E) as (p & Ep & ->). exact (D1 t p Ep).
  - intros t th e E He. split; [reflexivity|intros t1 k []].
  - intros k a s2 b E. destruct a; discriminate E.
Qed.
Lemma hrun_inv sc : hinv (hrun has sc (hstart progs)).
Proof.
  generalize hstart_inv. generalize (hstart progs). induction sc as [|t sc IH]; intros w I; [exact I|]. cbn. apply IH.
  destruct (hstep has t w) eqn:E; [exact (hstep_inv _ _ _ I E)|exact I].
Qed.

(** With one adder for every sink, a sink stands at most once in each list. *)
Hypothesis HONE : one_adder progs.
Definition lone (w : hstate) (pc : hpc) : Prop :=
  match pc with
  | HAdding s ks => forall k, In k ks -> ~ In s (H w k)
  | HHave s k _ ks => forall k', In k' (k :: ks) -> ~ In s (H w k')
  | _ => True
  end.
Definition adding_s (pc : hpc) : option nat := match pc with HAdding s _ | HHave s _ _ _ | HLast s _ => Some s | _ => None end.
Record huniq (w : hstate) : Prop := {
  hu_nodup : forall k, NoDup (H w k);
  hu_lone : forall t th, nth_error (hs_threads w) t = Some th -> lone w (ht_pc th);
  hu_mine : forall t th s, nth_error (hs_threads w) t = Some th -> adding_s (ht_pc th) = Some s -> exists p, nth_error progs t = Some p /\ In (HAdd s) p;
  hu_who : forall k s, In s (H w k) -> In s (A w) \/ exists t th, nth_error (hs_threads w) t = Some th /\ adding_s (ht_pc th) = Some s }.

Lemma set_same {X} (l : list X) t x y : nth_error l t = Some x -> nth_error (list_set l t y) t = Some y.
Proof. revert t. induction l as [|a l IH]; intros [|t] E; cbn in *; try discriminate; [reflexivity|exact (IH t E)]. Qed.
Lemma set_other {X} (l : list X) t i x : i <> t -> nth_error (list_set l t x) i = nth_error l i.
Proof. revert t i. induction l as [|a l IH]; intros [|t] [|i] Hn; cbn; try congruence. apply IH. congruence. Qed.
Lemma nodup_snoc {X} (l : list X) x : NoDup l -> ~ In x l -> NoDup (l ++ [x]).
Proof.
  induction l as [|a l IH]; cbn; intros N Hn; [constructor; [intros []|constructor]|]. inversion N; subst.
  constructor; [|apply IH; [assumption|intros Hi; apply Hn; auto]]. intros Hi. apply in_app_or in Hi. destruct Hi as [Hi|[<-|[]]]; auto.
Qed.

(** Steps that leave the lists alone and either keep or start an addition. *)
Lemma huniq_keep w w' t th th' : huniq w -> (forall l, hs_heap w' l = hs_heap w l) -> nth_error (hs_threads w) t = Some th ->
  hs_threads w' = list_set (hs_threads w) t th' ->
  lone w (ht_pc th') ->
  (forall s, adding_s (ht_pc th') = Some s -> exists p, nth_error progs t = Some p /\ In (HAdd s) p) ->
  (adding_s (ht_pc th) = None \/ adding_s (ht_pc th') = adding_s (ht_pc th)) -> huniq w'.
Proof.
  intros U Hh Et Ets HL HM HK.
  assert (EH : forall k, H w' k = H w k) by (intros k; apply Hh). assert (EA : A w' = A w) by apply Hh.
  assert (LW : forall pc, lone w pc -> lone w' pc).
  { intros [|s ks|s k l ks|s l|ks|k e l i]; cbn; auto; intros L k' Hk; rewrite EH; auto. }
  constructor.
  - intros k. rewrite EH. apply U.
  - intros i thi E. rewrite Ets in E. apply LW. destruct (set_cases _ _ _ _ _ E) as [[-> ->]|[Hn E']]; [exact HL|exact (hu_lone w U i thi E')].
  - intros i thi s E Es. rewrite Ets in E. destruct (set_cases _ _ _ _ _ E) as [[-> ->]|[Hn E']]; [exact (HM s Es)|exact (hu_mine w U i thi s E' Es)].
  - intros k s Hs. rewrite EH in Hs. rewrite EA. destruct (hu_who w U k s Hs) as [Ha|(i & thi & Ei & Es)]; [left; exact Ha|right].
    destruct (Nat.eq_dec i t) as [->|Hn].
    + exists t, th'. rewrite Ets. split; [exact (set_same _ _ _ _ Et)|]. assert (thi = th) as -> by congruence. destruct HK as [HK|HK]; congruence.
    + exists i, thi. rewrite Ets, (set_other _ _ _ _ Hn). auto.
Qed.

(** Nobody else is adding the sink this thread is entitled to add. *)
Lemma mine_only w t s p i thi : huniq w -> nth_error progs t = Some p -> In (HAdd s) p ->
  nth_error (hs_threads w) i = Some thi -> adding_s (ht_pc thi) = Some s -> i = t.
Proof.
  intros U Ep Hp Ei Es. destruct (hu_mine w U i thi s Ei Es) as (q & Eq & Hq). exact (HONE i t q p s Eq Ep Hq Hp).
Qed.

Lemma add_order_split done k ks : ADD_ORDER = done ++ k :: ks -> ~ In k ks.
Proof.
  intros E Hk. assert (N : NoDup ADD_ORDER) by (repeat constructor; cbn; intuition discriminate).
  rewrite E in N. apply NoDup_remove_2 in N. apply N, in_or_app. auto.
Qed.
Lemma kind_eqb_true k k' : kind_eqb k k' = true -> k = k'.
Proof. destruct k, k'; cbn; congruence. Qed.

Lemma hstep_uniq w t w' : hinv w -> huniq w -> hstep has t w = Some w' -> huniq w'.
Proof.
  intros I U E. unfold hstep in E. destruct (nth_error (hs_threads w) t) as [th|] eqn:Et; [|discriminate].
  pose proof (hi_place w I t th Et) as HP. pose proof (hu_lone w U t th Et) as HL. pose proof (fun s => hu_mine w U t th s Et) as HM.
  destruct th as [pc todo]. cbn [ht_pc ht_todo] in *.
  destruct pc as [|s ks|s k l ks|s l|ks|k e l i]; cbn [place lone adding_s] in HP, HL, HM.
  - destruct todo as [|[s|ss|k e] todo']; [discriminate| | |].
    + destruct (existsb (Nat.eqb s) (hs_heap w (hs_all w))) eqn:Ein; injection E as <-.
      * eapply (huniq_keep w _ t _ _ U); [reflexivity|exact Et|reflexivity|exact Logic.I|discriminate|left; reflexivity].
      * destruct (hi_todo w I t _ Et) as (p & dn & E1 & E2). cbn in E2.
        assert (Hp : In (HAdd s) p) by (rewrite E2; apply in_elt).
        eapply (huniq_keep w _ t _ _ U); [reflexivity|exact Et|reflexivity| | |left; reflexivity]; cbn.
        -- intros k _ Hs. destruct (hu_who w U k s Hs) as [Ha|(i & thi & Ei & Es)].
           ++ rewrite (hi_all w I) in Ein. assert (X : existsb (Nat.eqb s) (hs_heap w 0) = true) by (apply existsb_exists; exists s; split; [exact Ha|apply Nat.eqb_refl]). congruence.
           ++ assert (i = t) as -> by exact (mine_only w t s p i thi U E1 Hp Ei Es). rewrite Et in Ei. injection Ei as <-. discriminate Es.
        -- intros s' Es. injection Es as <-. exists p. auto.
    + exfalso. destruct (hi_todo w I t _ Et) as (p & dn & E1 & E2). cbn in E2. apply (HNS p ss (nth_error_In _ _ E1)). rewrite E2. apply in_elt.
    + injection E as <-. eapply (huniq_keep w _ t _ _ U); [reflexivity|exact Et|reflexivity|exact Logic.I|discriminate|left; reflexivity].
  - destruct ks as [|k ks]; [|destruct (has s k) eqn:Eh]; injection E as <-.
    + eapply (huniq_keep w _ t _ _ U); [reflexivity|exact Et|reflexivity|exact Logic.I|exact HM|right; reflexivity].
    + eapply (huniq_keep w _ t _ _ U); [reflexivity|exact Et|reflexivity|exact HL|exact HM|right; reflexivity].
    + eapply (huniq_keep w _ t _ _ U); [reflexivity|exact Et|reflexivity| |exact HM|right; reflexivity]. cbn. intros k' Hk. apply HL. right. exact Hk.
  - destruct HP as (P0 & -> & Eh & dn & Edn & P). injection E as <-.
    assert (G : forall k', H (hmove t (HAdding s ks) todo [] (happend (adr k) s w)) k' = H w k' ++ (if kind_eqb k' k then [s] else [])).
    { intros k'. unfold H. cbn [hmove hs_heap]. rewrite heap_append, adr_eqb. reflexivity. }
    assert (GA : A (hmove t (HAdding s ks) todo [] (happend (adr k) s w)) = A w).
    { unfold A. cbn [hmove hs_heap]. rewrite heap_append. destruct (Nat.eqb_spec 0 (adr k)) as [E0|_]; [symmetry in E0; apply adr_pos in E0; destruct E0|apply app_nil_r]. }
    destruct (HM s eq_refl) as (p & Ep & Hp).
    assert (New : forall k' x, In x (H (hmove t (HAdding s ks) todo [] (happend (adr k) s w)) k') -> In x (H w k') \/ (x = s /\ k' = k)).
    { intros k' x Hx. rewrite G in Hx. apply in_app_or in Hx. destruct Hx as [Hx|Hx]; [left; exact Hx|right].
      destruct (kind_eqb k' k) eqn:Ek; [|destruct Hx]. destruct Hx as [<-|[]]. split; [reflexivity|exact (kind_eqb_true _ _ Ek)]. }
    constructor.
    + intros k'. rewrite G. destruct (kind_eqb k' k) eqn:Ek; [|rewrite app_nil_r; apply U]. apply kind_eqb_true in Ek. subst k'.
      apply nodup_snoc; [apply U|]. apply HL. left. reflexivity.
    + intros i thi Ei. cbn [hmove hs_threads happend] in Ei. destruct (set_cases _ _ _ _ _ Ei) as [[-> ->]|[Hn Ei']].
      * cbn [ht_pc lone]. intros k' Hk Hs. destruct (New k' s Hs) as [Hs'|[_ ->]]; [exact (HL k' (or_intror Hk) Hs')|].
        exact (add_order_split _ _ _ Edn Hk).
      * pose proof (hu_lone w U i thi Ei') as L. assert (NS : adding_s (ht_pc thi) <> Some s) by (intros Es; exact (Hn (mine_only w t s p i thi U Ep Hp Ei' Es))).
        destruct (ht_pc thi) as [|s' ks'|s' k1 l' ks'|s' l'|ks'|k1 e l' i']; cbn [lone adding_s] in *; auto; intros k' Hk Hs; destruct (New k' s' Hs) as [Hs'|[-> _]]; try congruence; exact (L k' Hk Hs').
    + intros i thi s' Ei Es. cbn [hmove hs_threads happend] in Ei. destruct (set_cases _ _ _ _ _ Ei) as [[-> ->]|[Hn Ei']]; [|exact (hu_mine w U i thi s' Ei' Es)].
      cbn in Es. injection Es as <-. eauto.
    + intros k' x Hx. rewrite GA. cbn [hmove hs_threads happend].
      assert (Me : exists t0 th, nth_error (list_set (hs_threads w) t (mkHT (HAdding s ks) todo)) t0 = Some th /\ adding_s (ht_pc th) = Some s)
        by (exists t, (mkHT (HAdding s ks) todo); split; [exact (set_same _ _ _ _ Et)|reflexivity]).
      destruct (New k' x Hx) as [Hx'|[-> _]]; [|right; exact Me]. destruct (hu_who w U k' x Hx') as [Ha|(i & thi & Ei & Es)]; [left; exact Ha|right].
      destruct (Nat.eq_dec i t) as [->|Hn]; [rewrite Et in Ei; injection Ei as <-; cbn in Es; injection Es as <-; exact Me|].
      exists i, thi. rewrite (set_other _ _ _ _ Hn). auto.
  - destruct HP as (P0 & -> & P). injection E as <-.
    assert (G : forall k', H (hmove t HIdle todo [AReturned t s] (happend 0 s w)) k' = H w k').
    { intros k'. unfold H. cbn [hmove hs_heap]. rewrite heap_append. destruct (Nat.eqb_spec (adr k') 0) as [E0|_]; [apply adr_pos in E0; destruct E0|apply app_nil_r]. }
    assert (GA : A (hmove t HIdle todo [AReturned t s] (happend 0 s w)) = A w ++ [s]) by (unfold A; cbn [hmove hs_heap]; rewrite heap_append; reflexivity).
    constructor.
    + intros k'. rewrite G. apply U.
    + intros i thi Ei. cbn [hmove hs_threads happend] in Ei. destruct (set_cases _ _ _ _ _ Ei) as [[-> ->]|[Hn Ei']]; [exact Logic.I|].
      pose proof (hu_lone w U i thi Ei') as L. destruct (ht_pc thi); cbn [lone] in *; auto; intros k' Hk; rewrite G; auto.
    + intros i thi s' Ei Es. cbn [hmove hs_threads happend] in Ei. destruct (set_cases _ _ _ _ _ Ei) as [[-> ->]|[Hn Ei']]; [discriminate|exact (hu_mine w U i thi s' Ei' Es)].
    + intros k' x Hx. rewrite G in Hx. rewrite GA. cbn [hmove hs_threads happend]. destruct (hu_who w U k' x Hx) as [Ha|(i & thi & Ei & Es)]; [left; apply in_or_app; auto|].
      destruct (Nat.eq_dec i t) as [->|Hn]; [rewrite Et in Ei; injection Ei as <-; cbn in Es; injection Es as <-; left; apply in_or_app; right; left; reflexivity|].
      right. exists i, thi. rewrite (set_other _ _ _ _ Hn). auto.
  - destruct HP.
  - destruct (nth_error (hs_heap w l) i) as [s|] eqn:En; injection E as <-;
      (eapply (huniq_keep w _ t _ _ U); [reflexivity|exact Et|reflexivity|exact Logic.I|discriminate|left; reflexivity]).
Qed.
Lemma hstart_uniq : huniq (hstart progs).
Proof.
  assert (T : forall t th, nth_error (hs_threads (hstart progs)) t = Some th -> ht_pc th = HIdle).
  { intros t th E. cbn in E. rewrite nth_error_map in E. destruct (nth_error progs t); [|discriminate]. injection E as <-. reflexivity. }
  constructor.
  - intros k. constructor.
  - intros t th E. rewrite (T t th E). exact Logic.I.
  - intros t th s E Es. rewrite (T t th E) in Es. discriminate.
  - intros k s [].
Qed.
Lemma hrun_uniq sc : huniq (hrun has sc (hstart progs)).
Proof.
  generalize hstart_inv hstart_uniq. generalize (hstart progs). induction sc as [|t sc IH]; intros w I U; [exact U|]. cbn.
  destruct (hstep has t w) eqn:E; [exact (IH _ (hstep_inv _ _ _ I E) (hstep_uniq _ _ _ I U E))|exact (IH w I U)].
Qed.
End Inv.
