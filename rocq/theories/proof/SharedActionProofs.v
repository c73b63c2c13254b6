(** An action used by several threads: C94. *)
From Coq Require Import ZArith.
From Verif Require Import model.PyBase model.Core model.SharedAction spec.SharedActionSpec proof.CoreLib proof.HookThreadsProofs.
Open Scope nat_scope.

Ltac sstep_cases E th code todo Et :=
  unfold sstep in E;
  match type of E with match nth_error ?l ?t with _ => _ end = _ => destruct (nth_error l t) as [th|] eqn:Et; [|discriminate E] end;
  destruct th as [code todo]; cbn [st_code st_todo] in E;
  destruct code as [|[] code];
  [destruct todo as [|? todo]; [discriminate E|]|..];
  repeat match type of E with
  | match ?x with _ => _ end = _ => let Q := fresh "Q" in destruct x eqn:Q; try discriminate E
  end;
  injection E as <-.

Lemma by_thread_app t a b : by_thread t (a ++ b) = by_thread t a ++ by_thread t b. Proof. apply filter_app. Qed.
Lemma warns_app a b : warns (a ++ b) = warns a ++ warns b. Proof. apply flat_map_app. Qed.
Lemma ends_app a b : ends (a ++ b) = ends a ++ ends b. Proof. apply flat_map_app. Qed.
Lemma begins_app a b : begins (a ++ b) = begins a ++ begins b. Proof. apply flat_map_app. Qed.

(** The shape of a step. *)
Lemma sstep_shape time t w w' : sstep time t w = Some w' -> exists th th' o,
  nth_error (ss_threads w) t = Some th /\ ss_threads w' = list_set (ss_threads w) t th' /\ ss_trace w' = ss_trace w ++ o /\
  (forall t', t' <> t -> by_thread t' o = []).
Proof.
  intros E. sstep_cases E th code todo Et; (eexists; eexists; eexists; split; [reflexivity|]; split; [cbn; reflexivity|]; split; [cbn; reflexivity|]);
    intros t' Hn; cbn; try reflexivity; destruct (Nat.eqb_spec t t'); congruence.
Qed.
Lemma sstep_thread time t w w' : sstep time t w = Some w' -> exists th th', nth_error (ss_threads w) t = Some th /\ nth_error (ss_threads w') t = Some th'.
Proof. intros E. destruct (sstep_shape _ _ _ _ E) as (th & th' & o & E1 & E2 & _). exists th, th'. rewrite E2. split; [exact E1|exact (set_same _ _ _ _ E1)]. Qed.

(** Invariants that concern one thread and its own observations. *)
Lemma own_inv (P : nat -> sthread -> list sobs -> Prop) time :
  (forall w t w' th th', sstep time t w = Some w' -> nth_error (ss_threads w) t = Some th -> nth_error (ss_threads w') t = Some th' ->
     P t th (by_thread t (ss_trace w)) -> P t th' (by_thread t (ss_trace w'))) ->
  forall sc w, (forall t th, nth_error (ss_threads w) t = Some th -> P t th (by_thread t (ss_trace w))) ->
  forall t th, nth_error (ss_threads (srun time sc w)) t = Some th -> P t th (by_thread t (ss_trace (srun time sc w))).
Proof.
  intros HS. induction sc as [|t sc IH]; intros w HP; [exact HP|]. cbn. apply IH. destruct (sstep time t w) as [w'|] eqn:E; [|exact HP].
  intros i th Ei. destruct (sstep_shape _ _ _ _ E) as (th0 & th' & o & E1 & E2 & E3 & E4).
  destruct (Nat.eq_dec i t) as [->|Hn]; [apply (HS w t w' th0 th E E1 Ei); auto|].
  rewrite E2, (set_other _ _ _ _ Hn) in Ei. rewrite E3, by_thread_app, (E4 i Hn), app_nil_r. auto.
Qed.
Lemma sstart_thread progs t th : nth_error (ss_threads (sstart progs)) t = Some th -> exists p, nth_error progs t = Some p /\ th = mkST [] p.
Proof. cbn. rewrite nth_error_map. destruct (nth_error progs t) as [p|]; [|discriminate]. intros E. injection E as <-. eauto. Qed.

(** Counting: warnings. *)
Definition sum_code (f : micro -> nat) (c : list micro) : nat := fold_right (fun i n => f i + n) 0 c.
Definition dueW (i : micro) : nat := match i with INewWarn | IWarnList _ | IWarnStore _ | IWarnAppend _ _ | IPubWarn _ => 1 | _ => 0 end.
Lemma warns_count time progs sc t p th : nth_error progs t = Some p -> nth_error (ss_threads (srun time sc (sstart progs))) t = Some th ->
  length (warns (by_thread t (ss_trace (srun time sc (sstart progs))))) + sum_code dueW (st_code th) + length (warned (st_todo th)) = length (warned p).
Proof.
  intros Ep Et. apply (own_inv (fun t th own => forall p, nth_error progs t = Some p -> length (warns own) + sum_code dueW (st_code th) + length (warned (st_todo th)) = length (warned p)) time); auto.
  - clear. intros w t w' th th' E E1 E2 HP p Ep. specialize (HP p Ep).
    sstep_cases E th0 code todo Et0; injection E1 as <-; cbn [smove ss_threads set_begin set_end count_event set_trans set_defer store_warns append_warn] in E2;
      rewrite (set_same _ _ _ _ Et0) in E2; injection E2 as <-;
      cbn [smove ss_trace set_begin set_end count_event set_trans set_defer store_warns append_warn]; rewrite by_thread_app, warns_app, app_length;
      cbn [by_thread filter]; rewrite ?Nat.eqb_refl; cbn in *; try lia.
    destruct s; cbn in *; lia.
  - intros t0 th0 E p0 Ep0. destruct (sstart_thread _ _ _ E) as (p' & E' & ->). rewrite E' in Ep0. injection Ep0 as <-. reflexivity.
Qed.

(** Global invariants. *)
Lemma srun_inv (G : sstate -> Prop) time : (forall w t w', sstep time t w = Some w' -> G w -> G w') -> forall sc w, G w -> G (srun time sc w).
Proof. intros HS. induction sc as [|t sc IH]; intros w HG; [exact HG|]. cbn. apply IH. destruct (sstep time t w) eqn:E; [exact (HS _ _ _ E HG)|exact HG]. Qed.

(** The numbers of warnings are distinct. *)
Definition pendW (i : micro) : list nat := match i with IWarnList e | IWarnStore e | IWarnAppend e _ | IPubWarn e => [sv_id e] | _ => [] end.
Definition pend (th : sthread) : list nat := flat_map pendW (st_code th).
Lemma warn_step time t w w' th th' : sstep time t w = Some w' -> nth_error (ss_threads w) t = Some th -> nth_error (ss_threads w') t = Some th' ->
  (pend th' = pend th /\ warns (ss_trace w') = warns (ss_trace w) /\ ss_next w <= ss_next w') \/
  (pend th' = ss_next w :: pend th /\ warns (ss_trace w') = warns (ss_trace w) /\ ss_next w' = S (ss_next w)) \/
  exists e, pend th = sv_id e :: pend th' /\ warns (ss_trace w') = warns (ss_trace w) ++ [e] /\ ss_next w' = ss_next w.
Proof.
  intros E E1 E2. sstep_cases E th0 code todo Et0; injection E1 as <-; cbn [smove ss_threads set_begin set_end count_event set_trans set_defer store_warns append_warn] in E2;
    rewrite (set_same _ _ _ _ Et0) in E2; injection E2 as <-;
    cbn [smove ss_trace ss_next set_begin set_end count_event set_trans set_defer store_warns append_warn]; rewrite warns_app; unfold pend; cbn [warns flat_map st_code app pendW];
    rewrite ?app_nil_r; try (left; repeat split; lia).
  - left. split; [|split; [reflexivity|lia]]. destruct s; reflexivity.
  - right. left. repeat split.
  - right. right. exists e. repeat split.
Qed.
Record wuniq (w : sstate) : Prop := {
  wu_pub : NoDup (map sv_id (warns (ss_trace w)));
  wu_lt : forall e, In e (warns (ss_trace w)) -> sv_id e < ss_next w;
  wu_pend : forall t th, nth_error (ss_threads w) t = Some th -> NoDup (pend th);
  wu_plt : forall t th n, nth_error (ss_threads w) t = Some th -> In n (pend th) -> n < ss_next w;
  wu_not : forall t th n, nth_error (ss_threads w) t = Some th -> In n (pend th) -> ~ In n (map sv_id (warns (ss_trace w)));
  wu_two : forall i j thi thj n, i <> j -> nth_error (ss_threads w) i = Some thi -> nth_error (ss_threads w) j = Some thj -> In n (pend thi) -> ~ In n (pend thj) }.
Lemma wuniq_step time t w w' : sstep time t w = Some w' -> wuniq w -> wuniq w'.
Proof.
  intros E U. destruct (sstep_shape _ _ _ _ E) as (th & th' & o & E1 & E2 & E3 & E4).
  assert (E2' : nth_error (ss_threads w') t = Some th') by (rewrite E2; exact (set_same _ _ _ _ E1)).
  assert (Oth : forall i thi, nth_error (ss_threads w') i = Some thi -> (i = t /\ thi = th') \/ (i <> t /\ nth_error (ss_threads w) i = Some thi))
    by (intros i thi Ei; rewrite E2 in Ei; exact (set_cases _ _ _ _ _ Ei)).
  destruct (warn_step _ _ _ _ _ _ E E1 E2') as [(P1 & P2 & P3)|[(P1 & P2 & P3)|(e & P1 & P2 & P3)]].
  - constructor.
    + rewrite P2. apply U.
    + intros e He. rewrite P2 in He. pose proof (wu_lt w U e He). lia.
    + intros i thi Ei. destruct (Oth i thi Ei) as [[-> ->]|[Hn Ei']]; [rewrite P1; exact (wu_pend w U _ _ E1)|exact (wu_pend w U _ _ Ei')].
    + intros i thi n Ei Hi. destruct (Oth i thi Ei) as [[-> ->]|[Hn Ei']]; [rewrite P1 in Hi; pose proof (wu_plt w U _ _ n E1 Hi)|pose proof (wu_plt w U _ _ n Ei' Hi)]; lia.
    + intros i thi n Ei Hi. rewrite P2. destruct (Oth i thi Ei) as [[-> ->]|[Hn Ei']]; [rewrite P1 in Hi; exact (wu_not w U _ _ n E1 Hi)|exact (wu_not w U _ _ n Ei' Hi)].
    + intros i j thi thj n Hn Ei Ej Hi Hj. destruct (Oth i thi Ei) as [[-> ->]|[Hni Ei']]; destruct (Oth j thj Ej) as [[-> ->]|[Hnj Ej']]; rewrite ?P1 in *;
        [congruence|exact (wu_two w U _ _ _ _ n Hn E1 Ej' Hi Hj)|exact (wu_two w U _ _ _ _ n Hn Ei' E1 Hi Hj)|exact (wu_two w U _ _ _ _ n Hn Ei' Ej' Hi Hj)].
  - constructor.
    + rewrite P2. apply U.
    + intros e He. rewrite P2 in He. pose proof (wu_lt w U e He). lia.
    + intros i thi Ei. destruct (Oth i thi Ei) as [[-> ->]|[Hn Ei']]; [|exact (wu_pend w U _ _ Ei')]. rewrite P1. constructor; [|exact (wu_pend w U _ _ E1)].
      intros Hi. pose proof (wu_plt w U _ _ _ E1 Hi). lia.
    + intros i thi n Ei Hi. rewrite P3. destruct (Oth i thi Ei) as [[-> ->]|[Hn Ei']]; [rewrite P1 in Hi; destruct Hi as [<-|Hi]; [lia|pose proof (wu_plt w U _ _ n E1 Hi)]|pose proof (wu_plt w U _ _ n Ei' Hi)]; lia.
    + intros i thi n Ei Hi. rewrite P2. destruct (Oth i thi Ei) as [[-> ->]|[Hn Ei']]; [|exact (wu_not w U _ _ n Ei' Hi)]. rewrite P1 in Hi. destruct Hi as [<-|Hi]; [|exact (wu_not w U _ _ n E1 Hi)].
      intros Hm. apply in_map_iff in Hm. destruct Hm as (e & Ee & He). pose proof (wu_lt w U e He). lia.
    + intros i j thi thj n Hn Ei Ej Hi Hj. destruct (Oth i thi Ei) as [[-> ->]|[Hni Ei']]; destruct (Oth j thj Ej) as [[-> ->]|[Hnj Ej']]; rewrite ?P1 in *.
      * congruence.
      * destruct Hi as [<-|Hi]; [pose proof (wu_plt w U _ _ _ Ej' Hj); lia|exact (wu_two w U _ _ _ _ n Hn E1 Ej' Hi Hj)].
      * destruct Hj as [<-|Hj]; [pose proof (wu_plt w U _ _ _ Ei' Hi); lia|exact (wu_two w U _ _ _ _ n Hn Ei' E1 Hi Hj)].
      * exact (wu_two w U _ _ _ _ n Hn Ei' Ej' Hi Hj).
  - assert (Sub : forall n, In n (pend th') -> In n (pend th)) by (intros n Hi; rewrite P1; right; exact Hi).
    assert (Head : In (sv_id e) (pend th)) by (rewrite P1; left; reflexivity).
    pose proof (wu_pend w U _ _ E1) as N. rewrite P1 in N. inversion N as [|? ? N1 N2]; subst.
    assert (Inv : forall n, In n (map sv_id (warns (ss_trace w'))) -> In n (map sv_id (warns (ss_trace w))) \/ n = sv_id e).
    { intros n Hi. rewrite P2, map_app in Hi. apply in_app_or in Hi. destruct Hi as [Hi|[<-|[]]]; auto. }
    constructor.
    + rewrite P2, map_app. apply nodup_snoc; [apply U|exact (wu_not w U _ _ _ E1 Head)].
    + intros e' He. rewrite P3. rewrite P2 in He. apply in_app_or in He. destruct He as [He|[<-|[]]]; [exact (wu_lt w U e' He)|exact (wu_plt w U _ _ _ E1 Head)].
    + intros i thi Ei. destruct (Oth i thi Ei) as [[-> ->]|[Hn Ei']]; [exact N2|exact (wu_pend w U _ _ Ei')].
    + intros i thi n Ei Hi. rewrite P3. destruct (Oth i thi Ei) as [[-> ->]|[Hn Ei']]; [exact (wu_plt w U _ _ n E1 (Sub n Hi))|exact (wu_plt w U _ _ n Ei' Hi)].
    + intros i thi n Ei Hi Hm. destruct (Inv n Hm) as [Hm'| ->]; destruct (Oth i thi Ei) as [[-> ->]|[Hn Ei']].
      * exact (wu_not w U _ _ n E1 (Sub n Hi) Hm').
      * exact (wu_not w U _ _ n Ei' Hi Hm').
      * exact (N1 Hi).
      * exact (wu_two w U _ _ _ _ _ Hn Ei' E1 Hi Head).
    + intros i j thi thj n Hn Ei Ej Hi Hj. destruct (Oth i thi Ei) as [[-> ->]|[Hni Ei']]; destruct (Oth j thj Ej) as [[-> ->]|[Hnj Ej']].
      * congruence.
      * exact (wu_two w U _ _ _ _ n Hn E1 Ej' (Sub n Hi) Hj).
      * exact (wu_two w U _ _ _ _ n Hn Ei' E1 Hi (Sub n Hj)).
      * exact (wu_two w U _ _ _ _ n Hn Ei' Ej' Hi Hj).
Qed.
Lemma wuniq_run time progs sc : wuniq (srun time sc (sstart progs)).
Proof.
  apply srun_inv; [intros w t w' E U; exact (wuniq_step _ _ _ _ E U)|].
  assert (T : forall t th, nth_error (ss_threads (sstart progs)) t = Some th -> pend th = []) by (intros t th E; destruct (sstart_thread _ _ _ E) as (p & _ & ->); reflexivity).
  constructor.
  - constructor.
  - intros e [].
  - intros t th E. rewrite (T t th E). constructor.
  - intros t th n E Hi. rewrite (T t th E) in Hi. destruct Hi.
  - intros t th n E Hi. rewrite (T t th E) in Hi. destruct Hi.
  - intros i j thi thj n Hn Ei Ej Hi. rewrite (T _ _ Ei) in Hi. destruct Hi.
Qed.

(** Code never asks None for an attribute. *)
Fixpoint okc (b e : bool) (c : list micro) : Prop :=
  match c with
  | [] => True
  | i :: c' =>
    match i with
    | ICheckBegin | INewBegin => okc true e c'
    | IReadBegin => b = true /\ okc b e c'
    | IEndTime _ => b = true /\ okc b true c'
    | IEndTrans _ | IEndBegun _ | INewEnd _ _ | IExitCheck => okc b true c'
    | IEndDefer | IReadEnd => e = true /\ okc b e c'
    | _ => okc b e c'
    end
  end.
Lemma okc_mono b b' e e' c : (b = true -> b' = true) -> (e = true -> e' = true) -> okc b e c -> okc b' e' c.
Proof.
  revert b b' e e'. induction c as [|i c IH]; intros b b' e e' Hb He; [auto|]. destruct i; cbn; try (apply IH; auto); intros [X Y]; (split; [auto|]); revert Y; apply IH; auto.
Qed.
Definition isS {X} (o : option X) : bool := match o with Some _ => true | None => false end.
Definition okw (w : sstate) : Prop := forall t th, nth_error (ss_threads w) t = Some th -> okc (isS (ss_begin w)) (isS (ss_end w)) (st_code th).
Lemma okw_step time t w w' : sstep time t w = Some w' -> okw w -> okw w'.
Proof.
  intros E O i thi Ei.
  assert (M : (isS (ss_begin w) = true -> isS (ss_begin w') = true) /\ (isS (ss_end w) = true -> isS (ss_end w') = true)).
  { sstep_cases E th code todo Et; cbn; split; intros ?; rewrite ?Q; auto. }
  destruct (sstep_shape _ _ _ _ E) as (th0 & th' & o & E1 & E2 & E3 & E4). rewrite E2 in Ei. destruct (set_cases _ _ _ _ _ Ei) as [[-> ->]|[Hn Ei']].
  - pose proof (O t th0 E1) as HO. clear Ei.
    assert (E2' : nth_error (ss_threads w') t = Some th') by (rewrite E2; exact (set_same _ _ _ _ E1)). clear E2 E3 E4.
    sstep_cases E th code todo Et; injection E1 as <-; cbn [smove ss_threads ss_begin ss_end set_begin set_end count_event set_trans set_defer store_warns append_warn] in *;
      rewrite (set_same _ _ _ _ Et) in E2'; injection E2' as <-; cbn [st_code] in *; rewrite ?Q in *; cbn [okc isS] in *; auto;
      try (split; [reflexivity|]); try (destruct HO as [H1 H2]; try exact H2; try (split; [reflexivity|exact H2])); try exact HO;
      try (revert HO; apply okc_mono; auto; fail); try (revert H2; apply okc_mono; auto; fail).
    destruct s; cbn; auto.
  - exact (okc_mono _ _ _ _ _ (proj1 M) (proj2 M) (O i thi Ei')).
Qed.
Lemma okw_start progs : okw (sstart progs).
Proof. intros t th E. destruct (sstart_thread _ _ _ E) as (p & _ & ->). exact Logic.I. Qed.
Lemma okw_run time progs sc : okw (srun time sc (sstart progs)).
Proof. apply srun_inv; [intros w t w' E; exact (okw_step _ _ _ _ E)|apply okw_start]. Qed.
Lemma okw_steps time w t th : okw w -> nth_error (ss_threads w) t = Some th -> th <> mkST [] [] -> exists w', sstep time t w = Some w'.
Proof.
  intros O Et Hn. pose proof (O t th Et) as HO. unfold sstep. rewrite Et. destruct th as [code todo]. cbn [st_code st_todo] in *.
  destruct code as [|i c]; [destruct todo as [|op todo]; [congruence|eauto]|].
  destruct i; cbn in HO; eauto; try (destruct HO as [HO _]); try (destruct (ss_begin w); [eauto|try discriminate; eauto]; fail);
    try (destruct (ss_end w); [eauto|try discriminate; eauto]; fail).
  - destruct (ss_trans w); eauto.
  - destruct (ss_defer w); eauto.
  - destruct (ss_warn w); eauto.
Qed.

(** Steps, thread by thread: invariants that relate a thread, its observations and whether the
    action has begun. *)
Definition beginish (i : micro) : bool := match i with INewBegin | IReadBegin | IPubBegin _ => true | _ => false end.
Definition clean (c : list micro) : Prop := forall i, In i c -> beginish i = false.
Definition bok (b : bool) (c : list micro) (n : nat) : Prop :=
  match c with
  | INewBegin :: c1 => match c1 with IReadBegin :: c2 => n = 0 /\ clean c2 | _ => False end
  | IReadBegin :: c1 | IPubBegin _ :: c1 => n = 0 /\ b = true /\ clean c1
  | _ :: c1 => clean c1 /\ n <= 1 /\ (b = false -> n = 0)
  | [] => n <= 1 /\ (b = false -> n = 0)
  end.
Lemma clean_cons i c : beginish i = false -> clean c -> clean (i :: c).
Proof. intros Hi Hc j [<-|Hj]; auto. Qed.
Lemma clean_bok b c n : clean c -> n <= 1 -> (b = false -> n = 0) -> bok b c n.
Proof.
  intros Hc Hn Hb. destruct c as [|i c]; [split; assumption|]. assert (Hc' : clean c) by (intros j Hj; apply Hc; right; exact Hj).
  pose proof (Hc i (or_introl eq_refl)) as Hi. destruct i; try discriminate Hi; cbn; auto.
Qed.
Lemma bok_mono b b' c n : (b = true -> b' = true) -> bok b c n -> bok b' c n.
Proof.
  intros Hb. assert (F : (b = false -> n = 0) -> b' = false -> n = 0) by (intros X Y; apply X; destruct b; auto; rewrite Hb in Y; auto; discriminate).
  destruct c as [|i c]; cbn; [intuition|]. destruct i; cbn; intuition.
Qed.
Definition bokw (w : sstate) : Prop := forall t th, nth_error (ss_threads w) t = Some th ->
  bok (isS (ss_begin w)) (st_code th) (length (begins (by_thread t (ss_trace w)))).
Lemma code_of_clean op : clean (code_of op ++ [IRet op]).
Proof. destruct op; cbn; intros i; cbn; intros Hi; decompose [or] Hi; subst; try reflexivity; contradiction. Qed.
Lemma bokw_step time t w w' : sstep time t w = Some w' -> bokw w -> bokw w'.
Proof.
  intros E O i thi Ei.
  assert (M : isS (ss_begin w) = true -> isS (ss_begin w') = true).
  { sstep_cases E th code todo Et; cbn; intros ?; rewrite ?Q; auto. }
  destruct (sstep_shape _ _ _ _ E) as (th0 & th' & o & E1 & E2 & E3 & E4). rewrite E2 in Ei. destruct (set_cases _ _ _ _ _ Ei) as [[-> ->]|[Hn Ei']].
  - pose proof (O t th0 E1) as HO. clear Ei.
    assert (E2' : nth_error (ss_threads w') t = Some th') by (rewrite E2; exact (set_same _ _ _ _ E1)). clear E2 E3 E4.
    sstep_cases E th code todo Et; injection E1 as <-;
      cbn [smove ss_threads ss_begin ss_end ss_trace set_begin set_end count_event set_trans set_defer store_warns append_warn] in *;
      rewrite (set_same _ _ _ _ Et) in E2'; injection E2' as <-; cbn [st_code] in *; rewrite by_thread_app, begins_app; cbn [by_thread filter]; rewrite ?Nat.eqb_refl;
      cbn [begins flat_map app]; rewrite ?app_nil_r; rewrite ?Q in *; cbn [bok isS] in *; try (destruct HO as (H1 & H2 & H3));
      try (apply clean_bok; auto; fail); try (repeat split; auto using clean_cons; fail).
    + apply clean_bok; [apply code_of_clean|tauto|tauto].
    + destruct code as [|[] code]; try contradiction. destruct HO as [H1 H2]. cbn. auto.
    + rewrite app_length. cbn. rewrite H1. apply clean_bok; [exact H3|cbn; lia|congruence].
  - rewrite E3, by_thread_app, (E4 i Hn), app_nil_r. exact (bok_mono _ _ _ _ M (O i thi Ei')).
Qed.
Lemma bokw_run time progs sc : bokw (srun time sc (sstart progs)).
Proof. apply srun_inv; [intros w t w' E; exact (bokw_step _ _ _ _ E)|]. intros t th E. destruct (sstart_thread _ _ _ E) as (p & _ & ->). cbn. auto. Qed.

(** The begin event in force has been published or is about to be. *)
Definition begin_due (w : sstate) : Prop := forall b, ss_begin w = Some b -> In b (begins (ss_trace w)) \/
  exists t th, nth_error (ss_threads w) t = Some th /\ (In IReadBegin (st_code th) \/ In (IPubBegin b) (st_code th)).
Lemma begin_due_step time t w w' : sstep time t w = Some w' -> bokw w -> begin_due w -> begin_due w'.
Proof.
  intros E K D b Eb. destruct (sstep_shape _ _ _ _ E) as (th0 & th' & o & E1 & E2 & E3 & E4).
  assert (Tr : forall e, In e (begins (ss_trace w)) -> In e (begins (ss_trace w'))) by (intros e He; rewrite E3, begins_app; apply in_or_app; auto).
  assert (Oth : forall i th, i <> t -> nth_error (ss_threads w) i = Some th -> nth_error (ss_threads w') i = Some th) by (intros i th Hn Ei; rewrite E2, (set_other _ _ _ _ Hn); exact Ei).
  assert (Me : nth_error (ss_threads w') t = Some th') by (rewrite E2; exact (set_same _ _ _ _ E1)).
  pose proof (K t th0 E1) as HK.
  assert (C : ss_begin w' = ss_begin w \/ In IReadBegin (st_code th')).
  { clear E2 E3 E4 Oth Tr. sstep_cases E th code todo Et; injection E1 as <-; auto. right. cbn [smove ss_threads set_begin] in Me. rewrite (set_same _ _ _ _ Et) in Me. injection Me as <-.
    cbn in HK. destruct code as [|[] code]; try contradiction. left. reflexivity. }
  destruct C as [C|C]; [|right; exists t, th'; auto]. rewrite C in Eb.
  destruct (D b Eb) as [HB|(i & thi & Ei & Hi)]; [left; auto|]. destruct (Nat.eq_dec i t) as [->|Hn]; [|right; exists i, thi; auto].
  assert (thi = th0) as -> by congruence.
  assert (S : In b (begins (ss_trace w')) \/ In IReadBegin (st_code th') \/ In (IPubBegin b) (st_code th')).
  { clear Oth Tr C E4 Ei E2 E3. sstep_cases E th code todo Et; injection E1 as <-;
      cbn [smove ss_threads ss_trace set_begin set_end count_event set_trans set_defer store_warns append_warn] in *;
      rewrite (set_same _ _ _ _ Et) in Me; injection Me as <-; cbn [st_code In] in *; rewrite ?begins_app, ?in_app_iff; cbn [begins flat_map In app];
      try (destruct Hi as [[Hi|Hi]|[Hi|Hi]]; try discriminate Hi; auto 6; fail).
    - destruct Hi as [[]|[]].
    - destruct Hi as [[Hi|Hi]|[Hi|Hi]]; try discriminate Hi; auto 6. right. right. left. congruence.
    - destruct Hi as [[Hi|Hi]|[Hi|Hi]]; try discriminate Hi; auto 6. injection Hi as ->. auto. }
  destruct S as [S|S]; [left; exact S|right; exists t, th'; auto].
Qed.
Lemma begin_due_run time progs sc : begin_due (srun time sc (sstart progs)).
Proof.
  assert (X : bokw (srun time sc (sstart progs)) /\ begin_due (srun time sc (sstart progs))); [|apply X].
  apply srun_inv; [intros w t w' E [A B]; split; [exact (bokw_step _ _ _ _ E A)|exact (begin_due_step _ _ _ _ E A B)]|].
  split; [exact (bokw_run time progs [])|]. intros b Eb. discriminate.
Qed.

(** begin() and __enter__() return with the action begun. *)
Definition begins_op (op : sop) : bool := match op with SBegin | SEnter => true | _ => false end.
Fixpoint rok (b : bool) (c : list micro) : Prop :=
  match c with
  | [] => True
  | ICheckBegin :: c' | INewBegin :: c' => rok true c'
  | IRet op :: c' => (begins_op op = true -> b = true) /\ rok b c'
  | _ :: c' => rok b c'
  end.
Lemma rok_mono b b' c : (b = true -> b' = true) -> rok b c -> rok b' c.
Proof. revert b b'. induction c as [|i c IH]; intros b b' Hb; [auto|]. destruct i; cbn; try (apply IH; auto). intros [X Y]. split; [auto|]. revert Y. apply IH. auto. Qed.
Definition ret_ok (w : sstate) : Prop :=
  (forall t op, In (SRet t op) (ss_trace w) -> begins_op op = true -> isS (ss_begin w) = true) /\
  forall t th, nth_error (ss_threads w) t = Some th -> rok (isS (ss_begin w)) (st_code th).
Lemma ret_ok_step time t w w' : sstep time t w = Some w' -> ret_ok w -> ret_ok w'.
Proof.
  intros E [R1 R2].
  assert (M : isS (ss_begin w) = true -> isS (ss_begin w') = true).
  { sstep_cases E th code todo Et; cbn; intros ?; rewrite ?Q; auto. }
  destruct (sstep_shape _ _ _ _ E) as (th0 & th' & o & E1 & E2 & E3 & E4).
  assert (Me : nth_error (ss_threads w') t = Some th') by (rewrite E2; exact (set_same _ _ _ _ E1)).
  pose proof (R2 t th0 E1) as HR. split.
  - intros t1 op Hi Hop. rewrite E3 in Hi. apply in_app_or in Hi. destruct Hi as [Hi|Hi]; [exact (M (R1 t1 op Hi Hop))|].
    clear E4 E2 Me. sstep_cases E th code todo Et; injection E1 as <-; cbn in E3; apply app_inv_head in E3; subst o; cbn in Hi; try contradiction; destruct Hi as [Hi|[]]; try discriminate Hi.
    injection Hi as <- <-. cbn in HR. cbn. apply (proj1 HR). exact Hop.
  - intros i thi Ei. rewrite E2 in Ei. destruct (set_cases _ _ _ _ _ Ei) as [[-> ->]|[Hn Ei']]; [|exact (rok_mono _ _ _ M (R2 i thi Ei'))].
    clear E2 E3 E4 Ei. sstep_cases E th code todo Et; injection E1 as <-;
      cbn [smove ss_threads ss_begin ss_end set_begin set_end count_event set_trans set_defer store_warns append_warn] in *;
      rewrite (set_same _ _ _ _ Et) in Me; injection Me as <-; cbn [st_code] in *; rewrite ?Q in *; cbn [rok isS] in *; auto; try tauto;
      try (revert HR; apply rok_mono; auto; fail).
    destruct s; cbn; repeat split; auto; discriminate.
Qed.
Lemma ret_ok_run time progs sc : ret_ok (srun time sc (sstart progs)).
Proof.
  apply srun_inv; [intros w t w' E; exact (ret_ok_step _ _ _ _ E)|]. split; [intros t op []|].
  intros t th E. destruct (sstart_thread _ _ _ E) as (p & _ & ->). exact Logic.I.
Qed.

(** Nothing is begun a second time once the action has begun and no begin() is in progress. *)
Definition settled (b : sev) (w : sstate) : Prop := ss_begin w = Some b /\ forall t th, nth_error (ss_threads w) t = Some th -> clean (st_code th).
Lemma settled_step time t w w' b : sstep time t w = Some w' -> settled b w -> settled b w' /\ begins (ss_trace w') = begins (ss_trace w).
Proof.
  intros E [S1 S2]. destruct (sstep_shape _ _ _ _ E) as (th0 & th' & o & E1 & E2 & E3 & E4).
  assert (Me : nth_error (ss_threads w') t = Some th') by (rewrite E2; exact (set_same _ _ _ _ E1)).
  pose proof (S2 t th0 E1) as HC.
  assert (X : ss_begin w' = Some b /\ clean (st_code th') /\ begins (ss_trace w') = begins (ss_trace w)).
  { clear E2 E3 E4. sstep_cases E th code todo Et; injection E1 as <-;
      cbn [smove ss_threads ss_begin ss_end ss_trace set_begin set_end count_event set_trans set_defer store_warns append_warn] in *;
      rewrite (set_same _ _ _ _ Et) in Me; injection Me as <-; cbn [st_code] in *; rewrite begins_app; cbn [begins flat_map app]; rewrite ?app_nil_r;
      try congruence;
      try (assert (HC' : clean code) by (intros j Hj; apply HC; right; exact Hj));
      try (pose proof (HC _ (or_introl eq_refl)) as HB; discriminate HB);
      (split; [congruence|split; [auto using clean_cons|reflexivity]]).
    apply code_of_clean. }
  destruct X as (X1 & X2 & X3). split; [|exact X3]. split; [exact X1|].
  intros i thi Ei. rewrite E2 in Ei. destruct (set_cases _ _ _ _ _ Ei) as [[-> ->]|[Hn Ei']]; [exact X2|exact (S2 i thi Ei')].
Qed.
Lemma settled_run time b sc w : settled b w -> settled b (srun time sc w) /\ begins (ss_trace (srun time sc w)) = begins (ss_trace w).
Proof.
  revert w. induction sc as [|t sc IH]; intros w HS; [auto|]. cbn. destruct (sstep time t w) as [w'|] eqn:E; [|exact (IH w HS)].
  destruct (settled_step _ _ _ _ _ E HS) as [S1 S2]. destruct (IH w' S1) as [I1 I2]. split; [exact I1|congruence].
Qed.

(** Actions that are not used as context managers. *)
Definition flagish (i : micro) : bool := match i with ISetTrans | ISetDefer _ | IExitCheck => true | _ => false end.
Definition noflag (c : list micro) : Prop := forall i, In i c -> flagish i = false.
Lemma noflag_cons i c : flagish i = false -> noflag c -> noflag (i :: c).
Proof. intros Hi Hc j [<-|Hj]; auto. Qed.
Record plainw (w : sstate) : Prop := {
  pw_trans : ss_trans w = false; pw_defer : ss_defer w = false;
  pw_code : forall t th, nth_error (ss_threads w) t = Some th -> noflag (st_code th) /\ plain (st_todo th) }.
Ltac same_thread Me Et := cbn [smove ss_threads ss_begin ss_end ss_trans ss_defer ss_trace set_begin set_end count_event set_trans set_defer store_warns append_warn] in *;
      rewrite (set_same _ _ _ _ Et) in Me; injection Me as <-; cbn [st_code st_todo] in *.
Lemma plainw_step time t w w' : sstep time t w = Some w' -> plainw w -> plainw w'.
Proof.
  intros E P. destruct (sstep_shape _ _ _ _ E) as (th0 & th' & o & E1 & E2 & E3 & E4).
  assert (Me : nth_error (ss_threads w') t = Some th') by (rewrite E2; exact (set_same _ _ _ _ E1)).
  destruct (pw_code w P t th0 E1) as [HC HT]. pose proof (pw_trans w P) as PT. pose proof (pw_defer w P) as PD.
  assert (X : ss_trans w' = false /\ ss_defer w' = false /\ noflag (st_code th') /\ plain (st_todo th')).
  { clear E2 E3 E4. sstep_cases E th code todo Et; injection E1 as <-; same_thread Me Et;
      try (assert (HC' : noflag code) by (intros j Hj; apply HC; right; exact Hj));
      try (pose proof (HC _ (or_introl eq_refl)) as HB; discriminate HB);
      try (repeat split; auto using noflag_cons; fail); try congruence;
      try (split; [assumption|split; [assumption|split; [auto 6 using noflag_cons|exact HT]]]).
    split; [assumption|split; [assumption|]]. destruct HT as [T1 T2]. split; [|split; [intros Hi; apply T1; right; exact Hi|intros Hi; apply T2; right; exact Hi]].
    destruct s; try (intros i Hi; cbn in Hi; decompose [or] Hi; subst; try reflexivity; contradiction);
      [destruct T1; left; reflexivity|destruct T2; left; reflexivity]. }
  destruct X as (X1 & X2 & X3). constructor; [exact X1|exact X2|].
  intros i thi Ei. rewrite E2 in Ei. destruct (set_cases _ _ _ _ _ Ei) as [[-> ->]|[Hn Ei']]; [exact X3|exact (pw_code w P i thi Ei')].
Qed.
Lemma plainw_start progs : (forall p, In p progs -> plain p) -> plainw (sstart progs).
Proof.
  intros HP. constructor; [reflexivity|reflexivity|]. intros t th E. destruct (sstart_thread _ _ _ E) as (p & Ep & ->). split; [intros i []|]. apply HP. exact (nth_error_In _ _ Ep).
Qed.

Lemma own_inv_g (G : sstate -> Prop) (P : nat -> sthread -> list sobs -> Prop) time :
  (forall w t w', sstep time t w = Some w' -> G w -> G w') ->
  (forall w t w' th th', G w -> sstep time t w = Some w' -> nth_error (ss_threads w) t = Some th -> nth_error (ss_threads w') t = Some th' ->
     P t th (by_thread t (ss_trace w)) -> P t th' (by_thread t (ss_trace w'))) ->
  forall sc w, G w -> (forall t th, nth_error (ss_threads w) t = Some th -> P t th (by_thread t (ss_trace w))) ->
  forall t th, nth_error (ss_threads (srun time sc w)) t = Some th -> P t th (by_thread t (ss_trace (srun time sc w))).
Proof.
  intros HG HS. induction sc as [|t sc IH]; intros w Gw HP; [exact HP|]. cbn. destruct (sstep time t w) as [w'|] eqn:E; [|exact (IH w Gw HP)].
  apply IH; [exact (HG _ _ _ E Gw)|].
  intros i th Ei. destruct (sstep_shape _ _ _ _ E) as (th0 & th' & o & E1 & E2 & E3 & E4).
  destruct (Nat.eq_dec i t) as [->|Hn]; [apply (HS w t w' th0 th Gw E E1 Ei); auto|].
  rewrite E2, (set_other _ _ _ _ Hn) in Ei. rewrite E3, by_thread_app, (E4 i Hn), app_nil_r. auto.
Qed.

(** Counting: ends. *)
Definition dueE (i : micro) : nat := match i with IEndTrans _ | IEndBegun _ | IEndTime _ | INewEnd _ _ | IEndDefer | IReadEnd | IPubEnd _ => 1 | _ => 0 end.
Lemma ends_count time progs sc t p th : (forall p, In p progs -> plain p) -> nth_error progs t = Some p -> nth_error (ss_threads (srun time sc (sstart progs))) t = Some th ->
  length (ends (by_thread t (ss_trace (srun time sc (sstart progs))))) + sum_code dueE (st_code th) + length (asked (st_todo th)) = length (asked p).
Proof.
  intros HP Ep Et. apply (own_inv_g plainw (fun t th own => forall p, nth_error progs t = Some p -> length (ends own) + sum_code dueE (st_code th) + length (asked (st_todo th)) = length (asked p)) time); auto.
  - intros w t' w' E. exact (plainw_step _ _ _ _ E).
  - clear. intros w t w' th th' G E E1 Me HP p Ep. specialize (HP p Ep). destruct (pw_code w G t th E1) as [HC HT]. pose proof (pw_defer w G) as PD.
    sstep_cases E th0 code todo Et; injection E1 as <-; same_thread Me Et; rewrite by_thread_app, ends_app, app_length;
      cbn [by_thread filter]; rewrite ?Nat.eqb_refl; unfold sum_code in *; cbn in *; try lia; try congruence;
      try (pose proof (HC _ (or_introl eq_refl)) as HB; discriminate HB).
    destruct s; unfold asked in *; cbn in *; try lia.
  - exact (plainw_start progs HP).
  - intros t0 th0 E p0 Ep0. destruct (sstart_thread _ _ _ E) as (p' & E' & ->). rewrite E' in Ep0. injection Ep0 as <-. reflexivity.
Qed.

(** The end event in force has been published or is about to be. *)
Definition end_due (w : sstate) : Prop := forall e, ss_end w = Some e -> In e (ends (ss_trace w)) \/
  exists t th, nth_error (ss_threads w) t = Some th /\ (In IEndDefer (st_code th) \/ In IReadEnd (st_code th) \/ In (IPubEnd e) (st_code th)).
Lemma end_due_step time t w w' : sstep time t w = Some w' -> plainw w -> end_due w -> end_due w'.
Proof.
  intros E P D b Eb. destruct (sstep_shape _ _ _ _ E) as (th0 & th' & o & E1 & E2 & E3 & E4).
  assert (Tr : forall e, In e (ends (ss_trace w)) -> In e (ends (ss_trace w'))) by (intros e He; rewrite E3, ends_app; apply in_or_app; auto).
  assert (Oth : forall i th, i <> t -> nth_error (ss_threads w) i = Some th -> nth_error (ss_threads w') i = Some th) by (intros i th Hn Ei; rewrite E2, (set_other _ _ _ _ Hn); exact Ei).
  assert (Me : nth_error (ss_threads w') t = Some th') by (rewrite E2; exact (set_same _ _ _ _ E1)).
  pose proof (pw_defer w P) as PD.
  assert (C : ss_end w' = ss_end w \/ In IEndDefer (st_code th')).
  { clear E2 E3 E4 Oth Tr. sstep_cases E th code todo Et; injection E1 as <-; auto. right. same_thread Me Et. left. reflexivity. }
  destruct C as [C|C]; [|right; exists t, th'; auto]. rewrite C in Eb.
  destruct (D b Eb) as [HB|(i & thi & Ei & Hi)]; [left; auto|]. destruct (Nat.eq_dec i t) as [->|Hn]; [|right; exists i, thi; auto].
  assert (thi = th0) as -> by congruence.
  assert (S : In b (ends (ss_trace w')) \/ In IEndDefer (st_code th') \/ In IReadEnd (st_code th') \/ In (IPubEnd b) (st_code th')).
  { clear Oth Tr C E4 Ei E2 E3. sstep_cases E th code todo Et; injection E1 as <-; same_thread Me Et; cbn [In] in *;
      rewrite ?ends_app, ?in_app_iff; cbn [ends flat_map In app]; try congruence;
      try (destruct Hi as [[Hi|Hi]|[[Hi|Hi]|[Hi|Hi]]]; try discriminate Hi; auto 8; fail).
    - destruct Hi as [[]|[[]|[]]].
    - destruct Hi as [[Hi|Hi]|[[Hi|Hi]|[Hi|Hi]]]; try discriminate Hi; auto 8. right. right. right. left. congruence.
    - destruct Hi as [[Hi|Hi]|[[Hi|Hi]|[Hi|Hi]]]; try discriminate Hi; auto 8. injection Hi as ->. auto. }
  destruct S as [S|S]; [left; exact S|right; exists t, th'; auto].
Qed.
Lemma end_due_run time progs sc : (forall p, In p progs -> plain p) -> end_due (srun time sc (sstart progs)).
Proof.
  intros HP. assert (X : plainw (srun time sc (sstart progs)) /\ end_due (srun time sc (sstart progs))); [|apply X].
  apply srun_inv; [intros w t w' E [A B]; split; [exact (plainw_step _ _ _ _ E A)|exact (end_due_step _ _ _ _ E A B)]|].
  split; [exact (plainw_start progs HP)|]. intros b Eb. discriminate.
Qed.

(** Where outcomes come from. *)
Definition org (o : status) (tr : list sobs) : Prop := (exists t, In (SCall t (SEnd o)) tr) \/ (o = Success /\ exists t, In (SCall t SExit) tr).
Definition oev (e : sev) (tr : list sobs) : Prop := exists o, sv_out e = Some o /\ org o tr.
Definition omicro (tr : list sobs) (i : micro) : Prop :=
  match i with
  | IEndTrans o | IEndBegun o | IEndTime o | INewEnd o _ => org o tr
  | IPubEnd e => oev e tr
  | IExitCheck => org Success tr
  | _ => True
  end.
Lemma org_app o a b : org o a -> org o (a ++ b).
Proof. intros [[t H]|[E [t H]]]; [left|right; split; [exact E|]]; exists t; apply in_or_app; auto. Qed.
Lemma oev_app e a b : oev e a -> oev e (a ++ b). Proof. intros (o & E & H). exists o. split; [exact E|apply org_app; exact H]. Qed.
Lemma omicro_app i a b : omicro a i -> omicro (a ++ b) i. Proof. destruct i; cbn; auto using org_app, oev_app. Qed.
Record orgw (w : sstate) : Prop := {
  og_end : forall e, ss_end w = Some e -> oev e (ss_trace w);
  og_pub : forall e, In e (ends (ss_trace w)) -> oev e (ss_trace w);
  og_code : forall t th i, nth_error (ss_threads w) t = Some th -> In i (st_code th) -> omicro (ss_trace w) i }.
Lemma orgw_step time t w w' : sstep time t w = Some w' -> orgw w -> orgw w'.
Proof.
  intros E O. destruct (sstep_shape _ _ _ _ E) as (th0 & th' & o & E1 & E2 & E3 & E4).
  assert (Me : nth_error (ss_threads w') t = Some th') by (rewrite E2; exact (set_same _ _ _ _ E1)).
  pose proof (fun i => og_code w O t th0 i E1) as HC. pose proof (og_end w O) as HE.
  assert (X : (forall e, ss_end w' = Some e -> oev e (ss_trace w')) /\ (forall e, In e (ends o) -> oev e (ss_trace w')) /\ forall i, In i (st_code th') -> omicro (ss_trace w') i).
  { rewrite E3. clear E2 E4. sstep_cases E th code todo Et; injection E1 as <-; same_thread Me Et; apply app_inv_head in E3; subst o;
      (split; [intros e0 He0; apply oev_app|split]); try (apply HE; first [assumption|congruence]);
      try (intros e0 []; fail); try (intros e0 [<-|[]]; apply oev_app; exact (HC _ (or_introl eq_refl)));
      try (intros j Hj; cbn [In] in Hj; repeat (destruct Hj as [<-|Hj]);
           try (apply omicro_app; apply HC; right; exact Hj); try (cbn; auto; fail);
           try (apply omicro_app; exact (HC _ (or_introl eq_refl))); try (cbn; apply oev_app; apply HE; congruence)).
    - apply in_app_or in Hj. destruct Hj as [Hj|[<-|[]]]; [|exact Logic.I].
      destruct s; cbn in Hj; decompose [or] Hj; subst; cbn; auto; try contradiction.
      + left. exists t. apply in_or_app. right. left. reflexivity.
      + right. split; [reflexivity|]. exists t. apply in_or_app. right. left. reflexivity.
    - injection He0 as <-. exists o0. split; [reflexivity|]. exact (HC _ (or_introl eq_refl)). }
  destruct X as (X1 & X2 & X3). constructor.
  - exact X1.
  - intros e He. rewrite E3, ends_app in He. apply in_app_or in He. destruct He as [He|He]; [rewrite E3; apply oev_app; exact (og_pub w O e He)|exact (X2 e He)].
  - intros i thi m Ei Hm. rewrite E2 in Ei. destruct (set_cases _ _ _ _ _ Ei) as [[-> ->]|[Hn Ei']]; [exact (X3 m Hm)|]. rewrite E3. apply omicro_app. exact (og_code w O i thi m Ei' Hm).
Qed.
Lemma orgw_run time progs sc : orgw (srun time sc (sstart progs)).
Proof.
  apply srun_inv; [intros w t w' E; exact (orgw_step _ _ _ _ E)|]. constructor; [discriminate|intros e []|].
  intros t th i E Hi. destruct (sstart_thread _ _ _ E) as (p & _ & ->). destruct Hi.
Qed.

(** One thread ends the action: its outcomes are published in order. *)
Definition po (st : option status) (i : micro) : list (option status) :=
  match i with
  | IEndTrans o | IEndBegun o | IEndTime o | INewEnd o _ => [Some o]
  | IEndDefer | IReadEnd => [st]
  | IPubEnd e => [sv_out e]
  | _ => []
  end.
Lemma po_none st c : sum_code dueE c = 0 -> flat_map (po st) c = [].
Proof. induction c as [|i c IH]; [reflexivity|]. cbn. intros E. rewrite IH by (unfold sum_code; lia). destruct i; cbn in *; try reflexivity; lia. Qed.
Section Alone.
Variables (progs : list (list sop)) (t0 : nat) (p0 : list sop).
Record alonew (w : sstate) : Prop := {
  al_plain : plainw w;
  al_other : forall t th, t <> t0 -> nth_error (ss_threads w) t = Some th -> sum_code dueE (st_code th) = 0 /\ asked (st_todo th) = [];
  al_me : forall th, nth_error (ss_threads w) t0 = Some th -> sum_code dueE (st_code th) <= 1 /\
    outcomes (ends (ss_trace w)) ++ flat_map (po (shown_status w)) (st_code th) ++ asked (st_todo th) = asked p0 }.
Lemma alonew_step time t w w' : sstep time t w = Some w' -> alonew w -> alonew w'.
Proof.
  intros E Al. destruct (sstep_shape _ _ _ _ E) as (th0 & th' & o & E1 & E2 & E3 & E4).
  assert (Me : nth_error (ss_threads w') t = Some th') by (rewrite E2; exact (set_same _ _ _ _ E1)).
  pose proof (al_plain w Al) as P. pose proof (pw_defer w P) as PD. destruct (pw_code w P t th0 E1) as [HC HT].
  destruct (Nat.eq_dec t t0) as [->|Ht].
  - destruct (al_me w Al th0 E1) as [M1 M2].
    assert (X : sum_code dueE (st_code th') <= 1 /\ outcomes (ends (ss_trace w')) ++ flat_map (po (shown_status w')) (st_code th') ++ asked (st_todo th') = asked p0).
    { clear E2 E3 E4. unfold outcomes, shown_status in *.
      sstep_cases E th code todo Et; injection E1 as <-; same_thread Me Et; rewrite ends_app, map_app; cbn [ends flat_map map]; rewrite ?app_nil_r;
      try congruence; try (pose proof (HC _ (or_introl eq_refl)) as HB; discriminate HB);
      try (split; [exact M1|exact M2]); try (unfold sum_code in *; cbn [fold_right dueE] in *; split; [lia|]; cbn [flat_map po app] in *; rewrite ?Q in *; try exact M2).
      - destruct HT as [T1 T2]. destruct s; cbn in *; (split; [lia|exact M2]).
      - cbn [sv_out]. rewrite (po_none _ code) in M2 by (unfold sum_code; lia). rewrite (po_none _ code) by (unfold sum_code; lia). exact M2.
      - rewrite <- app_assoc. exact M2. }
    constructor.
    + exact (plainw_step _ _ _ _ E P).
    + intros i thi Hn Ei. rewrite E2, (set_other _ _ _ _ Hn) in Ei. exact (al_other w Al i thi Hn Ei).
    + intros th Eth. assert (th = th') as -> by congruence. exact X.
  - destruct (al_other w Al t th0 Ht E1) as [O1 O2].
    assert (X : sum_code dueE (st_code th') = 0 /\ asked (st_todo th') = [] /\ ends (ss_trace w') = ends (ss_trace w) /\ ss_end w' = ss_end w).
    { clear E2 E3 E4. unfold sum_code in *. sstep_cases E th code todo Et; injection E1 as <-; same_thread Me Et; rewrite ends_app; cbn [ends flat_map]; rewrite ?app_nil_r;
      try congruence; try (pose proof (HC _ (or_introl eq_refl)) as HB; discriminate HB); cbn [fold_right dueE] in *; try (repeat split; auto; lia).
      destruct s; cbn in *; try discriminate O2; repeat split; auto. }
    destruct X as (X1 & X2 & X3 & X4). constructor.
    + exact (plainw_step _ _ _ _ E P).
    + intros i thi Hn Ei. rewrite E2 in Ei. destruct (set_cases _ _ _ _ _ Ei) as [[-> ->]|[Hn' Ei']]; [auto|exact (al_other w Al i thi Hn Ei')].
    + intros th Eth. rewrite E2, (set_other _ _ _ _ (fun H => Ht (eq_sym H))) in Eth. unfold shown_status. rewrite X3, X4. exact (al_me w Al th Eth).
Qed.
Lemma alonew_run time sc : (forall p, In p progs -> plain p) -> nth_error progs t0 = Some p0 ->
  (forall t p, t <> t0 -> nth_error progs t = Some p -> asked p = []) -> alonew (srun time sc (sstart progs)).
Proof.
  intros HP H0 Hoth. apply srun_inv; [intros w t w' E; exact (alonew_step _ _ _ _ E)|]. constructor.
  - exact (plainw_start progs HP).
  - intros t th Hn E. destruct (sstart_thread _ _ _ E) as (p & Ep & ->). split; [reflexivity|exact (Hoth t p Hn Ep)].
  - intros th E. destruct (sstart_thread _ _ _ E) as (p & Ep & ->). cbn. split; [lia|]. rewrite H0 in Ep. injection Ep as <-. reflexivity.
Qed.
End Alone.

(** The etime of the end events of an action that has begun. *)
Record timew (b : sev) (w : sstate) : Prop := {
  tm_plain : plainw w; tm_settled : settled b w;
  tm_end : forall e, ss_end w = Some e -> sv_time e = sv_time b;
  tm_pub : forall e, In e (ends (ss_trace w)) -> sv_time e = sv_time b;
  tm_code : forall t th i, nth_error (ss_threads w) t = Some th -> In i (st_code th) ->
     match i with INewEnd _ tm => tm = sv_time b | IPubEnd e => sv_time e = sv_time b | _ => True end }.
Lemma timew_step time b t w w' : sstep time t w = Some w' -> timew b w -> timew b w'.
Proof.
  intros E T. destruct (sstep_shape _ _ _ _ E) as (th0 & th' & o & E1 & E2 & E3 & E4).
  assert (Me : nth_error (ss_threads w') t = Some th') by (rewrite E2; exact (set_same _ _ _ _ E1)).
  pose proof (fun i => tm_code b w T t th0 i E1) as HC. pose proof (tm_end b w T) as HE. destruct (tm_settled b w T) as [Sb _]. pose proof (pw_trans w (tm_plain b w T)) as PT.
  assert (X : (forall e, ss_end w' = Some e -> sv_time e = sv_time b) /\ (forall e, In e (ends o) -> sv_time e = sv_time b) /\
    forall i, In i (st_code th') -> match i with INewEnd _ tm => tm = sv_time b | IPubEnd e => sv_time e = sv_time b | _ => True end).
  { clear E2 E4. sstep_cases E th code todo Et; injection E1 as <-; same_thread Me Et; apply app_inv_head in E3; subst o;
      (split; [intros e0 He0|split]); try (apply HE; first [assumption|congruence]); try congruence;
      try (intros e0 []; fail); try (intros e0 [<-|[]]; exact (HC _ (or_introl eq_refl)));
      try (intros j Hj; cbn [In] in Hj; repeat (destruct Hj as [<-|Hj]);
           try (apply HC; right; exact Hj); try (cbn; auto; fail);
           try (exact (HC _ (or_introl eq_refl))); try (apply HE; congruence)).
    - apply in_app_or in Hj. destruct Hj as [Hj|[<-|[]]]; [|exact Logic.I].
      destruct s; cbn in Hj; decompose [or] Hj; subst; cbn; auto; try contradiction.
    - congruence.
    - injection He0 as <-. cbn. exact (HC _ (or_introl eq_refl)). }
  destruct X as (X1 & X2 & X3). constructor.
  - exact (plainw_step _ _ _ _ E (tm_plain b w T)).
  - exact (proj1 (settled_step _ _ _ _ _ E (tm_settled b w T))).
  - exact X1.
  - intros e He. rewrite E3, ends_app in He. apply in_app_or in He. destruct He as [He|He]; [exact (tm_pub b w T e He)|exact (X2 e He)].
  - intros i thi m Ei Hm. rewrite E2 in Ei. destruct (set_cases _ _ _ _ _ Ei) as [[-> ->]|[Hn Ei']]; [exact (X3 m Hm)|exact (tm_code b w T i thi m Ei' Hm)].
Qed.

Lemma srun_app time a b w : srun time (a ++ b) w = srun time b (srun time a w).
Proof. revert w. induction a as [|t a IH]; intros w; [reflexivity|]. cbn. apply IH. Qed.

(** The with block: one thread enters and leaves, the others work in between. *)
Section Block.
Variables (ops : list sop) (workers : list (list sop)).
Hypothesis HOPS : plain ops.
Hypothesis HWORK : forall p, In p workers -> plain p.
Let progs : list (list sop) := (SEnter :: ops ++ [SExit]) :: workers.

(** Main is on its way in. *)
Definition entering (w : sstate) : Prop :=
  (forall t th, t <> 0 -> nth_error (ss_threads w) t = Some th -> st_code th = [] /\ plain (st_todo th)) /\
  ss_end w = None /\ ends (ss_trace w) = [] /\ ~ In (SRet 0 SEnter) (ss_trace w) /\
  exists c td, nth_error (ss_threads w) 0 = Some (mkST c td) /\
  ((c = [] /\ td = SEnter :: ops ++ [SExit] /\ ss_begin w = None /\ begins (ss_trace w) = []) \/
   (td = ops ++ [SExit] /\
     ((c = [ISetTrans; ISetDefer true; ICheckBegin; IRet SEnter] /\ ss_begin w = None /\ begins (ss_trace w) = []) \/
      (c = [ISetDefer true; ICheckBegin; IRet SEnter] /\ ss_trans w = true /\ ss_begin w = None /\ begins (ss_trace w) = []) \/
      (ss_trans w = true /\ ss_defer w = true /\
        ((c = [ICheckBegin; IRet SEnter] /\ ss_begin w = None /\ begins (ss_trace w) = []) \/
         (c = [INewBegin; IReadBegin; IRet SEnter] /\ begins (ss_trace w) = []) \/
         (exists b, ss_begin w = Some b /\
            ((c = [IReadBegin; IRet SEnter] /\ begins (ss_trace w) = []) \/ (c = [IPubBegin b; IRet SEnter] /\ begins (ss_trace w) = []) \/
             (c = [IRet SEnter] /\ begins (ss_trace w) = [b])))))))).
(** The action is open. *)
Definition endpub (i : micro) : bool := match i with IReadEnd | IPubEnd _ => true | _ => false end.
Definition inner (c : list micro) : Prop := forall i, In i c -> flagish i = false /\ endpub i = false.
Definition inside (w : sstate) : Prop :=
  ss_trans w = true /\ ss_defer w = true /\ ends (ss_trace w) = [] /\
  (exists b, settled b w /\ begins (ss_trace w) = [b]) /\
  (forall t th, nth_error (ss_threads w) t = Some th -> inner (st_code th)) /\
  (forall t th, t <> 0 -> nth_error (ss_threads w) t = Some th -> plain (st_todo th)) /\
  exists c ops', nth_error (ss_threads w) 0 = Some (mkST c (ops' ++ [SExit])) /\ plain ops'.

Lemma inner_cons i c : flagish i = false -> endpub i = false -> inner c -> inner (i :: c).
Proof. intros H1 H2 H3 j [<-|Hj]; auto. Qed.
Lemma plain_tail op p : plain (op :: p) -> plain p.
Proof. intros [A B]. split; intros Hi; [apply A|apply B]; right; exact Hi. Qed.
Lemma inner_code op : op <> SEnter -> op <> SExit -> inner (code_of op ++ [IRet op]).
Proof. intros H1 H2 i Hi. destruct op; try congruence; cbn in Hi; decompose [or] Hi; subst; try contradiction; split; reflexivity. Qed.

Lemma inside_step time t w w' : sstep time t w = Some w' -> ~ In (SCall 0 SExit) (ss_trace w') -> inside w -> inside w'.
Proof.
  intros E HX (I1 & I2 & I3 & (b & I4 & I4') & I5 & I6 & (c0 & ops' & I7 & I8)).
  destruct (settled_step _ _ _ _ _ E I4) as [S1 S2].
  destruct (sstep_shape _ _ _ _ E) as (th0 & th' & o & E1 & E2 & E3 & E4).
  assert (Me : nth_error (ss_threads w') t = Some th') by (rewrite E2; exact (set_same _ _ _ _ E1)).
  pose proof (I5 t th0 E1) as HC.
  assert (PT : t <> 0 -> plain (st_todo th0)) by (intros Hn; exact (I6 t th0 Hn E1)).
  assert (P0 : t = 0 -> st_todo th0 = ops' ++ [SExit]) by (intros ->; rewrite I7 in E1; injection E1 as <-; reflexivity).
  assert (X : ss_trans w' = true /\ ss_defer w' = true /\ ends (ss_trace w') = [] /\ inner (st_code th') /\
     (st_todo th' = st_todo th0 \/ exists op, st_todo th0 = op :: st_todo th' /\ (op = SExit -> In (SCall t SExit) (ss_trace w')))).
  { clear E2 E3 E4 S1 S2 I4 I4'. sstep_cases E th code todo Et; injection E1 as <-; same_thread Me Et; rewrite ends_app; cbn [ends flat_map app]; rewrite ?app_nil_r;
      try (assert (HC' : inner code) by (intros j Hj; apply HC; right; exact Hj));
      try (destruct (HC _ (or_introl eq_refl)) as [HB1 HB2]; try discriminate HB1; try discriminate HB2);
      try congruence; try (repeat split; auto 6 using inner_cons; fail);
      try (split; [assumption|split; [assumption|split; [assumption|split; [auto 6 using inner_cons|left; reflexivity]]]]).
    split; [assumption|split; [assumption|split; [assumption|]]]. split.
    - apply inner_code; intros ->.
      + destruct (Nat.eq_dec t 0) as [->|Hn]; [|apply (proj1 (PT Hn)); left; reflexivity].
        specialize (P0 eq_refl). destruct ops' as [|x ops']; [discriminate P0|]. injection P0 as <- _. apply (proj1 I8). left. reflexivity.
      + destruct (Nat.eq_dec t 0) as [->|Hn]; [|apply (proj2 (PT Hn)); left; reflexivity]. apply HX, in_or_app. right. left. reflexivity.
    - right. exists s. split; [reflexivity|]. intros ->. apply in_or_app. right. left. reflexivity. }
  destruct X as (X1 & X2 & X3 & X4 & X5). split; [exact X1|]. split; [exact X2|]. split; [exact X3|]. split; [exists b; split; [exact S1|congruence]|]. split; [|split].
  - intros i thi Ei. rewrite E2 in Ei. destruct (set_cases _ _ _ _ _ Ei) as [[-> ->]|[Hn Ei']]; [exact X4|exact (I5 i thi Ei')].
  - intros i thi Hi0 Ei. rewrite E2 in Ei. destruct (set_cases _ _ _ _ _ Ei) as [[-> ->]|[Hn Ei']]; [|exact (I6 i thi Hi0 Ei')].
    destruct X5 as [->|[op [Eop _]]]; [exact (PT Hi0)|]. pose proof (PT Hi0) as Q0. rewrite Eop in Q0. exact (plain_tail _ _ Q0).
  - destruct (Nat.eq_dec t 0) as [->|Hn]; [|exists c0, ops'; rewrite E2, (set_other _ _ _ _ (fun H => Hn (eq_sym H))); auto].
    destruct th' as [c' td']. cbn in X5. rewrite (P0 eq_refl) in X5. destruct X5 as [->|(op & Eop & Hop)]; [exists c', ops'; auto|].
    destruct ops' as [|x ops']; [injection Eop as <- <-; exfalso; apply HX, Hop; reflexivity|]. injection Eop as <- <-. exists c', ops'. split; [exact Me|exact (plain_tail _ _ I8)].
Qed.

Lemma entering_step time t w w' : sstep time t w = Some w' -> forked_inside (ss_trace w') -> entering w -> entering w' \/ inside w'.
Proof.
  intros E HF (N1 & N2 & N3 & N4 & (c & td & N5 & N6)).
  destruct (Nat.eq_dec t 0) as [->|Ht].
  2:{ exfalso. unfold sstep in E. destruct (nth_error (ss_threads w) t) as [th|] eqn:Et; [|discriminate E]. destruct (N1 t th Ht Et) as [Ec _].
      rewrite Ec in E. destruct (st_todo th) as [|op td']; [discriminate E|]. injection E as <-. cbn in HF.
      exact (N4 (HF (ss_trace w) t op [] eq_refl Ht)). }
  assert (Oth : forall c' td' i th, i <> 0 -> nth_error (list_set (ss_threads w) 0 (mkST c' td')) i = Some th -> st_code th = [] /\ plain (st_todo th)).
  { intros c' td' i th Hi Ei. rewrite (set_other _ _ _ _ Hi) in Ei. exact (N1 i th Hi Ei). }
  assert (Me : forall c' td', nth_error (list_set (ss_threads w) 0 (mkST c' td')) 0 = Some (mkST c' td')) by (intros c' td'; exact (set_same _ _ _ _ N5)).
  unfold sstep in E. rewrite N5 in E. cbn [st_code st_todo] in E.
  destruct N6 as [(-> & -> & Nb & Nc)|(-> & [(-> & Nb & Nc)|[(-> & Nt & Nb & Nc)|(Nt & Nd & [(-> & Nb & Nc)|[(-> & Nc)|(b & Nb & [(-> & Nc)|[(-> & Nc)|(-> & Nc)]])]])]])];
    rewrite ?Nb in E; injection E as <-.
  all: try (left; unfold entering; cbn [smove set_begin set_trans set_defer ss_threads ss_begin ss_end ss_trans ss_defer ss_trace]; rewrite ?ends_app, ?begins_app, ?N3, ?Nc; cbn [ends begins flat_map app];
     split; [intros i th Hi Ei; exact (Oth _ _ i th Hi Ei)|]; split; [exact N2|]; split; [reflexivity|];
     split; [rewrite in_app_iff; cbn [In]; intuition discriminate|]; eexists; eexists; split; [apply Me|]).
  - right. split; [reflexivity|]. left. repeat split; auto.
  - right. split; [reflexivity|]. right. left. repeat split; auto.
  - right. split; [reflexivity|]. right. right. repeat split; auto.
  - right. split; [reflexivity|]. right. right. split; [exact Nt|]. split; [exact Nd|]. right. left. repeat split; auto.
  - right. split; [reflexivity|]. right. right. split; [exact Nt|]. split; [exact Nd|]. right. right. eexists. split; [reflexivity|]. left. repeat split; auto.
  - right. split; [reflexivity|]. right. right. split; [exact Nt|]. split; [exact Nd|]. right. right. exists b. split; [exact Nb|]. right. left. repeat split; auto.
  - right. split; [reflexivity|]. right. right. split; [exact Nt|]. split; [exact Nd|]. right. right. exists b. split; [exact Nb|]. right. right. repeat split; auto.
  - right. unfold inside. cbn [smove ss_threads ss_begin ss_end ss_trans ss_defer ss_trace]. rewrite ends_app, begins_app, N3, Nc. cbn [ends begins flat_map app].
    assert (Cl : forall i th, nth_error (list_set (ss_threads w) 0 (mkST [] (ops ++ [SExit]))) i = Some th -> st_code th = []).
    { intros i th Ei. destruct (set_cases _ _ _ _ _ Ei) as [[-> ->]|[Hn Ei']]; [reflexivity|exact (proj1 (N1 i th Hn Ei'))]. }
    split; [exact Nt|]. split; [exact Nd|]. split; [reflexivity|]. split; [|split; [|split]].
    + exists b. split; [|reflexivity]. split; [exact Nb|]. intros i th Ei. cbn in Ei. rewrite (Cl i th Ei). intros j [].
    + intros i th Ei. rewrite (Cl i th Ei). intros j [].
    + intros i th Hi Ei. exact (proj2 (Oth _ _ i th Hi Ei)).
    + exists [], ops. split; [apply Me|exact HOPS].
Qed.

Lemma prefix_forked a b : forked_inside (a ++ b) -> forked_inside a.
Proof. intros HF x t op y E Ht. apply (HF x t op (y ++ b)); [rewrite E, <- app_assoc; reflexivity|exact Ht]. Qed.
Lemma block_inside time sc : forked_inside (ss_trace (srun time sc (sstart progs))) -> ~ In (SCall 0 SExit) (ss_trace (srun time sc (sstart progs))) ->
  entering (srun time sc (sstart progs)) \/ inside (srun time sc (sstart progs)).
Proof.
  induction sc as [|t sc IH] using rev_ind; intros HF HX.
  - left. split; [|repeat (split; [reflexivity||intros []|])].
    + intros i th Hi Ei. destruct (sstart_thread _ _ _ Ei) as (p & Ep & ->). split; [reflexivity|]. destruct i as [|i]; [congruence|]. apply HWORK. exact (nth_error_In workers i Ep).
    + exists [], (SEnter :: ops ++ [SExit]). split; [reflexivity|]. left. auto.
  - rewrite srun_app in *. cbn in *. destruct (sstep time t (srun time sc (sstart progs))) as [w'|] eqn:E; [|exact (IH HF HX)].
    destruct (sstep_shape _ _ _ _ E) as (th0 & th' & o & E1 & E2 & E3 & E4).
    destruct IH as [IH|IH].
    + rewrite E3 in HF. exact (prefix_forked _ _ HF).
    + intros Hi. apply HX. rewrite E3. apply in_or_app. auto.
    + exact (entering_step _ _ _ _ E HF IH).
    + right. exact (inside_step _ _ _ _ E HX IH).
Qed.

(** On the way out. *)
Definition leaving (e0 : option sev) (w : sstate) : Prop :=
  let good e := match e0 with Some e' => e = e' | None => sv_out e = Some Success end in
  ss_trans w = true /\ (forall t th, t <> 0 -> nth_error (ss_threads w) t = Some th -> th = mkST [] []) /\
  exists c td, nth_error (ss_threads w) 0 = Some (mkST c td) /\
  ((td = [SExit] /\ c = [] /\ ss_end w = e0 /\ ends (ss_trace w) = []) \/
   (td = [] /\
    ((c = [ISetDefer false; IExitCheck; IRet SExit] /\ ss_end w = e0 /\ ends (ss_trace w) = []) \/
     (ss_defer w = false /\
       ((c = [IExitCheck; IRet SExit] /\ ss_end w = e0 /\ ends (ss_trace w) = []) \/
        (c = [IEndTrans Success; IRet SExit] /\ e0 = None /\ ends (ss_trace w) = []) \/
        (exists tm, c = [INewEnd Success tm; IRet SExit] /\ e0 = None /\ ends (ss_trace w) = []) \/
        (exists e, good e /\ ((c = [IEndDefer; IRet SExit] /\ ss_end w = Some e /\ ends (ss_trace w) = []) \/ (c = [IReadEnd; IRet SExit] /\ ss_end w = Some e /\ ends (ss_trace w) = []) \/
            (c = [IPubEnd e; IRet SExit] /\ ends (ss_trace w) = []) \/ (c = [IRet SExit] /\ ends (ss_trace w) = [e]) \/ (c = [] /\ ends (ss_trace w) = [e])))))))).
Lemma leaving_step time e0 t w w' : sstep time t w = Some w' -> leaving e0 w -> leaving e0 w'.
Proof.
  intros E (L1 & L2 & (c & td & L3 & L4)).
  destruct (Nat.eq_dec t 0) as [->|Ht].
  2:{ exfalso. unfold sstep in E. destruct (nth_error (ss_threads w) t) as [th|] eqn:Et; [|discriminate E]. rewrite (L2 t th Ht Et) in E. discriminate E. }
  assert (Oth : forall c' td' i th, i <> 0 -> nth_error (list_set (ss_threads w) 0 (mkST c' td')) i = Some th -> th = mkST [] []).
  { intros c' td' i th Hi Ei. rewrite (set_other _ _ _ _ Hi) in Ei. exact (L2 i th Hi Ei). }
  assert (Me : forall c' td', nth_error (list_set (ss_threads w) 0 (mkST c' td')) 0 = Some (mkST c' td')) by (intros c' td'; exact (set_same _ _ _ _ L3)).
  unfold sstep in E. rewrite L3 in E. cbn [st_code st_todo] in E.
  destruct L4 as [(-> & -> & Le & Lp)|(-> & [(-> & Le & Lp)|(Ld & [(-> & Le & Lp)|[(-> & L0 & Lp)|[(tm & -> & L0 & Lp)|(e & G & [(-> & Le & Lp)|[(-> & Le & Lp)|[(-> & Lp)|[(-> & Lp)|(-> & Lp)]]]])]]])])];
    rewrite ?L1, ?Ld in E; try discriminate E.
  3: destruct (ss_end w) as [e|] eqn:Ee.
  8: rewrite Le in E.
  all: injection E as <-; unfold leaving; cbn [smove set_end set_defer ss_threads ss_begin ss_end ss_trans ss_defer ss_trace]; rewrite ?ends_app, ?Lp; cbn [ends flat_map app];
    (split; [assumption|]); (split; [intros i th Hi Ei; exact (Oth _ _ i th Hi Ei)|]); eexists; eexists; (split; [apply Me|]); right; (split; [reflexivity|]).
  - left. auto.
  - right. split; [reflexivity|]. left. repeat split; auto.
  - right. split; [exact Ld|]. do 3 right. exists e. subst e0. split; [reflexivity|]. right. left. repeat split; auto.
  - right. split; [exact Ld|]. right. left. repeat split; auto.
  - right. split; [exact Ld|]. do 2 right. left. eexists. split; [reflexivity|]. repeat split; auto.
  - right. split; [exact Ld|]. do 3 right. exists (mkSev (ss_next w) (Some Success) tm). split; [subst e0; reflexivity|]. left. repeat split; auto.
  - right. split; [exact Ld|]. do 3 right. exists e. split; [exact G|]. right. left. repeat split; auto.
  - right. split; [exact Ld|]. do 3 right. exists e. split; [exact G|]. do 2 right. left. repeat split; auto.
  - right. split; [exact Ld|]. do 3 right. exists e. split; [exact G|]. do 3 right. left. repeat split; auto.
  - right. split; [exact Ld|]. do 3 right. exists e. split; [exact G|]. do 4 right. repeat split; auto.
Qed.
End Block.
