(** Proofs for C79. *)
From Verif Require Import model.PyBase model.Core model.ParentThreads spec.ParentSpec proof.CoreLib.
Open Scope nat_scope.

Lemma prun_app key a b w : prun key (a ++ b) w = prun key b (prun key a w).
Proof. revert w. induction a as [|t a IH]; intros w; [reflexivity|]. apply IH. Qed.
Lemma prun_inv key (I : pstate -> Prop) : (forall t w w', pstep key t w = Some w' -> I w -> I w') -> forall sc w, I w -> I (prun key sc w).
Proof.
  intros HS. induction sc as [|t sc IH]; intros w H; [exact H|]. cbn [prun]. apply IH. destruct (pstep key t w) eqn:E; [eapply HS; eauto|exact H].
Qed.

(** *** Attribution *)
Definition idof (x : nat * nat * option nat) : nat := snd (fst x).
Definition onl (l : nat) (x : nat * nat * option nat) : bool := fst (fst x) =? l.
Definition ids (l : nat) (open : list (nat * nat * option nat)) : list nat := map idof (filter (onl l) open).
Definition first (l : nat) (open : list (nat * nat * option nat)) : option nat := hd_error (ids l open).
Fixpoint stack_ok (open : list (nat * nat * option nat)) : Prop :=
  match open with
  | [] => True
  | (l, id, par) :: rest => par = first l rest /\ stack_ok rest
  end.
Lemma blocks_snoc t l tr o : blocks t l (tr ++ [o]) =
  match o with
  | Entered t' l' id => if (t' =? t) && (l' =? l) then id :: blocks t l tr else blocks t l tr
  | Left t' l' _ => if (t' =? t) && (l' =? l) then tl (blocks t l tr) else blocks t l tr
  | _ => blocks t l tr
  end.
Proof. unfold blocks. rewrite fold_left_app. reflexivity. Qed.

Section A.
Variable key : nat -> nat -> pkey.
Variable progs : list (list pop).
Hypothesis HP : private key progs.
Definition pc_uses (p : list pop) (c : ppc) : Prop := match c with PIdle => True | PNew l _ _ | PEntering l _ _ => uses p l end.
Record tok (w : pstate) (t : nat) (p : list pop) (th : pthread) : Prop := {
  tk_blocks : forall l, blocks t l (ps_trace w) = ids l (pt_open th);
  tk_stack : stack_ok (pt_open th);
  tk_enter : match pt_pc th with PEntering l _ par => par = first l (pt_open th) | _ => True end;
  tk_pc : pc_uses p (pt_pc th);
  tk_open : Forall (fun x => uses p (fst (fst x))) (pt_open th);
  tk_todo : forall l, uses (pt_todo th) l -> uses p l;
  tk_map : forall l, uses p l -> ps_map w (key t l) = first l (pt_open th) }.
Record ainv (w : pstate) : Prop := {
  ai_len : length (ps_threads w) = length progs;
  ai_th : forall t p th, nth_error progs t = Some p -> nth_error (ps_threads w) t = Some th -> tok w t p th;
  ai_tr : forall before t l id par after, ps_trace w = before ++ Created t l id par :: after -> par = innermost t l before }.

Lemma pset_same k v m : pset k v m k = v.
Proof. unfold pset. rewrite !Nat.eqb_refl. reflexivity. Qed.
Lemma pset_other k k' v m : k' <> k -> pset k v m k' = m k'.
Proof.
  intros H. unfold pset. destruct (Nat.eqb_spec (fst k') (fst k)), (Nat.eqb_spec (snd k') (snd k)); cbn; try reflexivity.
  destruct H. destruct k, k'; cbn in *; congruence.
Qed.
Lemma snoc_split {A} (l : list A) x before y after : l ++ [x] = before ++ y :: after ->
  (after = [] /\ before = l /\ y = x) \/ exists after', after = after' ++ [x] /\ l = before ++ y :: after'.
Proof.
  intros E. destruct after as [|a after _] using rev_ind.
  - left. apply app_inj_tail in E as [-> ->]. auto.
  - right. exists after. rewrite app_comm_cons, app_assoc in E. apply app_inj_tail in E as [E ->]. auto.
Qed.

(** The step of thread [t] as a change of its own record, the map and the trace. *)
Lemma ainv_step t w w' : pstep key t w = Some w' -> ainv w -> ainv w'.
Proof.
  intros H I. unfold pstep in H. destruct (nth_error (ps_threads w) t) as [th|] eqn:ET; [|discriminate].
  assert (Lt : t < length (ps_threads w)) by (apply nth_error_Some; congruence).
  assert (exists p, nth_error progs t = Some p) as [p EP].
  { destruct (nth_error progs t) eqn:E; [eauto|]. apply nth_error_None in E. rewrite <- (ai_len _ I) in E. lia. }
  pose proof (ai_th _ I _ _ _ EP ET) as [TB TS TE TP TO TT TM].
  (* other threads *)
  assert (Hoth : forall t' p' th' m' n' tr' ths, t' <> t -> nth_error progs t' = Some p' -> nth_error (ps_threads w) t' = Some th' ->
            (forall l, blocks t' l tr' = blocks t' l (ps_trace w)) ->
            (forall l, uses p' l -> m' (key t' l) = ps_map w (key t' l)) -> tok (mkPS m' n' ths tr') t' p' th').
  { intros t' p' th' m' n' tr' ths HN E1 E2 HB HM. destruct (ai_th _ I _ _ _ E1 E2) as [B S E P O T M].
    constructor; cbn [ps_trace ps_map]; auto.
    - intros l. rewrite HB. apply B.
    - intros l Hl. rewrite HM by exact Hl. auto. }
  assert (K : forall th' m' n' new,
            tok (pat t th' m' n' new w) t p th' ->
            (forall t' l, t' <> t -> blocks t' l (ps_trace w ++ new) = blocks t' l (ps_trace w)) ->
            (forall t' p' l, t' <> t -> nth_error progs t' = Some p' -> uses p' l -> m' (key t' l) = ps_map w (key t' l)) ->
            (new = [] \/ exists o, new = [o] /\ match o with Created t0 l0 id par => par = innermost t0 l0 (ps_trace w) | _ => True end) ->
            ainv (pat t th' m' n' new w)).
  { intros th' m' n' new HT HB HM HN. constructor; cbn [pat ps_threads ps_trace].
    - rewrite list_set_length. apply (ai_len _ I).
    - intros t' p' th'' E1 E2. destruct (Nat.eq_dec t' t) as [->|N].
      + rewrite nth_error_list_set_eq in E2 by exact Lt. injection E2 as <-. rewrite EP in E1. injection E1 as <-. exact HT.
      + rewrite nth_error_list_set_neq in E2 by auto. apply Hoth; auto. intros l Hl. eapply HM; eauto.
    - intros before t0 l0 id par after E. destruct HN as [->|(o & -> & HO)].
      + rewrite app_nil_r in E. eapply (ai_tr _ I); eauto.
      + apply snoc_split in E as [(-> & -> & <-)|(after' & -> & E)]; [exact HO|]. eapply (ai_tr _ I); eauto. }
  destruct (pt_pc th) as [|l id blk|l id par] eqn:EC.
  - destruct (pt_todo th) as [|[l| |l] todo] eqn:ED; [discriminate| | |].
    + injection H as <-. apply K; auto; [|intros; rewrite app_nil_r; reflexivity]. constructor; cbn [pat ps_trace ps_map pt_open pt_pc pt_todo pc_uses stack_ok]; rewrite ?app_nil_r; auto.
      * apply TT. left. left. reflexivity.
      * intros l' Hl. apply TT. destruct Hl as [Hl|Hl]; [left|right]; right; exact Hl.
    + destruct (pt_open th) as [|[[l id] par] open'] eqn:EO.
      * injection H as <-. apply K; auto; [|intros; rewrite app_nil_r; reflexivity]. constructor; cbn [pat ps_trace ps_map pt_open pt_pc pt_todo pc_uses stack_ok]; rewrite ?app_nil_r; auto.
        intros l' Hl. apply TT. destruct Hl as [Hl|Hl]; [left|right]; right; exact Hl.
      * injection H as <-. apply Forall_cons_iff in TO as [TO1 TO2]. cbn in TO1. cbn [stack_ok] in TS. destruct TS as [TS1 TS2]. apply K.
        -- constructor; cbn [pat ps_trace ps_map pt_open pt_pc pt_todo pc_uses stack_ok]; auto.
           ++ intros l'. rewrite blocks_snoc. rewrite Nat.eqb_refl. cbn [andb]. rewrite TB. unfold ids. cbn [filter]. change (onl l' (l, id, par)) with (l =? l').
              destruct (l =? l'); reflexivity.
           ++ intros l' Hl. apply TT. destruct Hl as [Hl|Hl]; [left|right]; right; exact Hl.
           ++ intros l' Hl. destruct (Nat.eq_dec l' l) as [->|N]; [rewrite pset_same; exact TS1|].
              rewrite pset_other by (intros X; destruct (HP _ _ _ _ _ _ EP EP Hl TO1 X); congruence). rewrite (TM _ Hl). unfold first, ids. cbn [filter].
              change (onl l' (l, id, par)) with (l =? l'). destruct (Nat.eqb_spec l l'); [congruence|reflexivity].
        -- intros t' l' N. rewrite blocks_snoc. destruct (Nat.eqb_spec t t'); [congruence|reflexivity].
        -- intros t' p' l' N E1 Hl. apply pset_other. intros X. destruct (HP _ _ _ _ _ _ E1 EP Hl TO1 X). congruence.
        -- right. eexists. split; [reflexivity|exact Logic.I].
    + injection H as <-. apply K; auto; [|intros; rewrite app_nil_r; reflexivity]. constructor; cbn [pat ps_trace ps_map pt_open pt_pc pt_todo pc_uses stack_ok]; rewrite ?app_nil_r; auto.
      * apply TT. right. left. reflexivity.
      * intros l' Hl. apply TT. destruct Hl as [Hl|Hl]; [left|right]; right; exact Hl.
  - injection H as <-. cbn in TP. apply K; auto.
    + constructor; cbn [pat ps_trace ps_map pt_open pt_pc pt_todo pc_uses stack_ok]; auto.
      * intros l'. rewrite blocks_snoc. apply TB.
      * destruct blk; auto.
      * destruct blk; cbn; auto.
    + intros t' l' N. rewrite blocks_snoc. reflexivity.
    + right. eexists. split; [reflexivity|]. unfold innermost. rewrite TB. apply TM. exact TP.
  - injection H as <-. cbn in TP. apply K.
    + constructor; cbn [pat ps_trace ps_map pt_open pt_pc pt_todo pc_uses stack_ok]; auto.
      * intros l'. rewrite blocks_snoc, Nat.eqb_refl. cbn [andb]. rewrite TB. unfold ids. cbn [filter]. change (onl l' (l, id, par)) with (l =? l'). destruct (l =? l'); reflexivity.
      * intros l' Hl. unfold first, ids. cbn [filter]. change (onl l' (l, id, par)) with (l =? l'). destruct (Nat.eqb_spec l l') as [->|N].
        -- rewrite pset_same. reflexivity.
        -- rewrite pset_other by (intros X; destruct (HP _ _ _ _ _ _ EP EP Hl TP X); congruence). apply TM. exact Hl.
    + intros t' l' N. rewrite blocks_snoc. destruct (Nat.eqb_spec t t'); [congruence|reflexivity].
    + intros t' p' l' N E1 Hl. apply pset_other. intros X. destruct (HP _ _ _ _ _ _ E1 EP Hl TP X). congruence.
    + right. eexists. split; [reflexivity|exact Logic.I].
Qed.
Lemma ainv_start : ainv (pstart progs).
Proof.
  constructor; cbn.
  - apply map_length.
  - intros t p th E1 E2. rewrite (map_nth_error _ _ _ E1) in E2. injection E2 as <-. constructor; cbn; auto.
  - intros before t l id par after E. destruct before; discriminate.
Qed.
Lemma ainv_run sc : ainv (prun key sc (pstart progs)).
Proof. apply prun_inv; [exact ainv_step|exact ainv_start]. Qed.
End A.

(** *** Ids, and no cycles, whatever the keys *)
Definition drawn (th : pthread) : list nat := match pt_pc th with PNew _ id _ => [id] | _ => [] end.
Lemma made_app a b : made (a ++ b) = made a ++ made b. Proof. apply flat_map_app. Qed.
Record cinv (w : pstate) : Prop := {
  ci_lt : forall id, In id (made (ps_trace w)) -> id < ps_next w;
  ci_new : forall t th id, nth_error (ps_threads w) t = Some th -> In id (drawn th) -> id < ps_next w /\ ~ In id (made (ps_trace w));
  ci_diff : forall t th t' th' id, nth_error (ps_threads w) t = Some th -> nth_error (ps_threads w) t' = Some th' -> In id (drawn th) -> In id (drawn th') -> t = t';
  ci_nodup : NoDup (made (ps_trace w));
  ci_map : forall k p, ps_map w k = Some p -> In p (made (ps_trace w));
  ci_th : forall t th, nth_error (ps_threads w) t = Some th ->
    (forall l id par, In (l, id, par) (pt_open th) -> forall p, par = Some p -> In p (made (ps_trace w))) /\
    match pt_pc th with PEntering _ id par => In id (made (ps_trace w)) /\ forall p, par = Some p -> In p (made (ps_trace w)) | _ => True end;
  ci_tr : forall before t l c p after, ps_trace w = before ++ Created t l c (Some p) :: after -> In p (made before) }.
Lemma cinv_step key t w w' : pstep key t w = Some w' -> cinv w -> cinv w'.
Proof.
  intros H I. unfold pstep in H. destruct (nth_error (ps_threads w) t) as [th|] eqn:ET; [|discriminate].
  assert (Lt : t < length (ps_threads w)) by (apply nth_error_Some; congruence).
  pose proof (ci_th _ I _ _ ET) as [CO CE].
  assert (Hnth : forall t' th' x, nth_error (list_set (ps_threads w) t th') t' = Some x -> (t' = t /\ x = th') \/ (t' <> t /\ nth_error (ps_threads w) t' = Some x)).
  { intros t' th' x E. destruct (Nat.eq_dec t' t) as [->|N].
    - rewrite nth_error_list_set_eq in E by exact Lt. injection E as <-. auto.
    - rewrite nth_error_list_set_neq in E by auto. auto. }
  assert (Hmono : forall new p, In p (made (ps_trace w)) -> In p (made (ps_trace w ++ new))).
  { intros new p Hp. rewrite made_app. apply in_or_app. auto. }
  (* a step that creates nothing and draws nothing *)
  assert (Kq : forall th' m' new, made new = [] -> (forall t0 l c p, ~ In (Created t0 l c (Some p)) new) -> drawn th' = [] ->
            (forall k p, m' k = Some p -> In p (made (ps_trace w))) ->
            ((forall l id par, In (l, id, par) (pt_open th') -> forall p, par = Some p -> In p (made (ps_trace w))) /\
             match pt_pc th' with PEntering _ id par => In id (made (ps_trace w)) /\ forall p, par = Some p -> In p (made (ps_trace w)) | _ => True end) ->
            cinv (pat t th' m' (ps_next w) new w)).
  { intros th' m' new E1 E1' E2 HM HT. constructor; cbn [pat ps_map ps_next ps_threads ps_trace]; rewrite ?made_app, ?E1, ?app_nil_r.
    - apply (ci_lt _ I).
    - intros t0 th0 id E Hin. apply Hnth in E as [[-> ->]|[_ E]]; [rewrite E2 in Hin; destruct Hin|]. eapply (ci_new _ I); eauto.
    - intros t1 th1 t2 th2 id E3 E4 H1 H2. apply Hnth in E3 as [[-> ->]|[_ E3]]; [rewrite E2 in H1; destruct H1|]. apply Hnth in E4 as [[-> ->]|[_ E4]]; [rewrite E2 in H2; destruct H2|].
      eapply (ci_diff _ I); eauto.
    - apply (ci_nodup _ I).
    - exact HM.
    - intros t0 th0 E. apply Hnth in E as [[-> ->]|[_ E]]; [exact HT|]. apply (ci_th _ I _ _ E).
    - intros before t0 l c p after E. revert after E E1'. clear -I. induction new as [|o new IH] using rev_ind; intros after E E1'.
      + rewrite app_nil_r in E. eapply (ci_tr _ I); eauto.
      + rewrite app_assoc in E. apply snoc_split in E as [(-> & -> & <-)|(after' & -> & E)].
        * exfalso. eapply E1'. apply in_or_app. right. left. reflexivity.
        * eapply IH; eauto. intros t1 l1 c1 p1 Hin. eapply E1'. apply in_or_app. left. exact Hin. }
  (* a step that draws the next id *)
  assert (Kn : forall l blk todo, drawn th = [] -> cinv (pat t (mkPT (PNew l (ps_next w) blk) (pt_open th) todo) (ps_map w) (S (ps_next w)) [] w)).
  { intros l blk todo ED. constructor; cbn [pat ps_map ps_next ps_threads ps_trace]; rewrite ?app_nil_r.
    - intros id Hin. pose proof (ci_lt _ I _ Hin). lia.
    - intros t0 th0 id E Hin. apply Hnth in E as [[-> ->]|[_ E]].
      + cbn in Hin. destruct Hin as [<-|[]]. split; [lia|]. intros X. pose proof (ci_lt _ I _ X). lia.
      + destruct (ci_new _ I _ _ _ E Hin). split; [lia|assumption].
    - intros t1 th1 t2 th2 id E3 E4 H1 H2. apply Hnth in E3 as [[-> ->]|[N3 E3]]; apply Hnth in E4 as [[-> ->]|[N4 E4]]; auto.
      + cbn in H1. destruct H1 as [<-|[]]. destruct (ci_new _ I _ _ _ E4 H2). lia.
      + cbn in H2. destruct H2 as [<-|[]]. destruct (ci_new _ I _ _ _ E3 H1). lia.
      + eapply (ci_diff _ I); eauto.
    - apply (ci_nodup _ I).
    - apply (ci_map _ I).
    - intros t0 th0 E. apply Hnth in E as [[-> ->]|[_ E]]; [split; [exact CO|exact Logic.I]|]. apply (ci_th _ I _ _ E).
    - apply (ci_tr _ I). }
  assert (Hpset : forall k v, (forall p, v = Some p -> In p (made (ps_trace w))) -> forall k' p, pset k v (ps_map w) k' = Some p -> In p (made (ps_trace w))).
  { intros k v Hv k' p E. unfold pset in E. destruct (_ && _); [apply Hv; exact E|apply (ci_map _ I _ _ E)]. }
  destruct (pt_pc th) as [|l id blk|l id par] eqn:EC.
  - assert (ED0 : drawn th = []) by (unfold drawn; rewrite EC; reflexivity).
    destruct (pt_todo th) as [|[l| |l] todo] eqn:ED; [discriminate| | |].
    + injection H as <-. apply Kn. exact ED0.
    + destruct (pt_open th) as [|[[l id] par] open'] eqn:EO; injection H as <-.
      * apply Kq; auto. apply (ci_map _ I).
      * apply Kq; auto.
        -- intros t0 l0 c p [X|[]]. discriminate.
        -- apply Hpset. intros p Hp. eapply CO; [left; reflexivity|exact Hp].
        -- split; [|exact Logic.I]. intros l0 id0 par0 Hin. eapply CO. right. exact Hin.
    + injection H as <-. apply Kn. exact ED0.
  - assert (ED0 : drawn th = [id]) by (unfold drawn; rewrite EC; reflexivity).
    injection H as <-. destruct (ci_new _ I _ _ id ET) as [N1 N2]; [rewrite ED0; left; reflexivity|].
    assert (Hm : made [Created t l id (ps_map w (key t l))] = [id]) by reflexivity.
    assert (HD : drawn (mkPT (if blk then PEntering l id (ps_map w (key t l)) else PIdle) (pt_open th) (pt_todo th)) = []) by (destruct blk; reflexivity).
    constructor; cbn [pat ps_map ps_next ps_threads ps_trace].
    + intros id0. rewrite made_app, Hm. intros Hin. apply in_app_or in Hin as [Hin|[<-|[]]]; [apply (ci_lt _ I _ Hin)|exact N1].
    + intros t0 th0 id0 E Hin. apply Hnth in E as [[-> ->]|[N E]]; [rewrite HD in Hin; destruct Hin|]. destruct (ci_new _ I _ _ _ E Hin) as [A B].
      split; [exact A|]. rewrite made_app, Hm. intros X. apply in_app_or in X as [X|[<-|[]]]; [contradiction|].
      apply N. eapply (ci_diff _ I); [exact E|exact ET|exact Hin|rewrite ED0; left; reflexivity].
    + intros t1 th1 t2 th2 id0 E3 E4 H1 H2. apply Hnth in E3 as [[-> ->]|[_ E3]]; [rewrite HD in H1; destruct H1|]. apply Hnth in E4 as [[-> ->]|[_ E4]]; [rewrite HD in H2; destruct H2|].
      eapply (ci_diff _ I); eauto.
    + rewrite made_app, Hm. apply (NoDup_Add (a := id) (l := made (ps_trace w))); [rewrite <- (app_nil_r (made (ps_trace w))) at 1; apply Add_app|]. split; [apply (ci_nodup _ I)|exact N2].
    + intros k p E. apply Hmono. apply (ci_map _ I _ _ E).
    + intros t0 th0 E. apply Hnth in E as [[-> ->]|[_ E]].
      * cbn [pt_open pt_pc]. split; [intros; apply Hmono; eapply CO; eauto|]. destruct blk; [|exact Logic.I]. split.
        -- rewrite made_app, Hm. apply in_or_app. right. left. reflexivity.
        -- intros p Hp. apply Hmono. apply (ci_map _ I _ _ Hp).
      * destruct (ci_th _ I _ _ E) as [A B]. split; [intros; apply Hmono; eapply A; eauto|]. destruct (pt_pc th0); auto. destruct B as [B1 B2]. split; [apply Hmono; exact B1|intros p Hp; apply Hmono; auto].
    + intros before t0 l0 c p after E. apply snoc_split in E as [(-> & -> & E)|(after' & -> & E)]; [|eapply (ci_tr _ I); eauto].
      injection E as -> -> -> E. symmetry in E. apply (ci_map _ I _ _ E).
  - assert (ED0 : drawn th = []) by (unfold drawn; rewrite EC; reflexivity). destruct CE as [CE1 CE2].
    injection H as <-. apply Kq; auto.
    + intros t0 l0 c p [X|[]]. discriminate.
    + apply Hpset. intros p Hp. injection Hp as <-. exact CE1.
    + split; [|exact Logic.I]. intros l0 id0 par0 [E|Hin].
      * injection E as -> -> ->. exact CE2.
      * eapply CO; eauto.
Qed.
Lemma cinv_start progs : cinv (pstart progs).
Proof.
  constructor; cbn.
  - intros id [].
  - intros t th id E Hin. apply nth_error_In, in_map_iff in E as (p & <- & _). destruct Hin.
  - intros t th t' th' id E _ Hin. apply nth_error_In, in_map_iff in E as (p & <- & _). destruct Hin.
  - constructor.
  - discriminate.
  - intros t th E. apply nth_error_In, in_map_iff in E as (p & <- & _). split; [intros ? ? ? []|exact Logic.I].
  - intros before t l c p after E. destruct before; discriminate.
Qed.
Lemma cinv_run key progs sc : cinv (prun key sc (pstart progs)).
Proof. apply prun_inv; [apply cinv_step|apply cinv_start]. Qed.

(** [p] comes before [c] in [l]. *)
Definition earlier (l : list nat) (p c : nat) : Prop := exists a b, l = a ++ c :: b /\ In p a.
Lemma earlier_irrefl l c : NoDup l -> ~ earlier l c c.
Proof.
  intros HD (a & b & -> & Hin). apply NoDup_remove_2 in HD. apply HD. apply in_or_app. auto.
Qed.
Lemma nodup_split (l a b a' b' : list nat) q : NoDup l -> l = a ++ q :: b -> l = a' ++ q :: b' -> a = a'.
Proof.
  revert l a'. induction a as [|x a IH]; intros l a' HD E1 E2; subst l.
  - destruct a' as [|y a']; [reflexivity|]. cbn in E2. injection E2 as -> ->. cbn in HD. apply NoDup_cons_iff in HD as [HD _]. exfalso. apply HD. apply in_or_app. right. left. reflexivity.
  - destruct a' as [|y a']; cbn in E2; injection E2 as -> E2.
    + cbn in HD. apply NoDup_cons_iff in HD as [HD _]. exfalso. apply HD. apply in_or_app. right. left. reflexivity.
    + f_equal. cbn in HD. apply NoDup_cons_iff in HD as [_ HD]. eapply IH; eauto.
Qed.
Lemma earlier_trans l p q c : NoDup l -> earlier l p q -> earlier l q c -> earlier l p c.
Proof.
  intros HD (a & b & E1 & H1) (a' & b' & E2 & H2). apply in_split in H2 as (x & y & ->).
  rewrite <- app_assoc in E2. cbn in E2. assert (a = x) as <- by (eapply nodup_split; eauto).
  exists (a ++ q :: y), b'. split; [rewrite <- app_assoc; exact E2|]. apply in_or_app. auto.
Qed.
Lemma parent_earlier w c p : cinv w -> parent (ps_trace w) c p -> earlier (made (ps_trace w)) p c.
Proof.
  intros I (t & l & Hin). apply in_split in Hin as (before & after & E). exists (made before), (made after). split.
  - rewrite E, made_app. reflexivity.
  - eapply (ci_tr _ I); eauto.
Qed.
Lemma ancestor_earlier w c p : cinv w -> ancestor (ps_trace w) c p -> earlier (made (ps_trace w)) p c.
Proof.
  intros I. induction 1 as [p H|q p H IH H']; [apply parent_earlier; assumption|].
  eapply earlier_trans; [apply (ci_nodup _ I)|apply parent_earlier; eassumption|exact IH].
Qed.
