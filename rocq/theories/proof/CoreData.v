(** Which calls change which fields of an action: C07 (second half), C20. *)
From Verif Require Import model.PyBase model.Core spec.CoreSpec
  proof.CoreLib proof.CoreTrans proof.CoreEval proof.CoreInv proof.CoreWith proof.CoreHist.

Section Pres.
Variable cfg : config.
Variable X : Type.
Variable F : action -> X.
Variable r : nat.

Definition keepF (w w' : world) : Prop := forall a, nth_error (w_acts w) r = Some a ->
  exists a', nth_error (w_acts w') r = Some a' /\ F a' = F a.

Definition pres {A} (m : M A) : Prop := forall w, keepF w (fst (m w)).

Lemma keepF_refl w : keepF w w.
Proof. intros a Ha. eauto. Qed.
Lemma keepF_trans w1 w2 w3 : keepF w1 w2 -> keepF w2 w3 -> keepF w1 w3.
Proof. intros H1 H2 a Ha. destruct (H1 a Ha) as (b & Hb & Eb). destruct (H2 b Hb) as (c & Hc & Ec). exists c. split; congruence. Qed.
Lemma keepF_acts w w' : w_acts w' = w_acts w -> keepF w w'.
Proof. intros H a Ha. rewrite H. eauto. Qed.

Lemma pres_bind {A B} (m : M A) (f : A -> M B) : pres m -> (forall x, pres (f x)) -> pres (bind m f).
Proof.
  intros Hm Hf w. unfold bind. specialize (Hm w). destruct (m w) as [w1 [a|e]]; simpl in *; auto.
  eapply keepF_trans; [exact Hm | apply Hf].
Qed.
Lemma pres_ret {A} (x : A) : pres (ret x). Proof. intros w. apply keepF_refl. Qed.
Lemma pres_raise {A} e : pres (raise e : M A). Proof. intros w. apply keepF_refl. Qed.
Lemma pres_now : pres (now cfg). Proof. intros w. apply keepF_acts. reflexivity. Qed.
Lemma pres_next_id : pres next_id. Proof. intros w. apply keepF_acts. reflexivity. Qed.
Lemma pres_add_hist h : pres (add_hist h). Proof. intros w. apply keepF_acts. reflexivity. Qed.
Lemma pres_get_act q : pres (get_act q).
Proof. intros w. unfold get_act. destruct (nth_error _ _); apply keepF_refl. Qed.
Lemma pres_get_log l : pres (get_log l). Proof. intros w. apply keepF_refl. Qed.
Lemma pres_mod_log l f : pres (mod_log l f). Proof. intros w. apply keepF_acts. reflexivity. Qed.
Lemma pres_set_active_parent l p : pres (set_active_parent l p).
Proof. intros w. apply keepF_acts. reflexivity. Qed.
Lemma pres_note m : pres (note cfg m).
Proof. intros w. unfold note. destruct (cf_note _ _ _); apply keepF_acts; reflexivity. Qed.
Lemma pres_mod_act q f : (q = r -> forall a, F (f a) = F a) -> pres (mod_act q f).
Proof.
  intros Hf w a Ha. unfold mod_act. destruct (nth_error (w_acts w) q) as [b|] eqn:Hb; simpl; [|eauto].
  rewrite nth_error_list_set. destruct (Nat.eqb_spec q r) as [->|]; [|eauto].
  rewrite Ha in *. inversion Hb; subst. eexists. split; eauto.
Qed.
Lemma pres_new_event k q t m st x : pres (new_event k q t m st x).
Proof. unfold new_event. apply pres_bind; [apply pres_next_id|]. intros i. apply pres_bind; [apply pres_add_hist|]. intros []. apply pres_ret. Qed.
Lemma pres_call_hook l k e s : pres (call_hook cfg l k e s).
Proof. intros w. unfold call_hook. destruct (cf_sink _ _ _ _ _ _); apply keepF_acts; reflexivity. Qed.
Lemma pres_call_hooks l k e hs : pres (call_hooks cfg l k e hs).
Proof. induction hs as [|s hs IH]; simpl; [apply pres_ret|]. apply pres_bind; [apply pres_call_hook | auto]. Qed.
Lemma pres_publish l k e : pres (publish cfg l k e).
Proof.
  intros w. apply keepF_acts. apply (Pub_acts l k e). apply publish_pub.
Qed.
Lemma pres_ext {A} (m m' : M A) : (forall w, m w = m' w) -> pres m' -> pres m.
Proof. intros H H' w. rewrite H. apply H'. Qed.
Lemma pres_on_begin l e : pres (on_begin cfg l e).
Proof. rewrite on_begin_publish. apply pres_publish. Qed.
Lemma pres_on_warn l e : pres (on_warn cfg l e).
Proof. rewrite on_warn_publish. apply pres_publish. Qed.
Lemma pres_on_end l e : pres (on_end cfg l e).
Proof. rewrite on_end_publish. apply pres_publish. Qed.
Lemma pres_on_exception l e : pres (on_exception cfg l e).
Proof. unfold on_exception. apply pres_bind; [apply pres_get_log | intros; apply pres_call_hooks]. Qed.
End Pres.

Create HintDb presdb.
Ltac pres := repeat first
  [ solve [auto 1 with presdb nocore] | apply pres_bind; [| intros ?] | apply pres_ret | apply pres_raise | apply pres_now | apply pres_next_id
  | apply pres_add_hist | apply pres_get_act | apply pres_get_log | apply pres_mod_log | apply pres_set_active_parent
  | apply pres_note | apply pres_new_event | apply pres_call_hook | apply pres_call_hooks
  | apply pres_on_begin | apply pres_on_warn | apply pres_on_end | apply pres_on_exception
  | apply pres_mod_act; intros ? ?; try reflexivity
  | match goal with |- context [match ?x with _ => _ end] => destruct x eqn:? end ].


Section Flush.
Variable cfg : config.
Variable X : Type.
Variable F : action -> X.
Variable r : nat.
Notation pres := (pres X F r).

Lemma pres_preflush l hs : pres (run_preflush cfg l hs).
Proof.
  induction hs as [|h hs IH]; simpl; [apply pres_ret|]. intros w.
  assert (Ho : keepF X F r w (set_trace (w_trace w ++ [OPre l h]) w)) by (apply keepF_acts; reflexivity).
  destruct (cf_pre cfg (w_trace w) l h) as [x|].
  - destruct (exn_ord x); [|exact Ho].
    eapply keepF_trans; [exact Ho|].
    apply (pres_bind X F r (note cfg "preflush") (fun _ => run_preflush cfg l hs)); [apply pres_note | auto].
  - eapply keepF_trans; [exact Ho|]. apply IH.
Qed.
Lemma pres_flush_queue l q : pres (flush_queue cfg l q).
Proof. induction q as [|[k e] q IH]; simpl; [apply pres_ret|]. pres; auto. Qed.
Lemma pres_flush l : pres (flush cfg l).
Proof. unfold flush. pres; auto using pres_preflush, pres_flush_queue. Qed.
Lemma pres_new_action l lvl nm kw rr p : pres (new_action l lvl nm kw rr p).
Proof.
  intros w a Ha. rewrite new_action_eq. simpl. rewrite nth_error_app1 by (eapply nth_error_lt; eauto). eauto.
Qed.
Lemma pres_comment l m kw p : pres (comment cfg l m kw p).
Proof.
  intros w a Ha. rewrite comment_eq.
  destruct (pres_publish cfg X F r l KComment (cc cfg (length (w_acts w)) w m)
    (comment_world cfg l kw (match p with Some q => Some q | None => w_active w l end) m w) a) as (a' & H1 & H2); [|eauto].
  simpl. rewrite nth_error_app1 by (eapply nth_error_lt; eauto). auto.
Qed.
Lemma pres_elapsed q : pres (get_elapsed_time cfg q).
Proof. unfold get_elapsed_time. pres. Qed.


End Flush.
#[export] Hint Resolve pres_new_action pres_comment pres_elapsed pres_flush pres_preflush pres_flush_queue : presdb.

Section Trans.
Variable cfg : config.
Variable r : nat.
Notation pres := (pres bool a_trans r).

Lemma tr_begin q m kw : pres (begin cfg q m kw).
Proof. unfold begin. pres. Qed.
Lemma tr_end q st m kw et x : pres (end_ cfg q st m kw et x).
Proof. unfold end_. pres; apply tr_begin. Qed.
Lemma tr_exception q x m kw : pres (exception_ cfg q x m kw).
Proof. unfold exception_. pres; apply tr_end. Qed.
Lemma tr_exit q x : pres (exit_ cfg q x).
Proof.
  unfold exit_. apply pres_bind; [apply pres_mod_act; reflexivity|]. intros [].
  apply pres_bind; [|intros; pres].
  destruct x as [ex|].
  - intros w. pose proof (tr_exception q (Some ex) None [] w) as H.
    destruct (exception_ cfg q (Some ex) None [] w) as [w1 [u|e]]; auto.
    destruct (exn_ord e); auto. eapply keepF_trans; [exact H | apply pres_note].
  - unfold success. pres; apply tr_end.
Qed.
Lemma tr_enter q : q <> r -> pres (enter cfg q).
Proof.
  intros Hq. unfold enter. pres; try apply tr_begin. congruence.
Qed.
Lemma tr_step o : o <> OpEnter r -> pres (step cfg o).
Proof.
  intros Ho. Local Opaque begin end_ exception_ exit_ enter. destruct o; simpl; unfold discard, success, failure, set_async, add_sink, set_sinks, setitem;
    pres; auto using tr_begin, tr_end, tr_exception, tr_exit.
  apply tr_enter; congruence.
Qed.
Local Transparent begin end_ exception_ exit_ enter.
Lemma tr_run os w : ~ In (OpEnter r) os -> keepF bool a_trans r w (run_ops cfg os w).
Proof.
  revert w. induction os as [|o os IH]; intros w Hn; simpl; [apply keepF_refl|].
  eapply keepF_trans; [apply (tr_step o); intros ->; apply Hn; left; auto|].
  apply IH. intros H. apply Hn. right; auto.
Qed.
End Trans.

Section Data.
Variable cfg : config.
Variable r : nat.
Notation pres := (pres data a_data r).

Definition sets {A} (m : M A) (ws : data) : Prop := forall w a, nth_error (w_acts w) r = Some a ->
  exists a', nth_error (w_acts (fst (m w))) r = Some a' /\ a_data a' = dupdate String.eqb (a_data a) ws.

Lemma pres_sets {A} (m : M A) : pres m -> sets m [].
Proof. intros H w a Ha. destruct (H w a Ha) as (a' & H1 & H2). exists a'. split; auto. Qed.
Lemma sets_nil {A} (m : M A) : sets m [] -> pres m.
Proof. intros H w a Ha. destruct (H w a Ha) as (a' & H1 & H2). exists a'. split; auto. Qed.
Lemma sets_kw {A} q kw (f : unit -> M A) : (forall u, pres (f u)) ->
  sets (mod_act q (fun a => a_set_data (dupdate String.eqb (a_data a) kw) a) ;;; f tt) (if Nat.eqb q r then kw else []).
Proof.
  intros Hf w a Ha. unfold bind, mod_act. destruct (nth_error (w_acts w) q) as [b|] eqn:Hb.
  - destruct (Hf tt (set_acts (list_set (w_acts w) q (a_set_data (dupdate String.eqb (a_data b) kw) b)) w)
      (if Nat.eqb q r then a_set_data (dupdate String.eqb (a_data b) kw) b else a)) as (a' & H1 & H2).
    { simpl. rewrite nth_error_list_set. destruct (Nat.eqb_spec q r) as [->|]; [rewrite Ha|]; auto. }
    exists a'. split; [exact H1|]. rewrite H2. destruct (Nat.eqb_spec q r) as [->|]; auto.
    simpl. congruence.
  - exists a. split; [exact Ha|]. destruct (Nat.eqb_spec q r) as [->|]; auto. congruence.
Qed.
Lemma dt_begin q m kw : sets (begin cfg q m kw) (if Nat.eqb q r then kw else []).
Proof. unfold begin. apply (sets_kw q kw (fun _ => a <- get_act q ;; _)). intros u. pres. Qed.
Lemma dt_begin0 q m : pres (begin cfg q m []).
Proof. apply sets_nil. pose proof (dt_begin q m []) as H. destruct (Nat.eqb q r); auto. Qed.
Lemma dt_warn q m kw : sets (warn cfg q m kw) (if Nat.eqb q r then kw else []).
Proof. unfold warn. apply (sets_kw q kw (fun _ => a <- get_act q ;; _)). intros u. pres. Qed.
Lemma dt_end q st m kw et x : sets (end_ cfg q st m kw et x) (if Nat.eqb q r then kw else []).
Proof. unfold end_. apply (sets_kw q kw (fun _ => a <- get_act q ;; _)). intros u. pres; apply dt_begin0. Qed.
Lemma dt_end0 q st m et x : pres (end_ cfg q st m [] et x).
Proof. apply sets_nil. pose proof (dt_end q st m [] et x) as H. destruct (Nat.eqb q r); auto. Qed.
Lemma sets_after {A B} (m : M A) (f : A -> M B) ws : pres m -> (forall x, sets (f x) ws) ->
  (forall w e, snd (m w) = Raise e -> nth_error (w_acts w) r <> None -> ws = []) -> sets (bind m f) ws.
Proof.
  intros Hm Hf Hr w a Ha. unfold bind. pose proof (Hm w a Ha) as (a1 & H1 & E1). specialize (Hr w).
  destruct (m w) as [w1 [y|e]]; simpl in *.
  - destruct (Hf y w1 a1 H1) as (a2 & H2 & E2). exists a2. split; auto. congruence.
  - rewrite (Hr e) by congruence. exists a1. auto.
Qed.
Lemma get_act_raise q (w : world) e : snd (get_act q w) = Raise e -> nth_error (w_acts w) r <> None -> (if Nat.eqb q r then false else true) = true.
Proof.
  unfold get_act. destruct (nth_error (w_acts w) q) eqn:Hq; [discriminate|]. intros _ Hr.
  destruct (Nat.eqb_spec q r) as [->|]; congruence.
Qed.
Lemma dt_success q m kw : sets (success cfg q m kw) (if Nat.eqb q r then kw else []).
Proof.
  unfold success. apply sets_after; [apply pres_get_act | intros; apply dt_end |].
  intros w e H1 H2. pose proof (get_act_raise q w e H1 H2). destruct (Nat.eqb q r); congruence.
Qed.
Lemma dt_failure q m kw : sets (failure cfg q m kw) (if Nat.eqb q r then kw else []).
Proof.
  unfold failure. apply sets_after; [apply pres_get_act | intros; apply dt_end |].
  intros w e H1 H2. pose proof (get_act_raise q w e H1 H2). destruct (Nat.eqb q r); congruence.
Qed.
Lemma dt_exception0 q x m : pres (exception_ cfg q x m []).
Proof. unfold exception_. pres; apply dt_end0. Qed.
Lemma call_hooks_ok l k e hs w : hook_quiet cfg k -> exists w', call_hooks cfg l k e hs w = (w', Ok tt).
Proof.
  intros Hq. revert w. induction hs as [|s hs IH]; intros w; simpl; [eexists; reflexivity|].
  unfold bind, call_hook. rewrite Hq. apply IH.
Qed.
Lemma dt_exception q x m kw : exc_quiet cfg ->
  sets (exception_ cfg q x m kw) (match x with Some _ => if Nat.eqb q r then kw else [] | None => [] end).
Proof.
  intros [Hq Hd]. unfold exception_. destruct x as [ex|]; [|apply pres_sets; pres].
  apply sets_after; [apply pres_get_act | intros a |].
  2:{ intros w e H1 H2. pose proof (get_act_raise q w e H1 H2). destruct (Nat.eqb q r); congruence. }
  apply sets_after; [apply pres_now | intros t | discriminate].
  apply sets_after; [pres | intros ms |].
  2:{ intros w e. destruct (Hd ex) as (d & Hd'). destruct (String.eqb _ _); [rewrite Hd'|]; discriminate. }
  apply sets_after; [pres | intros ev | discriminate].
  apply sets_after; [pres | intros [] |].
  2:{ intros w e H1 H2. unfold mod_act in H1. destruct (nth_error (w_acts w) q) eqn:Hx; [discriminate|].
      destruct (Nat.eqb_spec q r) as [->|]; congruence. }
  apply sets_after; [pres | intros [] | ].
  2:{ intros w e H1 _. unfold on_exception, bind, get_log in H1.
      destruct (call_hooks_ok (a_log a) KExc ev (lg_xh (w_logs w (a_log a))) w Hq) as (w' & Hw'). rewrite Hw' in H1. discriminate. }
  apply dt_end.
Qed.
Lemma dt_exit q x : pres (exit_ cfg q x).
Proof.
  unfold exit_. apply pres_bind; [apply pres_mod_act; reflexivity|]. intros [].
  apply pres_bind; [|intros; pres].
  destruct x as [ex|].
  - intros w. pose proof (dt_exception0 q (Some ex) None w) as H.
    destruct (exception_ cfg q (Some ex) None [] w) as [w1 [u|e]]; auto.
    destruct (exn_ord e); auto. eapply keepF_trans; [exact H | apply pres_note].
  - unfold success. pres; apply dt_end0.
Qed.
Lemma dt_enter q : pres (enter cfg q).
Proof. unfold enter. pres; apply dt_begin0. Qed.
Lemma dt_set q k v : sets (setitem q k v) (if Nat.eqb q r then [(k, v)] else []).
Proof.
  pose proof (sets_kw q [(k, v)] (fun _ => ret tt) ltac:(intros; pres)) as H.
  intros w a Ha. specialize (H w a Ha). unfold setitem. unfold bind in H.
  unfold mod_act in *. destruct (nth_error (w_acts w) q); exact H.
Qed.

Lemma dt_step o : exc_quiet cfg -> sets (step cfg o) (writes r o).
Proof.
  intros HQ. Local Opaque begin end_ exception_ exit_ enter. destruct o; simpl; auto using dt_begin, dt_warn, dt_success, dt_failure, dt_exception, dt_set;
    apply pres_sets; unfold discard, set_async, add_sink, set_sinks;
    pres; auto using dt_enter, dt_exit, pres_new_action, pres_comment, pres_flush, pres_elapsed.
Qed.

Lemma dget_dset k k' v (d : data) : dget String.eqb k (dset String.eqb k' v d) = if String.eqb k k' then Some v else dget String.eqb k d.
Proof.
  induction d as [|[k0 v0] d IH]; simpl; auto.
  destruct (String.eqb_spec k' k0) as [->|Hn]; simpl.
  - destruct (String.eqb k k0); auto.
  - rewrite IH. destruct (String.eqb_spec k k0) as [->|]; auto.
    destruct (String.eqb_spec k0 k'); congruence.
Qed.
Lemma dget_dupdate k (ws d : data) :
  dget String.eqb k (dupdate String.eqb d ws) = match last_write k ws with Some v => Some v | None => dget String.eqb k d end.
Proof.
  unfold dupdate. revert d. induction ws as [|[k' v] ws IH]; intros d; simpl; auto.
  rewrite IH, dget_dset. destruct (last_write k ws); auto. destruct (String.eqb k k'); auto.
Qed.
Lemma dupdate_app (d ws1 ws2 : data) : dupdate String.eqb (dupdate String.eqb d ws1) ws2 = dupdate String.eqb d (ws1 ++ ws2).
Proof. unfold dupdate. rewrite fold_left_app. auto. Qed.

Lemma dt_run os w a : exc_quiet cfg -> nth_error (w_acts w) r = Some a ->
  exists a', nth_error (w_acts (run_ops cfg os w)) r = Some a' /\
             a_data a' = dupdate String.eqb (a_data a) (flat_map (writes r) os).
Proof.
  intros HQ. revert w a. induction os as [|o os IH]; intros w a Ha; simpl; [eauto|].
  destruct (dt_step o HQ w a Ha) as (a1 & H1 & E1).
  destruct (IH _ _ H1) as (a2 & H2 & E2). exists a2. split; auto.
  rewrite E2, E1. apply dupdate_app.
Qed.

Lemma data_last_write os w k : exc_quiet cfg -> r < length (w_acts w) ->
  getitem (run_ops cfg os w) r k =
  match last_write k (flat_map (writes r) os) with Some v => Some v | None => getitem w r k end.
Proof.
  intros HQ Hr. destruct (nth_error (w_acts w) r) as [a|] eqn:Ha; [|apply nth_error_None in Ha; lia].
  destruct (dt_run os w a HQ Ha) as (a' & H1 & E1). unfold getitem. rewrite H1, Ha, E1. apply dget_dupdate.
Qed.
End Data.
