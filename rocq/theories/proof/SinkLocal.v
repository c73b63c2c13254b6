(** Hooks matter only through what they do when they are called: C92. *)
From Verif Require Import model.PyBase model.Core model.DevDebug spec.DevDebugSpec.
Open Scope nat_scope.

Section Local.
Variable c : config.
Variable f : list obs -> nat -> kind -> nat -> event -> option exn.
Notation c' := (with_sinks c f).

Definition agr {A} (m m' : M A) : Prop :=
  (forall w t, w_trace (fst (m w)) = w_trace w ++ t -> same_calls (cf_sink c) f (w_trace w) t -> m' w = m w) /\
  (forall w, exists t, w_trace (fst (m w)) = w_trace w ++ t).

Lemma same_calls_prefix g h o t t' : same_calls g h o (t ++ t') -> same_calls g h o t.
Proof. intros H b l k s e a E. apply (H b l k s e (a ++ t')). rewrite E, <- app_assoc. reflexivity. Qed.
Lemma same_calls_suffix g h o t t' : same_calls g h o (t ++ t') -> same_calls g h (o ++ t) t'.
Proof. intros H b l k s e a E. rewrite <- !app_assoc. apply (H (t ++ b) l k s e a). rewrite E, <- app_assoc. reflexivity. Qed.

Lemma agr_still {A} (m : M A) : (forall w, w_trace (fst (m w)) = w_trace w) -> agr m m.
Proof. intros H. split; [reflexivity|]. intro w. exists []. rewrite H, app_nil_r. reflexivity. Qed.
Lemma agr_grows {A} (m : M A) : (forall w, exists t, w_trace (fst (m w)) = w_trace w ++ t) -> agr m m.
Proof. intros H. split; [reflexivity|exact H]. Qed.
(** Try statements: go on after an exception. *)
Definition catch {A B} (m : M A) (k : res A -> M B) : M B := fun w => k (snd (m w)) (fst (m w)).
Lemma agr_catch {A B} (m m' : M A) (k k' : res A -> M B) : agr m m' -> (forall x, agr (k x) (k' x)) ->
  agr (catch m k) (catch m' k').
Proof.
  unfold catch. intros [H1 H2] HK. split; intro w; destruct (H2 w) as [t Ht]; destruct (HK (snd (m w))) as [K1 K2]; destruct (K2 (fst (m w))) as [t' Ht'].
  - intros u Hu HS. assert (U : u = t ++ t') by (rewrite Ht', Ht, <- app_assoc in Hu; apply app_inv_head in Hu; congruence). subst u.
    assert (E : m' w = m w) by (apply (H1 w t Ht), (same_calls_prefix _ _ _ _ _ HS)).
    rewrite E. apply (K1 _ t' Ht'). rewrite Ht. apply same_calls_suffix, HS.
  - exists (t ++ t'). rewrite Ht', Ht, app_assoc. reflexivity.
Qed.
Lemma agr_ext {A} (m m' n n' : M A) : agr m m' -> (forall w, n w = m w) -> (forall w, n' w = m' w) -> agr n n'.
Proof.
  intros [H1 H2] E E'. split; intro w.
  - intros t Ht HS. rewrite E, E' in *. exact (H1 w t Ht HS).
  - rewrite E. apply H2.
Qed.
Lemma agr_ret {A} (a : A) : agr (ret a) (ret a). Proof. apply agr_still. reflexivity. Qed.
Lemma agr_raise {A} e : agr (@raise A e) (raise e). Proof. apply agr_still. reflexivity. Qed.
Lemma agr_bind {A B} (m m' : M A) (k k' : A -> M B) : agr m m' -> (forall x, agr (k x) (k' x)) -> agr (bind m k) (bind m' k').
Proof.
  intros H HK. apply (agr_ext (catch m (fun q => match q with Ok a => k a | Raise e => raise e end)) (catch m' (fun q => match q with Ok a => k' a | Raise e => raise e end))).
  - apply agr_catch; [exact H|]. intros [a|e]; [apply HK|apply agr_raise].
  - intro w. unfold bind, catch. destruct (m w) as [w1 [x|e]]; reflexivity.
  - intro w. unfold bind, catch. destruct (m' w) as [w1 [x|e]]; reflexivity.
Qed.
Lemma agr_get_log l : agr (get_log l) (get_log l). Proof. apply agr_still. reflexivity. Qed.
Lemma agr_mod_log l g : agr (mod_log l g) (mod_log l g). Proof. apply agr_still. reflexivity. Qed.
Lemma agr_get_act r : agr (get_act r) (get_act r).
Proof. apply agr_still. intro w. unfold get_act. destruct (nth_error _ _); reflexivity. Qed.
Lemma agr_mod_act r g : agr (mod_act r g) (mod_act r g).
Proof. apply agr_still. intro w. unfold mod_act. destruct (nth_error _ _); reflexivity. Qed.
Lemma agr_now : agr (now c) (now c'). Proof. apply agr_still. reflexivity. Qed.
Lemma agr_note s : agr (note c s) (note c' s).
Proof. apply agr_grows. intro w. unfold note. exists [ONote s]. destruct (cf_note _ _ _); reflexivity. Qed.
Lemma agr_new_event k r t m st x : agr (new_event k r t m st x) (new_event k r t m st x).
Proof. apply agr_still. reflexivity. Qed.
Lemma agr_active l a : agr (set_active_parent l a) (set_active_parent l a). Proof. apply agr_still. reflexivity. Qed.
Lemma agr_hist h : agr (add_hist h) (add_hist h). Proof. apply agr_still. reflexivity. Qed.
Lemma agr_lookup x : agr (lookup x) (lookup x).
Proof. apply agr_still. intro w. unfold lookup. destruct (w_env w x); reflexivity. Qed.
Lemma agr_bind_var x r : agr (bind_var x r) (bind_var x r). Proof. apply agr_still. reflexivity. Qed.
Lemma agr_new_action l lvl nm kw rr p : agr (new_action l lvl nm kw rr p) (new_action l lvl nm kw rr p).
Proof. apply agr_still. intro w. unfold new_action, bind. destruct p; reflexivity. Qed.
Lemma agr_lookup_opt px : agr (lookup_opt px) (lookup_opt px).
Proof. destruct px; [apply agr_bind; [apply agr_lookup|intro; apply agr_ret]|apply agr_ret]. Qed.
Lemma agr_enqueue l k e : agr (enqueue l k e) (enqueue l k e). Proof. apply agr_mod_log. Qed.

Lemma agr_call_hook l k e s : agr (call_hook c l k e s) (call_hook c' l k e s).
Proof.
  assert (G : forall w, w_trace (fst (call_hook c l k e s w)) = w_trace w ++ [ODeliver l k s e])
    by (intro w; unfold call_hook; destruct (cf_sink c _ _ _ _ _); reflexivity).
  split; intro w; [|exists [ODeliver l k s e]; apply G].
  intros t Ht HS. rewrite G in Ht. apply app_inv_head in Ht. subst t. unfold call_hook. cbn [with_sinks cf_sink].
  specialize (HS [] l k s e [] eq_refl). rewrite app_nil_r in HS. rewrite <- HS. reflexivity.
Qed.
Lemma agr_call_hooks l k e hs : agr (call_hooks c l k e hs) (call_hooks c' l k e hs).
Proof. induction hs as [|s hs IH]; [apply agr_ret|]. cbn [call_hooks]. apply agr_bind; [apply agr_call_hook|intro; exact IH]. Qed.

Ltac step1 := first
  [ apply agr_ret | apply agr_raise | apply agr_get_log | apply agr_mod_log | apply agr_get_act | apply agr_mod_act
  | apply agr_now | apply agr_note | apply agr_new_event | apply agr_active | apply agr_hist | apply agr_lookup | apply agr_bind_var
  | apply agr_new_action | apply agr_lookup_opt | apply agr_enqueue | apply agr_call_hooks | apply agr_bind; [|intro]
  | match goal with |- agr (if ?b then _ else _) _ => destruct b | |- agr (match ?x with _ => _ end) _ => destruct x end ].
Ltac steps := repeat step1.

Lemma agr_begin r m kw : agr (begin c r m kw) (begin c' r m kw).
Proof. unfold begin, on_begin. steps. Qed.
Lemma agr_warn r m kw : agr (warn c r m kw) (warn c' r m kw).
Proof. unfold warn, on_warn. steps. Qed.
Lemma agr_end r st m kw et x : agr (end_ c r st m kw et x) (end_ c' r st m kw et x).
Proof. unfold end_, on_end. repeat first [apply agr_begin|step1]. Qed.
Lemma agr_success r m kw : agr (success c r m kw) (success c' r m kw).
Proof. unfold success. repeat first [apply agr_end|step1]. Qed.
Lemma agr_failure r m kw : agr (failure c r m kw) (failure c' r m kw).
Proof. unfold failure. repeat first [apply agr_end|step1]. Qed.
Lemma agr_exception r x m kw : agr (exception_ c r x m kw) (exception_ c' r x m kw).
Proof. unfold exception_, on_exception. cbn [with_sinks cf_describe]. repeat first [apply agr_end|step1]. Qed.
Lemma agr_enter r : agr (enter c r) (enter c' r).
Proof. unfold enter. repeat first [apply agr_begin|step1]. Qed.
Lemma agr_exit r x : agr (exit_ c r x) (exit_ c' r x).
Proof.
  unfold exit_. apply agr_bind; [apply agr_mod_act|intros _]. apply agr_bind.
  - destruct x as [ex|].
    + apply (agr_ext (catch (exception_ c r (Some ex) None []) (fun q => match q with Raise e => if exn_ord e then note c "action_exit" else raise e | Ok a => ret a end))
        (catch (exception_ c' r (Some ex) None []) (fun q => match q with Raise e => if exn_ord e then note c' "action_exit" else raise e | Ok a => ret a end))).
      * apply agr_catch; [apply agr_exception|intro q; steps].
      * intro w. unfold catch. destruct (exception_ c r (Some ex) None [] w) as [w' [u|e]]; cbn [fst snd]; [destruct u; reflexivity|]. destruct (exn_ord e); reflexivity.
      * intro w. unfold catch. destruct (exception_ c' r (Some ex) None [] w) as [w' [u|e]]; cbn [fst snd]; [destruct u; reflexivity|]. destruct (exn_ord e); reflexivity.
    + repeat first [apply agr_success|unfold on_end; step1].
  - intros _. steps.
Qed.
Lemma agr_preflush l hs : agr (run_preflush c l hs) (run_preflush c' l hs).
Proof.
  induction hs as [|h hs IH]; [apply agr_ret|]. cbn [run_preflush with_sinks cf_pre].
  set (put := fun w => (set_trace (w_trace w ++ [OPre l h]) w, Ok tt) : world * res unit).
  assert (HP : agr put put) by (apply agr_grows; intro w; exists [OPre l h]; reflexivity).
  assert (N : agr (note c "preflush" ;;; run_preflush c l hs) (note c' "preflush" ;;; run_preflush c' l hs)) by (apply agr_bind; [apply agr_note|intro; exact IH]).
  pose proof (agr_bind put put (fun _ => run_preflush c l hs) (fun _ => run_preflush c' l hs) HP (fun _ => IH)) as [I1 I2].
  pose proof (agr_bind put put (fun _ => note c "preflush" ;;; run_preflush c l hs) (fun _ => note c' "preflush" ;;; run_preflush c' l hs) HP (fun _ => N)) as [N1 N2].
  split; intro w.
  - intros t Ht HS. destruct (cf_pre c (w_trace w) l h) as [x|].
    + destruct (exn_ord x); [exact (N1 w t Ht HS)|reflexivity].
    + exact (I1 w t Ht HS).
  - destruct (cf_pre c (w_trace w) l h) as [x|].
    + destruct (exn_ord x); [exact (N2 w)|]. exists [OPre l h]. reflexivity.
    + exact (I2 w).
Qed.
Lemma agr_flush_queue l q : agr (flush_queue c l q) (flush_queue c' l q).
Proof.
  induction q as [|[k e] q IH]; [apply agr_ret|]. cbn [flush_queue]. repeat first [apply IH|step1].
Qed.
Lemma agr_flush l : agr (flush c l) (flush c' l).
Proof. unfold flush. repeat first [apply agr_preflush|apply agr_flush_queue|step1]. Qed.
Lemma agr_comment l m kw p : agr (comment c l m kw p) (comment c' l m kw p).
Proof. unfold comment, on_comment. steps. Qed.
Lemma agr_discard {A} (m m' : M A) : agr m m' -> agr (discard m) (discard m').
Proof. intro H. apply agr_bind; [exact H|intro; apply agr_ret]. Qed.
Lemma agr_elapsed r : agr (get_elapsed_time c r) (get_elapsed_time c' r).
Proof. unfold get_elapsed_time. steps. Qed.
Lemma agr_with r (b b' : M unit) : agr b b' -> agr (with_block c r b) (with_block c' r b').
Proof.
  intros HB.
  set (after := fun cc (q : res unit) => match q with Ok _ => discard (exit_ cc r None) | Raise e =>
       catch (exit_ cc r (Some e)) (fun q' => match q' with Ok true => ret tt | Ok false => raise e | Raise e' => raise e' end) end : M unit).
  apply (agr_ext (bind (enter c r) (fun _ => catch b (after c)))
                 (bind (enter c' r) (fun _ => catch b' (after c')))).
  - apply agr_bind; [apply agr_enter|intros _]. apply agr_catch; [exact HB|]. intros [u|e]; unfold after.
    + apply agr_discard, agr_exit.
    + apply agr_catch; [apply agr_exit|]. intros [[]|]; steps.
  - intro w. unfold with_block, bind, after, catch. destruct (enter c r w) as [w1 [u|e]]; [|reflexivity]. destruct (b w1) as [w2 [u2|e]]; cbn [fst snd]; [reflexivity|].
    destruct (exit_ c r (Some e) w2) as [w3 [[]|]]; reflexivity.
  - intro w. unfold with_block, bind, after, catch. destruct (enter c' r w) as [w1 [u|e]]; [|reflexivity]. destruct (b' w1) as [w2 [u2|e]]; cbn [fst snd]; [reflexivity|].
    destruct (exit_ c' r (Some e) w2) as [w3 [[]|]]; reflexivity.
Qed.

Local Opaque bind ret raise get_log mod_log get_act mod_act now note new_event set_active_parent add_hist lookup bind_var new_action lookup_opt
  enqueue call_hooks begin warn success failure exception_ enter exit_ flush comment discard get_elapsed_time with_block.
Lemma agr_eval s : forall cur, agr (eval c cur s) (eval c' cur s).
Proof.
  induction s; intro cur; cbn [eval]; repeat first [apply agr_begin|apply agr_warn|apply agr_success|apply agr_failure|apply agr_exception
    |apply agr_discard, agr_elapsed|apply agr_comment|apply agr_flush|apply agr_with|apply IHs|apply IHs1|apply IHs2|unfold setitem; step1|step1].
  apply (agr_ext (catch (eval c cur s1) (fun q => match q with Raise e => if all || exn_ord e then eval c (Some e) s2 else raise e | Ok a => ret a end))
    (catch (eval c' cur s1) (fun q => match q with Raise e => if all || exn_ord e then eval c' (Some e) s2 else raise e | Ok a => ret a end))).
  - apply agr_catch; [apply IHs1|]. intros [u|e]; [apply agr_ret|]. destruct (all || exn_ord e); [apply IHs2|apply agr_raise].
  - intro w. unfold catch. destruct (eval c cur s1 w) as [w' [u|e]]; cbn [fst snd]; [destruct u; reflexivity|]. destruct (all || exn_ord e); reflexivity.
  - intro w. unfold catch. destruct (eval c' cur s1 w) as [w' [u|e]]; cbn [fst snd]; [destruct u; reflexivity|]. destruct (all || exn_ord e); reflexivity.
Qed.

Theorem eval_local cur s w t : w_trace (fst (eval c cur s w)) = w_trace w ++ t -> same_calls (cf_sink c) f (w_trace w) t ->
  eval c' cur s w = eval c cur s w.
Proof. apply agr_eval. Qed.
Theorem eval_grows cur s w : exists t, w_trace (fst (eval c cur s w)) = w_trace w ++ t.
Proof. apply (agr_eval s cur). Qed.
End Local.
