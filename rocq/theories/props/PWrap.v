(** C61: decorated functions. *)
From Verif Require Import model.PyBase model.Core model.Wrap spec.CoreSpec spec.CoreExamples spec.WrapSpec
  proof.CoreLib proof.CoreTrans proof.CoreWith proof.CoreBlock proof.CoreBlock2 proof.CoreFinal proof.WrapProofs.

(** C61: a call of the wrapped function returns the value or raises the exception of the
    function itself (running where the action has just begun, with the action injected if
    asked for); only [reraise=False] turns an exception into a return of None. *)
Theorem C61_same_outcome :
  forall cfg c x f a k s w, reach cfg w -> calm cfg -> parent_bound w (wr_parent c) ->
  runs cfg (fo_call f a (inject c x k)) s ->
  snd (logged_func cfg c x f a k w) =
  passes_on (wr_reraise c) (snd (fo_call f a (inject c x k) (wrap_start cfg c x f w))).
Proof. intros cfg c x f a k s w HR HC Hp Hs. exact (logged_snd cfg c x f a k s Hs w HC (reach_winv cfg w HR) Hp). Qed.
Print Assumptions C61_same_outcome.

(** C61: in particular a function whose result does not depend on the state of the logging
    system gives, decorated, the very result it gives undecorated. *)
Theorem C61_transparent :
  forall cfg c x f a k s w, reach cfg w -> calm cfg -> parent_bound w (wr_parent c) ->
  runs cfg (fo_call f a k) s ->
  wr_inject c = None -> wr_reraise c <> Some false ->
  (forall w1 w2, snd (fo_call f a k w1) = snd (fo_call f a k w2)) ->
  snd (fo_call (wrap cfg c x f) a k w) = snd (fo_call f a k w).
Proof.
  intros cfg c x f a k s w HR HC Hp Hs Hi Hr Hf. unfold wrap. destruct (wr_enable c); [|reflexivity]. cbn [fo_call].
  assert (E : inject c x k = k) by (unfold inject; rewrite Hi; reflexivity).
  rewrite (C61_same_outcome cfg c x f a k s w HR HC Hp) by (rewrite E; exact Hs). rewrite E, (Hf _ w).
  destruct (snd (fo_call f a k w)) as [v|e]; cbn; [reflexivity|]. destruct (wr_reraise c) as [[]|]; congruence.
Qed.
Print Assumptions C61_transparent.

(** C61: one begin event and one end event per call: each listening sink gets each once
    (or the events are queued once). *)
Theorem C61_one_begin_one_end :
  forall cfg c x f a k s w, reach cfg w -> calm cfg -> exc_quiet cfg -> parent_bound w (wr_parent c) ->
  runs cfg (fo_call f a (inject c x k)) s -> never_enters x s ->
  let r := length (w_acts w) in
  let l := wr_log c in
  let w' := fst (logged_func cfg c x f a k w) in
  (exists e, e_act e = r /\ e_kind e = KBegin /\
     (lg_async (w_logs w l) = false -> forall q, In q (listeners cfg w l KBegin) -> begin_calls r q (w_trace w') = [(l, e)]) /\
     (lg_async (w_logs w l) = true -> exists q, lg_queue (w_logs (wrap_start cfg c x f w) l) = q ++ [(KBegin, e)])) /\
  (exists e, e_act e = r /\ e_kind e = KEnd /\
     one_end (lg_async (w_logs w l)) l r (listeners cfg w l KEnd) e w').
Proof.
  intros cfg c x f a k s w HR HC HE Hp Hs Hn. cbv zeta.
  destruct (wrap_runs cfg c x f a k s Hs w) as [E _]. rewrite E. split.
  - exact (block_begin cfg None x _ _ _ _ _ _ s w HR HC Hp).
  - destruct (block_one_end cfg None x (wr_log c) (wr_level c) (wrap_name c f) (wr_data c) (wr_reraise c) (wr_parent c) s w HC HE (reach_winv cfg w HR) Hp Hn)
      as (a2 & e & _ & H1 & H2 & H3 & _). exists e. auto.
Qed.
Print Assumptions C61_one_begin_one_end.

(** C61: the action of a call: while the function runs it is bound to the variable the
    wrapper injects, carries the data given to [wrap] and has not ended; it belongs to the
    logger, has the level, the name ([action_name], else the name of the function), the
    [reraise] setting given to [wrap], and as parent the given one, else the logger's active
    action at the time of the call. *)
Theorem C61_action :
  forall cfg c x f a k s w, reach cfg w -> calm cfg -> parent_bound w (wr_parent c) ->
  runs cfg (fo_call f a (inject c x k)) s ->
  let r := length (w_acts w) in
  (exists a1, nth_error (w_acts (wrap_start cfg c x f w)) r = Some a1 /\
     w_env (wrap_start cfg c x f w) x = Some r /\ a_data a1 = wr_data c /\ a_end a1 = None) /\
  (exists a', nth_error (w_acts (fst (logged_func cfg c x f a k w))) r = Some a' /\
     a_log a' = wr_log c /\ a_level a' = wr_level c /\
     a_name a' = (match wr_name c with Some n => n | None => fo_name f end) /\
     a_reraise a' = wr_reraise c /\
     a_parent a' = (match wr_parent c with None => w_active w (wr_log c) | Some y => w_env w y end)).
Proof.
  intros cfg c x f a k s w HR HC Hp Hs. cbv zeta. destruct (wrap_runs cfg c x f a k s Hs w) as [E _]. rewrite E.
  exact (block_action cfg None x _ _ _ _ _ _ s w HR HC Hp).
Qed.
Print Assumptions C61_action.

(** C61: what the function is called with: under the name [inject_as] the action, every other
    keyword argument as the caller gave it; without a name, or with an empty one, nothing is
    added. *)
Theorem C61_injected :
  forall c x k n, dget String.eqb n (inject c x k) =
  if (match wr_inject c with Some m => String.eqb n m && negb (String.eqb m "") | None => false end)
  then Some (VAct x) else dget String.eqb n k.
Proof.
  intros c x k n. unfold inject. destruct (wr_inject c) as [m|]; [|reflexivity].
  destruct (String.eqb_spec m "") as [->|Hm]; [destruct (String.eqb n ""); reflexivity|]. cbn [negb]. rewrite andb_true_r. apply dget_put.
Qed.
Print Assumptions C61_injected.

(** C61: the decorated function keeps the name of the function. *)
Theorem C61_keeps_name : forall cfg c x f, fo_name (wrap cfg c x f) = fo_name f.
Proof. intros cfg c x f. unfold wrap. destruct (wr_enable c); reflexivity. Qed.
Print Assumptions C61_keeps_name.

(** C61: a decorated function can be decorated and called again, in any nesting: a wrapped
    call is itself the execution of a program, so the theorems above apply to it. *)
Theorem C61_nesting :
  forall cfg c x f a k s, runs cfg (fo_call f a (inject c x k)) s ->
  exists s', runs cfg (fo_call (wrap cfg c x f) a (if wr_enable c then k else inject c x k)) s' /\
    forall y, y <> x -> never_enters y s -> never_enters y s'.
Proof.
  intros cfg c x f a k s Hs. unfold wrap. destruct (wr_enable c); [|exists s; auto].
  exists (wrap_block c x f s). split; [apply wrap_runs; exact Hs|]. intros y _ H. exact H.
Qed.
Print Assumptions C61_nesting.

(** C61: with [enable_wrap=False] the decorator gives back the function itself. *)
Theorem C61_disabled :
  forall cfg c x f, wr_enable c = false -> wrap cfg c x f = f.
Proof. intros cfg c x f H. unfold wrap. rewrite H. reflexivity. Qed.
Print Assumptions C61_disabled.

(** A function that logs a comment, then raises if its argument is 0 and
    returns it otherwise; wrapped twice. *)
Definition div_body (a : args) (k : kwargs) : stmt :=
  SSeq (SComment 0 "computing" []) (match a with VInt 0%Z :: _ => SRaise boom | _ => SSkip end).
Definition div : fobj := script quiet_cfg "div" div_body (fun a k w => hd VNone a).
Definition inner_cfg : wrapcfg := mkWrap 0 20 None (Some "act") true [] None None.
Definition outer_cfg : wrapcfg := mkWrap 0 20 (Some "outer") None true [] None None.
Definition wrapped_twice : fobj := wrap quiet_cfg outer_cfg 1 (wrap quiet_cfg inner_cfg 0 div).
Lemma script_runs cfg nm b v a k : runs cfg (fo_call (script cfg nm b v) a k) (b a k).
Proof. intros w. cbn. destruct (eval cfg None (b a k) w) as [w' [u|e]]; cbn; auto. Qed.
Example C61_nonvacuous :
  (forall a k, runs quiet_cfg (fo_call div a k) (div_body a k)) /\
  (forall a k w1 w2, snd (fo_call div a k w1) = snd (fo_call div a k w2)) /\
  snd (fo_call wrapped_twice [VInt 5] [] (w_sync quiet_cfg)) = Ok (VInt 5) /\
  snd (fo_call wrapped_twice [VInt 0] [] (w_sync quiet_cfg)) = Raise boom /\
  map a_name (w_acts (fst (fo_call wrapped_twice [VInt 0] [] (w_sync quiet_cfg)))) = ["outer"; "div"; "_comment"]%string.
Proof.
  split; [intros; apply script_runs|]. split; [|split; [|split]; vm_compute; reflexivity].
  intros a k. assert (G : forall w, snd (fo_call div a k w) = match a with VInt 0%Z :: _ => Raise boom | _ => Ok (hd VNone a) end).
  2:{ intros w1 w2. rewrite !G. reflexivity. }
  intros w. unfold div, script, div_body. cbn [fo_call eval]. unfold bind. rewrite comment_eq, publish_quiet by (apply (proj1 quiet_all)).
  destruct a as [|[|[]| |] a]; reflexivity.
Qed.
