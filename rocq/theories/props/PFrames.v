(** C86: where an action was created, and the module of a logger. *)
From Coq Require Import QArith.
From Verif Require Import model.PyBase model.Core model.Levels model.Timestamps model.Pipeline model.Format model.Fields model.Frames
  spec.FieldSpec spec.NumberSpec spec.FrameSpec props.PNumbers.
Open Scope nat_scope.

Section NodeInd.
  Variable P : node -> Prop.
  Hypothesis H1 : forall ln m, P (NLog ln m).
  Hypothesis H2 : forall ln, P (NAction ln).
  Hypothesis H3 : forall ln, P (NComment ln).
  Hypothesis H4 : forall ln c loc body, Forall P body -> P (NCall ln c loc body).
  Hypothesis H5 : forall ln b c loc body, Forall P body -> P (NWrapped ln b c loc body).
  Fixpoint node_all (n : node) : P n :=
    let all := fix all ns : Forall P ns := match ns with [] => Forall_nil P | n :: ns => Forall_cons n (node_all n) (all ns) end in
    match n with
    | NLog ln m => H1 ln m
    | NAction ln => H2 ln
    | NComment ln => H3 ln
    | NCall ln c loc body => H4 ln c loc body (all body)
    | NWrapped ln b c loc body => H5 ln b c loc body (all body)
    end.
End NodeInd.

(** The n-th action created has the callpoint of the n-th logging call: its function and
    line, from whatever stack. *)
Theorem C86_callpoints : forall f st n, exec f st n = map Some (places (fr_code f) n).
Proof.
  intros f st n. revert f st. induction n as [ln m|ln|ln|ln c loc body IH|ln b c loc body IH] using node_all; intros f st; try reflexivity.
  - cbn [exec places]. generalize (at_line f ln :: st). intros st'. induction IH as [|n ns H _ IH]; [reflexivity|]. rewrite map_app, H, IH. reflexivity.
  - cbn [exec places]. cbn [map]. f_equal. generalize (wrapped_frames b 296 (at_line f ln :: st)). intros st'.
    induction IH as [|n ns H _ IH]; [reflexivity|]. rewrite map_app, H, IH. reflexivity.
Qed.
Print Assumptions C86_callpoints.

(** So the line of any event of that action shows the module, file, function and line number of
    the call that created the action. *)
Theorem C86_lines : forall env fmt_nested fuel e a d f st n c ln,
  let line x := field_line env fmt_nested fuel x e a d in
  nth_error (exec f st n) (a_id a) = Some (Some (en_callpoint env (a_id a))) ->
  nth_error (places (fr_code f) n) (a_id a) = Some (place c ln) ->
  (forall x, unshadowed a x) ->
  (forall m, co_module c = Some m -> line "module_name"%string = m) /\
  line "module_path"%string = co_path c /\ line "func_name"%string = co_name c /\
  reads (line "line_number"%string) (ln # 1)%Q.
Proof.
  intros env fnest fuel e a d f st n c ln line H1 H2 U. unfold line. rewrite C86_callpoints in H1.
  rewrite (map_nth_error Some _ _ H2) in H1. injection H1 as H1.
  destruct (C84_texts env fnest fuel e a d U) as (_ & _ & _ & _ & _ & T1 & T2 & T3 & _).
  destruct (C84_integers env fnest fuel e a d (fun x _ => U x)) as (_ & _ & _ & I & _). rewrite <- H1 in T1, T2, T3, I.
  split; [intros m Hm; rewrite T1; unfold place; rewrite Hm; reflexivity|]. split; [exact T2|]. split; [exact T3|exact I].
Qed.
Print Assumptions C86_lines.

(** But comments and calls of decorated functions are never shown where they were made: always
    as a line of logger.py. *)
Theorem C86_own_frames_refuted : forall f st ln b c loc,
  exec f st (NComment ln) = [Some inside_comment] /\
  exec f st (NWrapped ln b c loc []) = [Some inside_wrapper].
Proof. intros. split; apply C86_callpoints. Qed.
Print Assumptions C86_own_frames_refuted.

Lemma skip_inner is_type inner rest rounds : Forall (method_frame is_type) inner -> (length inner <= rounds) ->
  skip_frames is_type "self" rounds (inner ++ rest) = skip_frames is_type "self" (rounds - length inner) rest.
Proof.
  intros H. revert rounds. induction H as [|f fs (o & H1 & H2) _ IH]; intros rounds Hl; [rewrite Nat.sub_0_r; reflexivity|].
  destruct rounds as [|rounds]; [cbn in Hl; lia|]. cbn [app skip_frames length Nat.sub]. rewrite H1, H2. apply IH. cbn in Hl. lia.
Qed.
Lemma go_back_skipn k st : k <= length st -> go_back k st = inr (skipn k st).
Proof. revert st. induction k as [|k IH]; intros st H; [reflexivity|]. destruct st as [|f st]; [cbn in H; lia|]. cbn. apply IH. cbn in H. lia. Qed.
Lemma go_back_far k st : length st < k -> go_back k st = inl ETopmost.
Proof. revert st. induction k as [|k IH]; intros st H; [lia|]. destruct st as [|f st]; [reflexivity|]. cbn. apply IH. cbn in H. lia. Qed.

(** A logger belongs to the module that is given, or else to the module of the code that created
    it: the innermost frame that is no method of a logger type, however many constructors of
    subclasses are in between; with an offset, that many frames further out.  A logger without
    a name is named after its module. *)
Theorem C86_module : forall is_type self inner caller outer, is_type self = true ->
  Forall (method_frame is_type) inner -> (N.of_nat (length inner) < 9999)%N -> ~ method_frame is_type caller ->
  (forall m k st, logger_module is_type self (Some m) k st = inr m) /\
  (forall m, logger_name None m = m) /\
  forall k, logger_module is_type self None k (inner ++ caller :: outer) =
    match nth_error (caller :: outer) k with
    | Some f => inr (module_of f)
    | None => inl (if k =? length (caller :: outer) then EAttribute else ETopmost)
    end.
Proof.
  intros is_type self inner caller outer Hs Hi Hl Hc. split; [reflexivity|]. split; [reflexivity|]. intros k.
  unfold logger_module, frame_excluding, lib_frame. cbn [fr_code co_args].
  remember (N.to_nat 10000) as r eqn:Er. assert (Hr : r = S (r - 1) /\ length inner < r - 1).
  { assert (HN : N.of_nat r = 10000%N) by (subst; apply N2Nat.id). clear Er. lia. } clear Er.
  set (f0 := mkFrame _ _ _).
  change (f0 :: inner ++ caller :: outer) with ((f0 :: inner) ++ caller :: outer).
  rewrite skip_inner; [|constructor; [exists self; split; [reflexivity|exact Hs]|exact Hi]|cbn; lia].
  destruct (r - length (f0 :: inner)) as [|r'] eqn:E; [cbn in E; lia|].
  assert (R : skip_frames is_type "self" (S r') (caller :: outer) = inr (caller :: outer)).
  { cbn [skip_frames]. destruct (dget String.eqb "self"%string (fr_locals caller)) as [o|] eqn:D; [|reflexivity].
    destruct (is_type o) eqn:T; [exfalso; apply Hc; exists o; auto|reflexivity]. }
  rewrite R. generalize (caller :: outer). clear. intros st.
  destruct (Nat.lt_trichotomy k (length st)) as [H|[H|H]].
  - rewrite go_back_skipn by lia. destruct (nth_error st k) as [f|] eqn:N; [|apply nth_error_None in N; lia].
    revert st H N. induction k as [|k IH]; intros [|g st] H N; try discriminate; cbn in *; [injection N as ->; reflexivity|apply IH; [lia|exact N]].
  - rewrite go_back_skipn by lia. subst k. rewrite skipn_all, (proj2 (nth_error_None st (length st))) by lia. rewrite Nat.eqb_refl. reflexivity.
  - rewrite go_back_far by lia. rewrite (proj2 (nth_error_None st k)) by lia. destruct (k =? length st) eqn:E; [apply Nat.eqb_eq in E; lia|reflexivity].
Qed.
Print Assumptions C86_module.
(** ** Examples *)
Definition app_main : frame := mkFrame (mkCode (Some (lit "app")) (lit "app.py") (lit "<module>") []) 1 [].
Definition lib_make (arg : string) (value : nat) : frame := mkFrame (mkCode (Some (lit "mylib")) (lit "mylib.py") (lit "make") [arg]) 7 [(arg, value)].
(** Object 1 is a logger, object 2 a logger class. *)
Definition loggers (o : nat) : bool := (o =? 1) || (o =? 2).
Definition handler : code := mkCode (Some (lit "web")) (lit "web.py") (lit "handler") [].
Example C86_nonvacuous :
  logger_module loggers 1 None 0 [lib_make "self" 1; app_main] = inr (lit "app") /\
  logger_module loggers 1 None 0 [lib_make "x" 1; app_main] = inr (lit "mylib") /\
  logger_module loggers 1 None 1 [lib_make "x" 1; app_main] = inr (lit "app") /\
  logger_module loggers 1 None 2 [lib_make "x" 1; app_main] = inl EAttribute /\
  Forall (method_frame loggers) [lib_make "self" 1] /\ ~ method_frame loggers app_main /\
  exec app_main [] (NCall 3 handler [] [NLog 10 "info"; NComment 11; NWrapped 12 handler handler [] [NAction 20]; NLog 13 "debug"]) =
    map Some [place handler 10; inside_comment; inside_wrapper; place handler 20; place handler 13].
Proof.
  repeat (split; [vm_compute; reflexivity|]). split; [constructor; [exists 1; split; reflexivity|constructor]|].
  split; [intros (o & H & _); discriminate|]. vm_compute. reflexivity.
Qed.

(** The receiver is recognised by the name self alone: a factory that is a class method of a
    logger type counts as the creator. *)
Theorem C86_factory_refuted : exists st, st = [lib_make "cls" 2; app_main] /\ loggers 2 = true /\
  logger_module loggers 1 None 0 st = inr (lit "mylib").
Proof. eexists. split; [reflexivity|]. split; vm_compute; reflexivity. Qed.
Print Assumptions C86_factory_refuted.
(** And code of the application that has a logger in a variable named self is passed over: there
    the constructor raises, or names the wrong module. *)
Theorem C86_self_variable_refuted : exists st, st = [mkFrame (fr_code app_main) 2 [("self"%string, 1)]] /\
  logger_module loggers 1 None 0 st = inl EAttribute.
Proof. eexists. split; [reflexivity|]. vm_compute. reflexivity. Qed.
Print Assumptions C86_self_variable_refuted.

(** wrap_all() and unwrap_all() without a target always raise ValueError, although they are
    meant to take the calling module: the globals of a frame are a dict, which has no attribute
    [__name__]. *)
Theorem C62_default_target_refuted : forall is_module target st, default_target is_module target st = None.
Proof. intros. unfold default_target. destruct (getframe _ _); reflexivity. Qed.
Print Assumptions C62_default_target_refuted.
