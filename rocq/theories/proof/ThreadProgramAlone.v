(** One thread alone: the texts of ThreadPrograms.v, run without interruption, are the
    functions of Core.v. *)
From Verif Require Import model.PyBase model.Core model.Concurrent model.ThreadPrograms.
Open Scope nat_scope.

Lemma seq_andthen cfg {A B} (c : code A) (f : res A -> code B) w :
  seq cfg (andthen c f) w = let (w', r) := seq cfg c w in seq cfg (f r) w'.
Proof.
  revert w; induction c as [a|e|X m k IH|l x k IH]; intros w; cbn; try reflexivity.
  - destruct (m w) as [w' r]. apply IH.
  - destruct (do_call cfg l x w) as [w' r]. apply IH.
Qed.
Lemma seq_atom cfg {A} (m : M A) w : seq cfg (atom m) w = m w.
Proof. cbn. destruct (m w) as [w' [a|e]]; reflexivity. Qed.
Lemma seq_call cfg l x w : seq cfg (call_logger l x) w = do_call cfg l x w.
Proof. cbn. destruct (do_call cfg l x w) as [w' [a|e]]; reflexivity. Qed.

(** The text, run without interruption, is the function. *)
Definition spells cfg {A} (c : code A) (m : M A) : Prop := forall w, seq cfg c w = m w.
Lemma sp_chain cfg {A B} (c : code A) m (f : A -> code B) g :
  spells cfg c m -> (forall a, spells cfg (f a) (g a)) -> spells cfg (chain c f) (bind m g).
Proof.
  intros H K w. unfold chain, bind. rewrite seq_andthen, H. destruct (m w) as [w' [a|e]]; [apply K|reflexivity].
Qed.
Lemma sp_atom cfg {A} (m : M A) : spells cfg (atom m) m.
Proof. intros w. apply seq_atom. Qed.
Lemma sp_call cfg l x : spells cfg (call_logger l x) (do_call cfg l x).
Proof. intros w. apply seq_call. Qed.
Lemma sp_ret cfg {A} (a : A) : spells cfg (Return a) (ret a).
Proof. intros w. reflexivity. Qed.
Lemma sp_raise cfg {A} e : spells cfg (@Fail A e) (raise e).
Proof. intros w. reflexivity. Qed.

Local Notation id1 := (fun r : nat => r).
Ltac sp := repeat first
  [ apply sp_atom | apply sp_ret | apply sp_raise
  | match goal with |- spells _ (call_logger ?l (CLog ?k ?e)) _ => exact (sp_call _ l (CLog k e)) end
  | match goal with |- spells _ (chain _ _) (bind _ _) => apply sp_chain; [|intros ?] end
  | match goal with |- spells _ (match ?x with _ => _ end) (match ?x with _ => _ end) => destruct x end
  | match goal with |- spells _ (if ?x then _ else _) (if ?x then _ else _) => destruct x end ].

Lemma sp_event cfg k r t msg st x : spells cfg (new_eventC id1 k r t msg st x) (new_event k r t msg st x).
Proof. unfold new_eventC, new_event. sp. Qed.
Lemma sp_new cfg l lvl nm kw rr p : spells cfg (new_actionC id1 l lvl nm kw rr p) (new_action l lvl nm kw rr p).
Proof. unfold new_actionC, new_action. sp. Qed.
Ltac sq := repeat first [ apply sp_event | apply sp_new | progress sp ].
Lemma sp_begin cfg r m kw : spells cfg (beginC cfg id1 r m kw) (begin cfg r m kw).
Proof. unfold beginC, begin. sq. Qed.
Lemma sp_warn cfg r m kw : spells cfg (warnC cfg id1 r m kw) (warn cfg r m kw).
Proof. unfold warnC, warn. sq. Qed.
Lemma sp_end cfg r st m kw et x : spells cfg (endC cfg id1 r st m kw et x) (end_ cfg r st m kw et x).
Proof. unfold endC, end_. sq; try (destruct (Z.eqb _ _); sq); try apply sp_begin. Qed.
Lemma sp_success cfg r m kw : spells cfg (successC cfg id1 r m kw) (success cfg r m kw).
Proof. unfold successC, success. sq; try apply sp_end. Qed.
Lemma sp_failure cfg r m kw : spells cfg (failureC cfg id1 r m kw) (failure cfg r m kw).
Proof. unfold failureC, failure. sq; try apply sp_end. Qed.
Lemma sp_exception cfg r x m kw : spells cfg (exceptionC cfg id1 r x m kw) (exception_ cfg r x m kw).
Proof. unfold exceptionC, exception_. sq; try apply sp_end. Qed.
Lemma sp_enter cfg r : spells cfg (enterC cfg id1 r) (enter cfg r).
Proof. unfold enterC, enter. sq; try apply sp_begin. Qed.
Lemma sp_exit cfg r x : spells cfg (exitC cfg id1 r x) (exit_ cfg r x).
Proof.
  unfold exitC, exit_. sq.
  2: apply sp_success.
  intros w. rewrite seq_andthen, (sp_exception cfg r (Some e) None [] w). destruct (exception_ cfg r (Some e) None [] w) as [w' [u|y]]; [reflexivity|].
    destruct (exn_ord y); [apply seq_atom|reflexivity].
Qed.
Lemma sp_elapsed cfg r : spells cfg (get_elapsedC cfg r) (get_elapsed_time cfg r).
Proof. unfold get_elapsedC, get_elapsed_time. sq. Qed.
Lemma sp_comment cfg l m kw p : spells cfg (commentC cfg id1 l m kw p) (comment cfg l m kw p).
Proof. unfold commentC, comment. sq. Qed.
Lemma sp_lookup_opt cfg px : spells cfg (lookup_optC px) (lookup_opt px).
Proof. unfold lookup_optC, lookup_opt. sq. Qed.
Lemma sp_with cfg r cb b : spells cfg cb b -> spells cfg (with_blockC cfg id1 r cb) (with_block cfg r b).
Proof.
  intros H w. unfold with_blockC, with_block, chain. rewrite seq_andthen, (sp_enter cfg r w). destruct (enter cfg r w) as [w1 [[]|e]]; [|reflexivity].
  rewrite seq_andthen, H. destruct (b w1) as [w2 [[]|e]]; rewrite seq_andthen.
  - rewrite (sp_exit cfg r None w2). unfold discard, bind. destruct (exit_ cfg r None w2) as [w3 [u|y]]; reflexivity.
  - rewrite (sp_exit cfg r (Some e) w2). destruct (exit_ cfg r (Some e) w2) as [w3 [[]|y]]; reflexivity.
Qed.
Theorem sp_prog cfg s : forall cur, spells cfg (prog cfg id1 cur s) (eval cfg cur s).
Proof.
  induction s; intros cur; cbn [prog eval]; sq; auto using sp_begin, sp_warn, sp_success, sp_failure, sp_exception, sp_elapsed, sp_comment, sp_lookup_opt.
  - apply sp_with. apply IHs.
  - apply sp_with. sq. apply IHs.
  - unfold discard. sq. apply sp_elapsed.
  - intros w. rewrite seq_andthen, (IHs1 cur w). destruct (eval cfg cur s1 w) as [w' [u|e]]; [reflexivity|].
    destruct (all || exn_ord e); [apply IHs2|reflexivity].
Qed.
