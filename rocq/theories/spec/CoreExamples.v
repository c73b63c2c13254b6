(** Concrete environments and programs used by the non-vacuity examples. *)
From Verif Require Import model.PyBase model.Core spec.CoreSpec.

(** Clock ticking once per reading; every sink has every hook; nobody raises. *)
Definition quiet_cfg : config :=
  mkConfig Z.of_nat (fun _ _ => true) (fun _ _ _ _ _ => None) (fun _ _ _ => None) (fun _ _ => None)
           (fun _ => Ok "boom").
(** Sink 1 raises an ordinary exception in its hook [k]. *)
Definition loud_cfg (k : kind) : config :=
  mkConfig Z.of_nat (fun _ _ => true)
           (fun _ _ k' s _ => if kind_eqb k k' && Nat.eqb s 1 then Some (mkExn 9 true) else None)
           (fun _ _ _ => None) (fun _ _ => None) (fun _ => Ok "boom").

Definition boom := mkExn 7 true.
Definition interrupt := mkExn 8 false.   (* e.g. KeyboardInterrupt *)

Lemma quiet_calm : calm quiet_cfg.
Proof. split; try discriminate; intros ? ? *; reflexivity. Qed.
Lemma quiet_exc : exc_quiet quiet_cfg.
Proof. split; [intros ? ? *; reflexivity | intros x; eexists; reflexivity]. Qed.
Lemma quiet_all : all_quiet quiet_cfg.
Proof.
  split; [intros k t l s e; reflexivity|]. split; [intros; reflexivity|]. split; [intros; reflexivity|].
  intros x; eexists; reflexivity.
Qed.
Lemma quiet_clock : monotone_clock quiet_cfg.
Proof. intros i j H. simpl. lia. Qed.
Lemma loud_exc_calm : calm (loud_cfg KExc).
Proof.
  split.
  - intros t l s e. reflexivity.
  - intros t l s e. reflexivity.
  - intros t l s e x. simpl. destruct (Nat.eqb s 1); inversion 1; reflexivity.
  - reflexivity.
  - discriminate.
Qed.

(** Two sinks on logger 0, synchronous / asynchronous. *)
Definition w_sync (cfg : config) : world := run_ops cfg [OpAddSink 0 1; OpAddSink 0 2] (init (fun _ => false)).
Definition w_async (cfg : config) : world := run_ops cfg [OpAddSink 0 1; OpAddSink 0 2] (init (fun _ => true)).
Lemma w_sync_reach cfg : reach cfg (w_sync cfg).
Proof. unfold w_sync, run_ops. do 2 apply reach_call. apply reach_init. Qed.
Lemma w_async_reach cfg : reach cfg (w_async cfg).
Proof. unfold w_async, run_ops. do 2 apply reach_call. apply reach_init. Qed.

(** A body with a nested block whose exception is handled, a warning, an early
    [failure()] and a final raise. *)
Definition busy_body : stmt :=
  SSeq (SWarn 0 "careful" [])
  (SSeq (STry false (SWithNew 1 0 20 "child" [] None None (SSeq (SSuccess 1 None []) (SRaise boom))) (SException 0 None []))
  (SSeq (SFailure 0 None [("k", 1%Z)]%string)
  (SSeq (SComment 0 "hi" []) (SRaise boom)))).
Definition calm_body : stmt :=
  SSeq (SWithNew 1 0 20 "child" [] None None (SWarn 0 "deep" [])) (SFailure 0 None []).
