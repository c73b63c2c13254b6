(** Vocabulary for ids made with int2hexguid. *)
From Verif Require Import model.PyBase model.Json model.GuidHash spec.GuidSpec.
Open Scope N_scope.

(** SHA-1 digests are 40 hexadecimal digits. *)
Definition digests (digest : text -> text) : Prop := forall x, length (digest x) = 40%nat /\ Forall hex_char (digest x).
(** The first 24 digits of the digests of the two texts are equal only if the texts are. *)
Definition no_collision (digest : text -> text) (x y : text) : Prop := firstn 24 (digest x) = firstn 24 (digest y) -> x = y.
(** Four random bytes. *)
Definition four_bytes (l : list N) : Prop := length l = 4%nat /\ Forall (fun b => b < 256) l.
(** All calls are made by this process. *)
Definition by_process (pid : N) (l : list (around * gcall)) : Prop := Forall (fun c => ar_pid (fst c) = pid) l.
(** Two processes that can be told apart: by process id, by random bytes, or, with times written
    without a dash, by the time or by the name of the host. *)
Definition told_apart (a b : around) : Prop :=
  ar_pid a <> ar_pid b \/ ar_random a <> ar_random b \/
  (~ In 45 (ar_time a) /\ ~ In 45 (ar_time b) /\ (ar_time a <> ar_time b \/ (ar_host a <> [] /\ ar_host b <> [] /\ ar_host a <> ar_host b))).
