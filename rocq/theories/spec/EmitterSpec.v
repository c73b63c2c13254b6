(** Vocabulary for the emitter properties C49-C51. *)
From Verif Require Import model.PyBase model.Emitters.
Open Scope nat_scope.

(** [sub l' l]: [l'] is [l] with some elements left out, in the same order. *)
Inductive sub {A} : list A -> list A -> Prop :=
| sub_nil : sub [] []
| sub_keep x l1 l2 : sub l1 l2 -> sub (x :: l1) (x :: l2)
| sub_drop x l1 l2 : sub l1 l2 -> sub l1 (x :: l2).

(** The bytes of an entry on the stream: its encoding and the separator. *)
Definition line (em : emitter) (e : text) : bytes :=
  match em_encode em e with Some b => b ++ em_sep em | None => [] end.
Definition lines (em : emitter) (es : list text) : bytes := concat (map (line em) es).
(** The entries can be encoded. *)
Definition encodable (em : emitter) (es : list text) : Prop := forall e, In e es -> em_encode em e <> None.

(** [taken w] is what the streams have accepted so far: a write that returns adds
    its bytes, a write that raises adds nothing, nothing else adds any. *)
Definition records {W} (io : io_ops W) (taken : W -> bytes) : Prop :=
  (forall h b w w', io_write io h b w = (w', None) -> taken w' = taken w ++ b) /\
  (forall h b w w' e, io_write io h b w = (w', Some e) -> taken w' = taken w) /\
  (forall h w, taken (fst (io_flush io h w)) = taken w) /\
  (forall h w, taken (fst (io_close io h w)) = taken w) /\
  (forall n w, taken (fst (io_open io n w)) = taken w) /\
  (forall w, taken (fst (io_note io w)) = taken w).
(** No note handler raises. *)
Definition quiet_notes {W} (io : io_ops W) : Prop := forall w, snd (io_note io w) = None.
(** Every write returns / opening a file returns. *)
Definition writes_work {W} (io : io_ops W) : Prop := forall h b w, snd (io_write io h b w) = None.
Definition opens_work {W} (io : io_ops W) : Prop := forall n w, exists h, snd (io_open io n w) = inl h.
(** A write fails, and not because of a stale handle. *)
Definition plain_failure (r : option exc) : Prop := exists e, r = Some e /\ e <> ExOS (Some ESTALE).

(** Emissions and stale-handle incidents in a run of the file model. *)
Fixpoint emitted (evs : list fevent) : list text :=
  match evs with [] => [] | FEmit e :: r => e :: emitted r | FStale :: r => emitted r end.
Fixpoint incidents (evs : list fevent) : nat :=
  match evs with [] => 0 | FStale :: r => S (incidents r) | FEmit _ :: r => incidents r end.
(** Content of the file, and what the emitter's own stream still has buffered. *)
Definition buffered (w : fs) (em : emitter) : bytes :=
  match em_stream em with
  | Some i => match nth_error (fs_handles w) i with Some h => fh_buf h | None => [] end
  | None => []
  end.

(** A stream for examples: a log of accepted bytes and a script saying what the
    next writes raise. *)
Definition scripted : io_ops (bytes * list (option exc)) := mkIo _
  (fun _ b w => match snd w with
                | Some e :: s => ((fst w, s), Some e)
                | None :: s => ((fst w ++ b, s), None)
                | [] => ((fst w ++ b, []), None)
                end)
  (fun _ w => (w, None)) (fun _ w => (w, None)) (fun _ w => (w, inl 7)) (fun w => (w, None)).
