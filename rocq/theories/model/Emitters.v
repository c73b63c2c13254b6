(** Model of /repo/lithoxyl/emitters.py: StreamEmitter and FileEmitter.
    (AggregateEmitter is in Sinks.v.) *)
From Verif Require Import model.PyBase.
Open Scope nat_scope.

(** Python [bytes]. *)
Definition bytes := list N.
(** Code points of a text. *)
Definition text := list N.

(** Exceptions raised by streams and note handlers: exactly [OSError] (the same
    class as [IOError]) with its [errno], or anything else deriving from
    [Exception].  KeyboardInterrupt and the like are not modelled. *)
Inductive exc := ExOS (errno : option Z) | ExOther.
(** [errno.ESTALE] on Linux *)
Definition ESTALE : Z := 116.

(** The world the emitter talks to: streams (by handle), the file system and the
    registered note handlers.  [None] means that the operation returned.  A stream
    without a callable [flush] is one whose [io_flush] does nothing. *)
Record io_ops (W : Type) := mkIo {
  io_write : nat -> bytes -> W -> W * option exc;
  io_flush : nat -> W -> W * option exc;
  io_close : nat -> W -> W * option exc;
  io_open : string -> W -> W * (nat + exc);
  io_note : W -> W * option exc
}.
Arguments io_write {W}. Arguments io_flush {W}. Arguments io_close {W}. Arguments io_open {W}. Arguments io_note {W}.

(** The emitter object, __init__ 62-92: [em_stream] is None once closed,
    [em_name] is [_stream_name], [em_sep] the encoded separator (empty if falsy).
    [em_encode] is [entry.encode(encoding, errors)]; None means that it raised.
    The argument checks of __init__ are in EmitterInit.v. *)
Record emitter := mkEm {
  em_stream : option nat; em_name : option string; em_sep : bytes; em_reopen : bool;
  em_encode : text -> option bytes
}.
(** [self.stream = ...] *)
Definition em_set_stream (em : emitter) (h : option nat) : emitter :=
  mkEm h (em_name em) (em_sep em) (em_reopen em) (em_encode em).

Section Emit.
Context {W : Type} (io : io_ops W).

(** [self.stream.write(...)], 97 and 113; [None.write] raises AttributeError *)
Definition stream_write (em : emitter) (data : bytes) (w : W) : W * option exc :=
  match em_stream em with
  | None => (w, Some ExOther)
  | Some h => io_write io h data w
  end.
(** flush, 119-126.  [getattr(None, 'flush', None)] is None: nothing happens. *)
Definition flush (em : emitter) (w : W) : W * option exc :=
  match em_stream em with
  | None => (w, None)
  | Some h =>
    match io_flush io h w with
    | (w1, None) => (w1, None)
    | (w1, Some _) => io_note io w1
    end
  end.
(** 97-98 and 113-114 *)
Definition write_and_flush (em : emitter) (data : bytes) (w : W) : W * option exc :=
  match stream_write em data w with
  | (w1, None) => flush em w1
  | (w1, Some e) => (w1, Some e)
  end.
(** The test at 101-104 *)
Definition is_stale (em : emitter) (e : exc) : bool :=
  match e with ExOS (Some n) => em_reopen em && Z.eqb n ESTALE | _ => false end.
(** The test at 106: the name to reopen, if any *)
Definition reopen_name (em : emitter) : option string :=
  match em_name em with
  | Some n => if String.eqb n "" || String.eqb n "<stdout>" || String.eqb n "<stderr>" then None else Some n
  | None => None
  end.
(** emit_entry, 94-115.  The result is the exception that leaves the method. *)
Definition emit_entry (em : emitter) (entry : text) (w : W) : W * emitter * option exc :=
  match em_encode em entry with
  | None => (w, em, Some ExOther)
  | Some b =>
    let data := b ++ em_sep em in
    match write_and_flush em data w with
    | (w1, None) => (w1, em, None)
    | (w1, Some e) =>
      match io_note io w1 with
      | (w2, Some e2) => (w2, em, Some e2)
      | (w2, None) =>
        if is_stale em e then
          match reopen_name em with
          | None => (w2, em, None)
          | Some name =>
            match io_note io w2 with
            | (w3, Some e3) => (w3, em, Some e3)
            | (w3, None) =>
              match io_open io name w3 with
              | (w4, inr e4) => (w4, em, Some e4)
              | (w4, inl h) =>
                let em' := em_set_stream em (Some h) in
                match write_and_flush em' data w4 with
                | (w5, r) => (w5, em', r)
                end
              end
            end
          end
        else (w2, em, None)
      end
    end
  end.
(** FileEmitter.close, 142-151 *)
Definition close (em : emitter) (w : W) : W * emitter * option exc :=
  match em_stream em with
  | None => (w, em, None)
  | Some h =>
    match flush em w with
    | (w1, Some _) => match io_note io w1 with (w2, r) => (w2, em, r) end
    | (w1, None) =>
      match io_close io h w1 with
      | (w2, None) => (w2, em_set_stream em None, None)
      | (w2, Some _) => match io_note io w2 with (w3, r) => (w3, em, r) end
      end
    end
  end.
(** A sequence of emissions by a caller that survives exceptions; the list holds
    what each call raised. *)
Fixpoint emit_all (em : emitter) (es : list text) (w : W) : W * emitter * list (option exc) :=
  match es with
  | [] => (w, em, [])
  | e :: es' =>
    let '(w1, em1, r) := emit_entry em e w in
    let '(w2, em2, rs) := emit_all em1 es' w1 in (w2, em2, r :: rs)
  end.
End Emit.

(** ** A file opened for appending
    External: CPython's [io.BufferedWriter] over [io.FileIO].  [fs_data] is the
    content of the one file; each handle has a buffer and may be stale, after which
    every write of bytes to it fails with ESTALE and leaves the buffer as it is.
    [cap] is the buffer size; [cap = 0] is the unbuffered [FileIO].  Writes to the
    file are all or nothing. *)
Record fhandle := mkFh { fh_buf : bytes; fh_stale : bool }.
(** The file system seen by a FileEmitter: the data of the file and the handles opened on it. *)
Record fs := mkFs { fs_data : bytes; fs_handles : list fhandle }.
(** Replace the state of a handle (bookkeeping). *)
Fixpoint set_handle (hs : list fhandle) (i : nat) (h : fhandle) : list fhandle :=
  match hs, i with
  | [], _ => []
  | _ :: hs', 0 => h :: hs'
  | x :: hs', S i' => x :: set_handle hs' i' h
  end.
(** A write of [b] to the file through a handle: writing nothing always succeeds. *)
Definition raw_write (h : fhandle) (b : bytes) (data : bytes) : option bytes :=
  match b with
  | [] => Some data
  | _ => if fh_stale h then None else Some (data ++ b)
  end.
(** [BufferedWriter.flush] *)
Definition fs_flush (i : nat) (w : fs) : fs * option exc :=
  match nth_error (fs_handles w) i with
  | None => (w, Some ExOther)
  | Some h =>
    match raw_write h (fh_buf h) (fs_data w) with
    | None => (w, Some (ExOS (Some ESTALE)))
    | Some d => (mkFs d (set_handle (fs_handles w) i (mkFh [] (fh_stale h))), None)
    end
  end.
(** [BufferedWriter.write]: buffer what fits, else empty the buffer first and write
    directly what is longer than the buffer. *)
Definition fs_write (cap : nat) (i : nat) (b : bytes) (w : fs) : fs * option exc :=
  match nth_error (fs_handles w) i with
  | None => (w, Some ExOther)
  | Some h =>
    if (length (fh_buf h) + length b <=? cap) && (length b <? cap)
    then (mkFs (fs_data w) (set_handle (fs_handles w) i (mkFh (fh_buf h ++ b) (fh_stale h))), None)
    else
      match raw_write h (fh_buf h) (fs_data w) with
      | None => (w, Some (ExOS (Some ESTALE)))
      | Some d =>
        if length b <=? cap
        then (mkFs d (set_handle (fs_handles w) i (mkFh b (fh_stale h))), None)
        else
          match raw_write h b d with
          | None => (mkFs d (set_handle (fs_handles w) i (mkFh [] (fh_stale h))), Some (ExOS (Some ESTALE)))
          | Some d' => (mkFs d' (set_handle (fs_handles w) i (mkFh [] (fh_stale h))), None)
          end
      end
  end.
(** The file system as seen by the emitter: opening always succeeds with a new
    handle, no note handler raises; [close] flushes. *)
Definition fs_io (cap : nat) : io_ops fs := mkIo fs
  (fs_write cap) fs_flush fs_flush
  (fun _ w => (mkFs (fs_data w) (fs_handles w ++ [mkFh [] false]), inl (length (fs_handles w))))
  (fun w => (w, None)).
(** What happens over time: an entry is emitted, or all handles open so far go
    stale. *)
Inductive fevent := FEmit (e : text) | FStale.
(** Every open handle becomes stale (the file system was remounted, say). *)
Definition fs_go_stale (w : fs) : fs := mkFs (fs_data w) (map (fun h => mkFh (fh_buf h) true) (fs_handles w)).
(** A sequence of entries and incidents, emitters.py 94-126, 132-151. *)
Fixpoint fs_run (cap : nat) (em : emitter) (evs : list fevent) (w : fs) : fs * emitter * list (option exc) :=
  match evs with
  | [] => (w, em, [])
  | FStale :: evs' => fs_run cap em evs' (fs_go_stale w)
  | FEmit e :: evs' =>
    let '(w1, em1, r) := emit_entry (fs_io cap) em e w in
    let '(w2, em2, rs) := fs_run cap em1 evs' w1 in (w2, em2, r :: rs)
  end.
(** FileEmitter.__init__, 136-140, on a file that does not exist yet: the first
    handle. *)
Definition file_emitter (name : string) (sep : bytes) (encode : text -> option bytes) : emitter :=
  mkEm (Some 0) (Some name) sep true encode.
(** A new file just opened, emitters.py 136-140. *)
Definition fs_new : fs := mkFs [] [mkFh [] false].
