(** A FileEmitter used by several threads: StreamEmitter.emit_entry (emitters.py 94-115),
    StreamEmitter.flush (119-126), FileEmitter.close (142-151).

    One step is one operation on shared state: reading or setting self.stream, or one call
    of a method of a file object.  io.BufferedWriter holds its own lock during write, flush
    and close, so each of these is one step; their effect is that of Emitters.v ([fs_write],
    [fs_flush]: a write of bytes to the file is all or nothing).  A file object nobody refers
    to any more is closed at once (reference counting): io.IOBase.__del__ calls close, which
    flushes, and ignores errors.

    Simplifications: an entry is a number, [line] gives its encoded bytes with the separator;
    note handlers return; open() succeeds with a new handle; the file has a name that may be
    reopened and reopen_stale is set, as FileEmitter does by default. *)
From Verif Require Import model.PyBase model.Core model.Emitters.
Open Scope nat_scope.

(** What a thread does.  [XStale] is an incident: all handles open so far go stale. *)
Inductive xop := XEmit (k : nat) | XClose | XStale.
(** Where a thread is; [r] is true in the retry after reopening (113-114). *)
Inductive xpc :=
| EIdle
| ELoad (k : nat) (r : bool)                (* before reading self.stream, 97 / 113 *)
| EWrite (k h : nat) (r : bool)             (* has h.write; before calling it *)
| EFlushLoad (k : nat) (r : bool)           (* in flush, before reading self.stream, 120 *)
| EFlush (k h : nat) (r : bool)             (* has h.flush; before calling it, 124 *)
| EOpen (k : nat)                           (* got ESTALE; before open(), 110 *)
| ESet (k h : nat)                          (* opened [h]; before self.stream = h, 110 *)
| EReturn (k : nat)                         (* before returning, 115 *)
| ERaise (k : nat)                          (* an exception leaves emit_entry, from 113 *)
| CCheck                                    (* before 143 *)
| CFlushLoad                                (* in flush, before reading self.stream, 120 *)
| CFlush (h : nat)                          (* before h.flush(), 124 *)
| CTest                                     (* before 147 *)
| CLoad                                     (* before reading self.stream, 148 *)
| CClose (h : nat)                          (* before h.close(), 148 *)
| CSet                                      (* before self.stream = None, 149 *)
| CReturn.                                  (* before returning *)
(** What happened. *)
Inductive xobs :=
| OCalled (t k : nat) | OWrote (t k : nat) | ODone (t k : nat) | ORaised (t k : nat)
| OClose (t : nat) | OCloseDone (t : nat) | OStale (t : nat).
(** A thread: where it is and what it has still to do. *)
Record xthread := mkXT { xt_pc : xpc; xt_todo : list xop }.
(** The file with its handles, which handles are closed, self.stream, the threads. *)
Record xstate := mkXS {
  x_fs : fs; x_closed : list bool; x_stream : option nat; x_threads : list xthread; x_trace : list xobs }.

Section Emit.
Variables (cap : nat) (line : nat -> bytes).

(** bookkeeping, no counterpart in /repo: thread [t] moves on *)
Definition xat (t : nat) (p : xpc) (todo : list xop) (new : list xobs) (w : xstate) : xstate :=
  mkXS (x_fs w) (x_closed w) (x_stream w) (list_set (x_threads w) t (mkXT p todo)) (x_trace w ++ new).
(** bookkeeping, no counterpart in /repo *)
Definition set_fs (f : fs) (w : xstate) : xstate := mkXS f (x_closed w) (x_stream w) (x_threads w) (x_trace w).
(** bookkeeping, no counterpart in /repo *)
Definition set_stream (s : option nat) (w : xstate) : xstate := mkXS (x_fs w) (x_closed w) s (x_threads w) (x_trace w).
(** bookkeeping, no counterpart in /repo *)
Definition set_closed (h : nat) (w : xstate) : xstate := mkXS (x_fs w) (list_set (x_closed w) h true) (x_stream w) (x_threads w) (x_trace w).
(** bookkeeping, no counterpart in /repo *)
Definition is_closed (h : nat) (w : xstate) : bool := nth h (x_closed w) true.
(** BufferedWriter.write: ValueError if closed *)
Definition h_write (h : nat) (b : bytes) (w : xstate) : xstate * option exc :=
  if is_closed h w then (w, Some ExOther) else let '(f, r) := fs_write cap h b (x_fs w) in (set_fs f w, r).
(** BufferedWriter.flush: ValueError if closed; the result is not used (flush swallows it, 125-126) *)
Definition h_flush (h : nat) (w : xstate) : xstate :=
  if is_closed h w then w else set_fs (fst (fs_flush h (x_fs w))) w.
(** BufferedWriter.close: nothing if closed; flushes and closes, even if flushing raises *)
Definition h_close (h : nat) (w : xstate) : xstate * bool :=
  if is_closed h w then (w, true)
  else let '(f, r) := fs_flush h (x_fs w) in (set_closed h (set_fs f w), match r with None => true | Some _ => false end).
(** open(name, 'ab'), 110 *)
Definition h_open (w : xstate) : xstate * nat :=
  (mkXS (mkFs (fs_data (x_fs w)) (fs_handles (x_fs w) ++ [mkFh [] false])) (x_closed w ++ [false]) (x_stream w) (x_threads w) (x_trace w),
   length (fs_handles (x_fs w))).
(** The handle a thread holds a reference to *)
Definition holds (p : xpc) : option nat :=
  match p with EWrite _ h _ | EFlush _ h _ | ESet _ h | CFlush h | CClose h => Some h | _ => None end.
(** Is handle [h] referred to by self.stream or a thread? *)
Definition referenced (h : nat) (w : xstate) : bool :=
  match x_stream w with Some h' => Nat.eqb h' h | None => false end ||
  existsb (fun th => match holds (xt_pc th) with Some h' => Nat.eqb h' h | None => false end) (x_threads w).
(** A file object that is no longer referred to is closed *)
Definition drop (w : xstate) (h : nat) : xstate := if referenced h w then w else fst (h_close h w).
(** All of them *)
Definition collect (w : xstate) : xstate := fold_left drop (seq 0 (length (x_closed w))) w.

(** One operation of thread [t]; None: it has nothing to do. *)
Definition xmove (t : nat) (w : xstate) : option xstate :=
  match nth_error (x_threads w) t with
  | None => None
  | Some th =>
    let todo := xt_todo th in
    match xt_pc th with
    | EIdle =>
      match todo with
      | [] => None
      | XEmit k :: todo' => Some (xat t (ELoad k false) todo' [OCalled t k] w)
      | XClose :: todo' => Some (xat t CCheck todo' [OClose t] w)
      | XStale :: todo' => Some (xat t EIdle todo' [OStale t] (set_fs (fs_go_stale (x_fs w)) w))
      end
    | ELoad k r =>
      match x_stream w with
      | Some h => Some (xat t (EWrite k h r) todo [] w)
      | None => Some (xat t (if r then ERaise k else EReturn k) todo [] w)     (* AttributeError *)
      end
    | EWrite k h r =>
      let '(w1, x) := h_write h (line k) w in
      match x with
      | None => Some (xat t (EFlushLoad k r) todo [OWrote t k] w1)
      | Some e =>
        if r then Some (xat t (ERaise k) todo [] w1)
        else match e with
             | ExOS (Some n) => Some (xat t (if Z.eqb n ESTALE then EOpen k else EReturn k) todo [] w1)   (* 101-106 *)
             | _ => Some (xat t (EReturn k) todo [] w1)
             end
      end
    | EFlushLoad k r =>
      match x_stream w with
      | Some h => Some (xat t (EFlush k h r) todo [] w)
      | None => Some (xat t (EReturn k) todo [] w)                             (* 121-122 *)
      end
    | EFlush k h r => Some (xat t (EReturn k) todo [] (h_flush h w))
    | EOpen k => let '(w1, h) := h_open w in Some (xat t (ESet k h) todo [] w1)
    | ESet k h => Some (xat t (ELoad k true) todo [] (set_stream (Some h) w))
    | EReturn k => Some (xat t EIdle todo [ODone t k] w)
    | ERaise k => Some (xat t EIdle todo [ORaised t k] w)
    | CCheck => Some (xat t (match x_stream w with Some _ => CFlushLoad | None => CReturn end) todo [] w)
    | CFlushLoad => Some (xat t (match x_stream w with Some h => CFlush h | None => CTest end) todo [] w)
    | CFlush h => Some (xat t CTest todo [] (h_flush h w))
    | CTest => Some (xat t (match x_stream w with Some _ => CLoad | None => CReturn end) todo [] w)
    | CLoad => Some (xat t (match x_stream w with Some h => CClose h | None => CReturn end) todo [] w)  (* AttributeError, 150-151 *)
    | CClose h => let '(w1, ok) := h_close h w in Some (xat t (if ok then CSet else CReturn) todo [] w1)
    | CSet => Some (xat t CReturn todo [] (set_stream None w))
    | CReturn => Some (xat t EIdle todo [OCloseDone t] w)
    end
  end.
(** One step: the operation, then file objects no longer referred to are closed. *)
Definition xstep (t : nat) (w : xstate) : option xstate := option_map collect (xmove t w).
(** Running a schedule; threads with nothing to do are skipped. *)
Fixpoint xrun (sc : list nat) (w : xstate) : xstate :=
  match sc with
  | [] => w
  | t :: sc' => xrun sc' (match xstep t w with Some w' => w' | None => w end)
  end.
End Emit.
(** A new FileEmitter on a new file (136-140) and threads about to do the given operations. *)
Definition xstart (progs : list (list xop)) : xstate := mkXS fs_new [false] (Some 0) (map (mkXT EIdle) progs) [].
