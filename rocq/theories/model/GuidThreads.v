(** Small-step model of /repo/lithoxyl/utils.py 171-188 and 210-223 (guids) for any
    number of threads of one process, and of Action.guid, action.py 110-112.

    One step is one operation on a module global: the test at 221, the assignment of
    _PID at 181, that of _GUID_START at 186, the read at 223.  The schedule picks the
    thread and, for an assignment of _GUID_START, the seed that thread drew. *)
From Verif Require Import model.PyBase model.Json model.Core.
From Verif Require Export model.Guid.
Open Scope N_scope.

(** Where a thread is in int2hexguid_seq(id). *)
Inductive gpc :=
| GIdle                   (* between calls *)
| GCheck (id : N)         (* before [if getpid() != _PID], 221 *)
| GSetPid (id : N)        (* before [_PID = getpid()], 181 *)
| GSetStart (id : N)      (* before [_GUID_START = ...], 186 *)
| GRead (id : N).         (* before [return '%x' % (_GUID_START + id_int)], 223 *)
(** A thread: where it stands and the guids it has still to ask for. *)
Record gthread := mkGT { gt_pc : gpc; gt_todo : list N }.
(** The process [gp_me] (getpid()): the globals, the threads, and every guid returned
    so far, with the thread and the id, in order; [gp_seeds] are the seeds assigned. *)
Record gproc := mkGP { gp_me : N; gp_glob : guids; gp_threads : list gthread; gp_out : list (nat * N * text); gp_seeds : list N }.
(** Bookkeeping, no counterpart in /repo: thread [t] moves on. *)
Definition gat (t : nat) (p : gpc) (todo : list N) (g : guids) (out : list (nat * N * text)) (seeds : list N) (w : gproc) : gproc :=
  mkGP (gp_me w) g (list_set (gp_threads w) t (mkGT p todo)) (gp_out w ++ out) (gp_seeds w ++ seeds).
(** One step of thread [t]; None: it has nothing to do. *)
Definition gstep (t : nat) (seed : N) (w : gproc) : option gproc :=
  match nth_error (gp_threads w) t with
  | None => None
  | Some th =>
    let todo := gt_todo th in let g := gp_glob w in
    match gt_pc th with
    | GIdle => match todo with [] => None | id :: todo' => Some (gat t (GCheck id) todo' g [] [] w) end
    | GCheck id => Some (gat t (if gp_me w =? g_pid g then GRead id else GSetPid id) todo g [] [] w)
    | GSetPid id => Some (gat t (GSetStart id) todo (mkGuids (gp_me w) (g_start g)) [] [] w)
    | GSetStart id => Some (gat t (GRead id) todo (mkGuids (g_pid g) seed) [] [seed] w)
    | GRead id => Some (gat t GIdle todo g [(t, id, hex (g_start g + id))] [] w)
    end
  end.
(** Running a schedule. *)
Fixpoint gsched (sc : list (nat * N)) (w : gproc) : gproc :=
  match sc with
  | [] => w
  | (t, seed) :: sc' => gsched sc' (match gstep t seed w with Some w' => w' | None => w end)
  end.
(** Process [me] with the given globals, its threads about to ask for guids of the
    given ids.  A forked child starts with its parent's globals. *)
Definition process (me : N) (g : guids) (progs : list (list N)) : gproc :=
  mkGP me g (map (mkGT GIdle) progs) [] [].

(** Action.guid, a cachedproperty, action.py 110-112: [cache] is the instance's
    [__dict__] entry. *)
Definition action_guid (g : guids) (pid seed id : N) (cache : option text) : guids * text * option text :=
  match cache with
  | Some t => (g, t, cache)
  | None => let '(g', t) := int2hexguid_seq g pid seed id in (g', t, Some t)
  end.
