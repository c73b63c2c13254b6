(** Small-step model of action creation and of the active parent, for any number of
    threads of one process: Action.__init__ (action.py 69, 87-90), __enter__ (245-248),
    __exit__ (250-271) and the hooks get_active_parent / set_active_parent of the context
    (context.py 34-53, 69-72).

    One step is one operation on shared state: next(_ACT_ID_ITER) (atomic in CPython),
    the read of the active parent, or its assignment (dict operations, atomic in CPython).
    What happens between them (events, sinks) does not touch the active parent and is
    left out; events draw their ids from the same counter, which only leaves gaps.  An
    explicit parent argument (87-88) is left out.  [key t l] is the entry of the map the hooks use when thread [t] handles an
    action of logger [l]. *)
From Verif Require Import model.PyBase model.Core.
Open Scope nat_scope.

(** Keys of the map of active actions. *)
Definition pkey := (nat * nat)%type.
(** The default hooks: the logger alone, context.py 43-53. *)
Definition by_logger (t l : nat) : pkey := (0, l).
(** Hooks keyed by thread and logger, as a caller may pass to LithoxylContext (69-72). *)
Definition by_thread (t l : nat) : pkey := (t, l).
(** [dict.get] and assignment / [dict.pop] on the map, context.py 44, 49-52. *)
Definition pmap := pkey -> option nat.
(** 47-53: setting None removes the entry *)
Definition pset (k : pkey) (v : option nat) (m : pmap) : pmap :=
  fun k' => if (fst k' =? fst k) && (snd k' =? snd k) then v else m k'.

(** What a thread does: [with log.info(..):], the end of its innermost with-block, or an
    action made without a block. *)
Inductive pop := PWith (l : nat) | PEnd | PMake (l : nat).
(** Where a thread is. *)
Inductive ppc :=
| PIdle                                          (* between operations *)
| PNew (l id : nat) (block : bool)               (* id drawn (69), parent not read (90) *)
| PEntering (l id : nat) (par : option nat).     (* created, before set_active_parent (247) *)
(** A thread: its place, its open with-blocks (innermost first) as logger, id and
    parent_action, and the operations left. *)
Record pthread := mkPT { pt_pc : ppc; pt_open : list (nat * nat * option nat); pt_todo : list pop }.
(** What happened, in order: an action got its parent; a block was entered; left. *)
Inductive pobs :=
| Created (t l id : nat) (par : option nat)
| Entered (t l id : nat)
| Left (t l id : nat).
(** _CONSEC_ACTIVE_ACT_MAP (or the map behind the hooks), _ACT_ID_ITER, the threads, the observations. *)
Record pstate := mkPS { ps_map : pmap; ps_next : nat; ps_threads : list pthread; ps_trace : list pobs }.

(** bookkeeping, no counterpart in /repo: thread [t] moves on *)
Definition pat (t : nat) (th : pthread) (m : pmap) (next : nat) (new : list pobs) (w : pstate) : pstate :=
  mkPS m next (list_set (ps_threads w) t th) (ps_trace w ++ new).

(** One step of thread [t]; None: it is done. *)
Definition pstep (key : nat -> nat -> pkey) (t : nat) (w : pstate) : option pstate :=
  match nth_error (ps_threads w) t with
  | None => None
  | Some th =>
    let open := pt_open th in let todo := pt_todo th in let m := ps_map w in let n := ps_next w in
    match pt_pc th with
    | PIdle =>
      match todo with
      | [] => None
      | PWith l :: todo' => Some (pat t (mkPT (PNew l n true) open todo') m (S n) [] w)          (* action.py 69 *)
      | PMake l :: todo' => Some (pat t (mkPT (PNew l n false) open todo') m (S n) [] w)         (* action.py 69 *)
      | PEnd :: todo' =>
        match open with
        | [] => Some (pat t (mkPT PIdle [] todo') m n [] w)
        | (l, id, par) :: open' =>
          Some (pat t (mkPT PIdle open' todo') (pset (key t l) par m) n [Left t l id] w)         (* action.py 267 *)
        end
      end
    | PNew l id block =>                                                                         (* action.py 90 *)
      let par := m (key t l) in
      Some (pat t (mkPT (if block then PEntering l id par else PIdle) open todo) m n [Created t l id par] w)
    | PEntering l id par =>                                                                      (* action.py 247 *)
      Some (pat t (mkPT PIdle ((l, id, par) :: open) todo) (pset (key t l) (Some id) m) n [Entered t l id] w)
    end
  end.
(** Running a schedule: a thread that is done is skipped. *)
Fixpoint prun (key : nat -> nat -> pkey) (sc : list nat) (w : pstate) : pstate :=
  match sc with
  | [] => w
  | t :: sc' => prun key sc' (match pstep key t w with Some w' => w' | None => w end)
  end.
(** Threads about to run their programs in a process that has made no action yet. *)
Definition pstart (progs : list (list pop)) : pstate := mkPS (fun _ => None) 0 (map (mkPT PIdle []) progs) [].
