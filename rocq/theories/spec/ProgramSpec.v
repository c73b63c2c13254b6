(** The log of a program, computed from its text alone: C89.

    A program is a tree of with-blocks whose bodies call their actions, raise and
    catch exceptions, write comments and open further blocks.  [log_of] says which
    lines the program writes, block by block, without the objects, queues, hooks and
    flags of the library. *)
From Verif Require Import model.PyBase model.Core spec.CoreSpec spec.CallSpec.

(** One event as a sink can see it: the logger and hook, the action (by creation
    order), its name, level and parent, and the event's status, message and exception. *)
Record line := Line {
  n_log : nat; n_kind : kind; n_act : nat; n_name : string; n_level : Z; n_parent : option nat;
  n_status : option status; n_msg : string; n_exc : option exn }.

(** A with-block being executed: its variable, the number, logger, level, name and
    parent of its action, whether the action carries data, and the outcome recorded
    by the latest success(), failure() or exception() call. *)
Record block := Block {
  f_var : nat; f_num : nat; f_log : nat; f_level : Z; f_name : string; f_parent : option nat;
  f_keyed : bool;
  f_verdict : option (status * string * option exn) }.

(** ** Programs

    Blocks are opened by [with logger.action(...) as x] and the variable is used only
    inside its block, where no inner block reuses it; parents are not passed
    explicitly.  [vars]: variables of the blocks around the statement. *)
Fixpoint scoped (vars : list nat) (s : stmt) : Prop :=
  match s with
  | SSkip | SComment _ _ _ | SFlush _ | SRaise _ | SReraise => True
  | SSeq a b | STry _ a b => scoped vars a /\ scoped vars b
  | SNew _ _ _ _ _ _ _ | SWith _ _ => False
  | SWithNew x _ _ _ _ _ px b =>
      ~ In x vars /\ px = None /\ scoped (x :: vars) b
  | SBegin x _ _ | SWarn x _ _ | SSuccess x _ _ | SFailure x _ _ | SException x _ _
  | SSet x _ _ | SElapsed x => In x vars
  end.

Section Log.
(** How an exception is described in messages, and the active action of each logger
    before the program starts. *)
Variable describe : exn -> string.
Variable root : nat -> option nat.

Definition line_at (f : block) (k : kind) (st : option status) (m : string) (x : option exn) : line :=
  Line (f_log f) k (f_num f) (f_name f) (f_level f) (f_parent f) st m x.
Definition find_block (x : nat) (fs : list block) : option block :=
  find (fun f => Nat.eqb (f_var f) x) fs.
Definition on_block (x : nat) (g : block -> block) (fs : list block) : list block :=
  map (fun f => if Nat.eqb (f_var f) x then g f else f) fs.
(** The innermost open block of a logger. *)
Definition current (l : nat) (fs : list block) : option nat :=
  match find (fun f => Nat.eqb (f_log f) l) fs with
  | Some f => Some (f_num f)
  | None => root l
  end.
Definition given (kw : data) : bool := match kw with [] => false | _ => true end.
Definition keyed (kw : data) (f : block) : block :=
  Block (f_var f) (f_num f) (f_log f) (f_level f) (f_name f) (f_parent f) (f_keyed f || given kw) (f_verdict f).
Definition judged (v : status * string * option exn) (f : block) : block :=
  Block (f_var f) (f_num f) (f_log f) (f_level f) (f_name f) (f_parent f) (f_keyed f) (Some v).
(** Default texts. *)
Definition default (f : block) (what : string) : string :=
  (f_name f +s what) +s (if f_keyed f then " - ({data_map_repr})" else "").
Definition failed_with (f : block) (x : exn) : string := default f (" raised exception: " +s describe x).

(** The lines written when the block is left, with [r] what the body ended with. *)
Definition closing (f : block) (r : res unit) : list line :=
  match r with
  | Raise x => [line_at f KExc None (failed_with f x) (Some x);
                line_at f KEnd (Some Exception_) (failed_with f x) (Some x)]
  | Ok _ =>
    match f_verdict f with
    | Some (st, m, x) => [line_at f KEnd (Some st) m x]
    | None => [line_at f KEnd (Some Success) (default f " succeeded") None]
    end
  end.

(** Number of actions created so far, open blocks (innermost first), lines, and how it ended. *)
Definition outcome : Type := nat * list block * list line * res unit.

Fixpoint log_of (cur : option exn) (s : stmt) (n : nat) (fs : list block) : outcome :=
  match s with
  | SSkip => (n, fs, [], Ok tt)
  | SSeq a b =>
    match log_of cur a n fs with
    | (n1, fs1, ls1, Ok _) =>
      let '(n2, fs2, ls2, r) := log_of cur b n1 fs1 in (n2, fs2, ls1 ++ ls2, r)
    | o => o
    end
  | STry all a b =>
    match log_of cur a n fs with
    | (n1, fs1, ls1, Raise x) =>
      if all || exn_ord x
      then let '(n2, fs2, ls2, r) := log_of (Some x) b n1 fs1 in (n2, fs2, ls1 ++ ls2, r)
      else (n1, fs1, ls1, Raise x)
    | o => o
    end
  | SWithNew x l lvl nm kw rr _ b =>
    let f := Block x n l lvl nm (current l fs) (given kw) None in
    let '(n1, fs1, ls, r) := log_of cur b (S n) (f :: fs) in
    match fs1 with
    | f1 :: fs' => (n1, fs', line_at f KBegin None (nm +s " beginning") None :: ls ++ closing f1 r, propagate rr r)
    | [] => (n1, [], ls, r)    (* there is no such case *)
    end
  | SBegin x _ kw => (n, on_block x (keyed kw) fs, [], Ok tt)
  | SWarn x m kw =>
    (n, on_block x (keyed kw) fs,
     match find_block x fs with Some f => [line_at f KWarn None m None] | None => [] end, Ok tt)
  | SSuccess x m kw =>
    (n, on_block x (fun f => keyed kw (judged (Success, text m (default f " succeeded"), None) f)) fs, [], Ok tt)
  | SFailure x m kw =>
    (n, on_block x (fun f => keyed kw (judged (Failure, text m (default f " failed"), None) f)) fs, [], Ok tt)
  | SException x m kw =>
    match cur with
    | None => (n, fs, [], Raise exn_no_traceback)
    | Some ex =>
      (n, on_block x (fun f => keyed kw (judged (Exception_, text m (failed_with f ex), Some ex) f)) fs,
       match find_block x fs with
       | Some f => [line_at f KExc None (text m (failed_with f ex)) (Some ex)]
       | None => []
       end, Ok tt)
    end
  | SSet x k v => (n, on_block x (keyed [(k, v)]) fs, [], Ok tt)
  | SElapsed _ | SFlush _ => (n, fs, [], Ok tt)
  | SComment l m _ => (S n, fs, [Line l KComment n "_comment" 90 (current l fs) None m None], Ok tt)
  | SRaise x => (n, fs, [], Raise x)
  | SReraise => (n, fs, [], match cur with Some x => Raise x | None => Raise exn_no_active end)
  | SNew _ _ _ _ _ _ _ | SWith _ _ => (n, fs, [], Ok tt)   (* not in [scoped] programs *)
  end.

(** The lines of a whole program, and how it ends; [n] actions exist already. *)
Definition lines_of (s : stmt) (n : nat) : list line := snd (fst (log_of None s n [])).
Definition ends_with (s : stmt) (n : nat) : res unit := snd (log_of None s n []).
End Log.

(** What a sink sees of an event it received from logger [l]. *)
Definition line_seen (w : world) (l : nat) (p : kind * event) : line :=
  let e := snd p in
  let a := nth_error (w_acts w) (e_act e) in
  Line l (fst p) (e_act e)
    (match a with Some a => a_name a | None => "" end)
    (match a with Some a => a_level a | None => 0%Z end)
    (match a with Some a => a_parent a | None => None end)
    (e_status e) (e_msg e) (e_exc e).
Definition lines_seen (w : world) (l : nat) (ps : list (kind * event)) : list line := map (line_seen w l) ps.

(** The lines a sink of logger [l] is interested in. *)
Definition lines_for (cfg : config) (l s : nat) (ls : list line) : list line :=
  filter (fun n => Nat.eqb (n_log n) l && cf_has cfg s (n_kind n)) ls.

(** Begin and end lines, as brackets: every block is opened once and closed once,
    and what is opened inside is closed inside. *)
Definition brackets (ls : list line) : list (kind * nat) :=
  flat_map (fun n => match n_kind n with
                     | KBegin | KEnd => [(n_kind n, n_act n)]
                     | _ => []
                     end) ls.
Inductive nested : list (kind * nat) -> Prop :=
| nested_none : nested []
| nested_block r inside after : nested inside -> nested after ->
    nested ((KBegin, r) :: inside ++ (KEnd, r) :: after).
