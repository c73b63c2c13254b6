(** Model of /repo/lithoxyl/utils.py 171-223: int2hexguid with the salt it hashes, next to
    int2hexguid_seq, in a process and its forks.

    Simplifications: [sha1(text.encode('utf8')).hexdigest()] is an arbitrary function [digest] on
    texts (host names that cannot be encoded are not modelled); ids are not negative; texts are
    lists of code points. *)
From Verif Require Import model.PyBase model.Json model.Format model.Template model.Guid.
Open Scope N_scope.

(** What getpid(), socket.gethostname(), str(time.time()) and os.urandom(4) return. *)
Record around := mkAround { ar_pid : N; ar_host : text; ar_time : text; ar_random : list N }.
(** [bytes.hex()], 179. *)
Definition hex_of_bytes (l : list N) : text := flat_map (fun b => [hexdigit (b / 16); hexdigit (b mod 16)]) l.
(** _GUID_SALT as reseed_guid makes it, 182-185. *)
Definition salt_of (a : around) : text :=
  str_of_N (ar_pid a) ++ [45] ++ (match ar_host a with [] => lit "<nohostname>" | h => h end) ++ [45] ++ ar_time a ++ [45] ++ hex_of_bytes (ar_random a).
(** [int(text, 16)], 186. *)
Definition int16 (t : text) : N := fold_left (fun n c => 16 * n + (if c <=? 57 then c - 48 else c - 87)) t 0.
(** _PID, _GUID_SALT, _GUID_START, 192-194. *)
Record hguids := mkHguids { hg_pid : N; hg_salt : text; hg_start : N }.

Section Digest.
Context (digest : text -> text).
(** reseed_guid, 171-188. *)
Definition hreseed (a : around) : hguids := mkHguids (ar_pid a) (salt_of a) (int16 (firstn 24 (digest (salt_of a)))).
(** int2hexguid, 200-207. *)
Definition int2hexguid (g : hguids) (id : N) : text := firstn 24 (digest (hg_salt g ++ str_of_N id)).
(** The two functions a program can call. *)
Inductive gcall := Hashed (id : N) | Seq (id : N).
(** A call: int2hexguid, or int2hexguid_seq, 210-223. *)
Definition gcall_step (g : hguids) (a : around) (c : gcall) : hguids * text :=
  match c with
  | Hashed id => (g, int2hexguid g id)
  | Seq id => let g' := if negb (ar_pid a =? hg_pid g) then hreseed a else g in (g', hex (hg_start g' + id))
  end.
(** Calls one after another: what they return, and the globals afterwards. *)
Fixpoint gcalls (g : hguids) (l : list (around * gcall)) : hguids * list text :=
  match l with
  | [] => (g, [])
  | (a, c) :: l' => let '(g1, t) := gcall_step g a c in let '(g2, ts) := gcalls g1 l' in (g2, t :: ts)
  end.
End Digest.
