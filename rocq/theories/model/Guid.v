(** Model of /repo/lithoxyl/utils.py 171-223 (guids). *)
From Verif Require Import model.PyBase model.Json.
Open Scope N_scope.

(** [str %x] of a number: hexadecimal digits, lower case, most significant first. *)
Fixpoint hex_digits (fuel : nat) (n : N) : text :=
  match fuel with
  | O => []
  | S f => if n <? 16 then [hexdigit n] else hex_digits f (n / 16) ++ [hexdigit (n mod 16)]
  end.
(** ['%x' % n] for all numbers, utils.py 223. *)
Definition hex (n : N) : text := hex_digits (S (N.to_nat (N.log2 n))) n.

(** The module globals _PID and _GUID_START. *)
Record guids := mkGuids { g_pid : N; g_start : N }.
(** reseed_guid, 171-188: the first 24 hexadecimal digits of a SHA-1 digest of
    process id, host name, time and random bytes are taken as an arbitrary [seed]
    below 16^24. *)
Definition reseed (pid seed : N) : guids := mkGuids pid seed.
(** int2hexguid_seq, 210-223: [pid] is what getpid() returns now, [seed] what a
    reseeding would draw. *)
Definition int2hexguid_seq (g : guids) (pid seed id : N) : guids * text :=
  let g' := if negb (pid =? g_pid g) then reseed pid seed else g in
  (g', hex (g_start g' + id)).
(** A series of calls, each with the current process id, seed and the id given. *)
Fixpoint guid_run (g : guids) (calls : list (N * N * N)) : list text :=
  match calls with
  | [] => []
  | (pid, seed, id) :: r => let '(g', t) := int2hexguid_seq g pid seed id in t :: guid_run g' r
  end.
