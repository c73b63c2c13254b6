(** Vocabulary for the moving averages of floats. *)
From Verif Require Import model.PyBase model.Bisect model.Levels model.Quantile model.FloatMoments.
Open Scope Q_scope.

(** Histories: values added, and reads with the two clock readings a read may make. *)
Inductive fop := FAdd (v : Q) | FRead (t1 t2 : Q).
(** The accumulator after a history. *)
Fixpoint fw_run (rnd fexp : Q -> Q) (s : fewma) (ops : list fop) : pyres fewma :=
  match ops with
  | [] => Ok s
  | FAdd v :: ops' => fw_run rnd fexp (fw_add rnd s v) ops'
  | FRead t1 t2 :: ops' => let? s1 := fw_read rnd fexp t1 t2 s in fw_run rnd fexp s1 ops'
  end.
(** The rates measured in a history: a read measures if [interval] seconds have passed since
    the last time, at [last]; the first time that this is not so a read measures, too
    ([forced]).  The rate is the sum of the values since then over the time since then. *)
Fixpoint measured (rnd : Q -> Q) (interval : Q) (forced : bool) (sum last : Q) (ops : list fop) : list Q :=
  match ops with
  | [] => []
  | FAdd v :: ops' => measured rnd interval forced (rnd (sum + v)) last ops'
  | FRead t1 t2 :: ops' =>
    let due := Qle_bool interval (rnd (t1 - last)) in
    if due || forced then rnd (sum / rnd (t2 - last)) :: measured rnd interval (due && forced) 0 t2 ops'
    else measured rnd interval forced sum last ops'
  end.
(** The clock never stands still between two reads, and shows floats. *)
Fixpoint fadvancing (float : Q -> Prop) (last : Q) (ops : list fop) : Prop :=
  match ops with
  | [] => True
  | FAdd v :: ops' => fadvancing float last ops'
  | FRead t1 t2 :: ops' => last < t1 /\ t1 <= t2 /\ float t1 /\ float t2 /\ fadvancing float t2 ops'
  end.
Definition adds_nonneg (ops : list fop) : Prop := forall v, In (FAdd v) ops -> 0 <= v.
