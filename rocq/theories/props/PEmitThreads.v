(** C97: a FileEmitter used by several threads. *)
From Coq Require Import Permutation.
From Verif Require Import model.PyBase model.Emitters model.EmitThreads spec.EmitterSpec spec.EmitThreadsSpec proof.EmitThreadsProofs proof.EmitThreadsIncident.
Open Scope nat_scope.

(** Whatever the threads do, with incidents and close(): at every moment the file consists of
    whole lines of entries, no entry is in it more often than emit_entry was called with it,
    and each call hands over its line at most once, in the order of the calls of the thread. *)
Theorem C97_whole_lines : forall cap line progs sc, let w := xrun cap line sc (xstart progs) in
  (exists ks, fs_data (x_fs w) = text_of line ks /\
     forall k, count_occ Nat.eq_dec ks k <= count_occ Nat.eq_dec (map snd (emits_called (x_trace w))) k) /\
  forall t, sub (by_thread t (emits_written (x_trace w))) (by_thread t (emits_called (x_trace w))).
Proof.
  intros cap line progs sc w. split; [|intros t; apply written_called]. destruct (run_lines cap line progs sc) as (fl & bls & H & C). fold w in H, C. exists fl. split; [exact (hd_file _ _ _ _ H)|]. intros k.
  assert (K : cocc (map snd (emits_written (x_trace w))) k <= cocc (map snd (emits_called (x_trace w))) k).
  { apply count_split. intros [t k']. rewrite <- !by_count. apply sub_count. apply written_called. }
  specialize (C k). unfold all_of, cocc in *. rewrite count_occ_app in C. lia.
Qed.
Print Assumptions C97_whole_lines.

(** What is in the file stays there: whatever happens later is appended. *)
Theorem C97_only_grows : forall cap line progs sc more,
  exists new, fs_data (x_fs (xrun cap line (sc ++ more) (xstart progs))) = fs_data (x_fs (xrun cap line sc (xstart progs))) ++ new.
Proof. intros cap line progs sc more. rewrite xrun_app. apply run_grown. exists []. symmetry. apply app_nil_r. Qed.
Print Assumptions C97_only_grows.

(** Without incidents the lines are in the file in the order in which they were handed over;
    when a call has returned its line is in the file, unless close() had been called; nothing
    raises; and once close() has returned the file holds everything handed over. *)
Theorem C97_no_incident : forall cap line progs sc, no_incident progs -> let w := xrun cap line sc (xstart progs) in
  (exists ks rest, emits_written (x_trace w) = ks ++ rest /\ fs_data (x_fs w) = text_of line (map snd ks) /\
     forall t, t < length progs -> outside t (x_trace w) ->
       by_thread t rest = [] /\ (not_closed (x_trace w) -> by_thread t ks = by_thread t (emits_called (x_trace w)))) /\
  (forall t k, ~ In (ORaised t k) (x_trace w)) /\
  (forall t, In (OCloseDone t) (x_trace w) -> fs_data (x_fs w) = text_of line (map snd (emits_written (x_trace w)))).
Proof.
  intros cap line progs sc Ni w. destruct (run_one cap line progs sc Ni) as (c & buf & ks & rest & O). fold w in O. split; [|split].
  - exists ks, rest. split; [exact (on_written _ _ _ _ _ _ O)|]. split; [exact (on_data _ _ _ _ _ _ O)|]. intros t Lt Ou.
    assert (E : exists th, nth_error (x_threads w) t = Some th).
    { destruct (nth_error (x_threads w) t) as [th|] eqn:E; [exists th; reflexivity|]. apply nth_error_None in E. unfold w in E. rewrite XSt_threads_len in E. lia. }
    destruct E as [th E]. destruct (run_calls cap line progs sc _ _ E) as (p & _ & C & _). fold w in C.
    assert (Ic : in_call (xt_pc th) = []) by (unfold outside in Ou; rewrite Ou in C; rewrite <- (app_nil_r (by_thread t (emits_ended (x_trace w)))) in C at 1; apply app_inv_head in C; congruence).
    assert (Fl : by_thread t rest = []).
    { destruct (on_pc _ _ _ _ _ _ O _ _ E) as [P _]. destruct (xt_pc th); cbn [npc in_call] in *; try discriminate; unfold flushed in P; tauto. }
    split; [exact Fl|]. intros Nc. pose proof (run_exact cap line progs sc Ni Nc _ _ E) as X. fold w in X. rewrite Ic in X. rewrite (on_written _ _ _ _ _ _ O), by_app, Fl, app_nil_r in X. rewrite X. unfold outside in Ou. rewrite Ou. destruct (before_write (xt_pc th)); apply app_nil_r.
  - exact (on_raised _ _ _ _ _ _ O).
  - intros t I. rewrite (on_written _ _ _ _ _ _ O), (on_empty _ _ _ _ _ _ O (on_done _ _ _ _ _ _ O _ I)), app_nil_r. exact (on_data _ _ _ _ _ _ O).
Qed.
Print Assumptions C97_no_incident.

(** So when all threads are done, without incidents and close(), the file is an interleaving
    of the lines of the threads: each thread's entries, in its order, nothing else. *)
Theorem C97_complete : forall cap line progs sc, no_incident progs -> let w := xrun cap line sc (xstart progs) in
  all_done cap line w -> not_closed (x_trace w) ->
  exists ks, fs_data (x_fs w) = text_of line (map snd ks) /\ (forall t k, In (t, k) ks -> t < length progs) /\
    forall t p, nth_error progs t = Some p -> by_thread t ks = entries_of p.
Proof.
  intros cap line progs sc Ni w Q Nc. destruct (C97_no_incident cap line progs sc Ni) as ((ks & rest & E1 & E2 & E3) & _). fold w in E1, E2, E3. exists ks. split; [exact E2|]. split.
  - intros t k I. apply (run_known cap line progs sc t k). left. fold w. rewrite E1. apply in_or_app. left. exact I.
  - intros t p Ep. assert (Lt : t < length progs) by (apply nth_error_Some; congruence).
    assert (E : exists th, nth_error (x_threads w) t = Some th).
    { destruct (nth_error (x_threads w) t) as [th|] eqn:E; [exists th; reflexivity|]. apply nth_error_None in E. unfold w in E. rewrite XSt_threads_len in E. lia. }
    destruct E as [th E]. pose proof (done_threads _ _ _ _ _ Q E) as ->. destruct (run_calls cap line progs sc _ _ E) as (p' & Ep' & C & D). fold w in C, D. cbn [xt_pc xt_todo in_call] in C, D. rewrite app_nil_r in C. cbn in D. rewrite app_nil_r in D.
    replace p with p' by congruence. rewrite D. apply (E3 t Lt); assumption.
Qed.
Print Assumptions C97_complete.

(** One incident, at any moment, costs no more than what fits into one buffer, no matter how
    many threads find the file stale and reopen it: when all threads are done the file holds
    all other entries, each as often as it was emitted, and no call has raised. *)
Theorem C97_one_incident : forall cap line progs sc, let w := xrun cap line sc (xstart progs) in
  incidents (x_trace w) <= 1 -> not_closed (x_trace w) -> all_done cap line w ->
  (exists ks lost, fs_data (x_fs w) = text_of line ks /\ length (text_of line lost) <= cap /\ Permutation (ks ++ lost) (concat (map entries_of progs))) /\
  forall t k, ~ In (ORaised t k) (x_trace w).
Proof. exact run_incident. Qed.
Print Assumptions C97_one_incident.

(** *** Concrete runs *)
Definition two (k : nat) : bytes := [N.of_nat k; 10%N].
Definition ex_progs : list (list xop) := [[XEmit 1; XEmit 2]; [XEmit 3]; [XClose]].
(* threads 0 and 1 take turns *)
Definition ex_sched : list nat := [0; 1; 1; 0; 1; 0; 0; 0; 1; 1; 0; 1; 0; 0; 0; 0; 0; 0].
Example C97_run : no_incident (firstn 2 ex_progs) /\ let w := xrun 3 two ex_sched (xstart (firstn 2 ex_progs)) in
  all_done 3 two w /\ not_closed (x_trace w) /\ fs_data (x_fs w) = text_of two [3; 1; 2].
Proof.
  split; [intros p [<-|[<-|[]]]; cbn; intuition discriminate|]. split; [intros [|[|t]]; vm_compute; try reflexivity; destruct t; reflexivity|].
  split; [intros t I; vm_compute in I; intuition discriminate|vm_compute; reflexivity].
Qed.
(* close() while thread 0 is between its calls: entry 2 is dropped *)
Example C97_run_close : no_incident ex_progs /\ let w := xrun 3 two ([0; 0; 0; 0; 0; 0] ++ repeat 2 9 ++ [0; 0; 0; 0; 0]) (xstart ex_progs) in
  In (OCloseDone 2) (x_trace w) /\ outside 0 (x_trace w) /\ by_thread 0 (emits_called (x_trace w)) = [1; 2] /\ fs_data (x_fs w) = text_of two [1].
Proof. split; [intros p [<-|[<-|[<-|[]]]]; cbn; intuition discriminate|]. split; [vm_compute; tauto|]. repeat split; vm_compute; reflexivity. Qed.

(** *** What does not hold *)
(** With an incident the order of one thread's lines can be lost, and a call can return before
    its line is in the file: two threads reopen the file one after the other, and a third still
    holds the first new file object.  Here thread 0 emits entry 1 and then entry 4; when both
    calls have returned only entry 4 is in the file, and entry 1 follows it in the end. *)
Definition bad_progs : list (list xop) := [[XEmit 1; XEmit 4]; [XEmit 2]; [XEmit 3]; [XStale; XEmit 0]].
Theorem C97_incident_order_refuted : exists cap line sc1 sc2,
  let w1 := xrun cap line sc1 (xstart bad_progs) in let w2 := xrun cap line (sc1 ++ sc2) (xstart bad_progs) in
  by_thread 0 (emits_written (x_trace w1)) = [1; 4] /\ by_thread 0 (emits_ended (x_trace w1)) = [1; 4] /\ fs_data (x_fs w1) = text_of line [4] /\
  all_done cap line w2 /\ fs_data (x_fs w2) = text_of line [4; 1; 3; 2].
Proof.
  exists 3, two, (repeat 3 7 ++ [0; 0; 0; 1; 1; 1; 0; 0; 2; 2; 0; 0; 1; 1; 0; 0; 0] ++ repeat 0 6), (repeat 2 4 ++ repeat 1 5).
  repeat split; try (vm_compute; reflexivity). intros [|[|[|[|t]]]]; vm_compute; try reflexivity. destruct t; reflexivity.
Qed.
Print Assumptions C97_incident_order_refuted.

(* this run meets the conditions of C97_one_incident: entry 0 is lost *)
Example C97_one_incident_run : let w := xrun 3 two (repeat 3 7 ++ [0; 0; 0; 1; 1; 1; 0; 0; 2; 2; 0; 0; 1; 1; 0; 0; 0] ++ repeat 0 6 ++ repeat 2 4 ++ repeat 1 5) (xstart bad_progs) in
  incidents (x_trace w) = 1 /\ not_closed (x_trace w) /\ all_done 3 two w /\ Permutation ([4; 1; 3; 2] ++ [0]) (concat (map entries_of bad_progs)).
Proof.
  split; [vm_compute; reflexivity|]. split; [intros t I; vm_compute in I; intuition discriminate|]. split; [intros [|[|[|[|t]]]]; vm_compute; try reflexivity; destruct t; reflexivity|].
  apply (Permutation_count_occ Nat.eq_dec). intros [|[|[|[|[|x]]]]]; reflexivity.
Qed.

(** close() in one thread while another reopens the file after an incident: emit_entry raises. *)
Theorem C97_never_raises_refuted : exists cap line progs sc t k, In (ORaised t k) (x_trace (xrun cap line sc (xstart progs))).
Proof. exists 0, two, [[XEmit 0]; [XStale; XClose]], ([1; 0; 0; 0; 0; 0] ++ repeat 1 8 ++ [0; 0]), 0, 0. vm_compute. tauto. Qed.
Print Assumptions C97_never_raises_refuted.
