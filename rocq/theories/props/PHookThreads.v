(** C93: sinks registered while other threads log. *)
From Verif Require Import model.PyBase model.Core model.HookThreads spec.HookThreadsSpec proof.HookThreadsProofs.
Open Scope nat_scope.

Definition traced (has : nat -> kind -> bool) (progs : list (list hop)) (sc : list nat) : list hobs :=
  hs_trace (hrun has sc (hstart progs)).

(** A sink whose add_sink() had returned, in any thread, before an event was published gets
    the event, whatever the other threads register or publish in the meantime. *)
Theorem C93_registered_get_it has progs sc t k e x y s : no_set progs -> distinct_events progs ->
  traced has progs sc = x ++ PStarted t k e :: y -> In (PDone t k e) (traced has progs sc) ->
  added s x -> has s k = true -> In s (callees e (traced has progs sc)).
Proof.
  intros HN HD Ex Hd Ha Hh. destruct (hi_done _ _ _ (hrun_inv has progs HN HD sc) t k e Hd) as (_ & _ & D). exact (D x y t k s Ex Ha Hh).
Qed.
Print Assumptions C93_registered_get_it.

(** Only sinks with a hook of the event's kind, and whose add_sink() has been called, get it. *)
Theorem C93_only_registered has progs sc t k e s : no_set progs -> distinct_events progs ->
  In (PStarted t k e) (traced has progs sc) -> In s (callees e (traced has progs sc)) ->
  has s k = true /\ add_called s (traced has progs sc).
Proof.
  intros HN HD Hs Hc. pose proof (hrun_inv has progs HN HD sc) as I. destruct (hi_started _ _ _ I t k e Hs) as [n En].
  apply (hi_has _ _ _ I). unfold traced in Hc. rewrite En in Hc. rewrite <- (firstn_skipn n (H _ k)). apply in_or_app. left. exact Hc.
Qed.
Print Assumptions C93_only_registered.

(** No sink gets an event twice, provided no two threads add the same sink (one thread may
    add it any number of times). *)
Theorem C93_once has progs sc t k e : no_set progs -> distinct_events progs -> one_adder progs ->
  In (PStarted t k e) (traced has progs sc) -> NoDup (callees e (traced has progs sc)).
Proof.
  intros HN HD HO Hs. pose proof (hrun_inv has progs HN HD sc) as I. destruct (hi_started _ _ _ I t k e Hs) as [n En].
  unfold traced. rewrite En. pose proof (hu_nodup _ _ (hrun_uniq has progs HN HD HO sc) k) as N. rewrite <- (firstn_skipn n) in N.
  revert N. generalize (firstn n (H (hrun has sc (hstart progs)) k)) (skipn n (H (hrun has sc (hstart progs)) k)). intros l m N.
  induction l as [|a l IH]; [constructor|]. inversion N as [|a0 l0 Hna Hnd]; subst. constructor; [intros Hi; apply Hna, in_or_app; auto|auto].
Qed.
Print Assumptions C93_once.

(** Events reach the sinks in the order of registration: if add_sink(s1) had returned before
    add_sink(s2) was first called, s1 gets an event before s2 does. *)
Theorem C93_order has progs sc t k e s1 s2 x t2 y : no_set progs -> distinct_events progs ->
  In (PStarted t k e) (traced has progs sc) ->
  traced has progs sc = x ++ ACalled t2 s2 :: y -> ~ add_called s2 x -> added s1 x -> has s1 k = true ->
  In s2 (callees e (traced has progs sc)) -> before s1 s2 (callees e (traced has progs sc)).
Proof.
  intros HN HD Hs Ex Hn Ha Hh Hc. pose proof (hrun_inv has progs HN HD sc) as I. destruct (hi_started _ _ _ I t k e Hs) as [n En].
  unfold traced in *. rewrite En in *. apply in_split in Hc. destruct Hc as (a & b & Eab). rewrite Eab.
  assert (Hin : In s1 a).
  { apply (hi_order _ _ _ I k a s2 (b ++ skipn n (H (hrun has sc (hstart progs)) k))) with (x := x) (t := t2) (y := y); try assumption.
    rewrite <- (firstn_skipn n (H _ k)) at 1. rewrite Eab, <- app_assoc. reflexivity. }
  apply in_split in Hin. destruct Hin as (a1 & a2 & ->). exists a1, a2, b. rewrite <- app_assoc. reflexivity.
Qed.
Print Assumptions C93_order.

(** Once add_sink(s) has returned, s is among [logger.sinks]. *)
Theorem C93_listed has progs sc s : no_set progs -> distinct_events progs -> added s (traced has progs sc) ->
  let w := hrun has sc (hstart progs) in In s (hs_heap w (hs_all w)).
Proof.
  intros HN HD Ha w. pose proof (hrun_inv has progs HN HD sc) as I. unfold w. rewrite (hi_all _ _ _ I). exact (hi_added _ _ _ I s Ha).
Qed.
Print Assumptions C93_listed.

(** The claims without their hypotheses are false.  Two threads that add the same sink: both
    find it missing, and it gets events twice. *)
Theorem C93_double_add_refuted : exists has progs sc t k e s, no_set progs /\ distinct_events progs /\
  In (PDone t k e) (traced has progs sc) /\ callees e (traced has progs sc) = [s; s].
Proof.
  exists (fun _ _ => true), [[HAdd 7]; [HAdd 7]; [HPub KEnd 1]], ([0; 1] ++ repeat 0 12 ++ repeat 1 12 ++ repeat 2 4), 2, KEnd, 1, 7.
  split; [|split; [|split]].
  - intros p ss Hp Hi. cbn in Hp. decompose [or] Hp; subst; cbn in Hi; intuition congruence.
  - repeat constructor; cbn; intuition.
  - vm_compute. intuition.
  - vm_compute. reflexivity.
Qed.
Print Assumptions C93_double_add_refuted.

(** An event published while another thread replaces the sinks by the same sinks can miss them. *)
Theorem C93_replacing_misses_refuted : exists has progs sc x y t k e s, distinct_events progs /\
  (forall p ss, In p progs -> In (HSet ss) p -> In s ss) /\
  traced has progs sc = x ++ PStarted t k e :: y /\ added s x /\ has s k = true /\
  In (PDone t k e) (traced has progs sc) /\ ~ In s (callees e (traced has progs sc)).
Proof.
  exists (fun _ _ => true), [[HAdd 7; HSet [7]]; [HPub KEnd 1]], (repeat 0 12 ++ repeat 0 7 ++ repeat 1 2).
  exists [ACalled 0 7; AReturned 0 7; SCalled 0], [PDone 1 KEnd 1], 1, KEnd, 1, 7.
  split; [repeat constructor; cbn; intuition|]. split.
  - intros p ss [<-|[<-|[]]] Hi; [destruct Hi as [Hi|[Hi|[]]]|destruct Hi as [Hi|[]]]; try discriminate Hi. injection Hi as <-. left. reflexivity.
  - split; [vm_compute; reflexivity|].
    split; [exists 0; cbn; auto|]. split; [reflexivity|]. split; [vm_compute; intuition|vm_compute; intuition].
Qed.
Print Assumptions C93_replacing_misses_refuted.

(** add_sink() racing with set_sinks(): the hooks go to the replaced list while the sink is
    listed in the new one.  From then on the sink is listed and gets nothing, and adding it again
    does nothing. *)
Theorem C93_lost_hook_refuted : exists has progs sc t k e s,
  let w := hrun has sc (hstart progs) in
  In s (hs_heap w (hs_all w)) /\ has s k = true /\ distinct_events progs /\
  (exists x y, traced has progs sc = x ++ AReturned t s :: y /\ In (PStarted t k e) y) /\ In (PDone t k e) (traced has progs sc) /\
  callees e (traced has progs sc) = [].
Proof.
  exists (fun _ k => kind_eqb k KEnd), [[HAdd 7; HAdd 7; HPub KEnd 1]; [HSet []]], (repeat 0 4 ++ repeat 1 8 ++ repeat 0 12), 0, KEnd, 1, 7.
  split; [vm_compute; intuition|]. split; [reflexivity|]. split; [repeat constructor; cbn; intuition|]. split.
  - exists [ACalled 0 7; SCalled 1; AReturned 0 7; ACalled 0 7], [PStarted 0 KEnd 1; PDone 0 KEnd 1]. split; [vm_compute; reflexivity|]. left. reflexivity.
  - split; [vm_compute; intuition|vm_compute; reflexivity].
Qed.
Print Assumptions C93_lost_hook_refuted.

(** Three threads: two register sinks 1, 2 and 3 (3 has no end hook) and one logs throughout. *)
Definition ex_progs : list (list hop) := [[HAdd 1; HAdd 2; HAdd 1]; [HAdd 3]; [HPub KEnd 10; HPub KBegin 11; HPub KEnd 12]].
Definition ex_has (s : nat) (k : kind) : bool := negb ((s =? 3) && kind_eqb k KEnd).
Definition ex_sched : list nat := [2; 0; 1; 0; 0; 1; 0; 0; 1; 2; 0; 0; 0; 0; 1; 0; 0; 0; 0; 0; 2; 2; 0; 0; 0; 2; 1; 1; 1; 1; 1; 1; 2; 2; 0; 0; 0; 0; 0; 0; 0; 0; 0; 0; 0; 0; 0; 0; 2; 2; 2; 2; 2; 2; 2].
Example C93_example : no_set ex_progs /\ distinct_events ex_progs /\ one_adder ex_progs /\
  callees 10 (traced ex_has ex_progs ex_sched) = [] /\ callees 11 (traced ex_has ex_progs ex_sched) = [1; 3; 2] /\
  callees 12 (traced ex_has ex_progs ex_sched) = [1; 2].
Proof.
  split; [|split; [|split]].
  - intros p ss Hp Hi. cbn in Hp. decompose [or] Hp; subst; cbn in Hi; intuition congruence.
  - repeat constructor; cbn; intuition congruence.
  - intros [|[|[|i]]] [|[|[|j]]] p q s Ep Eq Hp Hq; cbn in Ep, Eq; try (destruct i; discriminate); try (destruct j; discriminate); try reflexivity;
      injection Ep as <-; injection Eq as <-; cbn in Hp, Hq; intuition congruence.
  - vm_compute. repeat split; reflexivity.
Qed.
