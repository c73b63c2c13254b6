(** C94: one action used by several threads. *)
From Coq Require Import ZArith.
From Verif Require Import model.PyBase model.Core model.SharedAction spec.SharedActionSpec proof.SharedActionProofs.
Open Scope nat_scope.

(** No call ever asks None for an attribute: a thread with something left to do can go on. *)
Theorem C94_never_stuck time progs sc t th : let w := srun time sc (sstart progs) in
  nth_error (ss_threads w) t = Some th -> th <> mkST [] [] -> exists w', sstep time t w = Some w'.
Proof. intros w. apply okw_steps. apply okw_run. Qed.
Print Assumptions C94_never_stuck.

(** Every warn() publishes exactly one event of its own. *)
Theorem C94_warnings time progs sc : let w := srun time sc (sstart progs) in finished w ->
  (forall t p, nth_error progs t = Some p -> length (warns (by_thread t (ss_trace w))) = length (warned p)) /\
  NoDup (map sv_id (warns (ss_trace w))).
Proof.
  intros w HF. split; [|apply wuniq_run]. intros t p Ep.
  assert (L : length (ss_threads w) = length progs).
  { unfold w. assert (X : length (ss_threads (sstart progs)) = length progs) by (cbn; apply map_length). revert X. generalize (sstart progs). clear. induction sc as [|t sc IH]; intros w E; [exact E|].
    cbn. apply IH. destruct (sstep time t w) as [w'|] eqn:Es; [|exact E]. destruct (sstep_shape _ _ _ _ Es) as (a & b & c & _ & E2 & _). rewrite E2. rewrite <- E. clear. revert t. induction (ss_threads w); intros [|t]; cbn; auto. }
  destruct (nth_error (ss_threads w) t) as [th|] eqn:Et; [|apply nth_error_None in Et; rewrite L in Et; apply nth_error_None in Et; congruence].
  pose proof (warns_count time progs sc t p th Ep Et) as C. rewrite (HF th (nth_error_In _ _ Et)) in C. cbn in C. fold w in C. lia.
Qed.
Print Assumptions C94_warnings.

(** No thread publishes two begin events; once begin() or __enter__() has returned and every
    call is over, the begin event the action shows has been published. *)
Theorem C94_begins time progs sc : let w := srun time sc (sstart progs) in
  (forall t th, nth_error (ss_threads w) t = Some th -> length (begins (by_thread t (ss_trace w))) <= 1) /\
  forall t op, finished w -> In (SRet t op) (ss_trace w) -> op = SBegin \/ op = SEnter ->
    exists b, ss_begin w = Some b /\ In b (begins (ss_trace w)).
Proof.
  intros w. split.
  - intros t th Et. pose proof (bokw_run time progs sc t th Et) as K. fold w in K. destruct (st_code th) as [|i c]; cbn in K; [tauto|]. destruct i; try (destruct K as (K1 & K2 & K3); lia).
    destruct c as [|[] c]; try contradiction. lia.
  - intros t op HF Hr Hop. destruct (ret_ok_run time progs sc) as [R _]. assert (Hb : begins_op op = true) by (destruct Hop as [-> | ->]; reflexivity). pose proof (R t op Hr Hb) as S. fold w in S.
    destruct (ss_begin w) as [b|] eqn:Eb; [|discriminate]. exists b. split; [reflexivity|].
    destruct (begin_due_run time progs sc b Eb) as [HB|(i & th & Ei & Hi)]; [exact HB|]. rewrite (HF th (nth_error_In _ _ Ei)) in Hi. destruct Hi as [[]|[]].
Qed.
Print Assumptions C94_begins.

(** If the action has begun before the threads start on it, no further begin event is ever
    published, and all its end events carry the time of its beginning. *)
Theorem C94_begun time progs sc1 sc2 b : let w1 := srun time sc1 (sstart progs) in let w2 := srun time sc2 w1 in
  quiet w1 -> ss_begin w1 = Some b ->
  begins (ss_trace w2) = begins (ss_trace w1) /\ ss_begin w2 = Some b /\
  ((forall p, In p progs -> plain p) -> ss_end w1 = None -> ends (ss_trace w1) = [] ->
   forall e, In e (ends (ss_trace w2)) -> sv_time e = sv_time b).
Proof.
  intros w1 w2 HQ Hb.
  assert (S : settled b w1) by (split; [exact Hb|]; intros t th Et; rewrite (HQ th (nth_error_In _ _ Et)); intros i []).
  destruct (settled_run time b sc2 w1 S) as [[S1 _] S2]. split; [exact S2|]. split; [exact S1|].
  intros HP HE HN. assert (T : timew b w2); [|exact (tm_pub b w2 T)]. unfold w2. apply srun_inv; [intros w t w' E; exact (timew_step _ _ _ _ _ E)|].
  constructor; [|exact S|rewrite HE; discriminate|rewrite HN; intros e []|].
  - unfold w1. apply srun_inv; [intros w t w' E; exact (plainw_step _ _ _ _ E)|exact (plainw_start progs HP)].
  - intros t th i Et Hi. rewrite (HQ th (nth_error_In _ _ Et)) in Hi. destruct Hi.
Qed.
Print Assumptions C94_begun.

(** Every published end event has an outcome that was asked for; outside with blocks every
    success() or failure() publishes one end event, and when all calls are over the outcome
    the action shows has been published. *)
Theorem C94_ends time progs sc : let w := srun time sc (sstart progs) in (forall p, In p progs -> plain p) ->
  (forall e, In e (ends (ss_trace w)) -> exists t o, sv_out e = Some o /\ In (SCall t (SEnd o)) (ss_trace w)) /\
  (forall t p th, nth_error progs t = Some p -> nth_error (ss_threads w) t = Some th -> finished w ->
     length (ends (by_thread t (ss_trace w))) = length (asked p)) /\
  (forall o, finished w -> shown_status w = Some o -> In (Some o) (outcomes (ends (ss_trace w)))).
Proof.
  intros w HP. split; [|split].
  - intros e He. destruct (og_pub w (orgw_run time progs sc) e He) as (o & Eo & [[t Ht]|[_ [t Ht]]]); [exists t, o; auto|exfalso].
    assert (X : forall t op, In (SCall t op) (ss_trace w) -> op <> SExit).
    { assert (Y : plainw w /\ forall t op, In (SCall t op) (ss_trace w) -> op <> SExit); [|apply Y]. unfold w. apply srun_inv; [|split; [exact (plainw_start progs HP)|intros t1 op []]].
      intros w0 t1 w1 E [P Q]. split; [exact (plainw_step _ _ _ _ E P)|]. intros t2 op Hi. destruct (sstep_shape _ _ _ _ E) as (th & th' & o' & E1 & _ & E3 & _).
      rewrite E3 in Hi. apply in_app_or in Hi. destruct Hi as [Hi|Hi]; [exact (Q t2 op Hi)|]. destruct (pw_code w0 P t1 th E1) as [_ [_ HT]].
      sstep_cases E th1 code todo Et; injection E1 as <-; cbn in E3; apply app_inv_head in E3; subst o'; cbn in Hi; try contradiction; destruct Hi as [Hi|[]]; try discriminate Hi.
      injection Hi as <- <-. intros ->. apply HT. left. reflexivity. }
    exact (X t SExit Ht eq_refl).
  - intros t p th Ep Et HF. pose proof (ends_count time progs sc t p th HP Ep Et) as C. rewrite (HF th (nth_error_In _ _ Et)) in C. cbn in C. fold w in C. lia.
  - intros o HF Ho. unfold shown_status in Ho. destruct (ss_end w) as [e|] eqn:Ee; [|discriminate].
    destruct (end_due_run time progs sc HP e Ee) as [HB|(i & th & Ei & Hi)]; [rewrite <- Ho; apply in_map; exact HB|]. rewrite (HF th (nth_error_In _ _ Ei)) in Hi. destruct Hi as [[]|[[]|[]]].
Qed.
Print Assumptions C94_ends.

(** If only one thread calls success() and failure(), exactly its outcomes are published, in order. *)
Theorem C94_one_ender time progs sc t p : let w := srun time sc (sstart progs) in (forall p, In p progs -> plain p) ->
  nth_error progs t = Some p -> (forall t' p', t' <> t -> nth_error progs t' = Some p' -> asked p' = []) ->
  nth_error (ss_threads w) t = Some (mkST [] []) -> outcomes (ends (ss_trace w)) = asked p.
Proof.
  intros w HP Ep Ho Et. destruct (al_me _ _ _ (alonew_run progs t p time sc HP Ep Ho) _ Et) as [_ M]. cbn in M. rewrite app_nil_r in M. exact M.
Qed.
Print Assumptions C94_one_ender.

(** A with block whose workers are started inside and joined before its end: one begin event
    and one end event, with the outcome the action showed before __exit__(), or success. *)
Theorem C94_block time ops workers sc1 sc2 : let w1 := srun time sc1 (sstart ((SEnter :: ops ++ [SExit]) :: workers)) in
  let w2 := srun time sc2 w1 in
  plain ops -> (forall p, In p workers -> plain p) -> forked_inside (ss_trace w1) -> ~ In (SCall 0 SExit) (ss_trace w1) ->
  nth_error (ss_threads w1) 0 = Some (mkST [] [SExit]) -> (forall t th, t <> 0 -> nth_error (ss_threads w1) t = Some th -> th = mkST [] []) ->
  finished w2 ->
  length (begins (ss_trace w2)) = 1 /\
  exists e, ends (ss_trace w2) = [e] /\ sv_out e = match shown_status w1 with Some o => Some o | None => Some Success end.
Proof.
  intros w1 w2 HO HW HF HX H0 Hoth Hfin.
  destruct (block_inside ops workers HO HW time sc1 HF HX) as [N|I]; [fold w1 in N|fold w1 in I].
  - exfalso. destruct N as (_ & _ & _ & _ & (c & td & N5 & N6)). rewrite H0 in N5. injection N5 as <- <-.
    destruct N6 as [(_ & N6 & _)|(_ & [(N6 & _)|[(N6 & _)|(_ & _ & [(N6 & _)|[(N6 & _)|(b & _ & [(N6 & _)|[(N6 & _)|(N6 & _)]])]])]])]; discriminate N6.
  - destruct I as (I1 & I2 & I3 & (b & I4 & I4') & I5 & I6 & I7). split; [destruct (settled_run time b sc2 w1 I4) as [_ S2]; unfold w2; rewrite S2, I4'; reflexivity|].
    assert (L : leaving (ss_end w1) w2).
    { unfold w2. apply (srun_inv (leaving (ss_end w1))); [intros w t w' E; exact (leaving_step _ _ _ _ _ E)|]. split; [exact I1|]. split; [exact Hoth|]. exists [], [SExit]. split; [exact H0|]. left. auto. }
    destruct L as (_ & _ & (c & td & L3 & L4)).
    pose proof (Hfin _ (nth_error_In _ _ L3)) as Ex. injection Ex as -> ->.
    assert (Og : forall e, ss_end w1 = Some e -> exists o, sv_out e = Some o).
    { intros e Ee. destruct (og_end w1 (orgw_run time _ sc1) e Ee) as (o & Eo & _). eauto. }
    destruct L4 as [(L4 & _)|(_ & [(L4 & _)|(_ & [(L4 & _)|[(L4 & _)|[(tm & L4 & _)|(e & G & [(L4 & _)|[(L4 & _)|[(L4 & _)|[(L4 & _)|(_ & Lp)]]]])]]])])]; try discriminate L4.
    exists e. split; [exact Lp|]. unfold shown_status. destruct (ss_end w1) as [e1|] eqn:Ee; [subst e1; destruct (Og e eq_refl) as [o ->]; reflexivity|exact G].
Qed.
Print Assumptions C94_block.

(** Without such an order things go wrong.  Two threads call begin(): both publish the same event, and
    the one created first is never published. *)
Theorem C94_two_begins_refuted : exists time progs sc b, let w := srun time sc (sstart progs) in
  finished w /\ begins (ss_trace w) = [b; b] /\ sv_id b = 1.
Proof.
  exists (fun n => Z.of_nat n), [[SBegin]; [SBegin]], [0; 1; 0; 1; 0; 1; 0; 1; 0; 1; 0; 1]. eexists.
  split; [|split; [vm_compute; reflexivity|reflexivity]]. intros th Hi. vm_compute in Hi. decompose [or] Hi; subst; try contradiction; reflexivity.
Qed.
Print Assumptions C94_two_begins_refuted.

(** begin() in one thread and success() in another: the end event can come before the begin event. *)
Theorem C94_end_first_refuted : exists time progs sc e b, let w := srun time sc (sstart progs) in
  finished w /\ (forall p, In p progs -> plain p) /\ exists x y, ss_trace w = x ++ SPubE 1 e :: y /\ begins x = [] /\ begins y = [b].
Proof.
  exists (fun n => Z.of_nat n), [[SBegin]; [SEnd Success]], ([0; 0; 0] ++ repeat 1 9 ++ repeat 0 5). eexists. eexists.
  split; [intros th Hi; vm_compute in Hi; decompose [or] Hi; subst; try contradiction; reflexivity|].
  split; [intros p Hp; cbn in Hp; decompose [or] Hp; subst; try contradiction; split; cbn; intuition discriminate|].
  exists [SCall 0 SBegin; SCall 1 (SEnd Success)]. eexists. split; [vm_compute; reflexivity|]. split; [reflexivity|vm_compute; reflexivity].
Qed.
Print Assumptions C94_end_first_refuted.

(** success() and failure() at the same time: one outcome is published twice, the other never. *)
Theorem C94_lost_outcome_refuted : exists time progs sc, let w := srun time sc (sstart progs) in
  finished w /\ (forall p, In p progs -> plain p) /\ In (SRet 1 (SEnd Failure)) (ss_trace w) /\
  outcomes (ends (ss_trace w)) = [Some Success; Some Success].
Proof.
  exists (fun n => Z.of_nat n), [[SEnd Success]; [SEnd Failure]], ([0; 0; 0; 0; 0; 0; 0] ++ repeat 1 5 ++ repeat 0 6 ++ repeat 1 9).
  split; [intros th Hi; vm_compute in Hi; decompose [or] Hi; subst; try contradiction; reflexivity|].
  split; [intros p Hp; cbn in Hp; decompose [or] Hp; subst; try contradiction; split; cbn; intuition discriminate|].
  split; [vm_compute; intuition|vm_compute; reflexivity].
Qed.
Print Assumptions C94_lost_outcome_refuted.

(** The last outcome published need not be the one the action shows in the end. *)
Theorem C94_stale_last_refuted : exists time progs sc, let w := srun time sc (sstart progs) in
  finished w /\ (forall p, In p progs -> plain p) /\ shown_status w = Some Failure /\
  outcomes (ends (ss_trace w)) = [Some Failure; Some Success].
Proof.
  exists (fun n => Z.of_nat n), [[SEnd Success]; [SEnd Failure]], (repeat 0 11 ++ repeat 1 12 ++ repeat 0 9).
  split; [intros th Hi; vm_compute in Hi; decompose [or] Hi; subst; try contradiction; reflexivity|].
  split; [intros p Hp; cbn in Hp; decompose [or] Hp; subst; try contradiction; split; cbn; intuition discriminate|].
  split; [vm_compute; reflexivity|vm_compute; reflexivity].
Qed.
Print Assumptions C94_stale_last_refuted.

(** First warnings at the same time: both are published, one is missing from action.warn_events. *)
Theorem C94_warn_events_refuted : exists time progs sc e1 e2 l, let w := srun time sc (sstart progs) in
  finished w /\ warns (ss_trace w) = [e1; e2] /\ ss_warn w = Some l /\ nth_error (ss_lists w) l = Some [e2] /\ e1 <> e2.
Proof.
  exists (fun n => Z.of_nat n), [[SWarn]; [SWarn]], ([0; 0; 0; 1; 1; 1] ++ repeat 0 4 ++ repeat 1 4). do 3 eexists.
  split; [intros th Hi; vm_compute in Hi; decompose [or] Hi; subst; try contradiction; reflexivity|].
  split; [vm_compute; reflexivity|]. split; [vm_compute; reflexivity|]. split; [vm_compute; reflexivity|discriminate].
Qed.
Print Assumptions C94_warn_events_refuted.

(** Two workers inside a with block: one fails the action, one warns and then declares success. *)
Definition ex_workers : list (list sop) := [[SEnd Failure]; [SWarn; SBegin; SEnd Success]].
Definition ex_sc1 : list nat := repeat 0 8 ++ [1; 2; 1; 2; 2; 2; 1; 2; 2; 2; 2; 2; 2; 2; 0; 2; 2; 2; 2; 2; 1; 1; 1; 1; 0; 0; 0; 0; 0].
Example C94_block_example : let w1 := srun Z.of_nat ex_sc1 (sstart ((SEnter :: [SWarn] ++ [SExit]) :: ex_workers)) in
  forked_inside (ss_trace w1) /\ ~ In (SCall 0 SExit) (ss_trace w1) /\ nth_error (ss_threads w1) 0 = Some (mkST [] [SExit]) /\
  (forall t th, t <> 0 -> nth_error (ss_threads w1) t = Some th -> th = mkST [] []) /\
  finished (srun Z.of_nat (repeat 0 6) w1) /\ outcomes (ends (ss_trace (srun Z.of_nat (repeat 0 6) w1))) = [Some Success].
Proof.
  split; [|split; [|split; [|split; [|split]]]].
  - match goal with |- forked_inside ?l => let v := eval vm_compute in l in change l with v end.
    intros x t op y E Ht. destruct x as [|a x]; [cbn in E; congruence|]. destruct x as [|a1 x]; [cbn in E; congruence|]. destruct x as [|a2 x]; [cbn in E; injection E as <- <- E; congruence|]. cbn in E. injection E as <- <- <- E. cbn. auto.
  - vm_compute. intuition discriminate.
  - vm_compute. reflexivity.
  - intros [|[|[|t]]] th Ht E; [congruence| | |]; vm_compute in E; try (injection E as <-; reflexivity); destruct t; discriminate E.
  - intros th Hi. vm_compute in Hi. decompose [or] Hi; subst; try contradiction; reflexivity.
  - vm_compute. reflexivity.
Qed.

(** A begun action used by three threads, only one of which ends it. *)
Definition ex_plain : list (list sop) := [[SBegin; SEnd Failure; SWarn; SEnd Success]; [SWarn; SBegin]; [SWarn]].
Definition ex_sc2 : list nat := [1; 0; 2; 1; 2; 0; 1; 2; 0; 1; 0; 2; 0; 1; 2; 0; 1; 2; 0; 1; 0; 1; 0; 1; 0; 1; 0] ++ repeat 0 18 ++ repeat 1 4 ++ repeat 2 4.
Example C94_plain_example : let w1 := srun Z.of_nat (repeat 0 6) (sstart ex_plain) in let w2 := srun Z.of_nat ex_sc2 w1 in
  quiet w1 /\ ss_begin w1 = Some (mkSev 0 None 2) /\ (forall p, In p ex_plain -> plain p) /\ ss_end w1 = None /\ ends (ss_trace w1) = [] /\ finished w2 /\
  (forall t' p', t' <> 0 -> nth_error ex_plain t' = Some p' -> asked p' = []) /\
  outcomes (ends (ss_trace w2)) = [Some Failure; Some Success] /\ map sv_time (ends (ss_trace w2)) = [2%Z; 2%Z] /\ length (warns (ss_trace w2)) = 3.
Proof.
  split; [intros th Hi; vm_compute in Hi; decompose [or] Hi; subst; try contradiction; reflexivity|].
  split; [vm_compute; reflexivity|].
  split; [intros p Hp; cbn in Hp; decompose [or] Hp; subst; try contradiction; split; cbn; intuition discriminate|].
  split; [reflexivity|]. split; [reflexivity|].
  split; [intros th Hi; vm_compute in Hi; decompose [or] Hi; subst; try contradiction; reflexivity|].
  split; [intros [|[|[|t]]] p Ht E; [congruence| | |]; cbn in E; try (injection E as <-; reflexivity); destruct t; discriminate E|].
  vm_compute. repeat split; reflexivity.
Qed.
