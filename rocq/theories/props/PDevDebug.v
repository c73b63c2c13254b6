(** DevDebugSink: C92. *)
From Verif Require Import model.PyBase model.Core model.DevDebug spec.CoreSpec spec.CoreExamples spec.ProgramSpec spec.DevDebugSpec
  proof.CoreLib proof.CoreTrans proof.CoreWith proof.CoreDispatch proof.CoreFinal proof.ProgramProofs proof.SinkLocal proof.DevDebugProofs props.PProgram.
Open Scope nat_scope.

(** Whatever the other sinks and the program do: if no exception the debugging sink is
    shown during the program is covered, then the program runs as if the sink were idle. *)
Theorem C92_not_covered : forall isa cfg d arg cur s w t,
  is_debug_sink isa cfg d arg ->
  w_trace (fst (eval cfg cur s w)) = w_trace w ++ t ->
  (forall l e x, In (ODeliver l KExc d e) t -> e_exc e = Some x -> ~ covers isa arg x) ->
  eval (silenced cfg d) cur s w = eval cfg cur s w.
Proof.
  intros isa cfg d arg cur s w t HD Ht HN. apply (eval_local cfg _ cur s w t Ht).
  intros before l k s0 e after E. destruct k; try reflexivity. destruct (Nat.eqb_spec s0 d) as [->|]; [|reflexivity].
  rewrite (proj2 HD). unfold dbg_on_exception. destruct (e_exc e) as [x|] eqn:Ex; [|reflexivity].
  destruct (dbg_matches isa arg x) eqn:Em; [|reflexivity]. exfalso. apply matches_covers in Em.
  apply (HN l e x); [rewrite E; apply in_elt|exact Ex|exact Em].
Qed.
Print Assumptions C92_not_covered.

(** The same from the program text alone, with the lines of C89. *)
Theorem C92_program_log : forall isa cfg describe d arg s w l sk,
  reach cfg w -> is_debug_sink isa cfg d arg -> all_quiet (silenced cfg d) -> (forall x, cf_describe cfg x = Ok (describe x)) ->
  (forall l, lg_async (w_logs w l) = false /\ lg_queue (w_logs w l) = []) ->
  scoped [] s -> In sk (lg_sinks (w_logs w l)) ->
  let n := length (w_acts w) in
  (forall i x, In i (lines_of describe (w_active w) s n) -> n_kind i = KExc -> In d (lg_sinks (w_logs w (n_log i))) ->
     n_exc i = Some x -> ~ covers isa arg x) ->
  let w' := fst (eval cfg None s w) in
  snd (eval cfg None s w) = ends_with describe (w_active w) s n /\
  (forall l, w_active w' l = w_active w l) /\
  exists t, w_trace w' = w_trace w ++ t /\
    lines_seen w' l (received l sk t) = lines_for cfg l sk (lines_of describe (w_active w) s n).
Proof.
  intros isa cfg describe d arg s w l sk HR HD HQ HX HM HS Hin n HN w'.
  assert (HSt : steady (silenced cfg d) (fun l => lg_sinks (w_logs w l)) w) by exact (reach_steady cfg w HR HM).
  destruct (program_log_from (silenced cfg d) describe s w HSt HQ HX HS) as (H1 & H2 & _ & _ & t & evs & H4 & H5 & H6 & _).
  assert (E : eval cfg None s w = eval (silenced cfg d) None s w).
  { replace (eval cfg None s w) with (eval (with_sinks (silenced cfg d) (cf_sink cfg)) None s w) by (destruct cfg; reflexivity).
    apply (eval_local (silenced cfg d) (cf_sink cfg) None s w t H4).
    intros before l0 k s0 e after Et. cbn [silenced with_sinks cf_sink]. destruct k; try reflexivity.
    destruct (Nat.eqb_spec s0 d) as [->|]; [|reflexivity].
    rewrite (proj2 HD). unfold dbg_on_exception. destruct (e_exc e) as [x|] eqn:Ex; [|reflexivity].
    destruct (dbg_matches isa arg x) eqn:Em; [|reflexivity]. exfalso. apply matches_covers in Em.
    assert (Hh : In (ODeliver l0 KExc d e) (handed t)).
    { rewrite Et, handed_app. apply in_or_app. right. left. reflexivity. }
    rewrite H5 in Hh. apply in_flat_map in Hh. destruct Hh as ([l1 [k1 e1]] & Hq & Hh). unfold heard_by, deliveries in Hh. cbn [fst snd] in Hh.
    apply in_map_iff in Hh. destruct Hh as (s1 & Hd & Hs1). injection Hd as -> -> -> ->. unfold heard in Hs1. apply filter_In in Hs1. destruct Hs1 as [Hs1 _].
    refine (HN (line_seen (fst (eval (silenced cfg d) None s w)) l0 (KExc, e)) x _ eq_refl Hs1 Ex Em).
    unfold lines_of. fold n in H6. rewrite <- H6. apply in_map_iff. exists (l0, (KExc, e)). auto. }
  unfold w'. rewrite E. split; [exact H1|]. split; [exact H2|]. exists t. split; [exact H4|].
  unfold lines_seen. rewrite received_handed, H5, received_evs; [|apply (wi_hooks _ _ (reach_winv cfg w HR))|exact Hin].
  rewrite seen_evs, H6. reflexivity.
Qed.
Print Assumptions C92_program_log.

(** A block that is left by a covered exception: the sinks registered before the
    debugging sink and this sink itself see the exception event, the later ones do not.
    No end event comes.  An ordinary exception has its usual fate, so a block with
    reraise=False still swallows it, and the active action is reset.  Any other
    exception (KeyboardInterrupt, say) comes out even of a block with reraise=False, and
    the active action stays what it was at the end of the body. *)
Theorem C92_covered_block : forall isa cfg d arg cur x l lvl nm kw rr px body w ex before after,
  reach cfg w -> is_debug_sink isa cfg d arg -> all_quiet (silenced cfg d) -> parent_bound w px -> never_enters x body ->
  let r := length (w_acts w) in
  let w1 := block_start cfg x l lvl nm kw rr px w in
  let w2 := fst (eval cfg cur body w1) in
  let w' := fst (eval cfg cur (SWithNew x l lvl nm kw rr px body) w) in
  listeners cfg w l KExc = before ++ d :: after -> covers isa arg ex ->
  snd (eval cfg cur body w1) = Raise ex ->
  snd (eval cfg cur (SWithNew x l lvl nm kw rr px body) w) = (if exn_ord ex then propagate rr (Raise ex) else Raise ex) /\
  (end_calls r (w_trace w') = [] /\ forall l', end_waiting r (lg_queue (w_logs w' l')) = []) /\
  (if exn_ord ex then forall l', w_active w' l' = if Nat.eqb l' l then match px with None => w_active w l | Some y => w_env w y end else w_active w2 l'
   else w_active w' = w_active w2) /\
  exists e, e_kind e = KExc /\ e_act e = r /\ e_exc e = Some ex /\
    w_trace w' = w_trace w2 ++ map (fun s => ODeliver l KExc s e) (before ++ [d]) ++ (if exn_ord ex then [ONote "action_exit"] else []).
Proof.
  intros isa cfg d arg cur x l lvl nm kw rr px body w ex before after HR HD HQ Hp Hn r w1 w2 w' HL Hc Hr.
  destruct (block_stops isa cfg d arg HD HQ cur x l lvl nm kw rr px body w ex before after (reach_winv cfg w HR) Hp Hn HL Hc Hr)
    as (A1 & A2 & A3 & e & A4 & A5 & A6 & _ & A7).
  split; [exact A1|]. split; [exact A2|]. split.
  - fold w' w2 in A3. destruct (exn_ord ex); [intro l'; rewrite A3; reflexivity|exact A3].
  - exists e. auto.
Qed.
Print Assumptions C92_covered_block.

(** Calling exception() while handling a covered exception: the call raises it again, and
    records and publishes no end event. *)
Theorem C92_covered_call : forall isa cfg d arg x r a m kw w ex before after,
  reach cfg w -> is_debug_sink isa cfg d arg -> all_quiet (silenced cfg d) ->
  w_env w x = Some r -> nth_error (w_acts w) r = Some a ->
  listeners cfg w (a_log a) KExc = before ++ d :: after -> covers isa arg ex ->
  let w' := fst (eval cfg (Some ex) (SException x m kw) w) in
  snd (eval cfg (Some ex) (SException x m kw) w) = Raise ex /\ w_logs w' = w_logs w /\ w_active w' = w_active w /\
  exists e, e_kind e = KExc /\ e_act e = r /\ e_exc e = Some ex /\
    w_trace w' = w_trace w ++ map (fun s => ODeliver (a_log a) KExc s e) (before ++ [d]) /\
    exists a', nth_error (w_acts w') r = Some a' /\ a_end a' = a_end a /\ a_excs a' = a_excs a ++ [e].
Proof.
  intros isa cfg d arg x r a m kw w ex before after HR HD HQ Hx Ha HL Hc w'.
  destruct (exception_stops0 isa cfg d arg HD HQ r ex m kw w a before after (wi_hooks _ _ (reach_winv cfg w HR)) Ha HL Hc) as (e & K1 & K2 & K3 & He).
  assert (E : eval cfg (Some ex) (SException x m kw) w = exception_ cfg r (Some ex) m kw w).
  { cbn [eval]. unfold bind, lookup. rewrite Hx, He. reflexivity. }
  unfold w'. rewrite E, He. cbn [fst snd].
  split; [reflexivity|]. split; [reflexivity|]. split; [reflexivity|]. exists e. split; [exact K1|]. split; [exact K2|]. split; [exact K3|]. split; [reflexivity|].
  eexists. split; [cbn [add_trace w_acts]; unfold with_event; apply act_upd_nth; cbn; exact (nth_error_lt _ _ _ Ha)|split; reflexivity].
Qed.
Print Assumptions C92_covered_call.

(** So the claim one reads into DevDebugSink(reraise=True), that covered exceptions come
    out, is false for blocks with reraise=False. *)
Definition dbg_cfg (arg : dbg_arg) : config :=
  mkConfig Z.of_nat (fun s k => if Nat.eqb s 5 then match k with KExc => true | _ => false end else true)
    (fun _ _ k s e => match k with KExc => if Nat.eqb s 5 then dbg_on_exception (fun x c => Nat.eqb (exn_tag x) c) arg e else None | _ => None end)
    (fun _ _ _ => None) (fun _ _ => None) (fun _ => Ok "boom"%string).
Lemma dbg_is_debug arg : is_debug_sink (fun x c => Nat.eqb (exn_tag x) c) (dbg_cfg arg) 5 arg.
Proof. split; [intros []; cbn; split; congruence|reflexivity]. Qed.
Lemma dbg_quiet arg : all_quiet (silenced (dbg_cfg arg) 5).
Proof.
  split; [intros k t l s e; cbn; destruct k; try reflexivity; destruct (Nat.eqb s 5); reflexivity|].
  split; [intros; reflexivity|]. split; [intros; reflexivity|]. intros x; eexists; reflexivity.
Qed.
Definition dbg_world (arg : dbg_arg) : world := run_ops (dbg_cfg arg) [OpAddSink 0 1; OpAddSink 0 5; OpAddSink 0 2] (init (fun _ => false)).
Theorem C92_comes_out_refuted : exists isa cfg d cur x l lvl nm kw rr body w ex,
  reach cfg w /\ is_debug_sink isa cfg d DAll /\ all_quiet (silenced cfg d) /\ In d (lg_sinks (w_logs w l)) /\ covers isa DAll ex /\
  snd (eval cfg cur body (block_start cfg x l lvl nm kw rr None w)) = Raise ex /\
  snd (eval cfg cur (SWithNew x l lvl nm kw rr None body) w) = Ok tt.
Proof.
  exists (fun x c => Nat.eqb (exn_tag x) c), (dbg_cfg DAll), 5, None, 0, 0, 20%Z, "top"%string, [], (Some false), (SRaise boom), (dbg_world DAll), boom.
  split; [apply reach_run_ops, reach_init|]. split; [apply dbg_is_debug|]. split; [apply dbg_quiet|]. split; [cbn; auto|]. split; [reflexivity|]. split; reflexivity.
Qed.
Print Assumptions C92_comes_out_refuted.

(** Sink 5 is the debugging sink, registered between sinks 1 and 2. *)
Example C92_block_example :
  listeners (dbg_cfg DAll) (dbg_world DAll) 0 KExc = [1] ++ 5 :: [2] /\
  let w' := fst (eval (dbg_cfg DAll) None (STry false (SWithNew 0 0 20 "top" [] None None (SRaise boom)) SSkip) (dbg_world DAll)) in
  map fst (received 0 1 (w_trace w')) = [KBegin; KExc] /\ map fst (received 0 5 (w_trace w')) = [KExc] /\ map fst (received 0 2 (w_trace w')) = [KBegin].
Proof. split; vm_compute; auto. Qed.
(** An interrupt (tag 7) leaves the block active. *)
Example C92_interrupt_example :
  let arg := DTypes [7] in let ex := mkExn 7 false in
  covers (fun x c => Nat.eqb (exn_tag x) c) arg ex /\
  let p := eval (dbg_cfg arg) None (SWithNew 0 0 20 "top" [] (Some false) None (SRaise ex)) (dbg_world arg) in
  snd p = Raise ex /\ w_active (fst p) 0 = Some 0.
Proof. split; [exists 7; cbn; auto|]. vm_compute. auto. Qed.
(** The program of C89 raises nothing with tag 8. *)
Example C92_not_covered_example :
  let arg := DTypes [8] in
  forall i x, In i (lines_of (fun _ => "boom"%string) (fun _ => None) program89 0) -> n_kind i = KExc -> n_exc i = Some x -> ~ covers (fun x c => Nat.eqb (exn_tag x) c) arg x.
Proof.
  intros arg i x Hi Hk Hx (c & [<-|[]] & Hc).
  assert (X : forallb (fun i => match n_exc i with Some x => negb (Nat.eqb (exn_tag x) 8) | None => true end) (lines_of (fun _ => "boom"%string) (fun _ => None) program89 0) = true)
    by (vm_compute; reflexivity).
  rewrite forallb_forall in X. specialize (X i Hi). rewrite Hx, Hc in X. discriminate.
Qed.
Example C92_call_example :
  let w := fst (eval (dbg_cfg DAll) None (SNew 0 0 20 "job" [] None None) (dbg_world DAll)) in
  w_env w 0 = Some 0 /\ listeners (dbg_cfg DAll) w 0 KExc = [1] ++ 5 :: [2] /\
  snd (eval (dbg_cfg DAll) None (STry false (SRaise boom) (SException 0 None [])) w) = Raise boom.
Proof. vm_compute. auto. Qed.
