(** C62: wrap_all and unwrap_all. *)
From Verif Require Import model.PyBase model.Core model.WrapAll spec.WrapAllSpec proof.WrapAllProofs proof.WrapAllNames.

(** C62: on a heap where nothing is wrapped yet and the functions that are not skipped are
    plain functions of their own objects, unwrap_all after wrap_all gives back exactly the
    heap there was, whatever the depth, the skip rule, the levels, whether wrap_all raised
    half-way, and however the classes refer to each other. *)
Theorem C62_unwrap_all_undoes :
  forall c d label t h, well_formed h -> simple c h ->
  unwrap_all t (ws_heap (wrap_all c d label t h)) = (h, false).
Proof. exact wrap_all_undo. Qed.
Print Assumptions C62_unwrap_all_undoes.

(** C62: wrap_all changes an attribute only by wrapping a function whose name is not skipped. *)
Theorem C62_touches_only_functions :
  forall c d label t h i n, well_formed h -> simple c h ->
  let h' := ws_heap (wrap_all c d label t h) in
  assoc n (own h' i) = assoc n (own h i) \/
  (wc_skip c n = false /\ exists f f',
     assoc n (own h i) = Some (AFun f) /\ assoc n (own h' i) = Some (AFun f') /\ wrapper_of f f').
Proof. exact wrap_all_attr. Qed.
Print Assumptions C62_touches_only_functions.

(** C62: when wrap_all returns, every Python function of the target whose name is not
    skipped is wrapped, and, with a depth of at least one, so are those of the classes among
    the target's attributes. *)
Theorem C62_wraps_the_functions :
  forall c d label t h i n id, well_formed h -> simple c h -> ws_raised (wrap_all c d label t h) = false ->
  i = t \/ (0 < d /\ exists m, wc_skip c m = false /\ find h t m = Some (AType i)) ->
  wc_skip c n = false -> fixed h i = false -> assoc n (own h i) = Some (AFun (Plain id true)) ->
  exists f', assoc n (own (ws_heap (wrap_all c d label t h)) i) = Some (AFun f') /\ wrapper_of (Plain id true) f'.
Proof. exact wrap_all_low. Qed.
Print Assumptions C62_wraps_the_functions.

(** C62: the wrappers a call puts on: on a heap where nothing is wrapped yet, every wrapper on
    attribute [n] has the level that level_map gives for [n] (else the level of the call) and
    is named after the label, the classes on the way and [n]; and [n] is not a name to skip.
    This holds whatever the attributes are, inherited ones, staticmethods and classmethods
    included. *)
Theorem C62_names_and_levels :
  forall a name t h st i n x s l, bare h -> wrap_all_call a name t h = Some st ->
  assoc n (own (ws_heap st) i) = Some x -> In (s, l) (attr_layers x) ->
  level_of a n l /\ ~ skips (wa_skip a) n /\
  exists skip d j lab, (forall m, skip m = true <-> skips (wa_skip a) m) /\
    path h skip (Z.to_nat (wa_depth a)) t (match wa_label a with Some l => l | None => name end) d j lab /\
    s = lab +s "." +s n.
Proof.
  intros a name t h st i n x s l HB E Hx Hin. unfold wrap_all_call in E. destruct (skip_test (wa_skip a)) as [f|] eqn:Es; [|discriminate].
  injection E as <-. destruct (names_all _ _ _ _ _ HB _ _ _ _ _ Hx Hin) as (-> & H2 & d & j & lab & H3 & H4). cbn [wc_level wc_skip] in *.
  split; [apply level_spec|]. split; [rewrite <- (skip_test_spec _ _ n Es); congruence|].
  exists f, d, j, lab. split; [intro m; apply skip_test_spec, Es|]. auto.
Qed.
Print Assumptions C62_names_and_levels.

(** C62: wrap_all returns the names of exactly the wrappers it has put on. *)
Theorem C62_returns :
  forall a name t h st, bare h -> wrap_all_call a name t h = Some st ->
  forall s, In s (ws_ret st) <-> exists i n x l, assoc n (own (ws_heap st) i) = Some x /\ In (s, l) (attr_layers x).
Proof.
  intros a name t h st HB E. unfold wrap_all_call in E. destruct (skip_test (wa_skip a)) as [f|]; [|discriminate].
  injection E as <-. exact (ret_all _ _ _ _ _ HB).
Qed.
Print Assumptions C62_returns.

(** C62: every Python function of the target itself whose name is not skipped gets a wrapper
    named label.name, with its level. *)
Theorem C62_target_functions :
  forall a name t h st n id, wrap_all_call a name t h = Some st -> ws_raised st = false ->
  fixed h t = false -> ~ skips (wa_skip a) n -> assoc n (own h t) = Some (AFun (Plain id true)) ->
  exists f l, assoc n (own (ws_heap st) t) = Some (AFun f) /\ level_of a n l /\
    In ((match wa_label a with Some l => l | None => name end) +s "." +s n, l) (log_layers f).
Proof.
  intros a name t h st n id E Hr Hf Hs Ho. unfold wrap_all_call in E. destruct (skip_test (wa_skip a)) as [f|] eqn:Es; [|discriminate].
  injection E as <-. assert (Hs' : f n = false). { rewrite <- (skip_test_spec _ _ n Es) in Hs. destruct (f n); congruence. }
  set (c := mkWConf _ _ _) in *.
  destruct (target_wrapped c h (Z.to_nat (wa_depth a)) t (match wa_label a with Some l => l | None => name end) n (Plain id true) Hs' Ho) as (g & G1 & G2); auto.
  { intros id' H. discriminate. }
  exists g, (wc_level c n). split; [exact G1|]. split; [apply level_spec|exact G2].
Qed.
Print Assumptions C62_target_functions.

(** C62: with [skip_exc=True] no refusal escapes; without it, one function of the target that
    cannot be wrapped or replaced makes the whole call raise. *)
Theorem C62_skip_exc :
  forall a name t h st, wrap_all_call a name t h = Some st -> wa_skip_exc a = true -> ws_raised st = false.
Proof.
  intros a name t h st E Hx. unfold wrap_all_call in E. destruct (skip_test (wa_skip a)) as [f|]; [|discriminate].
  injection E as <-. apply skip_exc_all. exact Hx.
Qed.
Print Assumptions C62_skip_exc.
Theorem C62_refusal_escapes :
  forall a name t h st n f, wrap_all_call a name t h = Some st -> wa_skip_exc a = false ->
  ~ skips (wa_skip a) n -> assoc n (own h t) = Some (AFun f) -> (exists id, f = Plain id false) \/ fixed h t = true ->
  ws_raised st = true.
Proof.
  intros a name t h st n g E Hx Hs Ho Href. unfold wrap_all_call in E. destruct (skip_test (wa_skip a)) as [f|] eqn:Es; [|discriminate].
  injection E as <-. assert (Hs' : f n = false). { rewrite <- (skip_test_spec _ _ n Es) in Hs. destruct (f n); congruence. }
  eapply refused_raises; eauto.
Qed.
Print Assumptions C62_refusal_escapes.
(** C62: only a [skip] that is neither None nor a string nor callable is refused, before
    anything is touched. *)
Theorem C62_bad_skip :
  forall a name t h, wrap_all_call a name t h = None <-> wa_skip a = SkipOther.
Proof. intros a name t h. unfold wrap_all_call. destruct (wa_skip a); cbn; split; congruence. Qed.
Print Assumptions C62_bad_skip.

Definition cfg0 := mkWConf skip_underscore (fun _ => "info") false.
(** A module with a function, a private function, data and two classes that refer to each other. *)
Definition heap0 : heap :=
  [ mkObj [("f", AFun (Plain 0 true)); ("_g", AFun (Plain 1 true)); ("x", AData); ("A", AType 1); ("B", AType 2)] [] false;
    mkObj [("m", AFun (Plain 2 true)); ("Inner", AType 2)] [3] false;
    mkObj [("m", AFun (Plain 3 true)); ("Outer", AType 1); ("__call__", AStatic (Plain 5 true))] [3] false;
    mkObj [("__init__", AFun (Plain 4 false))] [] true ].
Lemma own_cases i : own heap0 i = match i with
  | 0 => [("f", AFun (Plain 0 true)); ("_g", AFun (Plain 1 true)); ("x", AData); ("A", AType 1); ("B", AType 2)]
  | 1 => [("m", AFun (Plain 2 true)); ("Inner", AType 2)]
  | 2 => [("m", AFun (Plain 3 true)); ("Outer", AType 1); ("__call__", AStatic (Plain 5 true))]
  | 3 => [("__init__", AFun (Plain 4 false))] | _ => [] end.
Proof. do 4 (destruct i as [|i]; [reflexivity|]). unfold own. destruct i; reflexivity. Qed.
Example heap0_wf : well_formed heap0.
Proof.
  split.
  - intro i. rewrite own_cases. do 4 (destruct i as [|i]; [cbn; repeat constructor; cbn; intuition discriminate|]). constructor.
  - intros i n j. unfold find. assert (G : forall cs, find_in heap0 n cs = Some (AType j) -> j < length heap0); [|apply G].
    induction cs as [|b cs IH]; cbn; [discriminate|]. rewrite own_cases. destruct (assoc n _) as [a|] eqn:E; [|exact IH].
    intros [= ->]. apply assoc_in in E. do 4 (destruct b as [|b]; [cbn in E; repeat (destruct E as [E|E]; [try discriminate; injection E; intros; subst; cbn; lia|]); contradiction|]).
    contradiction.
Qed.
Example heap0_simple : simple cfg0 heap0.
Proof.
  intros i n a. unfold find. do 4 (destruct i as [|i]; [cbn;
    repeat match goal with |- context [if String.eqb ?x ?y then _ else _] => destruct (String.eqb_spec x y); [subst; intros [= <-]; cbn; split; [exact I|intro; first [exact I|reflexivity|discriminate]]|] end;
    try discriminate|]).
  unfold mro. cbn. destruct (nth_error [] i) eqn:E; [destruct i; discriminate|]. cbn. rewrite own_cases. discriminate.
Qed.
Example C62_nonvacuous :
  ws_ret (wrap_all cfg0 1 "mod" 0 heap0) = ["mod.A.m"; "mod.B.m"; "mod.f"] /\
  ws_raised (wrap_all cfg0 1 "mod" 0 heap0) = false /\
  wrappers (ws_heap (wrap_all cfg0 1 "mod" 0 heap0)) 1 "m" = 1 /\
  unwrap_all 0 (ws_heap (wrap_all cfg0 1 "mod" 0 heap0)) = (heap0, false).
Proof. vm_compute. repeat split; reflexivity. Qed.

(** A call with a prefix to skip, a level map, a label, on the same module. *)
Definition args0 := mkWArgs "info" (SkipPrefix "_") (Some "app") [("m", "debug")] 1 false.
Example heap0_bare : bare heap0.
Proof.
  intros i n a. rewrite own_cases. do 4 (destruct i as [|i]; [cbn;
    repeat match goal with |- context [if String.eqb ?x ?y then _ else _] => destruct (String.eqb x y); [intros [= <-]; reflexivity|] end; discriminate|]).
  discriminate.
Qed.
Example C62_call_nonvacuous :
  option_map ws_ret (wrap_all_call args0 "mod" 0 heap0) = Some ["app.A.m"; "app.B.m"; "app.f"] /\
  option_map ws_raised (wrap_all_call args0 "mod" 0 heap0) = Some false /\
  option_map (fun st => assoc "m" (own (ws_heap st) 1)) (wrap_all_call args0 "mod" 0 heap0) = Some (Some (AFun (Wrapped "app.A.m" "debug" (Plain 2 true)))) /\
  option_map ws_raised (wrap_all_call (mkWArgs "info" (SkipPrefix "") None [] 1 false) "mod" 3 heap0) = Some true.
Proof. vm_compute. repeat split; reflexivity. Qed.

(** C62 does not extend to inherited methods: a base class and a subclass in one module, and
    the subclass is left with a method that still logs. *)
Definition heap_inh : heap :=
  [ mkObj [("Base", AType 1); ("Sub", AType 2)] [] false;
    mkObj [("m", AFun (Plain 0 true))] [] false;
    mkObj [] [1] false ].
Theorem C62_inherited_refuted :
  exists h c t, well_formed h /\ (forall i n, wrappers h i n = 0) /\
  let h' := fst (unwrap_all t (ws_heap (wrap_all c 1 "mod" t h))) in
  exists i n f, assoc n (own h i) = None /\ find h i n = Some (AFun f) /\
    exists f', find h' i n = Some (AFun f') /\ wrapper_of f f'.
Proof.
  exists heap_inh, cfg0, 0. split; [|split].
  - split; [intro i; do 3 (destruct i as [|i]; [cbn; repeat constructor; cbn; intuition discriminate|]); unfold own; destruct i; constructor|].
    intros i n j. unfold find. assert (G : forall cs, find_in heap_inh n cs = Some (AType j) -> j < length heap_inh); [|apply G].
    induction cs as [|b cs IH]; cbn [find_in]; [discriminate|]. destruct (assoc n (own heap_inh b)) as [a|] eqn:E; [|exact IH].
    intros [= ->]. apply assoc_in in E. do 3 (destruct b as [|b]; [cbn in E; repeat (destruct E as [E|E]; [try discriminate; injection E; intros; subst; cbn; lia|]); contradiction|]).
    unfold own in E. destruct b; contradiction.
  - intros i n. do 3 (destruct i as [|i]; [unfold wrappers; cbn; repeat destruct (String.eqb n _); reflexivity|]). unfold wrappers, own. destruct i; reflexivity.
  - exists 2, "m", (Plain 0 true). split; [reflexivity|]. split; [reflexivity|]. eexists. split; [vm_compute; reflexivity|]. constructor.
Qed.
Print Assumptions C62_inherited_refuted.

(** C62 does not extend to staticmethods: after wrap_all and unwrap_all the static method has
    become an ordinary one, so that a call through an instance passes the instance too. *)
Theorem C62_staticmethod_refuted :
  exists h c t, (forall i n, wrappers h i n = 0) /\
  let h' := fst (unwrap_all t (ws_heap (wrap_all c 1 "mod" t h))) in
  exists n a a', assoc n (own h t) = Some a /\ passes_self a = false /\
                 assoc n (own h' t) = Some a' /\ passes_self a' = true.
Proof.
  exists [mkObj [("s", AStatic (Plain 0 true))] [] false], cfg0, 0. split.
  - intros [|i] n; unfold wrappers; cbn; [destruct (String.eqb n "s"); reflexivity|]. unfold own. destruct i; reflexivity.
  - exists "s", (AStatic (Plain 0 true)), (AFun (Plain 0 true)). vm_compute. repeat split; reflexivity.
Qed.
Print Assumptions C62_staticmethod_refuted.

(** C62 does not extend to classmethods: what is put back is a method bound to the class
    that was wrapped, which subclasses then share. *)
Theorem C62_classmethod_refuted :
  exists h c t f, assoc "k" (own h t) = Some (AClassM f) /\
  assoc "k" (own (fst (unwrap_all t (ws_heap (wrap_all c 1 "mod" t h)))) t) = Some (AFun (Bound t f)).
Proof.
  exists [mkObj [("k", AClassM (Plain 0 true))] [] false], cfg0, 0, (Plain 0 true). vm_compute. split; reflexivity.
Qed.
Print Assumptions C62_classmethod_refuted.

(** Each wrap_all needs its own unwrap_all. *)
Example C62_twice :
  let h := [mkObj [("f", AFun (Plain 0 true))] [] false] in
  let h1 := ws_heap (wrap_all cfg0 1 "mod" 0 h) in
  let h2 := ws_heap (wrap_all cfg0 1 "mod" 0 h1) in
  fst (unwrap_all 0 h2) = h1 /\ fst (unwrap_all 0 h1) = h.
Proof. vm_compute. split; reflexivity. Qed.
