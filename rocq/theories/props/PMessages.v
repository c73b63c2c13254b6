(** C85: the default messages in log lines. *)
From Verif Require Import spec.CallSpec proof.CallProofs2 props.PCalls.
From Verif Require Import model.PyBase model.Core model.Levels model.Timestamps model.Pipeline model.Json model.Format model.Fields
  spec.CoreSpec spec.FormatSpec spec.TemplateSpec spec.FieldSpec spec.CoreExamples proof.CoreFinal proof.FormatProofs proof.FieldProofs proof.FieldLines props.PNumbers.
Open Scope nat_scope.

(** No brace of either kind. *)
Definition no_braces (s : string) : Prop := ~ In LB (lit s) /\ ~ In RB (lit s).
(** What a default message adds if the action had data when it was made: the data the action
    has when the line is written. *)
Definition data_part (env : fenv) (before now : data) : text :=
  match before with [] => [] | _ => lit " - (" ++ en_repr env now ++ lit ")" end.

Lemma lit_append a b : lit (a +s b) = lit a ++ lit b.
Proof. induction a as [|c a IH]; [reflexivity|]. cbn. rewrite IH. reflexivity. Qed.
Lemma escape_plain t : ~ In LB t -> ~ In RB t -> escape t = t.
Proof.
  induction t as [|c t IH]; intros H1 H2; [reflexivity|]. cbn [escape].
  destruct ((c =? LB)%N || (c =? RB)%N) eqn:E.
  - apply orb_true_iff in E as [E|E]; apply N.eqb_eq in E; subst; exfalso; [apply H1|apply H2]; left; reflexivity.
  - rewrite IH; [reflexivity|intros X; apply H1; right; exact X|intros X; apply H2; right; exact X].
Qed.
Lemma message_getter env fn fnest fuel e a d : getter env fn fnest (S fuel) "event_message" (e, Some a, d) =
  match fst (event_message VNone fn fnest data_of (field_table env fn fnest fuel) (e, Some a, d) (lit (e_msg e)) [] []) with Some t => gtext t | None => GOther end.
Proof. reflexivity. Qed.
Lemma message_line env fnest fuel e a d t : unshadowed a "event_message" ->
  fst (event_message VNone builtin_format fnest data_of (field_table env builtin_format fnest fuel) (e, Some a, d) (lit (e_msg e)) [] []) = t ->
  field_line env fnest (S fuel) "event_message" e a d = match t with Some t => t | None => lit "{event_message}" end.
Proof.
  intros U H. unfold field_line. rewrite (alone_line env builtin_format fnest (S fuel) [] [] (e_kind e) (e, Some a, d) "event_message" "s" None); [|cbn; tauto|apply no_data_key, U].
  rewrite message_getter, H. destruct t; reflexivity.
Qed.
Lemma plain_message env fnest fuel e a d : unshadowed a "event_message" -> ~ In LB (lit (e_msg e)) ->
  field_line env fnest (S fuel) "event_message" e a d = lit (e_msg e).
Proof.
  intros U H. erewrite (message_line env fnest fuel e a d); [|exact U|reflexivity]. unfold event_message.
  destruct (existsb (N.eqb LB) (lit (e_msg e))) eqn:E; [apply has_open in E; contradiction|]. reflexivity.
Qed.
Lemma data_message env fnest fuel e a d s : unshadowed a "event_message" -> unshadowed a "data_map_repr" -> no_braces s ->
  e_msg e = s +s " - ({data_map_repr})" ->
  field_line env fnest (S fuel) "event_message" e a d = lit s ++ lit " - (" ++ en_repr env (a_data a) ++ lit ")".
Proof.
  intros U1 U2 [H1 H2] E. erewrite (message_line env fnest fuel e a d); [|exact U1|reflexivity].
  rewrite E. set (ss := [TText (lit (s +s " - (")); TName (lit "data_map_repr") None []; TText (lit ")")]).
  assert (B1 : ~ In LB (lit (s +s " - (")) /\ ~ In RB (lit (s +s " - ("))).
  { rewrite lit_append. split; intros X; apply in_app_iff in X as [X|X]; try contradiction; cbn in X; unfold LB, RB in X; repeat (destruct X as [X|X]; [discriminate|]); destruct X. }
  assert (W : lit (s +s " - ({data_map_repr})") = write ss).
  { unfold write, ss. cbn [map concat write_seg]. rewrite (escape_plain _ (proj1 B1) (proj2 B1)).
    replace (s +s " - ({data_map_repr})")%string with ((s +s " - (") +s "{data_map_repr})")%string by (clear; induction s as [|c s IH]; [reflexivity|cbn; f_equal; exact IH]).
    rewrite lit_append. f_equal. }
  rewrite W. unfold event_message.
  assert (HL : existsb (N.eqb LB) (write ss) = true).
  { apply has_open. unfold write, ss. cbn [map concat write_seg]. apply in_app_iff. right. left. reflexivity. }
  rewrite HL. cbn [negb].
  destruct (format_write VNone builtin_format fnest data_of (field_table env builtin_format fnest fuel) no_quoter ss
              [Lit (lit (s +s " - (")); Fld (mkTok (lit "data_map_repr") [] None); Lit (lit ")")] (e, Some a, d) [] []) as (cs & C1 & C2).
  - repeat apply Forall_cons; [exact I| |exact I|apply Forall_nil]. split; [split; [|split]|split; [|split]].
    + cbn [lit map]. repeat (apply name_char; [vm_compute; intuition discriminate|]). apply name_end.
    + vm_compute. intuition discriminate.
    + eexists _, _. split; [reflexivity|]. vm_compute. intuition discriminate.
    + discriminate.
    + intros [].
    + intros [].
  - repeat constructor.
  - discriminate.
  - rewrite C1, C2. cbn [fst map concat show_item].
    destruct (alone_field env builtin_format fnest fuel "data_map_repr" "s" (Some false) (e, Some a, d)) as (f & F1 & F2 & Fs); [cbn; tauto|].
    assert (S : seg_text VNone builtin_format fnest data_of (field_table env builtin_format fnest fuel) no_quoter default_defaulter (e, Some a, d) [] [] (mkTok (lit "data_map_repr") [] None) = en_repr env (a_data a)).
    { unfold seg_text. cbn [no_quoter]. unfold raw_segment. change (is_positional _) with false. cbn iota. cbn [tk_fname]. change (base_name (lit "data_map_repr")) with (lit "data_map_repr").
      unfold resolve. cbn [dget]. rewrite (no_data_key _ _ U2 : dget text_eqb (lit "data_map_repr") (data_of (e, Some a, d)) = None), F1, F2.
      assert (G : getter env builtin_format fnest fuel "data_map_repr" (e, Some a, d) = gtext (en_repr env (a_data a))) by (destruct fuel; reflexivity). rewrite G.
      unfold eff. cbn [tk_fspec]. cbn [tk_fname]. rewrite F1. rewrite Fs. reflexivity. }
    rewrite S, lit_append, app_nil_r, <- !app_assoc. reflexivity.
Qed.
Lemma default_line env fnest fuel s a0 e a d : unshadowed a "event_message" -> unshadowed a "data_map_repr" -> no_braces s ->
  e_msg e = with_data a0 s ->
  field_line env fnest (S fuel) "event_message" e a d = lit s ++ data_part env (a_data a0) (a_data a).
Proof.
  intros U1 U2 H E. unfold with_data in E. unfold data_part. destruct (a_data a0) as [|p q].
  - rewrite app_nil_r, plain_message, E; [reflexivity|exact U1|rewrite E; exact (proj1 H)].
  - apply data_message; assumption.
Qed.
Lemma no_braces_app s t : no_braces s -> no_braces t -> no_braces (s +s t).
Proof. intros [H1 H2] [H3 H4]. split; rewrite lit_append; intros X; apply in_app_iff in X; tauto. Qed.
Ltac braceless := split; vm_compute; intuition discriminate.

(** begin() without a message: the line says that the action is beginning. *)
Theorem C85_begin :
  forall env fnest fuel cfg r a kw w, reach cfg w -> (forall k, hook_quiet cfg k) ->
  nth_error (w_acts w) r = Some a -> a_begin a = None -> no_braces (a_name a) ->
  exists b, published cfg (a_log a) [(KBegin, b)] w (fst (begin cfg r None kw w)) /\
  forall a1 d, unshadowed a1 "event_message" ->
  field_line env fnest (S fuel) "event_message" b a1 d = lit (a_name a +s " beginning").
Proof.
  intros env fnest fuel cfg r a kw w HR HQ Ha Hb Hn.
  destruct (C70_begin cfg r a None kw w HR HQ Ha) as (b & a' & _ & P & _ & B & _). unfold first_begin in P. rewrite Hb in P, B.
  exists b. split; [exact P|]. intros a1 d U. destruct B as (_ & _ & _ & B). cbn [CallSpec.text] in B.
  rewrite (plain_message env fnest fuel b a1 d U); rewrite B; [reflexivity|].
  apply (no_braces_app (a_name a) " beginning" Hn). braceless.
Qed.
Print Assumptions C85_begin.

(** success() and failure() without a message: the line says which of the two; if the action
    had data when it was called, the line shows the data as it is when the line is written. *)
Theorem C85_success_failure :
  forall env fnest fuel cfg ok r a kw w, reach cfg w -> (forall k, hook_quiet cfg k) ->
  nth_error (w_acts w) r = Some a -> a_defer a = false -> no_braces (a_name a) ->
  exists b e, published cfg (a_log a) (first_begin a b ++ [(KEnd, e)]) w (fst (conclude cfg ok r None kw w)) /\
  forall a1 d, unshadowed a1 "event_message" -> unshadowed a1 "data_map_repr" ->
  field_line env fnest (S fuel) "event_message" e a1 d =
    lit (a_name a +s (if ok then " succeeded" else " failed")) ++ data_part env (a_data a) (a_data a1).
Proof.
  intros env fnest fuel cfg ok r a kw w HR HQ Ha Hd Hn.
  destruct (C70_success_failure cfg ok r a None kw w HR HQ Ha) as (b & e & a' & _ & P & _ & _ & _ & _ & B & _). rewrite Hd in P.
  exists b, e. split; [exact P|]. intros a1 d U1 U2. apply default_line; [exact U1|exact U2| |exact B].
  apply no_braces_app; [exact Hn|]. destruct ok; braceless.
Qed.
Print Assumptions C85_success_failure.

(** exception() without a message: both the exception line and the end line say what was
    raised. *)
Theorem C85_exception :
  forall env fnest fuel cfg r a ex s kw w, reach cfg w -> (forall k, hook_quiet cfg k) ->
  nth_error (w_acts w) r = Some a -> a_defer a = false -> no_braces (a_name a) -> cf_describe cfg ex = Ok s -> no_braces s ->
  exists x b e, published cfg (a_log a) ((KExc, x) :: first_begin a b ++ [(KEnd, e)]) w (fst (exception_ cfg r (Some ex) None kw w)) /\
  forall a1 d v, In v [x; e] -> unshadowed a1 "event_message" -> unshadowed a1 "data_map_repr" ->
  field_line env fnest (S fuel) "event_message" v a1 d =
    lit (a_name a +s " raised exception: " +s s) ++ data_part env (a_data a) (a_data a1).
Proof.
  intros env fnest fuel cfg r a ex s kw w HR HQ Ha Hd Hn Hs Hn2.
  destruct (C70_exception cfg r a ex s None kw w HR HQ Ha Hs) as (x & b & e & a' & _ & P & _ & _ & _ & _ & _ & _ & X & _ & _ & E & _). rewrite Hd in P.
  exists x, b, e. split; [exact P|]. intros a1 d v Hv U1 U2. cbn [CallSpec.text] in X. rewrite X in E.
  apply default_line; [exact U1|exact U2| |destruct Hv as [<-|[<-|[]]]; assumption].
  apply no_braces_app; [exact Hn|]. apply no_braces_app; [braceless|exact Hn2].
Qed.
Print Assumptions C85_exception.

(** A message the caller gives, to any call, is shown as it is if it has no opening brace. *)
Theorem C85_given :
  forall env fnest fuel cfg r a m kw w, reach cfg w -> (forall k, hook_quiet cfg k) ->
  nth_error (w_acts w) r = Some a -> m <> ""%string -> ~ In LB (lit m) ->
  let shown (e : event) := forall a1 d, unshadowed a1 "event_message" -> field_line env fnest (S fuel) "event_message" e a1 d = lit m in
  (exists e, published cfg (a_log a) [(KWarn, e)] w (fst (warn cfg r m kw w)) /\ shown e) /\
  (a_begin a = None -> exists e, published cfg (a_log a) [(KBegin, e)] w (fst (begin cfg r (Some m) kw w)) /\ shown e) /\
  (a_defer a = false -> forall ok, exists b e, published cfg (a_log a) (first_begin a b ++ [(KEnd, e)]) w (fst (conclude cfg ok r (Some m) kw w)) /\ shown e) /\
  (a_defer a = false -> forall ex s, cf_describe cfg ex = Ok s -> exists x b e,
     published cfg (a_log a) ((KExc, x) :: first_begin a b ++ [(KEnd, e)]) w (fst (exception_ cfg r (Some ex) (Some m) kw w)) /\ shown x /\ shown e) /\
  (forall l p, exists c, published cfg l [(KComment, c)] w (fst (comment cfg l m kw p w)) /\ shown c).
Proof.
  intros env fnest fuel cfg r a m kw w HR HQ Ha Hm Hb shown.
  assert (Sh : forall e, e_msg e = m -> shown e).
  { intros e E a1 d U. rewrite (plain_message env fnest fuel e a1 d U); rewrite E; [reflexivity|exact Hb]. }
  assert (Tx : forall t, CallSpec.text (Some m) t = m) by (intros t; destruct m; [congruence|reflexivity]).
  split; [|split; [|split; [|split]]].
  - destruct (C70_warn cfg r a m kw w HR HQ Ha) as (e & a' & _ & P & _ & _ & _ & E & _). exists e. auto.
  - intros Hn. destruct (C70_begin cfg r a (Some m) kw w HR HQ Ha) as (b & a' & _ & P & _ & B & _). unfold first_begin in P. rewrite Hn in P, B.
    destruct B as (_ & _ & _ & B). rewrite Tx in B. exists b. auto.
  - intros Hd ok. destruct (C70_success_failure cfg ok r a (Some m) kw w HR HQ Ha) as (b & e & a' & _ & P & _ & _ & _ & _ & B & _).
    rewrite Hd in P. rewrite Tx in B. exists b, e. auto.
  - intros Hd ex s Hs. destruct (C70_exception cfg r a ex s (Some m) kw w HR HQ Ha Hs) as (x & b & e & a' & _ & P & _ & _ & _ & _ & _ & _ & X & _ & _ & E & _).
    rewrite Hd in P. rewrite Tx in X. rewrite X in E. exists x, b, e. auto.
  - intros l p. destruct (C70_comment cfg l m kw p w HR HQ) as (c & b & e & _ & P & _ & _ & _ & E & _). exists c. auto.
Qed.
Print Assumptions C85_given.

(** ** Examples *)
(** Exceptions whose text is [s]. *)
Definition raises (s : string) : config := mkConfig Z.of_nat (fun _ _ => true) (fun _ _ _ _ _ => None) (fun _ _ _ => None) (fun _ _ => None) (fun _ => Ok s).
(** The messages shown at the end of the run for the begin and end event of the first
    action. *)
Definition messages (cfg : config) (os : list op) : list text :=
  let w := run_ops cfg os (init (fun _ => false)) in
  match nth_error (w_acts w) 0 with
  | Some a => flat_map (fun o => match o with Some e => [field_line (env84 1000) (fun _ _ => None) 1 "event_message" e a (parent_depth w 0)] | None => [] end) [a_begin a; a_end a]
  | None => []
  end.
Example C85_nonvacuous :
  messages (raises "ZeroDivisionError") [OpNew 0 70 "job" [] None None; OpBegin 0 None []; OpSuccess 0 None []] =
    [lit "job beginning"; lit "job succeeded"] /\
  messages (raises "ZeroDivisionError") [OpNew 0 70 "job" [("user", 3%Z)] None None; OpFailure 0 None []] =
    [lit "job beginning"; lit "job failed - (repr)"] /\
  messages (raises "ZeroDivisionError") [OpNew 0 70 "job" [("user", 3%Z)] None None; OpException 0 (Some boom) None []] =
    [lit "job beginning"; lit "job raised exception: ZeroDivisionError - (repr)"] /\
  messages (raises "ZeroDivisionError") [OpNew 0 70 "job" [] None None; OpException 0 (Some boom) (Some "oh no") []] =
    [lit "job beginning"; lit "oh no"] /\
  (let w := run_ops quiet_cfg [OpNew 0 70 "job" [("user", 3%Z)] None None] (init (fun _ => false)) in
   reach quiet_cfg w /\ (forall k, hook_quiet quiet_cfg k) /\
   exists a, nth_error (w_acts w) 0 = Some a /\ a_begin a = None /\ a_defer a = false /\ no_braces (a_name a) /\ unshadowed a "event_message" /\ unshadowed a "data_map_repr").
Proof.
  repeat (split; [vm_compute; reflexivity|]). split; [apply reach_run_ops, reach_init|]. split; [intros k ? ? ? ?; reflexivity|].
  eexists. split; [vm_compute; reflexivity|]. repeat (split; [reflexivity|]). split; [|split; reflexivity]. split; vm_compute; intuition discriminate.
Qed.

(** Default messages are templates too.  A brace in the name of an action loses the whole
    message. *)
Theorem C85_brace_in_name_refuted : exists name,
  messages quiet_cfg [OpNew 0 70 name [] None None; OpBegin 0 None []] = [lit "{event_message}"].
Proof. exists "f(x={1"%string. vm_compute. reflexivity. Qed.
Print Assumptions C85_brace_in_name_refuted.
(** The text of an exception can bring in any field. *)
Theorem C85_exception_text_refuted : exists s,
  messages (raises s) [OpNew 0 70 "job" [] None None; OpBegin 0 None []; OpException 0 (Some boom) None []] =
    [lit "job beginning"; lit "job raised exception: ValueError: 99"] /\ s = "ValueError: {process_id}"%string.
Proof. eexists. split; [|reflexivity]. vm_compute. reflexivity. Qed.
Print Assumptions C85_exception_text_refuted.
(** Data first given to success() itself is not in its message. *)
Theorem C85_late_data_refuted : exists kw, kw <> [] /\
  messages quiet_cfg [OpNew 0 70 "job" [] None None; OpSuccess 0 None kw] = [lit "job beginning"; lit "job succeeded"] /\
  messages quiet_cfg [OpNew 0 70 "job" kw None None; OpSuccess 0 None []] = [lit "job beginning"; lit "job succeeded - (repr)"].
Proof. exists [("rows", 3%Z)]%string. split; [discriminate|]. split; vm_compute; reflexivity. Qed.
Print Assumptions C85_late_data_refuted.
