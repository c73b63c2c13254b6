(** Templates of one built-in field. *)
From Verif Require Import model.PyBase model.Core model.Levels model.Sensible model.Timestamps model.Pipeline model.Format model.Fields
  spec.FormatSpec spec.FieldSpec proof.FieldProofs.
Open Scope nat_scope.

(** ** One field alone *)
Lemma alone_formatter env fn fnest fuel n s q : In (n, s, q) BUILTIN_FIELDS ->
  make_formatter (field_table env fn fnest fuel) no_quoter default_defaulter (lit ("{" +s n +s "}")) =
  Some [CFld (mkTok (lit n) (lit s) None) (Some (lit ("{" +s n +s "}"))) QNone].
Proof.
  intros H. cbn [BUILTIN_FIELDS In] in H.
  repeat (destruct H as [H|H]; [injection H as <- <- <-; vm_compute; reflexivity|]). destruct H.
Qed.
Lemma alone_field env fn fnest fuel n s q x : In (n, s, q) BUILTIN_FIELDS ->
  exists f, dget text_eqb (lit n) (field_table env fn fnest fuel) = Some f /\ fd_getter f x = getter env fn fnest fuel n x /\ fd_fspec f = lit s.
Proof.
  intros H. unfold field_table. set (g := getter env fn fnest fuel). clearbody g. cbn [BUILTIN_FIELDS In] in H.
  repeat (destruct H as [H|H]; [injection H as <- <- <-; eexists; split; [vm_compute; reflexivity|split; reflexivity]|]). destruct H.
Qed.
Lemma alone_line env fn fnest fuel on fs k x n s q : In (n, s, q) BUILTIN_FIELDS ->
  dget text_eqb (lit n) (data_of x) = None ->
  ap_render (sensible_sink env fn fnest fuel on fs no_quoter (alone n)) k x =
  match (match getter env fn fnest fuel n x with GVal v => fn (mkTok (lit n) (lit s) None) v | GKeyError => fn (mkTok (lit n) (lit s) None) VNone | GOther => None end) with
  | Some t => t
  | None => lit ("{" +s n +s "}")
  end.
Proof.
  intros H Hd. unfold sensible_sink, ap_render, alone. rewrite (alone_formatter env fn fnest fuel n s q H).
  destruct (alone_field env fn fnest fuel n s q x H) as (f & E1 & E2 & _).
  assert (Hp : is_positional (mkTok (lit n) (lit s) None) = false /\ base_name (lit n) = lit n).
  { clear E1 E2 f Hd x. cbn [BUILTIN_FIELDS In] in H. repeat (destruct H as [H|H]; [injection H as <- <- <-; split; vm_compute; reflexivity|]). destruct H. }
  destruct Hp as [Hp Hb].
  unfold render, field_segment. rewrite Hp. cbn [tk_fname]. rewrite Hb. unfold resolve. cbn [dget]. rewrite Hd, E1, E2.
  destruct (getter env fn fnest fuel n x) as [v| |].
  - destruct (fn _ v) as [t|]; cbn; rewrite app_nil_r; reflexivity.
  - destruct (fn _ VNone) as [t|]; cbn; rewrite app_nil_r; reflexivity.
  - cbn. rewrite app_nil_r. reflexivity.
Qed.

Lemma lit_inj a b : lit a = lit b -> a = b.
Proof.
  revert b. induction a as [|c a IH]; intros [|c' b] H; try discriminate; [reflexivity|]. cbn in H. injection H as H1 H2.
  rewrite (IH _ H2). f_equal. apply (f_equal Ascii.ascii_of_N) in H1. rewrite !Ascii.ascii_N_embedding in H1. exact H1.
Qed.
Lemma no_data_key n d : dget String.eqb n d = None -> dget text_eqb (lit n) (map (fun p : string * Z => (lit (fst p), VInt (snd p))) d) = None.
Proof.
  induction d as [|[k v] d IH]; intros H; [reflexivity|]. cbn [dget map fst snd] in *.
  destruct (String.eqb n k) eqn:E; [discriminate|].
  destruct (text_eqb (lit n) (lit k)) eqn:E'; [|apply IH, H]. apply text_eqb_iff, lit_inj in E'. subst. rewrite String.eqb_refl in E. discriminate.
Qed.
