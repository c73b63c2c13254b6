(** CounterSink: lossy counting. *)
From Coq Require Import NArith.
From Verif Require Import model.PyBase model.Quantile model.Sinks spec.QuantileSpec spec.SinkSpec proof.DictLemmas proof.SinkProofs proof.SinkProofs2 proof.SinkProofs3 proof.SinkProofs4.
Open Scope N_scope.

Definition kcount (k : string) (ks : list string) : N := N.of_nat (count_if (String.eqb k) ks).
Lemma kcount_snoc k ks x : kcount k (ks ++ [x]) = kcount k ks + (if String.eqb k x then 1 else 0).
Proof. unfold kcount. rewrite count_app. unfold count_if at 2. simpl. destruct (String.eqb k x); simpl; lia. Qed.
Definition tc_run (w : N) (ks : list string) : tcounter := fold_left tc_add ks (tc_new w).
Definition tget (k : string) (c : tcounter) := dget String.eqb k (tc_map c).

Lemma nsum_app a b : nsum (a ++ b) = nsum a + nsum b.
Proof. unfold nsum. induction a; simpl; lia. Qed.
Lemma nsum_set {V} (g : V -> N) k v (d : list (string * V)) :
  nsum (map (fun p => g (snd p)) (dset String.eqb k v d)) + (match dget String.eqb k d with Some x => g x | None => 0 end) =
  nsum (map (fun p => g (snd p)) d) + g v.
Proof. unfold nsum. induction d as [|[a b] d IH]; simpl; [lia|]. destruct (String.eqb k a); simpl; lia. Qed.
Lemma nsum_filter {V} (g : V -> N) f (d : list (string * V)) : nsum (map (fun p => g (snd p)) (filter f d)) <= nsum (map (fun p => g (snd p)) d).
Proof. unfold nsum. induction d as [|p d IH]; simpl; [lia|]. destruct (f p); simpl; lia. Qed.
Lemma ndk_filter {V} f (d : list (string * V)) : ndk String.eqb d -> ndk String.eqb (filter f d).
Proof.
  induction d as [|[k v] d IH]; intros H; auto. destruct H as [H1 H2]. simpl. destruct (f (k, v)); auto. simpl. split; auto.
  intros k' v' Hin. apply filter_In in Hin. eapply H1; apply Hin.
Qed.
Lemma dget_filter {V} f k (d : list (string * V)) : ndk String.eqb d ->
  dget String.eqb k (filter f d) = match dget String.eqb k d with Some v => if f (k, v) then Some v else None | None => None end.
Proof.
  induction d as [|[a b] d IH]; intros H; auto. destruct H as [H1 H2]. simpl. destruct (String.eqb_spec k a) as [->|N].
  - destruct (f (a, b)) eqn:E; simpl; [rewrite String.eqb_refl; auto|]. rewrite IH by auto.
    destruct (dget String.eqb a d) eqn:Eg; auto. apply dget_string_in in Eg. specialize (H1 _ _ Eg). rewrite String.eqb_refl in H1. discriminate.
  - destruct (f (a, b)); simpl; [destruct (String.eqb_spec k a); [congruence|]|]; apply IH; auto.
Qed.

Lemma div_step a w : 1 <= w -> (a + 1) / w = a / w + (if (a + 1) mod w =? 0 then 1 else 0).
Proof.
  intros Hw. pose proof (N.div_mod a w ltac:(lia)) as D1. pose proof (N.mod_lt a w ltac:(lia)) as D2.
  pose proof (N.div_mod (a + 1) w ltac:(lia)) as D3. pose proof (N.mod_lt (a + 1) w ltac:(lia)) as D4.
  destruct (N.eq_dec (a mod w + 1) w) as [E|E].
  - assert (E1 : (a + 1) / w = a / w + 1) by (symmetry; apply N.div_unique with (r := 0); lia).
    assert (E2 : (a + 1) mod w = 0) by (symmetry; apply N.mod_unique with (q := a / w + 1); lia). rewrite E1, E2. reflexivity.
  - assert (E1 : (a + 1) / w = a / w) by (symmetry; apply N.div_unique with (r := a mod w + 1); lia).
    assert (E2 : (a + 1) mod w = a mod w + 1) by (symmetry; apply N.mod_unique with (q := a / w); lia). rewrite E1, E2.
    replace (a mod w + 1 =? 0) with false by (symmetry; apply N.eqb_neq; clear; generalize (a mod w); intros; lia). symmetry; apply N.add_0_r.
Qed.
Definition bound (c : tcounter) (ks : list string) (k : string) : Prop :=
  match tget k c with
  | Some (n, d) => n <= kcount k ks /\ kcount k ks <= n + d /\ d <= tc_bucket c - 1
  | None => kcount k ks <= tc_bucket c - 1
  end.
Lemma tc_inv w ks : 1 <= w -> let c := tc_run w ks in
  tc_width c = w /\ tc_total c = N.of_nat (length ks) /\ tc_bucket c = 1 + tc_total c / w /\ ndk String.eqb (tc_map c) /\
  tc_common c <= tc_total c /\ (forall k n d, tget k c = Some (n, d) -> In k ks) /\ forall k, bound c ks k.
Proof.
  intros Hw. cbv zeta. induction ks as [|x ks IH] using rev_ind.
  - split; [reflexivity|]. split; [reflexivity|]. split; [change (1 = 1 + 0 / w); rewrite N.div_0_l by lia; reflexivity|]. split; [exact I|].
    split; [cbn; lia|]. split; [intros; discriminate|]. intros k. unfold bound. cbn. lia.
  - unfold tc_run in *. rewrite fold_left_app. cbn [fold_left]. set (c := fold_left tc_add ks (tc_new w)) in *.
    destruct IH as (I1 & I2 & I3 & I4 & I5 & I6 & I7).
    set (m := match tget x c with Some (n, d) => dset String.eqb x (n + 1, d) (tc_map c) | None => dset String.eqb x (1, tc_bucket c - 1) (tc_map c) end).
    assert (Ec : tc_add c x = if ((tc_total c + 1) mod w =? 0) then mkTC (tc_total c + 1) (filter (fun p => tc_bucket c <? fst (snd p) + snd (snd p)) m) w (tc_bucket c + 1) else mkTC (tc_total c + 1) m w (tc_bucket c)).
    { unfold tc_add. rewrite I1. reflexivity. }
    assert (M1 : ndk String.eqb m) by (unfold m; destruct (tget x c) as [[n d]|]; apply (ndk_set String.eqb String.eqb_refl String.eqb_sym string_eqb_trans); auto).
    assert (M2 : nsum (map (fun p => fst (snd p)) m) <= tc_total c + 1).
    { unfold m. unfold tc_common in I5. unfold tget. destruct (dget String.eqb x (tc_map c)) as [[n d]|] eqn:Ex.
      - pose proof (nsum_set (@fst N N) x (n + 1, d) (tc_map c)) as H. rewrite Ex in H. cbn [fst] in H. lia.
      - pose proof (nsum_set (@fst N N) x (1, tc_bucket c - 1) (tc_map c)) as H. rewrite Ex in H. cbn [fst] in H. lia. }
    assert (M3 : forall k, match dget String.eqb k m with
        | Some (n, d) => n <= kcount k (ks ++ [x]) /\ kcount k (ks ++ [x]) <= n + d /\ d <= tc_bucket c - 1
        | None => kcount k (ks ++ [x]) <= tc_bucket c - 1 end).
    { intros k. specialize (I7 k). unfold bound in I7. rewrite kcount_snoc. destruct (String.eqb_spec k x) as [->|N].
      - unfold m. destruct (tget x c) as [[n d]|]; rewrite (dget_set String.eqb String.eqb_sym string_eqb_trans), String.eqb_refl; lia.
      - assert (Em : dget String.eqb k m = tget k c).
        { unfold m. destruct (tget x c) as [[n d]|]; rewrite (dget_set String.eqb String.eqb_sym string_eqb_trans); (destruct (String.eqb_spec k x); [congruence | reflexivity]). }
        rewrite Em. destruct (tget k c) as [[n d]|]; lia. }
    assert (M4 : forall k n d, dget String.eqb k m = Some (n, d) -> In k (ks ++ [x])).
    { intros k n d. unfold m. intros H. apply in_or_app. destruct (String.eqb_spec k x) as [->|N]; [right; left; auto|]. left.
      destruct (tget x c) as [[n' d']|]; rewrite (dget_set String.eqb String.eqb_sym string_eqb_trans) in H; destruct (String.eqb_spec k x); try congruence; eapply I6; eauto. }
    assert (L : N.of_nat (length (ks ++ [x])) = tc_total c + 1) by (rewrite app_length; simpl; lia).
    pose proof (div_step (tc_total c) w Hw) as D.
    clearbody m. rewrite Ec. destruct ((tc_total c + 1) mod w =? 0); unfold tc_common, bound, tget; cbn [tc_width tc_total tc_bucket tc_map].
    + split; auto. split; auto. split; [rewrite I3; lia|]. split; [apply ndk_filter; auto|]. split; [pose proof (nsum_filter (@fst N N) (fun p => tc_bucket c <? fst (snd p) + snd (snd p)) m); lia|].
      split; [intros k n d; rewrite dget_filter by auto; destruct (dget String.eqb k m) as [[n' d']|] eqn:Em; [intros _; eapply M4; eauto | discriminate]|].
      intros k. rewrite dget_filter by auto. specialize (M3 k). destruct (dget String.eqb k m) as [[n d]|]; [|lia]. cbn [fst snd].
      destruct (N.ltb_spec (tc_bucket c) (n + d)); lia.
    + split; auto. split; auto. split; [rewrite I3; lia|]. split; auto.
Qed.

(** ** The sink *)
Open Scope nat_scope.
Lemma cs_get w evs l : dget logger_eqb l (cs_run w evs) =
  match filter (fun e => logger_eqb l (ee_logger e)) evs with [] => None | _ => Some (tc_run w (map ee_name (filter (fun e => logger_eqb l (ee_logger e)) evs))) end.
Proof.
  unfold cs_run. induction evs as [|e evs IH] using rev_ind; auto. rewrite fold_left_app, filter_app. cbn [fold_left filter]. unfold cs_on_end at 1.
  rewrite (dget_upd logger_eqb logger_eqb_sym logger_eqb_trans), IH. destruct (logger_eqb l (ee_logger e)).
  - rewrite map_app. unfold tc_run. rewrite fold_left_app. cbn [map fold_left]. destruct (filter (fun e0 => logger_eqb l (ee_logger e0)) evs) as [|a r]; reflexivity.
  - rewrite app_nil_r. auto.
Qed.
Lemma cs_keys w evs k c : In (k, c) (cs_run w evs) -> exists e, In e evs /\ ee_logger e = k.
Proof.
  unfold cs_run. revert k c. induction evs as [|e evs IH] using rev_ind; [intros ? ? []|]. intros k c. rewrite fold_left_app. cbn [fold_left]. intros H.
  destruct (dset_keys _ _ _ _ _ _ H) as [H'|H'].
  - apply in_map_iff in H'. destruct H' as ([k' c'] & Ek & H'). cbn [fst] in Ek. subst k'. destruct (IH _ _ H') as (e' & He' & Ee). exists e'. split; auto. apply in_or_app; auto.
  - exists e. split; auto. apply in_or_app; right; left; auto.
Qed.
Lemma cs_ndk w evs : ndk logger_eqb (cs_run w evs).
Proof.
  unfold cs_run. induction evs as [|e evs IH] using rev_ind; [exact I|]. rewrite fold_left_app. cbn [fold_left].
  apply (ndk_set logger_eqb logger_eqb_refl logger_eqb_sym logger_eqb_trans); auto.
Qed.
Lemma cs_dict_of w evs e : distinct_names evs -> In e evs ->
  dget String.eqb (snd (ee_logger e)) (cs_to_dict (cs_run w evs)) = Some (cs_logger_dict (tc_run w (map ee_name (filter (of_logger (snd (ee_logger e))) evs)))).
Proof.
  intros Hd He. unfold cs_to_dict.
  change (dget String.eqb (snd (ee_logger e)) (build (fun p : (nat * string) * tcounter => snd (fst p)) (fun p => cs_logger_dict (snd p)) (cs_run w evs) []) = Some (cs_logger_dict (tc_run w (map ee_name (filter (of_logger (snd (ee_logger e))) evs))))).
  pose proof (cs_get w evs (ee_logger e)) as G.
  assert (F : filter (fun e0 => logger_eqb (ee_logger e) (ee_logger e0)) evs = filter (of_logger (snd (ee_logger e))) evs).
  { apply filter_ext_in. intros x Hx. unfold of_logger, logger_eqb. apply Bool.eq_iff_eq_true. rewrite Nat.eqb_eq, String.eqb_eq. apply Hd; auto. }
  rewrite F in G. assert (Hf : In e (filter (of_logger (snd (ee_logger e))) evs)) by (apply filter_In; split; auto; apply String.eqb_refl).
  destruct (filter (of_logger (snd (ee_logger e))) evs) as [|x r] eqn:Ef; [destruct Hf|]. rewrite <- Ef in *.
  destruct (dget_in _ _ _ _ G) as (k & Hk & Ek).
  apply Nat.eqb_eq in Ek. destruct (cs_keys w evs k _ Hk) as (ek & Hek & Eek).
  assert (En : snd k = snd (ee_logger e)) by (rewrite <- Eek in *; symmetry; apply (Hd e ek); auto).
  rewrite (build_hit (fun p : (nat * string) * tcounter => snd (fst p)) (fun p => cs_logger_dict (snd p)) (cs_run w evs) [] (snd (ee_logger e)) (k, tc_run w (map ee_name (filter (of_logger (snd (ee_logger e))) evs))) Hk En); auto.
  intros [k' c'] Hk' E'. cbn [fst snd] in *. f_equal. destruct (cs_keys w evs k' c' Hk') as (e' & He' & Ee').
  assert (Ei : fst k' = fst k). { rewrite <- Ek, <- Ee'. apply (Hd e' e); auto. rewrite Ee'. auto. }
  assert (D1 : dget logger_eqb k' (cs_run w evs) = Some c') by (apply dget_of_in; auto using logger_eqb_refl, logger_eqb_sym, cs_ndk).
  assert (D2 : dget logger_eqb k (cs_run w evs) = Some (tc_run w (map ee_name (filter (of_logger (snd (ee_logger e))) evs)))) by (apply dget_of_in; auto using logger_eqb_refl, logger_eqb_sym, cs_ndk).
  rewrite (dget_ext logger_eqb logger_eqb_sym logger_eqb_trans k' k) in D1 by (unfold logger_eqb; rewrite Ei; apply Nat.eqb_refl). congruence.
Qed.

Open Scope N_scope.
Lemma dget_map_fst (m : list (string * (N * N))) k : dget String.eqb k (map (fun p => (fst p, fst (snd p))) m) = match dget String.eqb k m with Some (n, _) => Some n | None => None end.
Proof. induction m as [|[a [n d]] m IH]; auto. simpl. destruct (String.eqb k a); auto. Qed.
Lemma shown_set k k' v d : shown k (dset String.eqb k' v d) = if String.eqb k k' then v else shown k d.
Proof. unfold shown. rewrite (dget_set String.eqb String.eqb_sym string_eqb_trans). destruct (String.eqb k k'); auto. Qed.

Theorem counter_dict w ks : 1 <= w -> ~ In "__all__" ks -> ~ In "__missing__" ks ->
  let d := cs_logger_dict (tc_run w ks) in
  dget String.eqb "__all__" d = Some (N.of_nat (length ks)) /\
  (forall k, k <> "__all__" -> k <> "__missing__" -> shown k d <= kcount k ks /\ kcount k ks <= shown k d + N.of_nat (length ks) / w) /\
  shown "__missing__" d + tc_common (tc_run w ks) = N.of_nat (length ks) /\
  tc_common (tc_run w ks) = nsum (map (fun k => shown k d) (map fst (tc_map (tc_run w ks)))) /\
  NoDup (map fst (tc_map (tc_run w ks))) /\
  (forall k, k <> "__all__" -> k <> "__missing__" -> ~ In k (map fst (tc_map (tc_run w ks))) -> dget String.eqb k d = None) /\
  (forall k, In k (map fst (tc_map (tc_run w ks))) -> In k ks).
Proof.
  intros Hw R1 R2 d. destruct (tc_inv w ks Hw) as (I1 & I2 & I3 & I4 & I5 & I6 & I7). set (c := tc_run w ks) in *.
  assert (K0 : forall k, In k (map fst (tc_map c)) -> In k ks).
  { intros k Hin. apply in_keys_get in Hin. destruct (dget String.eqb k (tc_map c)) as [[n dd]|] eqn:E; [|congruence]. eapply I6; eauto. }
  assert (NA : dget String.eqb "__all__" (tc_map c) = None).
  { destruct (dget String.eqb "__all__" (tc_map c)) as [[n dd]|] eqn:E; auto. exfalso. apply R1. eapply I6; eauto. }
  assert (NM : dget String.eqb "__missing__" (tc_map c) = None).
  { destruct (dget String.eqb "__missing__" (tc_map c)) as [[n dd]|] eqn:E; auto. exfalso. apply R2. eapply I6; eauto. }
  set (cur := map (fun p => (fst p, fst (snd p))) (tc_map c)).
  assert (S0 : nsum (map snd cur) = tc_common c) by (unfold cur, tc_common; rewrite map_map; reflexivity).
  set (cur2 := if tc_uncommon c =? 0 then cur else dset String.eqb "__missing__" (tc_uncommon c) cur).
  assert (S1 : nsum (map snd cur2) = tc_total c).
  { unfold cur2. unfold tc_uncommon in *. destruct (N.eqb_spec (tc_total c - tc_common c) 0) as [E|E]; [lia|].
    pose proof (nsum_set (fun n : N => n) "__missing__" (tc_total c - tc_common c) cur) as H. unfold cur in H at 2. rewrite dget_map_fst, NM in H.
    change (map (fun p : string * N => snd p)) with (@map (string * N) N snd) in H. lia. }
  assert (Ed : d = dset String.eqb "__all__" (tc_total c) cur2) by (unfold d, cs_logger_dict; fold cur; fold cur2; rewrite S1; reflexivity).
  assert (Sh : forall k, k <> "__all__" -> k <> "__missing__" -> dget String.eqb k d = match dget String.eqb k (tc_map c) with Some (n, _) => Some n | None => None end).
  { intros k A B. rewrite Ed, (dget_set String.eqb String.eqb_sym string_eqb_trans). destruct (String.eqb_spec k "__all__"); [congruence|].
    rewrite <- dget_map_fst. fold cur. unfold cur2. destruct (tc_uncommon c =? 0); auto. rewrite (dget_set String.eqb String.eqb_sym string_eqb_trans). destruct (String.eqb_spec k "__missing__"); congruence. }
  split; [rewrite Ed, (dget_set String.eqb String.eqb_sym string_eqb_trans), String.eqb_refl, I2; reflexivity|].
  split; [|split; [|split; [|split; [|split]]]].
  - intros k A B. unfold shown. rewrite (Sh k A B). specialize (I7 k). unfold bound, tget in I7. rewrite <- I2.
    rewrite I3 in I7. generalize dependent (tc_total c / w). intros q _ I7. destruct (dget String.eqb k (tc_map c)) as [[n dd]|]; lia.
  - rewrite Ed, shown_set. change (String.eqb "__missing__" "__all__") with false. cbv iota. unfold cur2, tc_uncommon in *. destruct (N.eqb_spec (tc_total c - tc_common c) 0) as [E|E].
    + unfold shown, cur. rewrite dget_map_fst, NM. lia.
    + rewrite shown_set, String.eqb_refl. lia.
  - unfold tc_common. rewrite map_map. f_equal. apply map_ext_in. intros [k [n dd]] Hin. cbn [fst snd]. unfold shown.
    assert (Hk : In k ks) by (apply K0; apply in_map_iff; exists (k, (n, dd)); auto).
    rewrite (Sh k) by (intros ->; auto). rewrite (dget_string_ndk k (tc_map c) (n, dd) I4 Hin). reflexivity.
  - apply ndk_nodup; auto.
  - intros k A B C. rewrite (Sh k A B). destruct (dget String.eqb k (tc_map c)) as [[n dd]|] eqn:E; auto. exfalso. apply C. apply in_keys_get. congruence.
  - auto.
Qed.
