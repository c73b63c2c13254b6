(** Templates: the parser agrees with the grammar. *)
From Verif Require Import model.PyBase model.Json model.Format spec.FormatSpec.
Open Scope N_scope.

(** *** Numerals *)
Lemma num_snoc t c : num (t ++ [c]) = 10 * num t + (c - 48).
Proof.
  induction t as [|x t IH]; cbn [app num length]; [cbn; lia|]. rewrite IH, app_length. cbn [length].
  replace (N.of_nat (length t + 1)) with (N.succ (N.of_nat (length t))) by lia. rewrite N.pow_succ_r'. lia.
Qed.
Lemma int_of_num t : int_of t = num t.
Proof.
  unfold int_of. induction t as [|c t IH] using rev_ind; [reflexivity|]. rewrite fold_left_app, num_snoc, IH. cbn [fold_left]. lia.
Qed.
Definition wf_num (t : text) : Prop := Forall digit t /\ (t = [] \/ exists c r, t = c :: r /\ c <> 48).
Lemma wf_num_pos c r : digit c -> c <> 48 -> num (c :: r) <> 0.
Proof. intros D H. cbn [num]. unfold digit in D. assert (1 <= c - 48) by lia. pose proof (N.pow_nonzero 10 (N.of_nat (length r)) ltac:(discriminate)). nia. Qed.
Lemma wf_num_snoc t c : wf_num (t ++ [c]) -> wf_num t /\ digit c.
Proof.
  intros (D & H). apply Forall_app in D as [D1 D2]. inversion D2; subst. split; [|assumption]. split; [assumption|]. destruct t as [|x t]; [auto|]. right.
  destruct H as [H|(y & r & H & N)]; [discriminate|]. injection H as -> H. eauto.
Qed.
Lemma wf_num_inj t : forall u, wf_num t -> wf_num u -> num t = num u -> t = u.
Proof.
  induction t as [|c t IH] using rev_ind; intros u T U H.
  - destruct U as (D & [->|(c & r & -> & N)]); [reflexivity|]. inversion D; subst. exfalso. eapply wf_num_pos; eauto.
  - destruct u as [|d u _] using rev_ind.
    + destruct T as (D & [X|(x & r & X & N)]); [destruct t; discriminate|]. rewrite X in *. inversion D; subst. exfalso. eapply wf_num_pos; eauto.
    + rewrite !num_snoc in H. apply wf_num_snoc in T as (T & Dc). apply wf_num_snoc in U as (U & Dd). unfold digit in *.
      assert (num t = num u /\ c = d) as (E & ->) by lia. f_equal. apply IH; auto.
Qed.
Lemma numeral_inj n t u : numeral n t -> numeral n u -> t = u.
Proof.
  intros (T1 & T2 & T3) (U1 & U2 & U3). assert (Z : forall v, Forall digit v -> num [48] = num v -> v = [48] \/ (exists c r, v = c :: r /\ c <> 48) -> v = [48]).
  { intros v D E [->|(c & r & -> & N)]; [reflexivity|]. inversion D; subst. exfalso. eapply wf_num_pos; eauto. }
  destruct T3 as [->|T3]; [symmetry; apply Z; auto; congruence|]. destruct U3 as [->|U3]; [apply Z; auto; congruence|].
  apply wf_num_inj; [split; auto|split; auto|congruence].
Qed.
Lemma decimal_numeral f : forall n, n < 2 ^ N.of_nat (S f) -> numeral n (decimal (S f) n).
Proof.
  induction f as [|f IH]; intros n H.
  - cbn [decimal]. change (2 ^ N.of_nat 1) with 2 in H. destruct (N.ltb_spec n 10); [|lia]. split; [cbn [num length]; change (10 ^ N.of_nat 0) with 1; lia|]. split; [repeat constructor; unfold digit; lia|].
    destruct (N.eq_dec n 0) as [->|]; [left; reflexivity|right; do 2 eexists; split; [reflexivity|lia]].
  - change (decimal (S (S f)) n) with (if n <? 10 then [48 + n] else decimal (S f) (n / 10) ++ [48 + n mod 10]). destruct (N.ltb_spec n 10) as [L|L].
    + split; [cbn [num length]; change (10 ^ N.of_nat 0) with 1; lia|]. split; [repeat constructor; unfold digit; lia|].
      destruct (N.eq_dec n 0) as [->|]; [left; reflexivity|right; do 2 eexists; split; [reflexivity|lia]].
    + assert (B : n / 10 < 2 ^ N.of_nat (S f)). { apply N.div_lt_upper_bound; [discriminate|]. replace (N.of_nat (S (S f))) with (N.succ (N.of_nat (S f))) in H by lia. rewrite N.pow_succ_r' in H. lia. }
      specialize (IH _ B) as (I1 & I2 & I3). pose proof (N.mod_lt n 10 ltac:(discriminate)) as M. pose proof (N.div_mod n 10 ltac:(discriminate)) as DM.
      assert (P : 1 <= n / 10) by (apply N.div_le_lower_bound; lia).
      split; [rewrite num_snoc, I1; generalize dependent (n mod 10); generalize dependent (n / 10); intros; lia|]. split; [apply Forall_app; split; [assumption|]; constructor; [|constructor]; unfold digit; generalize dependent (n mod 10); intros; lia|].
      right. destruct I3 as [I3|(c & r & I3 & N)]; [rewrite I3 in I1; cbn in I1; rewrite <- I1 in P; lia|]. rewrite I3. cbn [app]. eauto.
Qed.
Lemma str_of_N_numeral n : numeral n (str_of_N n).
Proof. unfold str_of_N. apply decimal_numeral. rewrite Nat2N.inj_succ, N2Nat.id. destruct (N.eq_dec n 0) as [->|]; [reflexivity|]. apply N.log2_spec. lia. Qed.
Lemma numeral_str n t : numeral n t <-> t = str_of_N n.
Proof. split; [intros H; eapply numeral_inj; eauto using str_of_N_numeral|intros ->; apply str_of_N_numeral]. Qed.
Lemma decimal_digits f n : forall c, In c (decimal f n) -> digit c.
Proof.
  revert n. induction f as [|f IH]; intros n c; cbn [decimal]; [intros []|]. destruct (N.ltb_spec n 10).
  - intros [<-|[]]. unfold digit. lia.
  - rewrite in_app_iff. intros [Hc|[<-|[]]]; [eauto|]. unfold digit. pose proof (N.mod_lt n 10) as M. specialize (M ltac:(discriminate)). generalize dependent (n mod 10). intros; lia.
Qed.

(** *** Numbering *)
Lemma follow_in c : anon_follow c = true <-> In c (lit ":!.[}").
Proof. unfold anon_follow. rewrite !orb_true_iff, !N.eqb_eq. change (lit ":!.[}") with [58; 33; 46; 91; 125]. unfold RB. cbn [In]. intuition. Qed.
Lemma infer_unfold n c d r : infer_positional n (c :: d :: r) =
  (if (c =? LB) && (d =? LB) then LB :: LB :: infer_positional n r
   else if (c =? RB) && (d =? RB) then RB :: RB :: infer_positional n r
   else if (c =? LB) && anon_follow d then LB :: str_of_N n ++ d :: infer_positional (n + 1) r
   else c :: infer_positional n (d :: r)).
Proof. reflexivity. Qed.
Lemma numbered_exists m : forall n s, (length s <= m)%nat -> numbered n s (infer_positional n s).
Proof.
  induction m as [|m IH]; intros n s L; destruct s as [|c s]; cbn [length] in L; try lia; try constructor.
  destruct s as [|d r]; [cbn; apply num_char; [intros _ ? ?; discriminate|intros _ ?; discriminate|constructor]|].
  rewrite infer_unfold. cbn [length] in L. destruct (N.eqb_spec c LB) as [->|Nl]; cbn [andb].
  - destruct (N.eqb_spec d LB) as [->|Nd]; [apply num_double; [auto|apply IH; lia]|]. change (LB =? RB) with false. cbn [andb].
    destruct (anon_follow d) eqn:F; [apply num_anon; [apply follow_in; exact F|apply str_of_N_numeral|apply IH; lia]|].
    apply num_char; [|discriminate|apply (IH n (d :: r)); cbn [length]; lia]. intros _ d' r' [= <- <-] I. change (lit "{:!.[}") with (LB :: lit ":!.[}") in I. destruct I as [I|I]; [congruence|]. apply follow_in in I. congruence.
  - destruct (N.eqb_spec c RB) as [->|Nr]; cbn [andb].
    + destruct (N.eqb_spec d RB) as [->|Nd]; [apply num_double; [auto|apply IH; lia]|]. apply num_char; [discriminate|intros _ r' [= E _]; contradiction|apply (IH n (d :: r)); cbn [length]; lia].
    + apply num_char; [contradiction|contradiction|apply (IH n (d :: r)); cbn [length]; lia].
Qed.
Lemma numbered_fun n s s' : numbered n s s' -> s' = infer_positional n s.
Proof.
  induction 1 as [n|n c s s' [->| ->] H ->|n c s t s' F T H ->|n c s s' L R H ->]; [reflexivity|reflexivity|reflexivity| |].
  - apply numeral_str in T. subst t. rewrite infer_unfold. apply follow_in in F. assert (X : (c =? LB) = false) by (apply N.eqb_neq; intros ->; discriminate F). rewrite X, F. reflexivity.
  - destruct s as [|d r]; [reflexivity|]. rewrite infer_unfold. destruct (N.eqb_spec c LB) as [->|]; cbn [andb].
    + specialize (L eq_refl d r eq_refl). change (lit "{:!.[}") with (LB :: lit ":!.[}") in L. destruct (N.eqb_spec d LB) as [->|]; [exfalso; apply L; left; reflexivity|].
      change (LB =? RB) with false. cbn [andb]. destruct (anon_follow d) eqn:F; [exfalso; apply L; right; apply follow_in; exact F|reflexivity].
    + destruct (N.eqb_spec c RB) as [->|]; cbn [andb]; [|reflexivity]. destruct (N.eqb_spec d RB) as [->|]; [exfalso; eapply R; reflexivity|reflexivity].
Qed.
Lemma numbered_iff n s s' : numbered n s s' <-> s' = infer_positional n s.
Proof. split; [apply numbered_fun|intros ->; eapply numbered_exists; reflexivity]. Qed.

(** *** Field names *)
Definition name_stop (c : N) : Prop := c = RB \/ c = 58 \/ c = 33.
Lemma stop_bool c : (c =? RB) || (c =? 58) || (c =? 33) = true <-> name_stop c.
Proof. unfold name_stop. rewrite !orb_true_iff, !N.eqb_eq. tauto. Qed.
Lemma scan_name_br i s : ~ In 93 i -> scan_name true (i ++ 93 :: s) = match scan_name false s with Some (n, c, r) => Some (i ++ 93 :: n, c, r) | None => None end.
Proof.
  induction i as [|x i IH]; intros H; [reflexivity|]. cbn [app scan_name]. assert (X : (x =? 93) = false) by (apply N.eqb_neq; intros ->; apply H; left; reflexivity). rewrite X. cbn [negb].
  rewrite IH by (intros I; apply H; right; exact I). destruct (scan_name false s) as [[[n c] r]|]; reflexivity.
Qed.
Lemma scan_br_split s n c r : scan_name true s = Some (n, c, r) -> exists i s', s = i ++ 93 :: s' /\ ~ In 93 i.
Proof.
  revert n c r. induction s as [|x s IH]; intros n c r H; [discriminate|]. cbn [scan_name] in H. destruct (N.eqb_spec x 93) as [->|Nx]; [exists [], s; split; [reflexivity|intros []]|].
  cbn [negb] in H. destruct (scan_name true s) as [[[n' c'] r']|] eqn:E; [|discriminate]. destruct (IH _ _ _ eq_refl) as (i & s' & -> & Hi). exists (x :: i), s'. split; [reflexivity|]. intros [I|I]; [congruence|contradiction].
Qed.
Lemma scan_name_complete name c r : name_ok name -> name_stop c -> scan_name false (name ++ c :: r) = Some (name, c, r).
Proof.
  intros H S. induction H as [|x n H1 H2 IH|i n H1 H2 IH].
  - cbn [app scan_name]. destruct S as [->|[->| ->]]; reflexivity.
  - cbn [app scan_name]. change (lit "{}[:!") with [123; 125; 91; 58; 33] in H1. cbn [In] in H1. unfold LB, RB.
    destruct (N.eqb_spec x 123); [exfalso; apply H1; subst x; tauto|]. destruct (N.eqb_spec x 91); [exfalso; apply H1; subst x; tauto|]. destruct (N.eqb_spec x 125); [exfalso; apply H1; subst x; tauto|].
    destruct (N.eqb_spec x 58); [exfalso; apply H1; subst x; tauto|]. destruct (N.eqb_spec x 33); [exfalso; apply H1; subst x; tauto|]. cbn [orb]. rewrite IH. reflexivity.
  - cbn [app]. rewrite <- app_assoc. change (scan_name false (91 :: i ++ (93 :: n) ++ c :: r)) with (match scan_name true (i ++ 93 :: (n ++ c :: r)) with Some (n, t, q) => Some (91 :: n, t, q) | None => None end).
    rewrite scan_name_br by auto. rewrite IH. reflexivity.
Qed.
Lemma scan_name_sound m : forall s name c r, (length s <= m)%nat -> scan_name false s = Some (name, c, r) -> s = name ++ c :: r /\ name_ok name /\ name_stop c.
Proof.
  induction m as [|m IH]; intros s name c r L H; destruct s as [|x s]; cbn [length] in L; try lia; try discriminate. cbn [scan_name] in H.
  destruct (N.eqb_spec x LB) as [|Nl]; [discriminate|]. destruct (N.eqb_spec x 91) as [->|N91].
  - destruct (scan_name true s) as [[[n' c'] r']|] eqn:E; [|discriminate]. injection H as <- <- <-. destruct (scan_br_split _ _ _ _ E) as (i & s' & -> & Hi). rewrite scan_name_br in E by auto.
    destruct (scan_name false s') as [[[n2 c2] r2]|] eqn:E2; [|discriminate]. injection E as <- <- <-. rewrite app_length in L. cbn [length] in L. apply IH in E2 as (-> & O & S); [|lia].
    split; [cbn [app]; rewrite <- app_assoc; reflexivity|]. split; [apply name_index; auto|assumption].
  - destruct ((x =? RB) || (x =? 58) || (x =? 33)) eqn:S.
    + injection H as <- <- <-. apply stop_bool in S. split; [reflexivity|]. split; [constructor|exact S].
    + destruct (scan_name false s) as [[[n' c'] r']|] eqn:E; [|discriminate]. injection H as <- <- <-. apply IH in E as (-> & O & T); [|lia]. split; [reflexivity|]. split; [|exact T].
      apply name_char; [|exact O]. change (lit "{}[:!") with [LB; RB; 91; 58; 33]. rewrite !orb_false_iff, !N.eqb_neq in S. cbn [In]. intuition.
Qed.

(** *** Format specs *)
Lemma scan_spec_balanced a : balanced a -> forall d s, scan_spec d (a ++ s) = match scan_spec d s with Some (n, q) => Some (a ++ n, q) | None => None end.
Proof.
  induction 1 as [|c t H1 H2 H3 IH|a t H1 IH1 H2 IH2]; intros d s.
  - cbn [app]. destruct (scan_spec d s) as [[n q]|]; reflexivity.
  - cbn [app scan_spec]. destruct (N.eqb_spec c LB); [contradiction|]. destruct (N.eqb_spec c RB); [contradiction|]. rewrite IH. destruct (scan_spec d s) as [[m q]|]; reflexivity.
  - change ((LB :: a ++ RB :: t) ++ s) with (LB :: (a ++ RB :: t) ++ s). rewrite <- app_assoc. change (scan_spec d (LB :: a ++ (RB :: t) ++ s)) with (match scan_spec (S d) (a ++ RB :: (t ++ s)) with Some (n, q) => Some (LB :: n, q) | None => None end).
    rewrite IH1. change (scan_spec (S d) (RB :: t ++ s)) with (match scan_spec d (t ++ s) with Some (n, q) => Some (RB :: n, q) | None => None end). rewrite IH2.
    destruct (scan_spec d s) as [[n q]|]; [|reflexivity]. rewrite <- app_comm_cons, <- app_assoc. reflexivity.
Qed.
Lemma scan_spec_complete a r : balanced a -> scan_spec 0 (a ++ RB :: r) = Some (a, r).
Proof. intros H. rewrite scan_spec_balanced by auto. cbn [scan_spec]. change (RB =? LB) with false. change (RB =? RB) with true. cbn iota. rewrite app_nil_r. reflexivity. Qed.
Fixpoint closes (d : nat) (n : text) : Prop :=
  match d with O => balanced n | S d' => exists a b, n = a ++ RB :: b /\ balanced a /\ closes d' b end.
Lemma scan_spec_sound s : forall d n r, scan_spec d s = Some (n, r) -> s = n ++ RB :: r /\ closes d n.
Proof.
  induction s as [|c s IH]; intros d n r H; [discriminate|]. cbn [scan_spec] in H. destruct (N.eqb_spec c LB) as [->|Nl].
  - destruct (scan_spec (S d) s) as [[n' q]|] eqn:X; [|discriminate]. injection H as <- <-. apply IH in X as (-> & a & b & -> & Ba & Cb). split; [reflexivity|].
    destruct d as [|d]; cbn [closes] in *; [apply bal_nest; auto|]. destruct Cb as (a' & b' & -> & Ba' & Cb'). exists (LB :: a ++ RB :: a'), b'. split; [cbn [app]; rewrite <- app_assoc; reflexivity|]. split; [apply bal_nest; auto|auto].
  - destruct (N.eqb_spec c RB) as [->|Nr].
    + destruct d as [|d]; [injection H as <- <-; split; [reflexivity|constructor]|]. destruct (scan_spec d s) as [[n' q]|] eqn:X; [|discriminate]. injection H as <- <-. apply IH in X as (-> & C). split; [reflexivity|].
      exists [], n'. split; [reflexivity|]. split; [constructor|exact C].
    + destruct (scan_spec d s) as [[n' q]|] eqn:X; [|discriminate]. injection H as <- <-. apply IH in X as (-> & C). split; [reflexivity|]. destruct d as [|d]; cbn [closes] in *; [apply bal_char; auto|].
      destruct C as (a & b & -> & Ba & Cb). exists (c :: a), b. split; [reflexivity|]. split; [apply bal_char; auto|auto].
Qed.

(** *** Fields *)
Definition field_body (k : ftoken) (b : text) : Prop :=
  exists cv sp, name_ok (tk_fname k) /\ conv_text (tk_conv k) cv /\ spec_text (tk_fspec k) sp /\ b = tk_fname k ++ cv ++ sp.
Lemma parse_field_complete k b r : field_body k b -> parse_field (b ++ RB :: r) = Some (k, r).
Proof.
  intros (cv & sp & N & C & S & ->). destruct k as [name spec conv]; cbn [tk_fname tk_fspec tk_conv] in *. rewrite <- !app_assoc. unfold parse_field. inversion C; subst; cbn [app].
  - inversion S; subst; cbn [app]; (rewrite scan_name_complete by (auto; unfold name_stop; auto)).
    + reflexivity.
    + change (58 =? RB) with false. cbn iota. change (58 =? 58) with true. cbn iota. rewrite scan_spec_complete by auto. reflexivity.
  - rewrite scan_name_complete by (auto; unfold name_stop; auto). change (33 =? RB) with false. change (33 =? 58) with false. cbn iota.
    inversion S; subst; cbn [app]; [reflexivity|]. change (58 =? RB) with false. cbn iota. change (58 =? 58) with true. cbn iota. rewrite scan_spec_complete by auto. reflexivity.
Qed.
Lemma parse_field_sound s k r : parse_field s = Some (k, r) -> exists b, s = b ++ RB :: r /\ field_body k b.
Proof.
  unfold parse_field. intros H. destruct (scan_name false s) as [[[name c] q]|] eqn:N; [|discriminate]. apply (scan_name_sound (length s)) in N as (-> & O & S); [|reflexivity].
  destruct (N.eqb_spec c RB) as [->|Nr].
  - injection H as <- <-. exists name. split; [reflexivity|]. exists [], []. cbn. rewrite app_nil_r. repeat split; try constructor; auto.
  - destruct (N.eqb_spec c 58) as [->|Nc].
    + destruct (scan_spec 0 q) as [[sp q']|] eqn:X; [|discriminate]. injection H as <- <-. apply scan_spec_sound in X as (-> & B). exists (name ++ 58 :: sp). split; [rewrite <- app_assoc; reflexivity|].
      exists [], (58 :: sp). cbn. repeat split; try constructor; auto.
    + destruct S as [S|[S| ->]]; [contradiction|contradiction|]. destruct q as [|cv [|c2 r2]]; try discriminate. destruct (N.eqb_spec c2 RB) as [->|N2].
      * injection H as <- <-. exists (name ++ [33; cv]). split; [rewrite <- app_assoc; reflexivity|]. exists [33; cv], []. cbn. repeat split; try constructor; auto.
      * destruct (N.eqb_spec c2 58) as [->|N3]; [|discriminate]. destruct (scan_spec 0 r2) as [[sp q']|] eqn:X; [|discriminate]. injection H as <- <-. apply scan_spec_sound in X as (-> & B).
        exists (name ++ 33 :: cv :: 58 :: sp). split; [rewrite <- app_assoc; reflexivity|]. exists [33; cv], (58 :: sp). cbn. repeat split; try constructor; auto.
Qed.
Lemma field_body_head k b r : field_body k b -> exists c q, b ++ RB :: r = c :: q /\ c <> LB.
Proof.
  intros (cv & sp & N & C & S & ->). rewrite <- !app_assoc. destruct N as [|x n H1 H2|i n H1 H2]; cbn [app].
  - destruct C; cbn [app]; [destruct S; cbn [app]|]; do 2 eexists; (split; [reflexivity|discriminate]).
  - do 2 eexists; split; [reflexivity|]. intros ->. apply H1. left. reflexivity.
  - do 2 eexists; split; [reflexivity|discriminate].
Qed.
Lemma mk_field' k b s ps : field_body k b -> markup s ps -> markup (LB :: b ++ RB :: s) (Field k :: ps).
Proof. intros (cv & sp & N & C & S & ->) H. rewrite <- !app_assoc. destruct k as [name spec conv]. apply mk_field; auto. Qed.

(** *** Whole templates *)
Definition pieces (qs : list (text * option ftoken)) : list piece := flat_map (fun p => map Ch (fst p) ++ match snd p with Some k => [Field k] | None => [] end) qs.
Lemma pieces_cons p ps : pieces (p :: ps) = (map Ch (fst p) ++ match snd p with Some k => [Field k] | None => [] end) ++ pieces ps. Proof. reflexivity. Qed.
Lemma fparse_S f s : s <> [] -> fparse (S f) s =
      match scan_lit s with
      | (_, AError) => None
      | (l, AEnd) => Some [(l, None)]
      | (l, AEscape r) => match fparse f r with Some ps => Some ((l, None) :: ps) | None => None end
      | (l, AField r) =>
        match parse_field r with
        | None => None
        | Some (t, r') => match fparse f r' with Some ps => Some ((l, Some t) :: ps) | None => None end
        end
      end.
Proof. destruct s; [contradiction|reflexivity]. Qed.
Definition no_brace (l : text) : Prop := forall c, In c l -> c <> LB /\ c <> RB.
Lemma brace_bool c : (c =? LB) || (c =? RB) = true <-> c = LB \/ c = RB.
Proof. rewrite orb_true_iff, !N.eqb_eq. reflexivity. Qed.
Lemma scan_lit_split s l a : scan_lit s = (l, a) ->
  match a with
  | AEnd => s = l /\ no_brace l
  | AEscape r => exists l0 c, l = l0 ++ [c] /\ (c = LB \/ c = RB) /\ s = l0 ++ c :: c :: r /\ no_brace l0
  | AField r => s = l ++ LB :: r /\ no_brace l
  | AError => True
  end.
Proof.
  revert l a. induction s as [|c s IH]; intros l a H; cbn [scan_lit] in H; [injection H as <- <-; split; [reflexivity|intros ? []]|].
  destruct ((c =? LB) || (c =? RB)) eqn:B.
  - apply brace_bool in B. destruct s as [|d s]; [injection H as <- <-; exact I|]. destruct (N.eqb_spec d c) as [->|].
    + injection H as <- <-. exists [], c. repeat split; auto. all: intros ? [].
    + destruct (N.eqb_spec c RB); injection H as <- <-; [exact I|]. destruct B as [->|]; [|contradiction]. split; [reflexivity|intros ? []].
  - destruct (scan_lit s) as [l' a'] eqn:E. injection H as <- <-. specialize (IH _ _ eq_refl). assert (X : c <> LB /\ c <> RB) by (rewrite orb_false_iff, !N.eqb_neq in B; exact B).
    assert (Y : forall m, no_brace m -> no_brace (c :: m)) by (intros m M x [<-|Hx]; auto).
    destruct a' as [|r|r|]; auto.
    + destruct IH as (-> & Hl). auto.
    + destruct IH as (l0 & c' & -> & Hc & -> & Hl). exists (c :: l0), c'. split; [reflexivity|]; split; [exact Hc|]; split; [reflexivity|apply Y; exact Hl].
    + destruct IH as (-> & Hl). auto.
Qed.
Lemma markup_text l s ps : no_brace l -> markup s ps -> markup (l ++ s) (map Ch l ++ ps).
Proof. intros H M. induction l as [|c l IH]; [exact M|]. cbn [app map]. destruct (H c (or_introl eq_refl)). apply mk_char; auto. apply IH. intros x Hx. apply H. right. exact Hx. Qed.
Lemma fparse_sound f : forall s qs, fparse f s = Some qs -> markup s (pieces qs).
Proof.
  induction f as [|f IH]; intros s qs H; [discriminate|]. destruct s as [|c s]; [injection H as <-; constructor|]. rewrite fparse_S in H by discriminate.
  destruct (scan_lit (c :: s)) as [l a] eqn:E. apply scan_lit_split in E. destruct a as [|r|r|]; [| | |discriminate].
  - injection H as <-. destruct E as (-> & N). rewrite pieces_cons. cbn [fst snd]. rewrite !app_nil_r. rewrite <- (app_nil_r l) at 1. rewrite <- (app_nil_r (map Ch l)). apply markup_text; [auto|constructor].
  - destruct (fparse f r) as [qs'|] eqn:F; [|discriminate]. injection H as <-. destruct E as (l0 & c' & -> & Hc & -> & N). rewrite pieces_cons. cbn [fst snd]. rewrite map_app, app_nil_r, <- app_assoc.
    apply markup_text; auto. cbn [map app]. apply mk_double; auto.
  - destruct (parse_field r) as [[k r']|] eqn:P; [|discriminate]. destruct (fparse f r') as [qs'|] eqn:F; [|discriminate]. injection H as <-. destruct E as (-> & N). apply parse_field_sound in P as (b & -> & B).
    rewrite pieces_cons. cbn [fst snd]. rewrite <- app_assoc. apply markup_text; auto. cbn [app]. apply mk_field'; auto.
Qed.
Lemma fparse_complete s ps : markup s ps -> forall f, (length s < f)%nat -> exists qs, fparse f s = Some qs /\ pieces qs = ps.
Proof.
  induction 1 as [|c s ps N1 N2 M IH|c s ps C M IH|name conv spec cv sp s ps N C S M IH]; intros f L; (destruct f as [|f]; [lia|]).
  - exists []. split; reflexivity.
  - rewrite fparse_S by discriminate. cbn [scan_lit]. assert (B : (c =? LB) || (c =? RB) = false) by (rewrite orb_false_iff, !N.eqb_neq; auto). rewrite B.
    cbn [length] in L. destruct (IH (S f)) as (qs & F & P); [lia|]. destruct s as [|d s].
    + injection F as <-. cbn [scan_lit]. eexists; split; [reflexivity|]. rewrite <- P. reflexivity.
    + rewrite fparse_S in F by discriminate. destruct (scan_lit (d :: s)) as [l a]. destruct a as [|r|r|]; [| | |discriminate].
      * injection F as <-. eexists; split; [reflexivity|]. rewrite <- P. reflexivity.
      * destruct (fparse f r) as [qs'|]; [|discriminate]. injection F as <-. eexists; split; [reflexivity|]. rewrite <- P. reflexivity.
      * destruct (parse_field r) as [[k r']|]; [|discriminate]. destruct (fparse f r') as [qs'|]; [|discriminate]. injection F as <-. eexists; split; [reflexivity|]. rewrite <- P. reflexivity.
  - rewrite fparse_S by discriminate. cbn [scan_lit]. assert (B : (c =? LB) || (c =? RB) = true) by (apply brace_bool; auto). rewrite B, N.eqb_refl. cbn [length] in L.
    destruct (IH f) as (qs & F & P); [lia|]. rewrite F. eexists; split; [reflexivity|]. rewrite <- P. reflexivity.
  - assert (B : field_body (mkTok name spec conv) (name ++ cv ++ sp)) by (exists cv, sp; auto). replace (name ++ cv ++ sp ++ RB :: s) with ((name ++ cv ++ sp) ++ RB :: s) in * by (rewrite <- !app_assoc; reflexivity).
    rewrite fparse_S by discriminate. destruct (field_body_head _ _ s B) as (x & q & E & Nx).
    assert (SL : scan_lit (LB :: (name ++ cv ++ sp) ++ RB :: s) = ([], AField ((name ++ cv ++ sp) ++ RB :: s))).
    { rewrite E. cbn [scan_lit]. change ((LB =? LB) || (LB =? RB)) with true. cbn iota. destruct (N.eqb_spec x LB); [contradiction|]. reflexivity. }
    rewrite SL, (parse_field_complete _ _ _ B). cbn [length] in L. rewrite app_length in L. cbn [length] in L. destruct (IH f) as (qs & F & P); [lia|]. rewrite F. eexists; split; [reflexivity|]. rewrite <- P. reflexivity.
Qed.
Lemma parse_complete s ps : markup s ps -> exists qs, parse s = Some qs /\ pieces qs = ps.
Proof. intros H. apply (fparse_complete s ps H). lia. Qed.
Lemma parse_markup s : parse s <> None <-> exists ps, markup s ps.
Proof.
  split; [|intros (ps & H); destruct (parse_complete s ps H) as (qs & E & _); congruence]. destruct (parse s) as [qs|] eqn:E; [|contradiction]. intros _. exists (pieces qs). eapply fparse_sound. exact E.
Qed.
Lemma items_of_iff qs : (exists is, items_of qs = Some is /\ flat is = pieces qs) \/ (items_of qs = None /\ exists k, In (Field k) (pieces qs) /\ parse (tk_fspec k) = None).
Proof.
  induction qs as [|[l k] qs [(is & E & F)|(E & k' & I & P)]]; [left; exists []; split; reflexivity| |].
  - cbn [items_of]. rewrite E. assert (X : forall r rest, flat r = rest -> flat (match l with [] => r | _ => Lit l :: r end) = map Ch l ++ rest) by (intros r rest <-; destruct l; reflexivity).
    destruct k as [k|].
    + destruct (parse (tk_fspec k)) eqn:P.
      * left. eexists; split; [reflexivity|]. rewrite pieces_cons. cbn [fst snd]. rewrite <- app_assoc. apply X. cbn. rewrite <- F. reflexivity.
      * right. split; [reflexivity|]. exists k. split; [|exact P]. rewrite pieces_cons. cbn [fst snd]. apply in_or_app. left. apply in_or_app. right. left. reflexivity.
    + left. eexists; split; [reflexivity|]. rewrite pieces_cons. cbn [fst snd]. rewrite app_nil_r. apply X. exact F.
  - right. cbn [items_of]. rewrite E. split; [reflexivity|]. exists k'. split; [|exact P]. rewrite pieces_cons. apply in_or_app. right. exact I.
Qed.
Lemma items_of_specs qs is : items_of qs = Some is -> forall k, In (Field k) (pieces qs) -> parse (tk_fspec k) <> None.
Proof.
  revert is. induction qs as [|[l k] qs IH]; intros is H k' I; [destruct I|]. cbn [items_of] in H. destruct (items_of qs) as [rest|]; [|discriminate]. rewrite pieces_cons in I. cbn [fst snd] in I.
  apply in_app_or in I as [I|I]; [|eauto]. apply in_app_or in I as [I|I]; [apply in_map_iff in I as (? & ? & _); discriminate|]. destruct k as [k|]; [|destruct I]. destruct I as [[= ->]|[]]. destruct (parse (tk_fspec k')); [discriminate|discriminate].
Qed.
Lemma tokenize_sound s is : tokenize s = Some is -> template_of s (flat is).
Proof.
  unfold tokenize. intros H. destruct (parse (infer_positional 0 s)) as [qs|] eqn:P; [|discriminate]. exists (infer_positional 0 s). split; [apply numbered_iff; reflexivity|].
  assert (F : flat is = pieces qs) by (destruct (items_of_iff qs) as [(is' & E & F)|(E & _)]; congruence). rewrite F. split; [eapply fparse_sound; exact P|]. intros k I. apply parse_markup. eapply items_of_specs; eauto.
Qed.
Lemma tokenize_complete s ps : template_of s ps -> exists is, tokenize s = Some is /\ flat is = ps.
Proof.
  intros (s' & N & M & K). apply numbered_iff in N. subst s'. unfold tokenize. destruct (parse_complete _ _ M) as (qs & -> & <-). destruct (items_of_iff qs) as [X|(_ & k & I & P)]; [exact X|].
  exfalso. apply (proj2 (parse_markup (tk_fspec k)) (K k I) P).
Qed.
Lemma template_of_fun s ps ps' : template_of s ps -> template_of s ps' -> ps = ps'.
Proof. intros H H'. apply tokenize_complete in H as (is & T & <-). apply tokenize_complete in H' as (is' & T' & <-). congruence. Qed.
Lemma malformed_iff s : malformed s <-> tokenize s = None.
Proof.
  split; [intros H; destruct (tokenize s) as [is|] eqn:T; [exfalso; eapply H, tokenize_sound, T|reflexivity]|]. intros T ps H. apply tokenize_complete in H as (is & T' & _). congruence.
Qed.

(** *** What the author wrote *)
Lemma meaning_exists ss : forall n, exists is, meaning n ss is.
Proof.
  induction ss as [|s ss IH]; intros n; [eexists; constructor|]. destruct s as [t|m cv sp|cv sp].
  - destruct (IH n) as (is & H). eexists; constructor; eauto.
  - destruct (IH n) as (is & H). eexists; constructor; eauto.
  - destruct (IH (n + 1)) as (is & H). eexists; econstructor; [apply str_of_N_numeral|eauto].
Qed.
Lemma infer_char n c s : c <> LB -> c <> RB -> infer_positional n (c :: s) = c :: infer_positional n s.
Proof. intros H1 H2. symmetry. apply numbered_fun. apply num_char; [contradiction|contradiction|]. apply numbered_iff. reflexivity. Qed.
Lemma infer_text n a s : no_brace a -> infer_positional n (a ++ s) = a ++ infer_positional n s.
Proof.
  induction a as [|c a IH]; intros H; [reflexivity|]. cbn [app]. destruct (H c (or_introl eq_refl)). rewrite infer_char by auto. f_equal. apply IH. intros x Hx. apply H. right. exact Hx.
Qed.
(** Closing braces are kept whether doubled or not. *)
Lemma infer_close n s : infer_positional n (RB :: s) = RB :: infer_positional n s.
Proof.
  remember (length s) as m eqn:Em. assert (L : (length s <= m)%nat) by lia. clear Em. revert s L. induction m as [|m IH]; intros s L; destruct s as [|d s]; cbn [length] in L; try lia; try reflexivity.
  rewrite infer_unfold. change (RB =? LB) with false. change (RB =? RB) with true. cbn [andb]. destruct (N.eqb_spec d RB) as [->|]; [|reflexivity]. f_equal. symmetry. apply IH. lia.
Qed.
Lemma infer_no_open n a s : ~ In LB a -> infer_positional n (a ++ s) = a ++ infer_positional n s.
Proof.
  induction a as [|c a IH]; intros H; [reflexivity|]. cbn [app]. assert (I : infer_positional n (a ++ s) = a ++ infer_positional n s) by (apply IH; intros X; apply H; right; exact X).
  destruct (N.eq_dec c RB) as [->|Nr]; [rewrite infer_close, I; reflexivity|]. rewrite infer_char, I; auto. intros ->. apply H. left. reflexivity.
Qed.
Lemma infer_escape n t s : infer_positional n (escape t ++ s) = escape t ++ infer_positional n s.
Proof.
  induction t as [|c t IH]; [reflexivity|]. cbn [escape]. destruct (N.eqb_spec c LB) as [->|Nl]; [cbn [orb app]; rewrite infer_unfold; change (LB =? LB) with true; cbn [andb]; rewrite IH; reflexivity|].
  destruct (N.eqb_spec c RB) as [->|Nr]; cbn [orb app]; [rewrite !infer_close, IH; reflexivity|rewrite infer_char, IH by auto; reflexivity].
Qed.
Lemma markup_escape t s ps : markup s ps -> markup (escape t ++ s) (map Ch t ++ ps).
Proof.
  intros H. induction t as [|c t IH]; [exact H|]. cbn [escape map app]. destruct ((c =? LB) || (c =? RB)) eqn:B; cbn [app]; [apply mk_double; [apply brace_bool, B|exact IH]|].
  rewrite orb_false_iff, !N.eqb_neq in B. apply mk_char; tauto.
Qed.
Lemma balanced_plain sp : ~ In LB sp -> ~ In RB sp -> balanced sp.
Proof. intros H1 H2. induction sp as [|c sp IH]; [constructor|]. constructor; [intros ->; apply H1; left; reflexivity|intros ->; apply H2; left; reflexivity|]. apply IH; intros X; [apply H1|apply H2]; right; exact X. Qed.
Lemma tail_body name cv sp : name_ok name -> good_tail cv sp -> exists b, field_body (mkTok name sp cv) (name ++ b) /\ (forall r, write_tail cv sp ++ r = b ++ RB :: r) /\ ~ In LB b.
Proof.
  intros N (C & S1 & S2). unfold write_tail. exists ((match cv with Some c => [33; c] | None => [] end) ++ (match sp with [] => [] | _ => 58 :: sp end)). split; [|split].
  - exists (match cv with Some c => [33; c] | None => [] end), (match sp with [] => [] | _ => 58 :: sp end). cbn. split; [exact N|]. split; [destruct cv; constructor|]. split; [|reflexivity]. destruct sp; [constructor|]. constructor. apply balanced_plain; auto.
  - intros r. rewrite <- !app_assoc. reflexivity.
  - intros I. apply in_app_or in I as [I|I].
    + destruct cv as [c|]; [|destruct I]. destruct I as [I|[I|[]]]; [discriminate|]. destruct (C c eq_refl). congruence.
    + destruct sp as [|x sp]; [destruct I|]. destruct I as [I|I]; [discriminate|]. contradiction.
Qed.
Lemma digits_name t : Forall digit t -> name_ok t /\ ~ In LB t.
Proof.
  intros H. split.
  - induction H as [|c t D H IH]; constructor; auto. unfold digit in D. change (lit "{}[:!") with [123; 125; 91; 58; 33]. cbn [In]. lia.
  - intros I. rewrite Forall_forall in H. specialize (H _ I). unfold digit, LB in H. lia.
Qed.
Lemma write_tail_follow cv sp r : exists c q, write_tail cv sp ++ r = c :: q /\ In c (lit ":!.[}").
Proof. unfold write_tail. destruct cv as [c|]; [|destruct sp as [|x sp]]; cbn [app]; do 2 eexists; (split; [reflexivity|]); cbn; auto 8. Qed.
Lemma write_template n ss is : Forall good_seg ss -> meaning n ss is -> markup (infer_positional n (write ss)) (flat is).
Proof.
  intros G M. revert G. induction M as [n|n t ss is M IH|n m cv sp ss is M IH|n t cv sp ss is T M IH]; intros G.
  - constructor.
  - inversion G; subst. unfold write. cbn [map concat write_seg]. fold (write ss). rewrite infer_escape. cbn [flat flat_map]. apply markup_escape. apply IH. assumption.
  - inversion G as [|? ? G1 G2]; subst. destruct G1 as ((N & NL & c & r & -> & Nc) & T). destruct (tail_body _ cv sp N T) as (b & B & W & NB).
    unfold write. cbn [map concat write_seg]. fold (write ss). rewrite <- app_comm_cons, <- app_assoc, W.
    assert (X : infer_positional n (LB :: (c :: r) ++ b ++ RB :: write ss) = LB :: ((c :: r) ++ b) ++ RB :: infer_positional n (write ss)).
    { assert (Nl : c <> LB) by (intros ->; apply NL; left; reflexivity). cbn [app]. rewrite infer_unfold. destruct (N.eqb_spec c LB); [contradiction|]. change (LB =? LB) with true. change (LB =? RB) with false. cbn [andb].
      assert (F : anon_follow c = false).
      { apply not_true_is_false. intros F. apply follow_in in F. inversion N as [|? ? N1 N2|i n' N1 N2]; subst.
        - change (lit ":!.[}") with [58; 33; 46; 91; 125] in F. change (lit "{}[:!") with [123; 125; 91; 58; 33] in N1. change (lit ".[") with [46; 91] in Nc. cbn [In] in *. intuition.
        - apply Nc. cbn. auto. }
      rewrite F. f_equal. rewrite <- infer_close. rewrite app_comm_cons, app_assoc. rewrite infer_no_open; [reflexivity|]. intros I. apply in_app_or in I as [I|I]; [apply NL; exact I|contradiction]. }
    rewrite X. match goal with |- markup _ (flat (Fld ?k :: ?r)) => change (flat (Fld k :: r)) with (Field k :: flat r) end. apply mk_field'; [exact B|]. apply IH. assumption.
  - inversion G as [|? ? G1 G2]; subst. cbn [good_seg] in G1. assert (D : Forall digit t) by (destruct T as (_ & D & _); exact D). destruct (digits_name t D) as (N & NL). destruct (tail_body t cv sp N G1) as (b & B & W & NB).
    unfold write. cbn [map concat write_seg]. fold (write ss). rewrite <- app_comm_cons.
    assert (X : infer_positional n (LB :: write_tail cv sp ++ write ss) = LB :: (t ++ b) ++ RB :: infer_positional (n + 1) (write ss)).
    { destruct (write_tail_follow cv sp (write ss)) as (c & q & E & F). rewrite E, infer_unfold. assert (Nl : (c =? LB) = false) by (apply N.eqb_neq; intros ->; revert F; cbn; unfold LB; intuition discriminate).
      rewrite Nl. apply follow_in in F. rewrite F. change (LB =? LB) with true. change (LB =? RB) with false. cbn [andb]. f_equal. apply numeral_str in T. subst t. rewrite <- app_assoc. f_equal.
      rewrite W in E. destruct b as [|x b]; cbn [app] in *; injection E as -> <-; [reflexivity|]. f_equal. rewrite infer_no_open by (intros I; apply NB; right; exact I). rewrite infer_close. reflexivity. }
    rewrite X. match goal with |- markup _ (flat (Fld ?k :: ?r)) => change (flat (Fld k :: r)) with (Field k :: flat r) end. apply mk_field'; [exact B|]. apply IH. assumption.
Qed.
Lemma no_brace_markup sp : ~ In LB sp -> ~ In RB sp -> exists qs, markup sp qs.
Proof. intros H1 H2. exists (map Ch sp ++ []). rewrite <- (app_nil_r sp) at 1. apply markup_text; [|constructor]. intros c Hc. split; intros ->; contradiction. Qed.
Lemma template_write ss is : Forall good_seg ss -> meaning 0 ss is -> template_of (write ss) (flat is).
Proof.
  intros G M. exists (infer_positional 0 (write ss)). split; [apply numbered_iff; reflexivity|]. split; [apply write_template; auto|].
  intros k I. revert G I. induction M as [n|n t ss is M IH|n m cv sp ss is M IH|n t cv sp ss is T M IH]; intros G I; cbn [flat flat_map] in I; [destruct I| | |]; inversion G as [|? ? G1 G2]; subst; apply in_app_or in I as [I|I]; auto.
  - apply in_map_iff in I as (? & ? & _). discriminate.
  - destruct I as [[= <-]|[]]. destruct G1 as (_ & _ & S1 & S2). apply no_brace_markup; auto.
  - destruct I as [[= <-]|[]]. destruct G1 as (_ & S1 & S2). apply no_brace_markup; auto.
Qed.
Lemma plain_good n : plain_name n -> good_name n.
Proof.
  intros (N & P & _). split; [|split].
  - clear N. induction n as [|c n IH]; constructor; [|apply IH; intros; apply P; right; auto]. intros I. apply (P c (or_introl eq_refl)). change (lit "{}[].:!") with [123; 125; 91; 93; 46; 58; 33]. change (lit "{}[:!") with [123; 125; 91; 58; 33] in I. cbn [In] in *. intuition.
  - intros I. apply (P _ I). cbn. auto.
  - destruct n as [|c r]; [contradiction|]. exists c, r. split; [reflexivity|]. intros I. apply (P c (or_introl eq_refl)). change (lit ".[") with [46; 91] in I. cbn [In] in I. cbn. intuition.
Qed.

(** *** Base names *)
Lemma base_name_of s : base_of s (base_name s).
Proof.
  induction s as [|c s (I1 & I2 & I3)]; cbn [base_name]; [split; [intros []|split; [intros []|auto]]|].
  destruct ((c =? 46) || (c =? 91)) eqn:B.
  - split; [intros []|]. split; [intros []|]. right. exists c, s. split; [reflexivity|]. rewrite orb_true_iff, !N.eqb_eq in B. cbn. intuition.
  - rewrite orb_false_iff, !N.eqb_neq in B. destruct B as (B1 & B2). split; [intros [X|X]; [congruence|contradiction]|]. split; [intros [X|X]; [congruence|contradiction]|].
    destruct I3 as [I3|(d & r & I3 & I4)]; [left; congruence|]. right. exists d, r. split; [cbn [app]; congruence|exact I4].
Qed.
Lemma base_of_fun s b : base_of s b -> b = base_name s.
Proof.
  revert b. induction s as [|c s IH]; intros b (H1 & H2 & H3).
  - destruct H3 as [<-|(c & r & H & _)]; [reflexivity|]. destruct b; discriminate.
  - cbn [base_name]. destruct b as [|x b].
    + destruct H3 as [H|(d & r & [= <- <-] & I)]; [discriminate|]. change (lit ".[") with [46; 91] in I. destruct I as [<-|[<-|[]]]; reflexivity.
    + assert (x = c /\ base_of s b) as (-> & B).
      { destruct H3 as [[= <- <-]|(d & r & [= <- E] & I)]; (split; [reflexivity|]); (split; [intros X; apply H1; right; exact X|]); (split; [intros X; apply H2; right; exact X|]); [left; reflexivity|right; eauto]. }
      destruct (N.eqb_spec c 46) as [->|]; [exfalso; apply H1; left; reflexivity|]. destruct (N.eqb_spec c 91) as [->|]; [exfalso; apply H2; left; reflexivity|]. cbn [orb]. f_equal. apply IH. exact B.
Qed.
Lemma positional_digits k : is_positional k = true <-> Forall digit (base_name (tk_fname k)).
Proof. unfold is_positional. rewrite forallb_forall, Forall_forall. unfold digit. split; intros H c Hc; specialize (H c Hc); [apply andb_true_iff in H as [A B]; apply N.leb_le in A, B; auto|apply andb_true_iff; rewrite !N.leb_le; exact H]. Qed.
