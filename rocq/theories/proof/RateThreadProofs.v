From Coq Require Import Lqa.
From Verif Require Import model.PyBase model.Bisect model.Quantile model.Sinks model.RateThreads spec.QuantileSpec spec.SinkSpec spec.RateThreadSpec proof.AccProofs proof.QuantileProofs proof.SinkProofs.
Open Scope nat_scope.

Notation ret := retained.
Notation qb := q_bisect_left.
Definition rate_seen (n : option nat) (cr : Q) (A : list Q) (m0 m1 : nat) (st en : Q) (r : pyres Q) : Prop :=
  (exists m, m0 <= m <= m1 /\ ret n A m = [] /\ r = Ok 0%Q) \/
  (Qle_bool st cr = true /\ exists c, r = per c (en - st)) \/
  (Qle_bool st cr = false /\ exists m m', m0 <= m <= m' /\ m' <= m1 /\ ret n A m <> [] /\
    ((length (ret n A m') - qb (ret n A m) st = 0 /\ exists m2 m3 m4, m' <= m2 <= m3 /\ m3 <= m4 <= m1 /\
        r = per (length (ret n A m2)) (last (ret n A m4) 0%Q - hd 0%Q (ret n A m3)))
     \/ (qb (ret n A m) st = 0 /\ length (ret n A m') <> 0 /\ exists m2, m' <= m2 <= m1 /\ r = per (length (ret n A m')) (en - hd 0%Q (ret n A m2)))
     \/ (qb (ret n A m) st <> 0 /\ length (ret n A m') - qb (ret n A m) st <> 0 /\ r = per (length (ret n A m') - qb (ret n A m) st) (en - st)))).
Section Rnd.
Context (rnd : Q -> Q).
Definition norm_seen (n : option nat) (A : list Q) (m0 m1 : nat) (r : option (list Q)) : Prop :=
  (ret n A m1 = [] /\ r = Some []) \/
  (exists m, m0 <= m <= m1 /\ ret n A m <> [] /\ r = Some (map (fun x => rnd (x - hd 0%Q (ret n A m))%Q) (ret n A m1))) \/
  (r = None /\ m0 < m1).
Definition PI (n : option nat) (cr : Q) (A : list Q) (p : tpc) : Prop :=
  let L := length A in
  match p with
  | TIdle | ALoad _ | AStore _ _ | AAppend _ => True
  | GTest m0 _ _ | NTest m0 => m0 <= L
  | GTotal m0 st _ => m0 <= L /\ Qle_bool st cr = true
  | GBisect m0 st _ => Qle_bool st cr = false /\ exists m, m0 <= m <= L /\ ret n A m <> []
  | GLen m0 st _ i => Qle_bool st cr = false /\ exists m, m0 <= m <= L /\ ret n A m <> [] /\ i = qb (ret n A m) st
  | GAll m0 st _ => Qle_bool st cr = false /\ exists m m', m0 <= m <= m' /\ m' <= L /\ ret n A m <> [] /\ length (ret n A m') - qb (ret n A m) st = 0
  | GFirst m0 st _ c => Qle_bool st cr = false /\ exists m m' m2, m0 <= m <= m' /\ m' <= m2 <= L /\ ret n A m <> [] /\
      length (ret n A m') - qb (ret n A m) st = 0 /\ c = length (ret n A m2)
  | GLast m0 st _ c a => Qle_bool st cr = false /\ exists m m' m2 m3, m0 <= m <= m' /\ m' <= m2 <= m3 /\ m3 <= L /\ ret n A m <> [] /\
      length (ret n A m') - qb (ret n A m) st = 0 /\ c = length (ret n A m2) /\ a = hd 0%Q (ret n A m3)
  | GStart m0 st _ c => Qle_bool st cr = false /\ exists m m', m0 <= m <= m' /\ m' <= L /\ ret n A m <> [] /\
      qb (ret n A m) st = 0 /\ c = length (ret n A m') /\ c <> 0
  | NFirst m0 => exists m, m0 <= m <= L /\ ret n A m <> []
  | NIter m0 f => exists m, m0 <= m <= L /\ ret n A m <> [] /\ f = hd 0%Q (ret n A m)
  | NNext m0 f ver k out => ver <= L /\ k <= length (ret n A ver) /\ exists m, m0 <= m <= ver /\ ret n A m <> [] /\ f = hd 0%Q (ret n A m) /\
      out = map (fun x => rnd (x - f)%Q) (firstn k (ret n A ver))
  end.
Definition OI (n : option nat) (cr : Q) (A : list Q) (o : tobs) : Prop :=
  match o with
  | RateOf m0 m1 st en r => m0 <= m1 <= length A /\ rate_seen n cr A m0 m1 st en r
  | NormOf m0 m1 r => m0 <= m1 <= length A /\ norm_seen n A m0 m1 r
  end.
Record TI (n : option nat) (cr : Q) (s : tst) : Prop := {
  ti_max : ra_max (ts_acc s) = n; ti_cr : ra_created (ts_acc s) = cr;
  ti_times : ra_times (ts_acc s) = ret n (ts_appended s) (length (ts_appended s));
  ti_ver : ts_version s = length (ts_appended s);
  ti_pc : forall t, PI n cr (ts_appended s) (ts_pc s t);
  ti_log : forall o, In o (ts_log s) -> OI n cr (ts_appended s) o }.

Lemma ret_grow n A v m : m <= length A -> ret n (A ++ [v]) m = ret n A m.
Proof. intros H. unfold retained. rewrite firstn_app. replace (m - length A) with 0 by lia. cbn [firstn]. rewrite app_nil_r. reflexivity. Qed.
Lemma PI_grow n cr A v p : PI n cr A p -> PI n cr (A ++ [v]) p.
Proof.
  unfold PI. rewrite app_length. cbn [length]. destruct p as [|v'|v' c|v'|m0 st en|m0 st en|m0 st en|m0 st en i|m0 st en|m0 st en c|m0 st en c a|m0 st en c|m0|m0|m0 f|m0 f ver k out]; intros H; try exact I; try lia.
  - destruct H. split; [lia|assumption].
  - destruct H as (C & m & B & NE). split; [exact C|]. exists m. rewrite ret_grow by lia. split; [lia|exact NE].
  - destruct H as (C & m & B & H). split; [exact C|]. exists m. rewrite !ret_grow by lia. split; [lia|exact H].
  - destruct H as (C & m & m' & B1 & B2 & H). split; [exact C|]. exists m, m'. rewrite !ret_grow by lia. split; [lia|]. split; [lia|exact H].
  - destruct H as (C & m & m' & m2 & B1 & B2 & H). split; [exact C|]. exists m, m', m2. rewrite !ret_grow by lia. split; [lia|]. split; [lia|exact H].
  - destruct H as (C & m & m' & m2 & m3 & B1 & B2 & B3 & H). split; [exact C|]. exists m, m', m2, m3. rewrite !ret_grow by lia. split; [lia|]. split; [lia|]. split; [lia|exact H].
  - destruct H as (C & m & m' & B1 & B2 & H). split; [exact C|]. exists m, m'. rewrite !ret_grow by lia. split; [lia|]. split; [lia|exact H].
  - destruct H as (m & B & NE). exists m. rewrite ret_grow by lia. split; [lia|exact NE].
  - destruct H as (m & B & H). exists m. rewrite !ret_grow by lia. split; [lia|exact H].
  - destruct H as (L & K & m & B & H). rewrite !ret_grow by lia. split; [lia|]. split; [exact K|]. exists m. rewrite !ret_grow by lia. split; [exact B|exact H].
Qed.
Lemma rate_seen_grow n cr A v m0 m1 st en r : m1 <= length A -> rate_seen n cr A m0 m1 st en r -> rate_seen n cr (A ++ [v]) m0 m1 st en r.
Proof.
  unfold rate_seen. intros L [(m & B & H & E)|[H|(C & m & m' & B1 & B2 & NE & H)]].
  - left. exists m. rewrite ret_grow by lia. auto.
  - right. left. exact H.
  - right. right. split; [exact C|]. exists m, m'. rewrite !ret_grow by lia. repeat (split; [assumption|]).
    destruct H as [(H & m2 & m3 & m4 & B3 & B4 & E)|[(H & HL & m2 & B3 & E)|H]].
    + left. split; [exact H|]. exists m2, m3, m4. rewrite !ret_grow by lia. auto.
    + right. left. split; [exact H|]. split; [exact HL|]. exists m2. rewrite !ret_grow by lia. auto.
    + right. right. exact H.
Qed.
Lemma OI_grow n cr A v o : OI n cr A o -> OI n cr (A ++ [v]) o.
Proof.
  destruct o as [m0 m1 st en r|m0 m1 r]; unfold OI; rewrite app_length; cbn [length]; intros ((B1 & B2) & H); (split; [lia|]).
  - apply rate_seen_grow; auto.
  - unfold norm_seen in *. rewrite ret_grow by lia. destruct H as [H|[(m & B & NE & E)|H]]; auto. right. left. exists m. rewrite !ret_grow by lia. auto.
Qed.
Lemma TI_go n cr s t p o : TI n cr s -> PI n cr (ts_appended s) p -> (forall x, In x o -> OI n cr (ts_appended s) x) -> TI n cr (tgo s t p o).
Proof.
  intros [] HP HO. constructor; auto.
  - intros t'. cbn. destruct (t' =? t); auto.
  - cbn. intros x H. apply in_app_or in H as [H|H]; auto.
Qed.
Lemma ret_len n A m : length (ret n A m) = match n with None => Nat.min m (length A) | Some k => Nat.min k (Nat.min m (length A)) end.
Proof. unfold retained, most_recent. destruct n as [k|]; rewrite ?skipn_length, ?firstn_length; lia. Qed.
Lemma ret_mono n A m m' : m <= m' -> length (ret n A m) <= length (ret n A m').
Proof. intros H. rewrite !ret_len. destruct n; lia. Qed.
Lemma ret_full n A : ret n A (length A) = most_recent n A.
Proof. unfold retained. rewrite firstn_all. reflexivity. Qed.
Lemma TI_advance n cr t s s' : TI n cr s -> advance rnd t s = Some s' -> TI n cr s'.
Proof.
  intros T H. pose proof T as [E1 E2 E3 E4 E5 E6]. pose proof (E5 t) as P. unfold advance in H.
  destruct (ts_acc s) as [size times total created] eqn:EA. cbn [ra_max ra_created ra_times] in *. subst size created.
  set (A := ts_appended s) in *. destruct (ts_pc s t) as [|v|v c|v|m0 st en|m0 st en|m0 st en|m0 st en i|m0 st en|m0 st en c|m0 st en c a|m0 st en c|m0|m0|m0 f|m0 f ver k out] eqn:EP; cbn [PI] in P.
  - discriminate.
  - injection H as <-. apply TI_go; [exact T|exact I|intros x []].
  - injection H as <-. apply TI_go; [constructor; auto|exact I|intros x []].
  - injection H as <-. apply TI_go; [|exact I|intros x []]. constructor; cbn [tset ts_acc ra_max ra_created ra_times ts_version ts_appended ts_pc ts_log]; auto.
    + rewrite E3, !ret_full. apply dq_append_recent.
    + rewrite app_length. cbn [length]. lia.
    + intros t'. apply PI_grow, E5.
    + intros o Ho. apply OI_grow, E6, Ho.
  - destruct times as [|x times'] eqn:ET.
    + injection H as <-. apply TI_go; [exact T|exact I|]. intros o [<-|[]]. cbn [OI]. fold A. split; [lia|]. left. exists (length A). split; [lia|]. auto.
    + injection H as <-. apply TI_go; [exact T| |intros o []]. fold A. destruct (Qle_bool st cr) eqn:EQ; cbn [PI]; [auto|]. split; [exact EQ|]. exists (length A). split; [lia|]. rewrite <- E3. discriminate.
  - injection H as <-. apply TI_go; [exact T|exact I|]. intros o [<-|[]]. cbn [OI]. fold A. split; [lia|]. right. left. split; [apply P|]. eauto.
  - injection H as <-. destruct P as (C & m & B & NE). apply TI_go; [exact T| |intros o []]. fold A. cbn [PI]. split; [exact C|]. exists (length A). split; [lia|].
    rewrite E3. split; [|reflexivity]. intros Z. apply NE. apply length_zero_iff_nil. apply (f_equal (@length Q)) in Z. pose proof (ret_mono n A m (length A)). cbn in Z. lia.
  - destruct P as (C & m & B & NE & Ei). rewrite E3 in H. destruct (length (ret n A (length A)) - i =? 0) eqn:EZ.
    + injection H as <-. apply TI_go; [exact T| |intros o []]. fold A. cbn [PI]. split; [exact C|]. exists m, (length A). apply Nat.eqb_eq in EZ. subst i. repeat split; auto; lia.
    + apply Nat.eqb_neq in EZ. destruct (i =? 0) eqn:EI.
      * injection H as <-. apply TI_go; [exact T| |intros o []]. fold A. cbn [PI]. split; [exact C|]. apply Nat.eqb_eq in EI. exists m, (length A). repeat split; auto; try lia.
      * injection H as <-. apply Nat.eqb_neq in EI. apply TI_go; [exact T|exact I|]. intros o [<-|[]]. cbn [OI]. fold A. split; [lia|]. right. right. split; [exact C|].
        exists m, (length A). repeat (split; [auto; lia|]). right. right. subst i. auto.
  - injection H as <-. destruct P as (C & m & m' & B1 & B2 & NE & HZ). apply TI_go; [exact T| |intros o []]. fold A. cbn [PI]. split; [exact C|].
    exists m, m', (length A). rewrite E3. repeat split; auto; lia.
  - injection H as <-. destruct P as (C & m & m' & m2 & B1 & B2 & NE & HZ & HC). apply TI_go; [exact T| |intros o []]. fold A. cbn [PI]. split; [exact C|].
    exists m, m', m2, (length A). rewrite E3. repeat split; auto; lia.
  - injection H as <-. destruct P as (C & m & m' & m2 & m3 & B1 & B2 & B3 & NE & HZ & HC & Ha). apply TI_go; [exact T|exact I|]. intros o [<-|[]]. cbn [OI]. fold A. split; [lia|].
    right. right. split; [exact C|]. exists m, m'. repeat (split; [auto; lia|]). left. split; [exact HZ|]. exists m2, m3, (length A). rewrite E3. subst c a. repeat split; auto; lia.
  - injection H as <-. destruct P as (C & m & m' & B1 & B2 & NE & HZ & HC & HN). apply TI_go; [exact T|exact I|]. intros o [<-|[]]. cbn [OI]. fold A. split; [lia|].
    right. right. split; [exact C|]. exists m, m'. repeat (split; [auto; lia|]). right. left. split; [exact HZ|]. split; [lia|]. exists (length A). rewrite E3. subst c. repeat split; auto; lia.
  - destruct times as [|x times'] eqn:ET.
    + injection H as <-. apply TI_go; [exact T|exact I|]. intros o [<-|[]]. cbn [OI]. fold A. split; [lia|]. left. auto.
    + injection H as <-. apply TI_go; [exact T| |intros o []]. fold A. cbn [PI]. exists (length A). split; [lia|]. rewrite <- E3. discriminate.
  - injection H as <-. destruct P as (m & B & NE). apply TI_go; [exact T| |intros o []]. fold A. cbn [PI]. exists (length A). rewrite E3. split; [lia|]. split; [|reflexivity].
    intros Z. apply NE. apply length_zero_iff_nil. apply (f_equal (@length Q)) in Z. pose proof (ret_mono n A m (length A)). cbn in Z. lia.
  - injection H as <-. destruct P as (m & B & NE & Ef). apply TI_go; [exact T| |intros o []]. fold A. cbn [PI]. rewrite E4. split; [lia|]. split; [lia|]. exists m. cbn. auto.
  - destruct P as (B1 & B2 & m & B3 & NE & Ef & Eo). destruct (ver =? ts_version s) eqn:EV; cbn [negb] in H.
    + apply Nat.eqb_eq in EV. rewrite EV, E4 in *. destruct (nth_error times k) as [x|] eqn:EN.
      * injection H as <-. apply TI_go; [exact T| |intros o []]. fold A. cbn [PI]. split; [lia|]. rewrite E3 in EN. assert (k < length (ret n A (length A))) by (apply nth_error_Some; congruence).
        split; [lia|]. exists m. repeat (split; [auto; lia|]). rewrite Eo.
        rewrite <- (firstn_skipn k (ret n A (length A))) in EN. rewrite nth_error_app2 in EN by (rewrite firstn_length; lia). rewrite firstn_length in EN.
        replace (k - Nat.min k (length (ret n A (length A)))) with 0 in EN by lia. destruct (skipn k (ret n A (length A))) as [|y r] eqn:ES; [discriminate|]. cbn in EN. injection EN as ->.
        assert (EF : firstn (S k) (ret n A (length A)) = firstn k (ret n A (length A)) ++ [x]).
        { rewrite <- (firstn_skipn k (ret n A (length A))) at 1. rewrite ES, firstn_app, firstn_length. replace (Nat.min k _) with k by lia. replace (S k - k) with 1 by lia. rewrite firstn_all2 by (rewrite firstn_length; lia). reflexivity. }
        rewrite EF, map_app. reflexivity.
      * injection H as <-. apply TI_go; [exact T|exact I|]. intros o [<-|[]]. cbn [OI]. fold A. split; [lia|]. right. left. exists m. split; [lia|]. split; [exact NE|].
        apply nth_error_None in EN. rewrite E3 in EN. rewrite Eo, firstn_all2 by lia. rewrite Ef. reflexivity.
    + apply Nat.eqb_neq in EV. injection H as <-. apply TI_go; [exact T|exact I|]. intros o [<-|[]]. cbn [OI]. fold A. split; [lia|]. right. right. split; [reflexivity|lia].
Qed.
Lemma TI_step n cr e s s' : TI n cr s -> tstep rnd e s = Some s' -> TI n cr s'.
Proof.
  intros T H. destruct e as [t v|t st en|t|t]; cbn [tstep] in H; [| | |eapply TI_advance; eauto];
    (destruct (ts_pc s t); try discriminate; injection H as <-; apply TI_go; [exact T| |intros o []]; cbn [PI]; auto).
Qed.
Lemma TI_run n cr : forall evs s s', TI n cr s -> truns rnd evs s = Some s' -> TI n cr s'.
Proof.
  induction evs as [|e evs IH]; intros s s' T H; cbn [truns] in H; [congruence|]. destruct (tstep rnd e s) as [s1|] eqn:E; [|discriminate]. eapply IH; [eapply TI_step; eauto|exact H].
Qed.
Lemma TI_new n cr : TI n cr (tst_new n cr).
Proof. constructor; cbn; auto; [destruct n; reflexivity|intros o []]. Qed.
Lemma TI_reach n cr evs s : truns rnd evs (tst_new n cr) = Some s -> TI n cr s.
Proof. apply TI_run, TI_new. Qed.

(** ** One thread adds *)
Definition adding (p : tpc) : bool := match p with ALoad _ | AStore _ _ | AAppend _ => true | _ => false end.
Definition in_add (p : tpc) (total : nat) (A done : list Q) : Prop :=
  match p with
  | ALoad v => total = length A /\ done = A ++ [v]
  | AStore v c => total = length A /\ c = total /\ done = A ++ [v]
  | AAppend v => total = S (length A) /\ done = A ++ [v]
  | _ => total = length A /\ done = A
  end.
Definition told (n : option nat) (cr : Q) (A : list Q) (o : tobs) : Prop :=
  match o with
  | RateOf m0 m1 st en r => Qle_bool st cr = true -> ret n A m0 = [] \/ exists c, m0 <= c <= S m1 /\ r = per c (en - st)
  | _ => True
  end.
Record WI (n : option nat) (cr : Q) (w : nat) (done : list Q) (s : tst) : Prop := {
  wi_ti : TI n cr s;
  wi_w : in_add (ts_pc s w) (ra_total (ts_acc s)) (ts_appended s) done;
  wi_o : forall t, t <> w -> adding (ts_pc s t) = false;
  wi_log : forall o, In o (ts_log s) -> told n cr (ts_appended s) o }.
Lemma in_add_not p total A done : adding p = false -> in_add p total A done <-> total = length A /\ done = A.
Proof. destruct p; cbn; try discriminate; tauto. Qed.
Lemma WI_move n cr w done s t p o : WI n cr w done s -> TI n cr (tgo s t p o) -> adding p = false -> adding (ts_pc s t) = false ->
  (forall x, In x o -> told n cr (ts_appended s) x) -> WI n cr w done (tgo s t p o).
Proof.
  intros [T W O G] T' HP HA HO. constructor; auto; cbn [tgo ts_pc ts_acc ts_appended ts_log].
  - destruct (w =? t) eqn:E; [|exact W]. apply Nat.eqb_eq in E. subst t. rewrite in_add_not in * by assumption. exact W.
  - intros t' N. destruct (t' =? t); auto.
  - intros x H. apply in_app_or in H as [H|H]; auto.
Qed.
Lemma told_grow n cr A v o : OI n cr A o -> told n cr A o -> told n cr (A ++ [v]) o.
Proof. destruct o as [m0 m1 st en r|]; cbn [OI told]; auto. intros ((B1 & B2) & _) H C. destruct (H C) as [Z|Z]; [left; rewrite ret_grow by lia; exact Z|right; exact Z]. Qed.
Lemma ret_nil n A m m' : m <= m' -> ret n A m' = [] -> ret n A m = [].
Proof. intros H Z. apply length_zero_iff_nil. apply (f_equal (@length Q)) in Z. pose proof (ret_mono n A m m' H). cbn in Z. lia. Qed.
Lemma in_add_range p total A done : in_add p total A done -> length A <= total <= S (length A).
Proof. destruct p; cbn; lia. Qed.
Lemma WI_advance n cr w done t s s' : WI n cr w done s -> advance rnd t s = Some s' -> WI n cr w done s'.
Proof.
  intros W0 H. pose proof W0 as [T W O G]. pose proof (TI_advance n cr t s s' T H) as T'. pose proof T as [E1 E2 E3 E4 E5 E6]. pose proof (E5 t) as P. unfold advance in H.
  destruct (ts_acc s) as [size times total created] eqn:EA. cbn [ra_max ra_created ra_times ra_total] in *. subst size created.
  destruct (ts_pc s t) as [|v|v c|v|m0 st en|m0 st en|m0 st en|m0 st en i|m0 st en|m0 st en c|m0 st en c a|m0 st en c|m0|m0|m0 f|m0 f ver k out] eqn:EP; cbn [PI] in P.
  - discriminate.
  - destruct (Nat.eq_dec t w) as [->|N]; [|specialize (O t N); rewrite EP in O; discriminate]. injection H as <-. rewrite EP in W. destruct W as (W1 & W2).
    constructor; auto; cbn [tgo ts_pc ts_acc ts_appended ts_log]; [rewrite Nat.eqb_refl, EA; cbn; auto|]. intros t' N. apply Nat.eqb_neq in N as N'. rewrite N'. auto.
  - destruct (Nat.eq_dec t w) as [->|N]; [|specialize (O t N); rewrite EP in O; discriminate]. injection H as <-. rewrite EP in W. destruct W as (W1 & W2 & W3).
    constructor; auto; cbn [tgo tset ts_pc ts_acc ts_appended ts_log ra_total]; [rewrite Nat.eqb_refl; cbn; split; [lia|auto]|]. intros t' N. apply Nat.eqb_neq in N as N'. rewrite N'. auto.
  - destruct (Nat.eq_dec t w) as [->|N]; [|specialize (O t N); rewrite EP in O; discriminate]. injection H as <-. rewrite EP in W. destruct W as (W1 & W2).
    constructor; auto; cbn [tgo tset ts_pc ts_acc ts_appended ts_log ra_total app]; [rewrite Nat.eqb_refl; cbn; rewrite app_length; cbn; split; [lia|auto]| |].
    + intros t' N. apply Nat.eqb_neq in N as N'. rewrite N'. auto.
    + intros o Ho. apply told_grow; auto.
  - destruct times; injection H as <-; apply WI_move; auto; try (rewrite EP; reflexivity); try (destruct (Qle_bool st cr); reflexivity); [|intros o []].
    intros o [<-|[]] C. left. apply (ret_nil n _ m0 (length (ts_appended s))); auto.
  - injection H as <-. apply WI_move; auto; [rewrite EP; reflexivity|]. intros o [<-|[]] C. right. exists total. split; [|reflexivity]. apply in_add_range in W. lia.
  - injection H as <-. apply WI_move; auto; [rewrite EP; reflexivity|intros o []].
  - assert (HC : Qle_bool st cr = false) by apply P. destruct (length times - i =? 0); [|destruct (i =? 0)]; injection H as <-; apply WI_move; auto; try (rewrite EP; reflexivity); try solve [intros o []].
    intros o [<-|[]] C. congruence.
  - injection H as <-. apply WI_move; auto; [rewrite EP; reflexivity|intros o []].
  - injection H as <-. apply WI_move; auto; [rewrite EP; reflexivity|intros o []].
  - assert (HC : Qle_bool st cr = false) by apply P. injection H as <-. apply WI_move; auto; [rewrite EP; reflexivity|]. intros o [<-|[]] C. congruence.
  - assert (HC : Qle_bool st cr = false) by apply P. injection H as <-. apply WI_move; auto; [rewrite EP; reflexivity|]. intros o [<-|[]] C. congruence.
  - destruct times; injection H as <-; apply WI_move; auto; try (rewrite EP; reflexivity); [intros o [<-|[]]; exact I|intros o []].
  - injection H as <-. apply WI_move; auto; [rewrite EP; reflexivity|intros o []].
  - injection H as <-. apply WI_move; auto; [rewrite EP; reflexivity|intros o []].
  - destruct (negb (ver =? ts_version s)); [|destruct (nth_error times k)]; injection H as <-; apply WI_move; auto; try (rewrite EP; reflexivity); try solve [intros o []]; intros o [<-|[]]; exact I.
Qed.
Lemma WI_run n cr w : forall evs done s s', one_adder w evs -> WI n cr w done s -> truns rnd evs s = Some s' -> WI n cr w (done ++ added evs) s'.
Proof.
  induction evs as [|e evs IH]; intros done s s' OA W0 H; cbn [truns] in H; [injection H as <-; cbn; rewrite app_nil_r; exact W0|].
  destruct (tstep rnd e s) as [s1|] eqn:E; [|discriminate].
  assert (OA' : one_adder w evs) by (intros t v Hi; apply (OA t v); right; exact Hi).
  cbn [added flat_map]. rewrite app_assoc. apply (IH _ s1 s' OA'); [|exact H]. pose proof W0 as [T W O G]. pose proof (TI_step n cr e s s1 T E) as T'.
  destruct e as [t v|t st en|t|t]; cbn [tstep] in E; [| | |rewrite app_nil_r; eapply WI_advance; eauto].
  - rewrite (OA t v (or_introl eq_refl)) in *. destruct (ts_pc s w) eqn:EP; try discriminate. injection E as <-. cbn [in_add] in W. destruct W as (W1 & ->).
    constructor; auto; cbn [tgo ts_pc ts_acc ts_appended ts_log]; [rewrite Nat.eqb_refl; cbn; auto|]. intros t' N. apply Nat.eqb_neq in N as N'. rewrite N'. auto.
  - rewrite app_nil_r. destruct (ts_pc s t) eqn:EP; try discriminate. injection E as <-. apply WI_move; auto; [rewrite EP; reflexivity|intros o []].
  - rewrite app_nil_r. destruct (ts_pc s t) eqn:EP; try discriminate. injection E as <-. apply WI_move; auto; [rewrite EP; reflexivity|intros o []].
Qed.
Lemma WI_reach n cr w evs s : one_adder w evs -> truns rnd evs (tst_new n cr) = Some s -> WI n cr w (added evs) s.
Proof.
  intros OA H. apply (WI_run n cr w evs [] (tst_new n cr) s OA); [|exact H]. constructor; cbn; auto; [apply TI_new|intros o []].
Qed.

(** ** What is appended was added *)
Definition holds (p : tpc) : list Q := match p with ALoad v | AStore v _ | AAppend v => [v] | _ => [] end.
Lemma from_adds : forall evs s s', truns rnd evs s = Some s' -> forall l, (forall v, In v (ts_appended s) -> In v l) -> (forall t v, In v (holds (ts_pc s t)) -> In v l) ->
  (forall v, In v (ts_appended s') -> In v (l ++ added evs)).
Proof.
  induction evs as [|e evs IH]; intros s s' H l HA HP; cbn [truns] in H; [injection H as <-; cbn; rewrite app_nil_r; exact HA|].
  destruct (tstep rnd e s) as [s1|] eqn:E; [|discriminate]. cbn [added flat_map]. rewrite app_assoc. apply (IH s1 s' H).
  - intros v Hv. apply in_or_app. destruct e as [t u|t st en|t|t]; cbn [tstep] in E; try (destruct (ts_pc s t); try discriminate; injection E as <-; left; apply HA, Hv).
    unfold advance in E. destruct (ts_acc s) as [size times total created]. pose proof (HP t) as HT. destruct (ts_pc s t); try discriminate;
    repeat match type of E with
    | (match ?x with [] => _ | _ => _ end) = _ => destruct x
    | (match ?x with Some _ => _ | None => _ end) = _ => destruct x
    | (if ?c then _ else _) = _ => destruct c end; injection E as <-; cbn [tgo tset ts_appended] in Hv; try (left; apply HA, Hv).
    apply in_app_or in Hv as [Hv|Hv]; [left; apply HA, Hv|left; apply HT, Hv].
  - intros t' v Hv. apply in_or_app. destruct e as [t u|t st en|t|t]; cbn [tstep] in E.
    + destruct (ts_pc s t); try discriminate. injection E as <-. cbn [tgo ts_pc] in Hv. destruct (t' =? t); [right; exact Hv|left; eapply HP; exact Hv].
    + destruct (ts_pc s t); try discriminate. injection E as <-. cbn [tgo ts_pc] in Hv. destruct (t' =? t); [destruct Hv|left; eapply HP; exact Hv].
    + destruct (ts_pc s t); try discriminate. injection E as <-. cbn [tgo ts_pc] in Hv. destruct (t' =? t); [destruct Hv|left; eapply HP; exact Hv].
    + left. unfold advance in E. destruct (ts_acc s) as [size times total created]. pose proof (HP t) as HT. destruct (ts_pc s t); try discriminate;
      repeat match type of E with
      | (match ?x with [] => _ | _ => _ end) = _ => destruct x
      | (match ?x with Some _ => _ | None => _ end) = _ => destruct x
      | (if ?c then _ else _) = _ => destruct c end; injection E as <-; cbn [tgo tset ts_pc] in Hv; (destruct (t' =? t); [|eapply HP; exact Hv]);
      try (match type of Hv with context [Qle_bool ?a ?b] => destruct (Qle_bool a b) end); cbn [holds In] in Hv; try contradiction; destruct Hv as [<-|[]]; apply HT; left; reflexivity.
Qed.

(** ** The window *)
Lemma min_len n A m m' : m <= m' -> m' <= length A -> length (ret n A m') - length (ret n A m) <= m' - m.
Proof. intros H L. rewrite !ret_len. destruct n; lia. Qed.
Lemma firstn_more {X} (A : list X) m k : firstn (m + k) A = firstn m A ++ firstn k (skipn m A).
Proof. revert A. induction m as [|m IH]; intros A; [reflexivity|]. destruct A as [|x A]; [cbn; rewrite firstn_nil; reflexivity|]. cbn. f_equal. apply IH. Qed.
Lemma in_firstn {X} (x : X) : forall k l, In x (firstn k l) -> In x l.
Proof. intros k. induction k as [|k IH]; intros [|y l] H; cbn in H; try contradiction. destruct H as [H|H]; [left|right]; auto. Qed.
Lemma window n A m m' st x y : qasc A -> m <= m' -> m' <= length A -> In x (ret n A m) -> (x < st)%Q -> In y (ret n A m) -> (st <= y)%Q ->
  qb (ret n A m) st <> 0 /\ length (ret n A m') - qb (ret n A m) st <> 0 /\
  exists k, m <= k <= m' /\ since_start st A k = length (ret n A m') - qb (ret n A m) st.
Proof.
  intros HA H L X Xl Y Yl. assert (HF : qasc (firstn m A)) by (rewrite <- (firstn_skipn m A) in HA; apply qasc_app in HA; apply HA).
  destruct (most_recent_app n (firstn m A)) as (old & Hold). fold (ret n A m) in Hold.
  assert (HR : qasc (ret n A m)) by (rewrite Hold in HF; apply qasc_app in HF; apply HF).
  destruct (q_bisect_split (ret n A m) st HR) as (l1 & l2 & S1 & S2 & S3 & S4). rewrite S2.
  assert (N1 : length l1 <> 0).
  { intros Z. apply length_zero_iff_nil in Z. subst l1. cbn in S1. rewrite S1 in X. specialize (S4 x X). lra. }
  assert (N2 : length l2 <> 0).
  { intros Z. apply length_zero_iff_nil in Z. subst l2. rewrite app_nil_r in S1. rewrite S1 in Y. specialize (S3 y Y). lra. }
  assert (EL : length (ret n A m) = length l1 + length l2) by (rewrite S1, app_length; reflexivity).
  pose proof (ret_mono n A m m' H). pose proof (min_len n A m m' H L). split; [exact N1|]. split; [lia|].
  set (d := length (ret n A m') - length (ret n A m)) in *. exists (m + d). split; [lia|].
  unfold since_start. rewrite firstn_more, count_app. replace (length (ret n A m') - length l1) with (length l2 + d) by lia. f_equal.
  - rewrite Hold, S1, !count_app. rewrite (count_all _ l2) by (intros z Hz; apply Qle_bool_iff; auto). rewrite (count_none _ l1), (count_none _ old); auto.
    + intros z Hz. destruct (Qle_bool st z) eqn:E; auto. apply Qle_bool_iff in E. rewrite Hold in HF. apply qasc_app in HF as (_ & _ & HF). specialize (HF z x Hz X). lra.
    + intros z Hz. destruct (Qle_bool st z) eqn:E; auto. apply Qle_bool_iff in E. specialize (S3 z Hz). lra.
  - rewrite count_all.
    + rewrite firstn_length, skipn_length. lia.
    + intros z Hz. apply Qle_bool_iff. apply in_firstn in Hz. rewrite <- (firstn_skipn m A) in HA. apply qasc_app in HA as (_ & _ & HA).
      assert (Y' : In y (firstn m A)) by (rewrite Hold; apply in_or_app; right; exact Y). specialize (HA y z Y' Hz). lra.
Qed.

(** ** Calls end *)
Definition rank (q : nat) (p : tpc) : nat :=
  match p with
  | TIdle => 0 | ALoad _ => 3 | AStore _ _ => 2 | AAppend _ => 1
  | GTest _ _ _ => 6 | GTotal _ _ _ => 1 | GBisect _ _ _ => 5 | GLen _ _ _ _ => 4 | GAll _ _ _ => 3 | GFirst _ _ _ _ => 2 | GLast _ _ _ _ _ => 1 | GStart _ _ _ _ => 1
  | NTest _ => q + 4 | NFirst _ => q + 3 | NIter _ _ => q + 2 | NNext _ _ _ k _ => q - k + 1
  end.
Lemma advance_pc t s s' : advance rnd t s = Some s' -> forall t', t' <> t -> ts_pc s' t' = ts_pc s t'.
Proof.
  intros H t' N. apply Nat.eqb_neq in N. unfold advance in H. destruct (ts_acc s) as [size times total created]. destruct (ts_pc s t); try discriminate;
  repeat match type of H with
  | (match ?x with [] => _ | _ => _ end) = _ => destruct x
  | (match ?x with Some _ => _ | None => _ end) = _ => destruct x
  | (if ?c then _ else _) = _ => destruct c end; injection H as <-; cbn [tgo tset ts_pc]; rewrite N; reflexivity.
Qed.
Lemma advance_rank q cr t s s' : TI (Some q) cr s -> advance rnd t s = Some s' -> S (rank q (ts_pc s' t)) <= rank q (ts_pc s t).
Proof.
  intros [E1 E2 E3 E4 E5 E6] H. pose proof (ret_len (Some q) (ts_appended s) (length (ts_appended s))) as HL. cbv iota in HL. rewrite <- E3 in HL. unfold advance in H.
  destruct (ts_acc s) as [size times total created]. cbn [ra_times] in *. destruct (ts_pc s t) eqn:EP; try discriminate;
  repeat match type of H with
  | (match ?x with [] => _ | _ => _ end) = _ => destruct x
  | (match nth_error ?x ?k with Some _ => _ | None => _ end) = _ => let E := fresh in destruct (nth_error x k) eqn:E; [assert (k < length x) by (apply nth_error_Some; congruence)|]
  | (if ?c then _ else _) = _ => destruct c end; injection H as <-; cbn [tgo tset ts_pc]; rewrite Nat.eqb_refl; cbn [rank]; try (destruct (Qle_bool _ _); cbn [rank]); lia.
Qed.
Lemma rank_run q cr t : forall evs s s', TI (Some q) cr s -> truns rnd evs s = Some s' -> begins_none t evs -> steps_of t evs + rank q (ts_pc s' t) <= rank q (ts_pc s t).
Proof.
  induction evs as [|e evs IH]; intros s s' T H B; cbn [truns steps_of] in *; [injection H as <-; lia|]. destruct (tstep rnd e s) as [s1|] eqn:E; [|discriminate].
  assert (B' : begins_none t evs) by (intros v st en; destruct (B v st en) as (X & Y & Z); repeat split; intros Hi; [apply X|apply Y|apply Z]; right; exact Hi).
  specialize (IH s1 s' (TI_step _ _ _ _ _ T E) H B'). destruct e as [u v|u st en|u|u]; cbn [tstep] in E.
  - assert (N : t <> u) by (intros ->; destruct (B v 0%Q 0%Q) as (X & _); apply X; left; reflexivity). destruct (ts_pc s u); try discriminate. injection E as <-. apply Nat.eqb_neq in N. cbn [tgo ts_pc] in IH. rewrite N in IH. exact IH.
  - assert (N : t <> u) by (intros ->; destruct (B 0%Q st en) as (_ & X & _); apply X; left; reflexivity). destruct (ts_pc s u); try discriminate. injection E as <-. apply Nat.eqb_neq in N. cbn [tgo ts_pc] in IH. rewrite N in IH. exact IH.
  - assert (N : t <> u) by (intros ->; destruct (B 0%Q 0%Q 0%Q) as (_ & _ & X); apply X; left; reflexivity). destruct (ts_pc s u); try discriminate. injection E as <-. apply Nat.eqb_neq in N. cbn [tgo ts_pc] in IH. rewrite N in IH. exact IH.
  - destruct (Nat.eq_dec u t) as [->|N].
    + rewrite Nat.eqb_refl. pose proof (advance_rank q cr t s s1 T E). lia.
    + rewrite (advance_pc u s s1 E t) in IH by congruence. apply Nat.eqb_neq in N. rewrite N. exact IH.
Qed.
Lemma can_go t s : ts_pc s t <> TIdle -> exists s', tstep rnd (EvStep t) s = Some s'.
Proof.
  intros H. cbn [tstep]. unfold advance. destruct (ts_acc s) as [size times total created]. destruct (ts_pc s t); [contradiction| | | | | | | | | | | | | | |]; eauto.
  - destruct times; eauto.
  - destruct (_ =? 0); eauto. destruct (_ =? 0); eauto.
  - destruct times; eauto.
  - destruct (negb _); eauto. destruct (nth_error times _); eauto.
Qed.
End Rnd.
