From Verif Require Import model.PyBase model.Core model.WrapAll spec.WrapAllSpec proof.CoreLib proof.WrapAllProofs.

(** *** setattr on any heap *)
Lemma setattr_assoc h i n g h' : setattr h i n g = Some h' ->
  forall j m, assoc m (own h' j) = if (j =? i) && String.eqb m n then Some (AFun g) else assoc m (own h j).
Proof.
  unfold setattr. destruct (nth_error h i) as [o|] eqn:E; [|discriminate].
  destruct (ob_fixed o) eqn:Ef; [discriminate|]. intros [= <-] j m. unfold own. rewrite nth_list_set.
  assert (Hi : (i <? length h) = true) by (apply Nat.ltb_lt, nth_error_Some; congruence). rewrite Hi, andb_true_r.
  destruct (Nat.eqb_spec j i); [|reflexivity]. subst. cbn. rewrite assoc_put.
  destruct (String.eqb_spec m n); [reflexivity|]. rewrite E. reflexivity.
Qed.
Lemma setattr_mro h i n g h' j : setattr h i n g = Some h' -> mro h' j = mro h j /\ fixed h' j = fixed h j.
Proof.
  unfold setattr. destruct (nth_error h i) as [o|] eqn:E; [|discriminate].
  destruct (ob_fixed o) eqn:Ef; [discriminate|]. intros [= <-]. unfold mro, fixed. rewrite nth_list_set.
  assert (Hi : (i <? length h) = true) by (apply Nat.ltb_lt, nth_error_Some; congruence). rewrite Hi, andb_true_r.
  destruct (Nat.eqb_spec j i); [|auto]. subst. rewrite E. cbn. auto.
Qed.
Lemma setattr_type h i n g h' j m k : setattr h i n g = Some h' -> find h' j m = Some (AType k) -> find h j m = Some (AType k).
Proof.
  intros H. unfold find. rewrite (proj1 (setattr_mro _ _ _ _ _ j H)). induction (mro h j) as [|b bs IH]; cbn; [auto|].
  rewrite (setattr_assoc _ _ _ _ _ H). destruct ((b =? i) && String.eqb m n); [discriminate|].
  destruct (assoc m (own h b)); auto.
Qed.
Lemma find_some h i n a : find h i n = Some a -> exists b, assoc n (own h b) = Some a.
Proof.
  unfold find. induction (mro h i) as [|b bs IH]; cbn; [discriminate|]. destruct (assoc n (own h b)) as [a'|] eqn:E; [|exact IH].
  intros [= ->]. eauto.
Qed.
Lemma getattr_layers h i n f : getattr h i n = Some (VFun f) ->
  exists a b, find h i n = Some a /\ assoc n (own h b) = Some a /\ attr_layers a = log_layers f.
Proof.
  unfold getattr. destruct (find h i n) as [a|] eqn:E; [|discriminate]. destruct (find_some _ _ _ _ E) as [b Hb].
  intros H. exists a, b. split; [reflexivity|]. split; [exact Hb|].
  destruct a; try discriminate; injection H as <-; reflexivity.
Qed.

(** *** One invariant for the whole traversal *)
Section S.
Variables (c : wconf) (h0 : heap) (d0 t : nat) (label0 : string).
Notation path := (path h0 (wc_skip c) d0 t label0).
Variable Q : wstate -> Prop.
Definition types (st : wstate) : Prop := forall i n j, find (ws_heap st) i n = Some (AType j) -> find h0 i n = Some (AType j).
Hypothesis Qseen : forall h s s' r b, Q (mkWS h s r b) -> Q (mkWS h s' r b).
Hypothesis Qone : forall d lab i n f st, Q st -> types st -> ws_raised st = false -> wc_skip c n = false ->
  getattr (ws_heap st) i n = Some (VFun f) -> path d i lab -> Q (wrap_one c lab i n f st).

Lemma types_one lab i n f st : types st -> types (wrap_one c lab i n f st).
Proof.
  intros H. unfold wrap_one. destruct (wrap_fn _ _ f) as [g|]; [|exact H]. destruct (setattr _ i n g) as [h'|] eqn:E; [|exact H].
  intros j m k Hk. cbn in Hk. apply H. eapply setattr_type; eauto.
Qed.
Lemma inv_both d :
  (forall lab i st n, path d i lab -> Q st -> types st -> Q (wstep c d lab i st n) /\ types (wstep c d lab i st n)) /\
  (forall lab i ns st, path d i lab -> Q st -> types st -> Q (fold_left (wstep c d lab i) ns st) /\ types (fold_left (wstep c d lab i) ns st)).
Proof.
  induction d as [d IH] using lt_wf_ind.
  assert (S1 : forall lab i st n, path d i lab -> Q st -> types st -> Q (wstep c d lab i st n) /\ types (wstep c d lab i st n)).
  { intros lab i st n HP HQ HT. unfold wstep. destruct (ws_raised st) eqn:Er; [auto|]. destruct (wc_skip c n) eqn:Es; [auto|].
    destruct (getattr (ws_heap st) i n) as [[| |f|j]|] eqn:Eg; auto.
    - split; [eapply Qone; eauto|apply types_one, HT].
    - destruct d as [|d]; [auto|]. destruct (seen j (ws_seen st)); [auto|]. rewrite wrap_sub_eq.
      apply (proj2 (IH d (Nat.lt_succ_diag_r d))); [| |exact HT].
      + eapply path_class; [exact HP|exact Es|]. apply HT. unfold getattr in Eg. destruct (find _ i n) as [[]|]; congruence.
      + rewrite <- Er. destruct st. eapply Qseen, HQ. }
  split; [exact S1|]. intros lab i ns. induction ns as [|n ns IHn]; intros st HP HQ HT; [auto|].
  cbn [fold_left]. destruct (S1 lab i st n HP HQ HT) as [A B]. apply IHn; auto.
Qed.
Lemma wrap_all_inv : Q (mkWS h0 [] [] false) -> Q (wrap_all c d0 label0 t h0).
Proof. intro H. unfold wrap_all. rewrite wrap_sub_eq. apply (proj2 (inv_both d0)); [constructor|exact H|]. intros i n j Hj. exact Hj. Qed.
End S.

Lemma wrap_one_cases c lab i n f st :
  (exists h', setattr (ws_heap st) i n (Wrapped (lab +s "." +s n) (wc_level c n) f) = Some h' /\
     wrap_one c lab i n f st = mkWS h' (ws_seen st) (ws_ret st ++ [lab +s "." +s n]) (ws_raised st) /\ forall id, f <> Plain id false) \/
  ((exists id, f = Plain id false) \/ fixed (ws_heap st) i = true) /\
  wrap_one c lab i n f st = mkWS (ws_heap st) (ws_seen st) (ws_ret st) (negb (wc_skip_exc c)).
Proof.
  unfold wrap_one. destruct (wrap_fn (lab +s "." +s n) (wc_level c n) f) as [g|] eqn:Eg.
  - assert (g = Wrapped (lab +s "." +s n) (wc_level c n) f) as ->.
    { unfold wrap_fn in Eg. destruct f as [id []| |]; congruence. }
    destruct (setattr _ i n _) as [h'|] eqn:E; [left; exists h'; repeat split; intros id ->; discriminate|]. right. split; [|reflexivity]. right.
    unfold setattr, fixed in *. destruct (nth_error _ i) as [o|]; [destruct (ob_fixed o); congruence|reflexivity].
  - right. split; [|reflexivity]. left. destruct f as [id []| |]; cbn in Eg; try discriminate. eauto.
Qed.
Section B.
Variables (c : wconf) (h0 : heap) (d0 t : nat) (label0 : string).
Hypothesis Hbare : bare h0.
Notation path := (path h0 (wc_skip c) d0 t label0).

(** Every layer has the right name and level *)
Definition Qnames (st : wstate) : Prop := forall i n a s l,
  assoc n (own (ws_heap st) i) = Some a -> In (s, l) (attr_layers a) ->
  l = wc_level c n /\ wc_skip c n = false /\ exists d j lab, path d j lab /\ s = lab +s "." +s n.
Lemma names_all : Qnames (wrap_all c d0 label0 t h0).
Proof.
  apply wrap_all_inv; [intros h s s' r b H; exact H| |].
  2:{ intros i n a s l H1 H2. cbn in H1. rewrite (Hbare _ _ _ H1) in H2. contradiction. }
  intros d lab i n f st HQ _ _ Hs Hg HP. destruct (wrap_one_cases c lab i n f st) as [(h' & E & -> & Hnf)|[_ ->]]; [|exact HQ].
  intros j m a s l Ha Hin. cbn in Ha. rewrite (setattr_assoc _ _ _ _ _ E) in Ha.
  destruct (Nat.eqb_spec j i), (String.eqb_spec m n); cbn [andb] in Ha; try (eapply HQ; eauto; fail). subst.
  injection Ha as <-. cbn in Hin. destruct Hin as [[= <- <-]|Hin].
  - split; [reflexivity|]. split; [exact Hs|]. exists d, i, lab. auto.
  - destruct (getattr_layers _ _ _ _ Hg) as (a & b & _ & Hb & El). rewrite <- El in Hin. eapply HQ; eauto.
Qed.

(** The names returned are those of the layers *)
Definition Qret (st : wstate) : Prop := forall s, In s (ws_ret st) <->
  exists i n a l, assoc n (own (ws_heap st) i) = Some a /\ In (s, l) (attr_layers a).
Lemma ret_all : Qret (wrap_all c d0 label0 t h0).
Proof.
  apply wrap_all_inv; [intros h s s' r b H; exact H| |].
  2:{ intros s. split; [intros []|]. intros (i & n & a & l & H1 & H2). cbn in H1. rewrite (Hbare _ _ _ H1) in H2. contradiction. }
  intros d lab i n f st HQ _ _ Hs Hg HP. destruct (wrap_one_cases c lab i n f st) as [(h' & E & -> & Hnf)|[_ ->]]; [|exact HQ].
  destruct (getattr_layers _ _ _ _ Hg) as (a0 & b & Hf & Hb & El). pose proof (setattr_assoc _ _ _ _ _ E) as A.
  intros s. cbn [ws_ret ws_heap]. rewrite in_app_iff. split.
  - intros [H|[<-|[]]].
    + apply HQ in H as (j & m & a & l & Ha & Hin).
      destruct ((j =? i) && String.eqb m n) eqn:Eb.
      * exists j, m, (AFun (Wrapped (lab +s "." +s n) (wc_level c n) f)), l. rewrite A, Eb. split; [reflexivity|].
        apply andb_true_iff in Eb as [E1 E2]. apply Nat.eqb_eq in E1. apply String.eqb_eq in E2. subst.
        apply find_own in Ha. assert (a = a0) as -> by congruence. cbn. right. rewrite <- El. exact Hin.
      * exists j, m, a, l. rewrite A, Eb. auto.
    + exists i, n, (AFun (Wrapped (lab +s "." +s n) (wc_level c n) f)), (wc_level c n). rewrite A, Nat.eqb_refl, String.eqb_refl.
      split; [reflexivity|]. left. reflexivity.
  - intros (j & m & a & l & Ha & Hin). rewrite A in Ha. destruct ((j =? i) && String.eqb m n) eqn:Eb.
    + injection Ha as <-. cbn in Hin. destruct Hin as [[= <- <-]|Hin]; [right; left; reflexivity|].
      left. apply HQ. rewrite <- El in Hin. eauto 8.
    + left. apply HQ. eauto 8.
Qed.
End B.

(** [skip_exc]: nothing escapes *)
Lemma skip_exc_all c d t label h : wc_skip_exc c = true -> ws_raised (wrap_all c d label t h) = false.
Proof.
  intros Hx. apply (wrap_all_inv c h d t label (fun st => ws_raised st = false)); [intros; assumption| |reflexivity].
  intros d' lab i n f st _ _ Hr _ _ _. destruct (wrap_one_cases c lab i n f st) as [(h' & E & -> & Hnf)|[_ ->]]; [exact Hr|]. cbn. rewrite Hx. reflexivity.
Qed.

Section R.
Variables (c : wconf) (h0 : heap) (d0 t : nat) (label0 : string).
Variables (n0 : string) (f0 : fn).
Hypothesis Hskip : wc_skip c n0 = false.
Hypothesis Hown : assoc n0 (own h0 t) = Some (AFun f0).

(** What stands at the attribute of the target when the traversal reaches it *)
Lemma split_at (Q : wstate -> Prop) :
  (forall h s s' r b, Q (mkWS h s r b) -> Q (mkWS h s' r b)) ->
  (forall d lab i n f st, Q st -> types h0 st -> ws_raised st = false -> wc_skip c n = false ->
     getattr (ws_heap st) i n = Some (VFun f) -> path h0 (wc_skip c) d0 t label0 d i lab -> Q (wrap_one c lab i n f st)) ->
  Q (mkWS h0 [] [] false) ->
  exists l2 st1, Q st1 /\ types h0 st1 /\
    wrap_all c d0 label0 t h0 = fold_left (wstep c d0 label0 t) l2 (wstep c d0 label0 t st1 n0).
Proof.
  intros Q1 Q2 Q3. unfold wrap_all. rewrite wrap_sub_eq. pose proof (own_dir _ _ _ _ Hown) as Hin. cbn [ws_heap].
  apply in_split in Hin as (l1 & l2 & ->). rewrite fold_left_app. cbn [fold_left].
  exists l2. eexists. split; [|split; [|reflexivity]];
    apply (proj2 (inv_both c h0 d0 t label0 Q Q1 Q2 d0)); auto; try constructor; intros i n j H; exact H.
Qed.
Lemma refused_raises : (exists id, f0 = Plain id false) \/ fixed h0 t = true -> wc_skip_exc c = false ->
  ws_raised (wrap_all c d0 label0 t h0) = true.
Proof.
  intros Href Hexc.
  destruct (split_at (fun st => assoc n0 (own (ws_heap st) t) = Some (AFun f0) /\ forall j, fixed (ws_heap st) j = fixed h0 j))
    as (l2 & st1 & [H1 H2] & _ & ->); [auto| |auto|].
  - intros d lab i n f st [H1 H2] _ _ Hs Hg _. destruct (wrap_one_cases c lab i n f st) as [(h' & E & -> & Hnf)|[_ ->]]; [|auto]. cbn. split.
    + rewrite (setattr_assoc _ _ _ _ _ E). destruct (Nat.eqb_spec t i), (String.eqb_spec n0 n); cbn; auto. subst. exfalso.
      unfold getattr in Hg. rewrite (find_own _ _ _ _ H1) in Hg. injection Hg as <-.
      destruct Href as [[id Hr]|Hr]; [eapply Hnf; eauto|].
      rewrite <- H2 in Hr. unfold setattr in E. unfold fixed in Hr. destruct (nth_error _ i) as [o|]; [|discriminate]. rewrite Hr in E. discriminate.
    + intros j. rewrite (proj2 (setattr_mro _ _ _ _ _ j E)). apply H2.
  - assert (K : ws_raised (wstep c d0 label0 t st1 n0) = true); [|rewrite raised_stays; exact K].
    unfold wstep. destruct (ws_raised st1) eqn:Er; [exact Er|]. rewrite Hskip. unfold getattr. rewrite (find_own _ _ _ _ H1).
    destruct (wrap_one_cases c label0 t n0 f0 st1) as [(h' & E & _ & Hnf)|[_ ->]]; [|cbn; rewrite Hexc; reflexivity].
    exfalso. destruct Href as [[id Hr]|Hr]; [eapply Hnf; eauto|].
    rewrite <- H2 in Hr. unfold setattr in E. unfold fixed in Hr. destruct (nth_error _ t) as [o|]; [|discriminate]. rewrite Hr in E. discriminate.
Qed.
Lemma target_wrapped : (forall id, f0 <> Plain id false) -> fixed h0 t = false -> ws_raised (wrap_all c d0 label0 t h0) = false ->
  exists f, assoc n0 (own (ws_heap (wrap_all c d0 label0 t h0)) t) = Some (AFun f) /\ In (label0 +s "." +s n0, wc_level c n0) (log_layers f).
Proof.
  intros Hf Hfix.
  destruct (split_at (fun st => (exists f, assoc n0 (own (ws_heap st) t) = Some (AFun f) /\ forall id, f <> Plain id false) /\ forall j, fixed (ws_heap st) j = fixed h0 j))
    as (l2 & st1 & [(f1 & H1 & H3) H2] & HT & ->); [auto| |eauto|].
  - intros d lab i n f st [(f1 & H1 & H3) H2] _ _ Hs Hg _. destruct (wrap_one_cases c lab i n f st) as [(h' & E & -> & Hnf)|[_ ->]]; [|eauto]. cbn. split.
    + rewrite (setattr_assoc _ _ _ _ _ E). destruct ((t =? i) && String.eqb n0 n); [|eauto]. eexists. split; [reflexivity|discriminate].
    + intros j. rewrite (proj2 (setattr_mro _ _ _ _ _ j E)). apply H2.
  - intros Hr. destruct (ws_raised st1) eqn:Er.
    { exfalso. assert (W : wstep c d0 label0 t st1 n0 = st1) by (unfold wstep; rewrite Er; reflexivity). rewrite W, raised_stays in Hr by exact Er. congruence. }
    assert (K : wstep c d0 label0 t st1 n0 = wrap_one c label0 t n0 f1 st1).
    { unfold wstep. rewrite Er, Hskip. unfold getattr. rewrite (find_own _ _ _ _ H1). reflexivity. }
    set (Q2 := fun st => exists f, assoc n0 (own (ws_heap st) t) = Some (AFun f) /\ In (label0 +s "." +s n0, wc_level c n0) (log_layers f)).
    change (Q2 (fold_left (wstep c d0 label0 t) l2 (wstep c d0 label0 t st1 n0))).
    apply (proj2 (inv_both c h0 d0 t label0 Q2 (fun h s s' r b H => H)
      ltac:(intros d lab i n f st (f2 & A1 & A2) _ _ Hs Hg _;
            destruct (wrap_one_cases c lab i n f st) as [(h' & E & -> & Hnf)|[_ ->]]; [|exists f2; auto];
            unfold Q2; cbn [ws_heap]; rewrite (setattr_assoc _ _ _ _ _ E);
            destruct (Nat.eqb_spec t i), (String.eqb_spec n0 n); cbn [andb]; try (exists f2; auto; fail); subst;
            eexists; split; [reflexivity|]; cbn; right; unfold getattr in Hg; rewrite (find_own _ _ _ _ A1) in Hg; injection Hg as <-; exact A2) d0)).
    + constructor.
    + rewrite K. destruct (wrap_one_cases c label0 t n0 f1 st1) as [(h' & E & -> & _)|[[[id Hx]|Hx] _]].
      * unfold Q2. cbn [ws_heap]. rewrite (setattr_assoc _ _ _ _ _ E), Nat.eqb_refl, String.eqb_refl. eexists. split; [reflexivity|]. left. reflexivity.
      * exfalso. eapply H3; eauto.
      * rewrite H2 in Hx. congruence.
    + rewrite K. apply types_one, HT.
Qed.
End R.

(** *** The arguments *)
Lemma prefix_app p n : String.prefix p n = true <-> exists r, n = p +s r.
Proof.
  revert n. induction p as [|x p IH]; intros n; cbn; [split; [intros _; exists n; reflexivity|destruct n; reflexivity]|].
  destruct n as [|y n]; [split; [discriminate|intros [r H]; discriminate]|].
  change (String.prefix (String x p) (String y n)) with (if Ascii.ascii_dec x y then String.prefix p n else false).
  destruct (Ascii.ascii_dec x y) as [->|Hn].
  - split; [intros H; apply IH in H as [r ->]; exists r; reflexivity|]. intros [r H]. apply IH. exists r. injection H as ->. reflexivity.
  - split; [discriminate|]. intros [r H]. injection H. intros. congruence.
Qed.
Lemma skip_test_spec a f n : skip_test a = Some f -> (f n = true <-> skips a n).
Proof.
  destruct a as [|p|g|]; cbn [skip_test skips]; intros [= <-].
  - apply prefix_app.
  - rewrite andb_true_iff, prefix_app, negb_true_iff, String.eqb_neq. reflexivity.
  - reflexivity.
Qed.
Lemma level_spec a n : level_of a n (match dget String.eqb n (wa_map a) with Some l => l | None => wa_level a end).
Proof.
  unfold level_of. induction (wa_map a) as [|[k l] m IH]; cbn; [right; auto|]. destruct (String.eqb_spec n k) as [->|Hn].
  - left. exists [], m. split; [reflexivity|intros []].
  - destruct IH as [(m1 & m2 & E & H)|[H1 H2]].
    + left. exists ((k, l) :: m1), m2. split; [cbn; congruence|]. cbn. intros [H'|H']; congruence.
    + right. split; [|exact H2]. intros [H'|H']; congruence.
Qed.
