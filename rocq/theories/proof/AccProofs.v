From Verif Require Import model.PyBase model.Bisect model.Accumulators spec.AccSpec.
From Coq Require Import Permutation.

(** ** bisect *)
Lemma bisect_loop_spec {A} (below : A -> bool) (a : list A) :
  (forall i j x y, i <= j -> nth_error a i = Some x -> nth_error a j = Some y -> below x = true -> below y = true) ->
  forall fuel lo hi, hi - lo < fuel -> lo <= hi -> hi <= length a ->
  (forall i x, i < lo -> nth_error a i = Some x -> below x = false) ->
  (forall i x, hi <= i -> nth_error a i = Some x -> below x = true) ->
  let k := bisect_loop fuel below a lo hi in
  k <= length a /\ (forall i x, i < k -> nth_error a i = Some x -> below x = false) /\
  (forall i x, k <= i -> nth_error a i = Some x -> below x = true).
Proof.
  intros Hmono. induction fuel as [|f IH]; intros lo hi Hf Hle Hlen Hlo Hhi; [lia|].
  cbn [bisect_loop]. destruct (Nat.ltb_spec lo hi) as [Hlt|Hge].
  - set (mid := (lo + hi) / 2).
    assert (Hm : lo <= mid < hi).
    { unfold mid. split; [apply Nat.div_le_lower_bound; lia | apply Nat.div_lt_upper_bound; lia]. }
    destruct (nth_error a mid) as [y|] eqn:Hy; [|apply nth_error_None in Hy; lia].
    destruct (below y) eqn:Hb.
    + apply IH; auto; try lia. intros i x Hi Hx. eapply (Hmono mid i); eauto; lia.
    + apply IH; auto; try lia. intros i x Hi Hx.
      destruct (below x) eqn:Hbx; auto. assert (below y = true); [|congruence]. eapply (Hmono i mid); eauto; lia.
  - assert (lo = hi) by lia. subst hi. cbv zeta. split; auto.
Qed.
Lemma bisect_spec {A} (below : A -> bool) (a : list A) :
  (forall i j x y, i <= j -> nth_error a i = Some x -> nth_error a j = Some y -> below x = true -> below y = true) ->
  let k := bisect below a in
  k <= length a /\ (forall i x, i < k -> nth_error a i = Some x -> below x = false) /\
  (forall i x, k <= i -> nth_error a i = Some x -> below x = true).
Proof.
  intros H. apply bisect_loop_spec; auto; try lia.
  intros i x Hi Hx. exfalso. apply nth_error_None in Hi. congruence.
Qed.

(** Split form. *)
Lemma bisect_split {A} (below : A -> bool) (a : list A) :
  (forall i j x y, i <= j -> nth_error a i = Some x -> nth_error a j = Some y -> below x = true -> below y = true) ->
  exists l1 l2, a = l1 ++ l2 /\ bisect below a = length l1 /\
    (forall x, In x l1 -> below x = false) /\ (forall x, In x l2 -> below x = true).
Proof.
  intros H. destruct (bisect_spec below a H) as (H1 & H2 & H3). set (k := bisect below a) in *.
  exists (firstn k a), (skipn k a). split; [symmetry; apply firstn_skipn|].
  split; [rewrite firstn_length; lia|]. split.
  - intros x Hx. apply In_nth_error in Hx. destruct Hx as (i & Hi).
    assert (Hik : i < k). { assert (Hlt : i < length (firstn k a)) by (apply nth_error_Some; congruence). rewrite firstn_length in Hlt. lia. }
    apply (H2 i); auto. rewrite <- Hi. symmetry. clearbody k. clear -Hik. revert a i Hik. induction k; intros a i Hik; [lia|].
    destruct a; [destruct i; auto|]. destruct i; auto. simpl. apply IHk. lia.
  - intros x Hx. apply In_nth_error in Hx. destruct Hx as (i & Hi). apply (H3 (k + i)); [lia|].
    rewrite <- Hi. clearbody k. clear. revert a. induction k; intros a; auto. destruct a; [simpl; destruct i; auto|]. simpl. apply IHk.
Qed.

(** ** ascending lists *)
Lemma ascending_app l1 l2 : ascending (l1 ++ l2) <->
  ascending l1 /\ ascending l2 /\ forall x y, In x l1 -> In y l2 -> (x <= y)%Z.
Proof.
  induction l1 as [|a l1 IH]; simpl.
  - split; [intros H; split; [exact I|split; [auto|intros ? ? []]] | tauto].
  - rewrite IH. split.
    + intros (H1 & H2 & H3 & H4). split; [split; auto; intros; apply H1, in_or_app; auto|]. split; auto.
      intros x y [<-|Hx] Hy; auto. apply H1, in_or_app; auto.
    + intros ((H1 & H2) & H3 & H4). split; [|split; [auto|split; auto]].
      intros y Hy. apply in_app_or in Hy. destruct Hy; auto.
Qed.
Lemma ascending_nth l : ascending l -> forall i j x y, i <= j -> nth_error l i = Some x -> nth_error l j = Some y -> (x <= y)%Z.
Proof.
  induction l as [|a l IH]; intros H i j x y Hij Hx Hy; [destruct i; discriminate|].
  destruct H as [H1 H2]. destruct j.
  - assert (i = 0) by lia. subst. simpl in *. assert (x = y) by congruence. subst. apply Z.le_refl.
  - destruct i; simpl in *; [|apply (IH H2 i j x y); auto; lia]. inversion Hx; subst. apply H1. eapply nth_error_In; eauto.
Qed.

Lemma bisect_right_split l v : ascending l ->
  exists l1 l2, l = l1 ++ l2 /\ bisect_right l v = length l1 /\
    (forall x, In x l1 -> (x <= v)%Z) /\ (forall x, In x l2 -> (v < x)%Z).
Proof.
  intros Ha. destruct (bisect_split (fun y => (v <? y)%Z) l) as (l1 & l2 & H1 & H2 & H3 & H4).
  - intros i j x y Hij Hx Hy. rewrite !Z.ltb_lt. pose proof (ascending_nth l Ha i j x y Hij Hx Hy). lia.
  - exists l1, l2. split; auto. split; auto. split.
    + intros x Hx. specialize (H3 x Hx). apply Z.ltb_ge in H3. auto.
    + intros x Hx. specialize (H4 x Hx). apply Z.ltb_lt in H4. auto.
Qed.

Lemma insert_at_app {A} (l1 l2 : list A) x : insert_at (length l1) x (l1 ++ l2) = l1 ++ x :: l2.
Proof.
  unfold insert_at. rewrite firstn_app, Nat.sub_diag, firstn_O, firstn_all, app_nil_r, skipn_app, Nat.sub_diag, skipn_all. auto.
Qed.
Lemma replace_at_app {A} (l1 l2 : list A) y x : replace_at (length l1) x (l1 ++ y :: l2) = l1 ++ x :: l2.
Proof. induction l1; simpl; f_equal; auto. Qed.

Lemma insort_spec l v : ascending l -> ascending (insort l v) /\ Permutation (insort l v) (v :: l).
Proof.
  intros Ha. unfold insort. destruct (bisect_right_split l v Ha) as (l1 & l2 & -> & -> & H1 & H2).
  rewrite insert_at_app. split; [|apply Permutation_sym, Permutation_middle].
  apply ascending_app in Ha. destruct Ha as (A1 & A2 & A3). apply ascending_app. split; auto. split.
  - simpl. split; auto. intros y Hy. specialize (H2 y Hy). lia.
  - intros x y Hx [<-|Hy]; auto.
Qed.

Lemma drawn_add l vs v l' : drawn_from l vs -> (exists r, Permutation (v :: l) (l' ++ r)) -> drawn_from l' (vs ++ [v]).
Proof.
  intros [rest HP] [r Hr]. exists (r ++ rest).
  rewrite Permutation_app_comm. simpl. rewrite HP. change (v :: l ++ rest) with ((v :: l) ++ rest). rewrite Hr, app_assoc. reflexivity.
Qed.

Lemma fold_snoc {A B} (f : A -> B -> A) l x a : fold_left f (l ++ [x]) a = f (fold_left f l a) x.
Proof. rewrite fold_left_app. reflexivity. Qed.

(** ** C25 *)
Definition max_ok (n : nat) (vs l : list Z) : Prop :=
  ascending l /\ length l <= n /\ drawn_from l vs.

Lemma max_full n l v : ascending l -> length l = n ->
  let l' := (let idx := bisect_right l v in if idx =? n then tl (l ++ [v]) else replace_at idx v l) in
  ascending l' /\ length l' = n /\ (exists r, Permutation (v :: l) (l' ++ r)).
Proof.
  intros Ha Hn. cbv zeta. destruct (bisect_right_split l v Ha) as (l1 & l2 & E & Hk & H1 & H2). rewrite Hk.
  destruct (Nat.eqb_spec (length l1) n) as [He|Hne].
  - assert (l2 = []) by (destruct l2; auto; rewrite E, app_length in Hn; simpl in Hn; lia). subst l2.
    rewrite app_nil_r in E. subst l1. destruct l as [|x l]; simpl in *.
    + split; auto. split; auto. exists [v]. reflexivity.
    + destruct Ha as [Hx Ha]. split; [|split].
      * apply ascending_app. split; auto. split; [simpl; split; auto; intros ? []|].
        intros y z Hy [<-|[]]. apply H1; auto.
      * rewrite app_length. simpl. lia.
      * exists [x]. rewrite <- app_assoc. simpl.
        apply Permutation_trans with (v :: l ++ [x]); [apply perm_skip, Permutation_cons_append |].
        apply Permutation_trans with (l ++ v :: [x]); [apply Permutation_middle | reflexivity].
  - destruct l2 as [|y l2]; [rewrite app_nil_r in E; subst; lia|]. subst l.
    rewrite replace_at_app. apply ascending_app in Ha. destruct Ha as (A1 & A2 & A3). split; [|split].
    + apply ascending_app. simpl in A2. destruct A2 as [A2 A2']. split; auto. split.
      * simpl. split; auto. intros z Hz. specialize (H2 z (or_intror Hz)). lia.
      * intros x z Hx [<-|Hz]; auto. apply A3; auto. right; auto.
    + rewrite app_length in *. simpl in *. lia.
    + exists [y]. rewrite <- app_assoc. simpl.
      apply Permutation_trans with (v :: y :: l1 ++ l2); [apply perm_skip, Permutation_sym, Permutation_middle|].
      apply Permutation_trans with (v :: l1 ++ l2 ++ [y]).
      * apply perm_skip. rewrite app_assoc. apply Permutation_cons_append.
      * apply Permutation_middle.
Qed.

Lemma max_add_ok n vs l v : max_ok n vs l -> max_ok n (vs ++ [v]) (max_add n l v).
Proof.
  intros (Ha & Hl & Hd).
  assert (Hsame : max_ok n (vs ++ [v]) l).
  { split; auto. split; auto. eapply drawn_add; eauto. exists [v]. apply Permutation_cons_append. }
  assert (Hrest : max_ok n (vs ++ [v]) (if length l <? n then insort l v
      else let idx := bisect_right l v in if idx =? n then tl (l ++ [v]) else replace_at idx v l)).
  { destruct (Nat.ltb_spec (length l) n).
    - destruct (insort_spec l v Ha) as [H1 H2]. split; auto. split; [rewrite (Permutation_length H2); simpl; lia|].
      eapply drawn_add; eauto. exists []. rewrite app_nil_r. apply Permutation_sym; auto.
    - destruct (max_full n l v Ha ltac:(lia)) as (H1 & H2 & H3). split; auto. split; [lia|]. eapply drawn_add; eauto. }
  unfold max_add. destruct l as [|x l]; auto. destruct (v <=? x)%Z; auto.
Qed.
Lemma max_adds_ok n vs : max_ok n vs (max_adds n vs).
Proof.
  induction vs as [|v vs IH] using rev_ind.
  - split; [exact I|]. split; [simpl; lia|]. exists []. reflexivity.
  - unfold max_adds in *. rewrite fold_snoc. apply max_add_ok; auto.
Qed.

(** With count=1 it is the maximum. *)
Lemma max_one vs : vs <> [] -> exists m, max_adds 1 vs = [m] /\ is_max vs m.
Proof.
  intros Hne. assert (H : (vs = [] /\ max_adds 1 vs = []) \/ exists m, max_adds 1 vs = [m] /\ is_max vs m).
  { clear Hne. induction vs as [|v vs IH] using rev_ind; [left; auto|]. right.
    unfold max_adds in *. rewrite fold_snoc. destruct IH as [[-> ->]|(m & -> & Hm & Hmax)].
    - exists v. split; [reflexivity|]. split; [left; auto|]. intros x [<-|[]]. lia.
    - unfold max_add. destruct (Z.leb_spec v m) as [Hle|Hgt].
      + exists m. split; auto. split; [apply in_or_app; auto|]. intros x Hx. apply in_app_or in Hx.
        destruct Hx as [Hx|[<-|[]]]; auto.
      + exists v. split; [|split; [apply in_or_app; right; left; auto|]].
        * simpl. unfold bisect_right, bisect. simpl. destruct (Z.ltb_spec v m); [lia|]. reflexivity.
        * intros x Hx. apply in_app_or in Hx. destruct Hx as [Hx|[<-|[]]]; [specialize (Hmax x Hx); lia | lia]. }
  destruct H as [[-> _]|H]; [congruence | auto].
Qed.

(** For a strictly increasing input it is exact. *)
Lemma sasc_app l1 l2 : strictly_ascending (l1 ++ l2) <->
  strictly_ascending l1 /\ strictly_ascending l2 /\ forall x y, In x l1 -> In y l2 -> (x < y)%Z.
Proof.
  induction l1 as [|a l1 IH]; simpl.
  - split; [intros H; split; [exact I|split; [auto|intros ? ? []]] | tauto].
  - rewrite IH. split.
    + intros (H1 & H2 & H3 & H4). split; [split; auto; intros; apply H1, in_or_app; auto|]. split; auto.
      intros x y [<-|Hx] Hy; auto. apply H1, in_or_app; auto.
    + intros ((H1 & H2) & H3 & H4). split; [|split; [auto|split; auto]].
      intros y Hy. apply in_app_or in Hy. destruct Hy; auto.
Qed.
Lemma sasc_asc l : strictly_ascending l -> ascending l.
Proof. induction l; simpl; intuition. apply Z.lt_le_incl. auto. Qed.
Lemma In_skipn {A} n (l : list A) x : In x (skipn n l) -> In x l.
Proof. revert l. induction n; intros l; simpl; auto. destruct l; simpl; auto. Qed.

Lemma max_increasing n vs : strictly_ascending vs -> max_adds n vs = skipn (length vs - n) vs.
Proof.
  induction vs as [|v vs IH] using rev_ind; [reflexivity|]. intros Hs.
  apply sasc_app in Hs. destruct Hs as (Hs & _ & Hlt). specialize (IH Hs).
  unfold max_adds in *. rewrite fold_snoc, IH. set (l := skipn (length vs - n) vs).
  assert (Hl : forall x, In x l -> (x < v)%Z).
  { intros x Hx. apply Hlt; [eapply In_skipn; eauto | left; auto]. }
  assert (Hlen : length l = Nat.min n (length vs)) by (unfold l; rewrite skipn_length; lia).
  assert (Ha : ascending l).
  { apply sasc_asc in Hs. rewrite <- (firstn_skipn (length vs - n) vs) in Hs. apply ascending_app in Hs. tauto. }
  assert (Hb : bisect_right l v = length l).
  { destruct (bisect_right_split l v Ha) as (l1 & l2 & E & Hk & _ & H2). rewrite Hk.
    destruct l2 as [|y l2]; [rewrite E, app_nil_r; auto|].
    assert (In y l) by (rewrite E; apply in_or_app; right; left; auto).
    specialize (H2 y (or_introl eq_refl)). specialize (Hl y H). lia. }
  assert (Hrest : (if length l <? n then insort l v
      else let idx := bisect_right l v in if idx =? n then tl (l ++ [v]) else replace_at idx v l)
      = skipn (length (vs ++ [v]) - n) (vs ++ [v])).
  { unfold insort. rewrite Hb. rewrite app_length. simpl. destruct (Nat.ltb_spec (length l) n).
    - unfold insert_at. rewrite firstn_all, skipn_all. unfold l.
      replace (length vs - n) with 0 by lia. replace (length vs + 1 - n) with 0 by lia. reflexivity.
    - assert (E : length l = n) by lia. rewrite E, Nat.eqb_refl.
      replace (length vs + 1 - n) with (S (length vs - n)) by lia. unfold l in *.
      assert (Hnv : n <= length vs) by lia. clear -Hnv. rewrite skipn_app.
      destruct n as [|n].
      + rewrite !Nat.sub_0_r, skipn_all, skipn_all2 by lia. replace (S (length vs) - length vs) with 1 by lia. reflexivity.
      + replace (S (length vs - S n) - length vs) with 0 by lia. simpl skipn at 3.
        assert (Hkl : length vs - S n < length vs) by lia. revert Hkl. generalize (length vs - S n) as k. clear.
        intros k. revert vs. induction k; intros vs Hkl; destruct vs as [|x vs]; simpl in *; try lia; auto.
        apply IHk. lia. }
  unfold max_add. destruct l as [|x l0] eqn:El; [exact Hrest|].
  destruct (Z.leb_spec v x); [|exact Hrest]. specialize (Hl x (or_introl eq_refl)). lia.
Qed.

(** ** C26 *)
Lemma min_full n l v : ascending l -> length l = n -> 0 < n -> (v < last l v)%Z ->
  let l' := (let idx := bisect_right l v in if idx =? 0 then removelast (v :: l) else replace_at idx v l) in
  ascending l' /\ length l' = n /\ (exists r, Permutation (v :: l) (l' ++ r)) /\
  hd v l' = Z.min v (hd v l).
Proof.
  intros Ha Hn Hpos Hlast. cbv zeta. destruct (bisect_right_split l v Ha) as (l1 & l2 & E & Hk & H1 & H2). rewrite Hk.
  destruct l1 as [|a l1].
  - simpl. simpl in E. subst l2. destruct l as [|x l]; [simpl in Hn; lia|].
    assert (Hx : (v < x)%Z) by (apply H2; left; auto).
    destruct (exists_last (l := x :: l)) as (l0 & z & Ez); [discriminate|].
    change (removelast (v :: x :: l)) with (v :: removelast (x :: l)). rewrite Ez, removelast_last. rewrite Ez in Ha, H2, Hn.
    apply ascending_app in Ha. destruct Ha as (A1 & A2 & A3). split; [|split; [|split]].
    + simpl. split; auto. intros y Hy. assert (v < y)%Z; [|lia]. apply H2, in_or_app; auto.
    + rewrite app_length in Hn. simpl in *. lia.
    + exists [z]. reflexivity.
    + rewrite <- Ez. simpl. lia.
  - assert (Hav : (a <= v)%Z) by (apply H1; left; auto).
    destruct l2 as [|y l2].
    + rewrite app_nil_r in E. subst l. exfalso. assert (Hin : In (last (a :: l1) v) (a :: l1)).
      { destruct (exists_last (l := a :: l1)) as (l0 & z & Ez); [discriminate|]. rewrite Ez, last_last. apply in_or_app; right; left; auto. }
      specialize (H1 _ Hin). lia.
    + replace (length (a :: l1) =? 0) with false by reflexivity. subst l. rewrite replace_at_app.
      apply ascending_app in Ha. destruct Ha as (A1 & A2 & A3). split; [|split; [|split]].
      * apply ascending_app. simpl in A2. destruct A2 as [A2 A2']. split; auto. split.
        -- simpl. split; auto. intros z Hz. specialize (H2 z (or_intror Hz)). lia.
        -- intros x z Hx [<-|Hz]; auto. apply A3; auto. right; auto.
      * rewrite app_length in *. simpl in *. lia.
      * exists [y]. rewrite <- app_assoc. simpl.
        change (a :: l1 ++ y :: l2) with ((a :: l1) ++ y :: l2). change (a :: l1 ++ v :: l2 ++ [y]) with ((a :: l1) ++ v :: l2 ++ [y]).
        generalize (a :: l1) as p. intros p.
        apply Permutation_trans with (v :: y :: p ++ l2); [apply perm_skip, Permutation_sym, Permutation_middle|].
        apply Permutation_trans with (v :: p ++ l2 ++ [y]).
        -- apply perm_skip. rewrite app_assoc. apply Permutation_cons_append.
        -- apply Permutation_middle.
      * simpl. lia.
Qed.

Definition min_ok (n : nat) (vs l : list Z) : Prop :=
  ascending l /\ length l <= n /\ drawn_from l vs /\
  (vs <> [] -> l <> []) /\ (forall m l0, l = m :: l0 -> is_min vs m).

Lemma min_add_ok n vs l v : 0 < n -> min_ok n vs l -> min_ok n (vs ++ [v]) (min_add n l v).
Proof.
  intros Hn (Ha & Hl & Hd & Hne & Hm).
  assert (Hhead : forall l', ascending l' -> length l' <= n -> (exists r, Permutation (v :: l) (l' ++ r)) -> l' <> [] ->
     hd v l' = Z.min v (hd v l) -> min_ok n (vs ++ [v]) l').
  { intros l' A1 A2 A3 A4 A5. split; auto. split; auto. split; [eapply drawn_add; eauto|]. split; auto.
    intros m l0 ->. simpl in A5. split.
    - destruct l as [|x l1]; simpl in A5.
      + apply in_or_app; right; left. lia.
      + destruct (Hm x l1 eq_refl) as [Hx _]. apply in_or_app. destruct (Z.min_dec v x) as [Hq|Hq]; rewrite Hq in A5; subst; [right; left; auto | left; auto].
    - intros y Hy. apply in_app_or in Hy. destruct Hy as [Hy|[<-|[]]]; [|lia].
      destruct l as [|x l1].
      + exfalso. apply Hne; auto. intros ->. destruct Hy.
      + destruct (Hm x l1 eq_refl) as [_ Hx]. specialize (Hx y Hy). simpl in A5. lia. }
  unfold min_add. destruct l as [|x l1] eqn:El.
  - destruct (Nat.ltb_spec (@length Z []) n) as [_|Hx]; [|simpl in Hx; lia].
    apply Hhead; simpl; auto; try lia.
    + split; auto. intros ? [].
    + exists []. reflexivity.
    + discriminate.
  - rewrite <- El in *. assert (Hlne : l <> []) by (rewrite El; discriminate).
    assert (Ell : last l v = last l x) by (rewrite El; clear; revert x; induction l1; intros; auto; simpl in *; destruct l1; auto).
    destruct (Z.leb_spec (last l v) v) as [Hle|Hgt].
    + apply Hhead; auto.
      * exists [v]. apply Permutation_cons_append.
      * assert (Hin : In (last l v) l).
        { destruct (exists_last Hlne) as (l0 & z & Ez). rewrite Ez, last_last. apply in_or_app; right; left; auto. }
        rewrite El in Hin, Ha |- *. simpl. destruct Ha as [Ha _]. destruct Hin as [Hin|Hin].
        -- rewrite <- El in Hin. lia.
        -- specialize (Ha _ Hin). rewrite <- El in Ha. lia.
    + destruct (Nat.ltb_spec (length l) n).
      * destruct (insort_spec l v Ha) as [H1 H2].
        apply Hhead; auto.
        -- rewrite (Permutation_length H2). simpl. lia.
        -- exists []. rewrite app_nil_r. apply Permutation_sym; auto.
        -- intros E. rewrite E in H2. apply Permutation_length in H2. discriminate.
        -- destruct (insort l v) as [|y q] eqn:Ei; [apply Permutation_length in H2; discriminate|].
           assert (Hy : In y (v :: l)) by (eapply Permutation_in; [exact H2 | left; auto]).
           assert (Hall : forall z, In z (v :: l) -> (y <= z)%Z).
           { intros z Hz. eapply Permutation_in in Hz; [|apply Permutation_sym; exact H2].
             destruct Hz as [<-|Hz]; [lia | apply H1; auto]. }
           assert (Hxmin : forall z, In z l -> (x <= z)%Z).
           { intros z Hz. rewrite El in Hz, Ha. destruct Hz as [<-|Hz]; [lia|]. apply Ha; auto. }
           rewrite El. simpl. pose proof (Hall v (or_introl eq_refl)).
           pose proof (Hall x ltac:(right; rewrite El; left; auto)).
           destruct Hy as [<-|Hy]; [lia|]. specialize (Hxmin y Hy). lia.
      * destruct (min_full n l v Ha ltac:(lia) Hn Hgt) as (H1 & H2 & H3 & H4).
        cbv zeta in *. apply Hhead; auto; [lia|]. intros E. rewrite E in H2. simpl in H2. lia.
Qed.
Lemma min_adds_ok n vs : 0 < n -> min_ok n vs (min_adds n vs).
Proof.
  intros Hn. induction vs as [|v vs IH] using rev_ind.
  - split; [exact I|]. split; [simpl; lia|]. split; [exists []; reflexivity|]. split; [auto|]. discriminate.
  - unfold min_adds in *. rewrite fold_snoc. apply min_add_ok; auto.
Qed.

(** ** C24 *)
Definition not_nan (v : flt) : Prop := v <> NaN.
Lemma flt_lt_trans a b c : flt_lt a b = true -> flt_lt b c = true -> flt_lt a c = true.
Proof.
  destruct a, b, c; simpl; try discriminate; auto. rewrite !Z.ltb_lt. lia.
Qed.
Lemma flt_tri a b : a <> NaN -> b <> NaN -> flt_lt a b = false -> flt_eq a b = false -> flt_lt b a = true.
Proof.
  destruct a, b; simpl; try discriminate; try congruence. rewrite Z.ltb_ge, Z.eqb_neq, Z.ltb_lt. lia.
Qed.
Lemma flt_eq_eq a b : flt_eq a b = true <-> a = b /\ a <> NaN.
Proof.
  destruct a, b; simpl; split; try discriminate; try (intros [? ?]; congruence); try (intros; split; congruence).
  - rewrite Z.eqb_eq. intros ->. split; congruence.
  - intros [E _]. inversion E. apply Z.eqb_refl.
Qed.
Lemma flt_not_lt_le a b : a <> NaN -> b <> NaN -> flt_lt a b = false -> flt_le b a = true.
Proof.
  intros Ha Hb H. unfold flt_le. destruct (flt_lt b a) eqn:E; auto. simpl.
  destruct (flt_eq b a) eqn:E2; auto. rewrite (flt_tri b a) in H; auto.
Qed.
Lemma flt_le_not_lt a b : flt_le a b = true -> flt_lt b a = false.
Proof.
  unfold flt_le. destruct a, b; simpl; try discriminate; auto. rewrite orb_true_iff, Z.ltb_lt, Z.eqb_eq, Z.ltb_ge. lia.
Qed.

Fixpoint fsorted (l : list flt) : Prop :=
  match l with
  | [] => True
  | x :: l' => (forall y, In y l' -> flt_lt x y = true) /\ fsorted l'
  end.
Lemma flt_insert_spec x l : fsorted l -> x <> NaN -> (forall y, In y l -> y <> NaN) ->
  fsorted (flt_insert x l) /\ forall y, In y (flt_insert x l) <-> y = x \/ In y l.
Proof.
  induction l as [|a l IH]; intros Hs Hx Hl; simpl.
  - split; [split; auto; intros ? []|]. intros y. split; [intros [<-|[]]; auto | intros [->|[]]; auto].
  - destruct Hs as [H1 H2]. destruct IH as [I1 I2]; auto; [intros; apply Hl; right; auto|].
    destruct (flt_lt a x) eqn:E.
    + simpl. split.
      * split; auto. intros y Hy. apply I2 in Hy. destruct Hy as [->|Hy]; auto.
      * intros y. rewrite I2. tauto.
    + destruct (flt_eq x a) eqn:E2.
      * apply flt_eq_eq in E2. destruct E2 as [-> _]. simpl. split; auto. intros y. split; [tauto|]. intros [->|H]; auto.
      * assert (Hxa : flt_lt x a = true).
        { apply flt_tri; auto; [apply Hl; left; auto|]. destruct (flt_eq a x) eqn:E3; auto.
          apply flt_eq_eq in E3. destruct E3 as [-> ?]. rewrite (proj2 (flt_eq_eq x x)) in E2; auto. }
        simpl. split; [split; [|split; auto]|].
        -- intros y [<-|Hy]; auto. eapply flt_lt_trans; eauto.
        -- intros y. split; [intros [H|H]; [left; auto | right; auto] | intros [H|H]; [left; auto | right; auto]].
Qed.
Lemma flt_sort_spec l : (forall y, In y l -> y <> NaN) ->
  fsorted (flt_sort_set l) /\ forall y, In y (flt_sort_set l) <-> In y l.
Proof.
  induction l as [|a l IH]; intros Hl; [simpl; tauto|].
  destruct IH as [I1 I2]; [intros; apply Hl; right; auto|].
  destruct (flt_insert_spec a (flt_sort_set l) I1) as [J1 J2].
  - apply Hl; left; auto.
  - intros y Hy. apply Hl. right. apply I2; auto.
  - simpl. fold (flt_sort_set l). split; auto. intros y. rewrite J2, I2. split; [intros [->|?]; auto | intros [->|?]; auto].
Qed.
Lemma fsorted_nth l : fsorted l -> forall i j x y, i < j -> nth_error l i = Some x -> nth_error l j = Some y -> flt_lt x y = true.
Proof.
  induction l as [|a l IH]; intros H i j x y Hij Hx Hy; [destruct i; discriminate|].
  destruct H as [H1 H2]. destruct j; [lia|].
  destruct i; simpl in *; [|apply (IH H2 i j x y); auto; lia]. inversion Hx; subst. apply H1. eapply nth_error_In; eauto.
Qed.

(** Shape of the bounds of a new counter. *)
Record good_bounds (bs : list flt) : Prop := {
  gb_sorted : fsorted bs;
  gb_nan : forall y, In y bs -> y <> NaN;
  gb_first : nth_error bs 0 = Some NegInf;
  gb_last : nth_error bs (length bs - 1) = Some PosInf;
  gb_len : 2 <= length bs
}.
Lemma good_bounds_intro bs : fsorted bs -> (forall y, In y bs -> y <> NaN) -> In NegInf bs -> In PosInf bs -> good_bounds bs.
Proof.
  intros Hs Hn H1 H2. apply In_nth_error in H1, H2. destruct H1 as (i & Hi), H2 as (j & Hj).
  assert (Li : i < length bs) by (apply nth_error_Some; congruence).
  assert (Lj : j < length bs) by (apply nth_error_Some; congruence).
  assert (i = 0).
  { destruct i; auto. destruct (nth_error bs 0) as [x|] eqn:E; [|apply nth_error_None in E; lia].
    pose proof (fsorted_nth bs Hs 0 (S i) x NegInf ltac:(lia) E Hi) as H. destruct x; discriminate H. }
  assert (j = length bs - 1).
  { destruct (Nat.eq_dec j (length bs - 1)); auto.
    destruct (nth_error bs (length bs - 1)) as [x|] eqn:E; [|apply nth_error_None in E; lia].
    pose proof (fsorted_nth bs Hs j (length bs - 1) PosInf x ltac:(lia) Hj E) as H'. destruct x; discriminate H'. }
  subst. constructor; auto. destruct (Nat.eq_dec (length bs) 1) as [E|]; [|lia].
  rewrite E in Hj. change (1 - 1) with 0 in Hj. congruence.
Qed.
Lemma h_new_spec bounds h : h_new bounds = Some h ->
  good_bounds (h_bounds h) /\ h_buckets h = repeat 0 (length (h_bounds h) - 1) /\
  (forall y, In y bounds -> y <> NaN) /\
  forall y, In y (h_bounds h) <-> y = NegInf \/ y = PosInf \/ In y bounds.
Proof.
  unfold h_new. destruct (existsb _ bounds) eqn:E; [discriminate|]. intros H. inversion H; subst h; clear H.
  assert (Hn : forall y, In y bounds -> y <> NaN).
  { intros y Hy ->. assert (existsb (fun b => match b with NaN => true | _ => false end) bounds = true); [|congruence].
    apply existsb_exists. exists NaN. auto. }
  destruct (flt_sort_spec (NegInf :: PosInf :: bounds)) as [S1 S2].
  { intros y [<-|[<-|Hy]]; try discriminate. auto. }
  cbn [h_bounds h_buckets].
  split; [|split; [|split; auto]].
  - apply good_bounds_intro; auto.
    + intros y Hy. apply S2 in Hy. destruct Hy as [<-|[<-|Hy]]; try discriminate. auto.
    + apply S2. left; auto.
    + apply S2. right; left; auto.
  - f_equal. generalize (flt_insert NegInf (flt_insert PosInf (flt_sort_set bounds))). intros bs. rewrite combine_length. destruct bs; cbn [tl length]; lia.
  - intros y. rewrite S2. simpl. split; [intros [H|[H|H]]; auto | intros [H|[H|H]]; auto].
Qed.

(** Where a value goes. *)
Lemma bisect_value bs v : good_bounds bs -> v <> NaN -> v <> PosInf ->
  let i := bisect (fun b => flt_lt v b) bs - 1 in
  S i < length bs /\ exists lo hi, nth_error bs i = Some lo /\ nth_error bs (S i) = Some hi /\ flt_le lo v = true /\ flt_lt v hi = true.
Proof.
  intros [G1 G2 G3 G4 G5] Hv Hp. destruct (bisect_spec (fun b => flt_lt v b) bs) as (K1 & K2 & K3).
  { intros i j x y Hij Hx Hy Hlt. destruct (Nat.eq_dec i j) as [->|Hne]; [congruence|].
    eapply flt_lt_trans; [exact Hlt|]. eapply (fsorted_nth bs G1 i j); eauto. lia. }
  set (k := bisect (fun b => flt_lt v b) bs) in *. cbv zeta.
  assert (Hk0 : k <> 0).
  { intros E. rewrite E in K3. specialize (K3 0 NegInf ltac:(lia) G3). destruct v; discriminate K3. }
  assert (Hkn : k < length bs).
  { destruct (Nat.eq_dec k (length bs)) as [E|]; [|lia]. specialize (K2 (length bs - 1) PosInf ltac:(lia) G4).
    destruct v; try discriminate K2; congruence. }
  replace (S (k - 1)) with k by lia. split; auto.
  destruct (nth_error bs (k - 1)) as [lo|] eqn:El; [|apply nth_error_None in El; lia].
  destruct (nth_error bs k) as [hi|] eqn:Eh; [|apply nth_error_None in Eh; lia].
  exists lo, hi. split; auto. split; auto. split.
  - apply flt_not_lt_le; auto. { eapply G2, nth_error_In; eauto. } apply (K2 (k - 1)); auto. lia.
  - apply (K3 k); auto.
Qed.
Lemma bisect_over bs v : good_bounds bs -> v = NaN \/ v = PosInf -> bisect (fun b => flt_lt v b) bs = length bs.
Proof.
  intros [G1 G2 G3 G4 G5] Hv.
  assert (F : forall b, flt_lt v b = false) by (destruct Hv as [->| ->]; intros []; reflexivity).
  destruct (bisect_spec (fun b => flt_lt v b) bs) as (K1 & K2 & K3).
  { intros i j x y _ _ _ H. rewrite F in H. discriminate. }
  destruct (Nat.eq_dec (bisect (fun b => flt_lt v b) bs) (length bs)) as [|Hne]; auto.
  exfalso. specialize (K3 (length bs - 1) PosInf ltac:(lia) G4). rewrite F in K3. discriminate.
Qed.

Lemma nth_error_combine {A B} (l : list A) (m : list B) i : nth_error (combine l m) i =
  match nth_error l i, nth_error m i with Some a, Some b => Some (a, b) | _, _ => None end.
Proof.
  revert m i. induction l as [|a l IH]; intros [|b m] [|i]; simpl; auto.
  - destruct (nth_error l i); auto.
Qed.
Lemma nth_error_tl {A} (l : list A) i : nth_error (tl l) i = nth_error l (S i).
Proof. destruct l; auto. destruct i; auto. Qed.
Lemma ranges_nth h i : nth_error (h_ranges h) i =
  match nth_error (h_bounds h) i, nth_error (h_bounds h) (S i) with Some a, Some b => Some (a, b) | _, _ => None end.
Proof. unfold h_ranges. rewrite nth_error_combine, nth_error_tl. reflexivity. Qed.

Lemma in_range_unique h v i j r1 r2 : good_bounds (h_bounds h) ->
  nth_error (h_ranges h) i = Some r1 -> nth_error (h_ranges h) j = Some r2 ->
  in_range v r1 = true -> in_range v r2 = true -> i = j.
Proof.
  intros [G1 G2 G3 G4 G5] H1 H2. rewrite ranges_nth in H1, H2.
  destruct (nth_error (h_bounds h) i) as [a1|] eqn:A1; [|discriminate].
  destruct (nth_error (h_bounds h) (S i)) as [b1|] eqn:B1; [|discriminate].
  destruct (nth_error (h_bounds h) j) as [a2|] eqn:A2; [|discriminate].
  destruct (nth_error (h_bounds h) (S j)) as [b2|] eqn:B2; [|discriminate].
  inversion H1; subst r1. inversion H2; subst r2. unfold in_range. simpl. rewrite !andb_true_iff. intros [L1 U1] [L2 U2].
  assert (Hstep : forall i j bi aj, i < j -> nth_error (h_bounds h) (S i) = Some bi -> nth_error (h_bounds h) j = Some aj ->
            flt_lt v bi = true -> flt_le aj v = true -> False).
  { intros i' j' bi aj Hlt Hb Ha Hu Hl. apply flt_le_not_lt in Hl.
    destruct (Nat.eq_dec (S i') j') as [E|Hne].
    - subst. replace aj with bi in Hl by congruence. congruence.
    - assert (flt_lt bi aj = true) by (eapply (fsorted_nth _ G1 (S i') j'); eauto; lia).
      rewrite (flt_lt_trans v bi aj) in Hl; congruence. }
  destruct (lt_eq_lt_dec i j) as [[Hlt|]|Hgt]; auto; exfalso; eauto.
Qed.

Definition hist_inv (h0 h : histogram) (vs : list flt) : Prop :=
  h_bounds h = h_bounds h0 /\ length (h_buckets h) = length (h_bounds h0) - 1 /\
  forall i r, nth_error (h_ranges h0) i = Some r -> nth_error (h_buckets h) i = Some (length (filter (fun v => in_range v r) vs)).

Lemma nth_error_replace {A} (l : list A) i j x : nth_error (replace_at i x l) j =
  if (i =? j) then (match nth_error l j with Some _ => Some x | None => None end) else nth_error l j.
Proof.
  revert i j. induction l as [|a l IH]; intros i j; simpl.
  - destruct i, j; simpl; auto; destruct (i =? j); auto.
  - destruct i, j; simpl; auto.
Qed.
Lemma length_replace {A} (l : list A) i x : length (replace_at i x l) = length l.
Proof. revert i. induction l; intros [|i]; simpl; auto. Qed.

Lemma h_add_ok h0 h vs v : good_bounds (h_bounds h0) -> hist_inv h0 h vs -> v <> NaN -> v <> PosInf ->
  exists h', h_add h v = Some h' /\ hist_inv h0 h' (vs ++ [v]).
Proof.
  intros G (I1 & I2 & I3) Hv Hp. unfold h_add. rewrite I1.
  destruct (bisect_value (h_bounds h0) v G Hv Hp) as (Hlt & lo & hi & Hlo & Hhi & Hle & Hu).
  set (i := bisect (fun b => flt_lt v b) (h_bounds h0) - 1) in *. 
  assert (Hr : nth_error (h_ranges h0) i = Some (lo, hi)) by (rewrite ranges_nth, Hlo, Hhi; auto).
  rewrite (I3 i _ Hr). eexists. split; [reflexivity|]. split; auto. split.
  - cbn [h_buckets]. rewrite length_replace. auto.
  - cbn [h_buckets]. intros j r Hj. rewrite nth_error_replace, (I3 j r Hj), filter_app, app_length. simpl.
    destruct (Nat.eqb_spec i j) as [<-|Hne].
    + replace r with (lo, hi) by congruence. unfold in_range at 3. simpl. rewrite Hle, Hu. simpl. f_equal. lia.
    + destruct (in_range v r) eqn:Er; simpl; [|f_equal; lia]. exfalso. apply Hne.
      eapply in_range_unique; eauto. unfold in_range. simpl. rewrite Hle, Hu. auto.
Qed.
Lemma h_add_over h0 h vs v : good_bounds (h_bounds h0) -> hist_inv h0 h vs -> v = NaN \/ v = PosInf ->
  h_add h v = None.
Proof.
  intros G (I1 & I2 & I3) Hv. unfold h_add. rewrite I1, (bisect_over _ v G Hv).
  destruct (nth_error (h_buckets h) (length (h_bounds h0) - 1)) eqn:E; auto.
  assert (length (h_bounds h0) - 1 < length (h_buckets h)) by (apply nth_error_Some; congruence). lia.
Qed.
Lemma hist_inv_new h : good_bounds (h_bounds h) -> h_buckets h = repeat 0 (length (h_bounds h) - 1) -> hist_inv h h [].
Proof.
  intros G E. split; auto. rewrite E, repeat_length. split; auto. intros i r Hr. simpl.
  rewrite nth_error_repeat; auto. rewrite ranges_nth in Hr.
  destruct (nth_error (h_bounds h) i) eqn:A1; [|discriminate].
  destruct (nth_error (h_bounds h) (S i)) eqn:B1; [|discriminate].
  assert (S i < length (h_bounds h)) by (apply nth_error_Some; congruence). lia.
Qed.
Lemma in_range_over v r : v = NaN \/ v = PosInf -> in_range v r = false.
Proof. intros [->| ->]; destruct r as [a b]; unfold in_range; simpl; destruct a, b; reflexivity. Qed.
Lemma hist_inv_skip h0 h vs v : hist_inv h0 h vs -> v = NaN \/ v = PosInf -> hist_inv h0 h (vs ++ [v]).
Proof.
  intros (I1 & I2 & I3) Hv. split; auto. split; auto. intros i r Hr. rewrite (I3 i r Hr), filter_app, app_length.
  simpl. rewrite (in_range_over v r Hv). simpl. f_equal. lia.
Qed.
Lemma h_adds_ok h0 vs : good_bounds (h_bounds h0) -> h_buckets h0 = repeat 0 (length (h_bounds h0) - 1) ->
  hist_inv h0 (h_adds h0 vs) vs.
Proof.
  intros G E. induction vs as [|v vs IH] using rev_ind; [apply hist_inv_new; auto|].
  unfold h_adds in *. rewrite fold_snoc.
  assert (Hv : (v <> NaN /\ v <> PosInf) \/ (v = NaN \/ v = PosInf)) by (destruct v; auto; left; split; discriminate).
  destruct Hv as [[Hv1 Hv2]|Hv].
  - destruct (h_add_ok h0 _ vs v G IH Hv1 Hv2) as (h' & -> & H). exact H.
  - rewrite (h_add_over h0 _ vs v G IH Hv). apply hist_inv_skip; auto.
Qed.

Lemma nth_error_ext {A} (l1 l2 : list A) : (forall i, nth_error l1 i = nth_error l2 i) -> l1 = l2.
Proof.
  revert l2. induction l1 as [|a l1 IH]; intros [|b l2] H; auto; try (specialize (H 0); discriminate).
  f_equal; [specialize (H 0); simpl in H; congruence|]. apply IH. intros i. apply (H (S i)).
Qed.
Lemma h_results_spec h0 h vs : good_bounds (h_bounds h0) -> hist_inv h0 h vs ->
  h_results h = map (fun r => (r, length (filter (fun v => in_range v r) vs))) (h_ranges h0).
Proof.
  intros G (I1 & I2 & I3). apply nth_error_ext. intros i. unfold h_results.
  rewrite nth_error_combine, nth_error_map. replace (h_ranges h) with (h_ranges h0) by (unfold h_ranges; rewrite I1; auto).
  destruct (nth_error (h_ranges h0) i) as [r|] eqn:E; simpl; auto. rewrite (I3 i r E). auto.
Qed.

Lemma range_exists h v : good_bounds (h_bounds h) -> v <> NaN -> v <> PosInf ->
  exists i r, nth_error (h_ranges h) i = Some r /\ in_range v r = true.
Proof.
  intros G Hv Hp. destruct (bisect_value (h_bounds h) v G Hv Hp) as (Hlt & lo & hi & Hlo & Hhi & Hle & Hu).
  exists (bisect (fun b => flt_lt v b) (h_bounds h) - 1), (lo, hi). split; [rewrite ranges_nth, Hlo, Hhi; auto|].
  unfold in_range. simpl. rewrite Hle, Hu. auto.
Qed.
Lemma sum_cons x l : sum (x :: l) = x + sum l.
Proof. reflexivity. Qed.
Lemma sum_unique (rs : list (flt * flt)) v :
  (exists i r, nth_error rs i = Some r /\ in_range v r = true) ->
  (forall i j r1 r2, nth_error rs i = Some r1 -> nth_error rs j = Some r2 -> in_range v r1 = true -> in_range v r2 = true -> i = j) ->
  sum (map (fun r => if in_range v r then 1 else 0) rs) = 1.
Proof.
  induction rs as [|r rs IH]; intros (i & r0 & Hi & Hr) Hu; [destruct i; discriminate|].
  cbn [map]. rewrite sum_cons. destruct (in_range v r) eqn:E.
  - enough (Hs0 : sum (map (fun r1 => if in_range v r1 then 1 else 0) rs) = 0) by (rewrite Hs0; reflexivity).
    assert (Hz : forall r1, In r1 rs -> in_range v r1 = false).
    { intros r1 H1. apply In_nth_error in H1. destruct H1 as (k & Hk). destruct (in_range v r1) eqn:E1; auto.
      specialize (Hu 0 (S k) r r1 eq_refl Hk E E1). discriminate. }
    clear -Hz. induction rs; auto. cbn [map]. rewrite sum_cons, Hz by (left; auto). apply IHrs. intros; apply Hz; right; auto.
  - apply IH.
    + destruct i; simpl in Hi; [congruence|]. exists i, r0. auto.
    + intros i1 j1 r1 r2 H1 H2 E1 E2. specialize (Hu (S i1) (S j1) r1 r2 H1 H2 E1 E2). lia.
Qed.
Lemma sum_map_add {A} (f g : A -> nat) l : sum (map (fun x => f x + g x) l) = sum (map f l) + sum (map g l).
Proof. induction l; simpl; auto. unfold sum in *. rewrite IHl. lia. Qed.
Lemma sum_counts (rs : list (flt * flt)) vs :
  (forall v, In v vs -> v <> NaN -> v <> PosInf -> sum (map (fun r => if in_range v r then 1 else 0) rs) = 1) ->
  sum (map (fun r => length (filter (fun v => in_range v r) vs)) rs) =
  length (filter (fun v => match v with NaN | PosInf => false | _ => true end) vs).
Proof.
  induction vs as [|v vs IH]; intros H.
  - clear. induction rs; auto.
  - assert (IHe := IH (fun u Hu => H u (or_intror Hu))).
    replace (sum (map (fun r => length (filter (fun v0 => in_range v0 r) (v :: vs))) rs))
      with (sum (map (fun r => (if in_range v r then 1 else 0) + length (filter (fun v0 => in_range v0 r) vs)) rs)).
    + rewrite sum_map_add, IHe. simpl. destruct v.
      1,2: rewrite H; [reflexivity | left; auto | discriminate | discriminate].
      all: replace (sum (map _ rs)) with 0; [reflexivity|]; clear; induction rs as [|r rs IH]; auto;
           simpl; rewrite in_range_over by auto; simpl; exact IH.
    + clear. induction rs as [|r rs IH]; auto. cbn [map]. rewrite !sum_cons, IH. simpl. destruct (in_range v r); reflexivity.
Qed.

Lemma hist_exact_counts : forall bounds h0 vs, h_new bounds = Some h0 ->
  h_results (h_adds h0 vs) = map (fun r => (r, length (filter (fun v => in_range v r) vs))) (map fst (h_results h0)).
Proof.
  intros bounds h0 vs H. destruct (h_new_spec bounds h0 H) as (G & E & _ & _).
  rewrite (h_results_spec h0 (h_adds h0 vs) vs G (h_adds_ok h0 vs G E)). f_equal.
  rewrite (h_results_spec h0 h0 [] G (hist_inv_new h0 G E)). rewrite map_map, map_id. reflexivity.
Qed.

Lemma hist_ranges_partition : forall bounds h0, h_new bounds = Some h0 ->
  let ranges := map fst (h_results h0) in
  (forall v, v <> NaN -> v <> PosInf -> exists! i, exists r, nth_error ranges i = Some r /\ in_range v r = true) /\
  (forall i r r', nth_error ranges i = Some r -> nth_error ranges (S i) = Some r' -> snd r = fst r') /\
  option_map fst (nth_error ranges 0) = Some NegInf /\
  option_map snd (nth_error ranges (length ranges - 1)) = Some PosInf /\
  (forall b, b <> NegInf -> b <> PosInf -> ((exists r, In r ranges /\ fst r = b) <-> In b bounds)).
Proof.
  intros bounds h0 H. destruct (h_new_spec bounds h0 H) as (G & E & Hn & Hin).
  assert (ER : map fst (h_results h0) = h_ranges h0).
  { rewrite (h_results_spec h0 h0 [] G (hist_inv_new h0 G E)), map_map. apply map_id. }
  cbv zeta. rewrite ER.
  assert (LR : length (h_ranges h0) = length (h_bounds h0) - 1).
  { unfold h_ranges. rewrite combine_length. destruct (h_bounds h0); cbn [tl length]; lia. }
  assert (G' := G). destruct G as [G1 G2 G3 G4 G5].
  split; [|split; [|split; [|split]]].
  - intros v Hv Hp. destruct (range_exists h0 v G' Hv Hp) as (i & r & Hi & Hr). exists i. split; [exists r; auto|].
    intros j (r' & Hj & Hr'). exact (in_range_unique h0 v i j r r' G' Hi Hj Hr Hr').
  - intros i r r' Hi Hj. rewrite ranges_nth in Hi, Hj.
    destruct (nth_error (h_bounds h0) i); [|discriminate]. destruct (nth_error (h_bounds h0) (S i)); [|discriminate].
    destruct (nth_error (h_bounds h0) (S (S i))); [|discriminate]. inversion Hi; inversion Hj; reflexivity.
  - rewrite ranges_nth, G3. destruct (nth_error (h_bounds h0) 1) eqn:E1; auto. apply nth_error_None in E1. lia.
  - rewrite ranges_nth, LR. replace (S (length (h_bounds h0) - 1 - 1)) with (length (h_bounds h0) - 1) by lia. rewrite G4.
    destruct (nth_error (h_bounds h0) (length (h_bounds h0) - 1 - 1)) eqn:E1; auto. apply nth_error_None in E1. lia.
  - intros b Hb1 Hb2. split.
    + intros (r & Hr & Hf). apply In_nth_error in Hr. destruct Hr as (i & Hi). rewrite ranges_nth in Hi.
      destruct (nth_error (h_bounds h0) i) eqn:E1; [|discriminate]. destruct (nth_error (h_bounds h0) (S i)); [|discriminate].
      inversion Hi; subst r. simpl in Hf. subst f. apply nth_error_In, Hin in E1. destruct E1 as [?|[?|?]]; auto; congruence.
    + intros Hb. assert (Hb' : In b (h_bounds h0)) by (apply Hin; auto). apply In_nth_error in Hb'. destruct Hb' as (i & Hi).
      assert (Li : i < length (h_bounds h0)) by (apply nth_error_Some; congruence).
      destruct (nth_error (h_bounds h0) (S i)) as [c|] eqn:Ec.
      * exists (b, c). split; auto. apply (nth_error_In _ i). rewrite ranges_nth, Hi, Ec. auto.
      * apply nth_error_None in Ec. replace i with (length (h_bounds h0) - 1) in Hi by lia. congruence.
Qed.

Lemma hist_counts_sum : forall bounds h0 vs, h_new bounds = Some h0 ->
  (forall v, In v vs -> v <> NaN /\ v <> PosInf) ->
  sum (map snd (h_results (h_adds h0 vs))) = length vs.
Proof.
  intros bounds h0 vs H Hvs. destruct (h_new_spec bounds h0 H) as (G & E & _ & _).
  rewrite (h_results_spec h0 (h_adds h0 vs) vs G (h_adds_ok h0 vs G E)), map_map. cbn [snd].
  rewrite sum_counts.
  - f_equal. clear -Hvs. induction vs as [|v vs IH]; auto. simpl. destruct (Hvs v (or_introl eq_refl)).
    rewrite IH by (intros; apply Hvs; right; auto). destruct v; auto; congruence.
  - intros v _ H1 H2. apply sum_unique; [apply range_exists; auto|].
    intros i j r1 r2 Hi Hj. exact (fun a b => in_range_unique h0 v i j r1 r2 G Hi Hj a b).
Qed.

Lemma hist_index_error : forall bounds h0 vs v, h_new bounds = Some h0 ->
  (h_add (h_adds h0 vs) v = None <-> v = NaN \/ v = PosInf).
Proof.
  intros bounds h0 vs v H. destruct (h_new_spec bounds h0 H) as (G & E & _ & _).
  pose proof (h_adds_ok h0 vs G E) as HI. split.
  - intros Hn. destruct v; auto;
    match goal with |- ?v = NaN \/ _ => destruct (h_add_ok h0 _ vs v G HI) as (h' & E1 & _); try discriminate end; congruence.
  - intros Hv. eapply h_add_over; eauto.
Qed.

Lemma hist_nan_bounds : forall bounds, h_new bounds = None <-> In NaN bounds.
Proof.
  intros bounds. unfold h_new. destruct (existsb _ bounds) eqn:E; split; intros H; try discriminate; auto.
  - apply existsb_exists in E. destruct E as ([]& Hb & Hx); try discriminate. auto.
  - exfalso. assert (existsb (fun b => match b with NaN => true | _ => false end) bounds = true); [|congruence].
    apply existsb_exists. exists NaN. auto.
Qed.

Lemma max_increasing_largest : forall n vs, strictly_ascending vs -> largest n vs (max_adds n vs).
Proof.
  intros n vs H. rewrite (max_increasing n vs H).
  assert (Ha := sasc_asc vs H). rewrite <- (firstn_skipn (length vs - n) vs) in Ha. apply ascending_app in Ha.
  destruct Ha as (A1 & A2 & A3). split; [exact A2|]. split; [rewrite skipn_length; lia|].
  exists (firstn (length vs - n) vs). split.
  - rewrite Permutation_app_comm, firstn_skipn. reflexivity.
  - intros x y Hx Hy. exact (A3 x y Hx Hy).
Qed.
