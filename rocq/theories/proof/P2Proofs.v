From Coq Require Import Lqa.
From Verif Require Import model.PyBase model.Bisect model.Levels model.Quantile spec.QuantileSpec proof.QuantileProofs proof.QuantileProofs2.
Open Scope nat_scope.

(** Markers in order: positions strictly increasing, heights non-decreasing. *)
Fixpoint mono (l : list marker) : Prop :=
  match l with
  | a :: ((b :: _) as l') => (fst a < fst b)%Z /\ (snd a <= snd b)%Q /\ mono l'
  | _ => True
  end.
(** As [mono], the last position having been moved up by one. *)
Fixpoint mono_up (l : list marker) : Prop :=
  match l with
  | a :: ((b :: l2) as l') => (fst a + (match l2 with [] => 1 | _ => 0 end) < fst b)%Z /\ (snd a <= snd b)%Q /\ mono_up l'
  | _ => True
  end.

(** ** one adjustment *)
Lemma qdiv_ok a b : ~ (b == 0)%Q -> qdiv a b = Ok (a / b)%Q.
Proof. intros H. unfold qdiv. destruct (Qeq_bool b 0) eqn:E; auto. apply Qeq_bool_iff in E. contradiction. Qed.
Lemma injZ_pos z : (0 < z)%Z -> (1 <= inject_Z z)%Q.
Proof. intros H. change 1%Q with (inject_Z 1). rewrite <- Zle_Qle. lia. Qed.
Lemma frac_bound a n : (0 <= a)%Q -> (1 <= n)%Q -> (0 <= a / n)%Q /\ (a / n <= a)%Q.
Proof.
  intros Ha Hn. assert (Hn0 : ~ (n == 0)%Q) by lra.
  assert (E : (a / n * n == a)%Q) by (field; auto).
  assert (P : (0 <= a / n)%Q). { apply Qle_shift_div_l; lra. }
  split; auto. nra.
Qed.
Lemma adjust_ok prev q l c r : (fst l < fst c)%Z -> (fst c < fst r)%Z -> (snd l <= snd c)%Q -> (snd c <= snd r)%Q ->
  exists c', adjust prev q l c r = Ok c' /\ (fst l < fst c' < fst r)%Z /\ (snd l <= snd c')%Q /\ (snd c' <= snd r)%Q.
Proof.
  destruct l as [ln lq], c as [cn cq], r as [rn rq]. cbn [fst snd]. intros H1 H2 H3 H4. unfold adjust.
  destruct (qtrunc _ =? 0)%Z; [exists (cn, cq); cbn [fst snd]; auto|].
  set (d := (if (0 <? qtrunc (inject_Z prev * q + 1 - inject_Z cn))%Z then 1 else -1)%Z).
  assert (Hd : d = 1%Z \/ d = (-1)%Z) by (unfold d; destruct (0 <? _)%Z; auto). clearbody d. cbv zeta.
  destruct (negb ((ln <? cn + d) && (cn + d <? rn))%Z) eqn:E; [exists (cn, cq); cbn [fst snd]; auto|].
  apply negb_false_iff, andb_true_iff in E. rewrite !Z.ltb_lt in E.
  assert (P1 := injZ_pos (rn - ln) ltac:(lia)). assert (P2 := injZ_pos (rn - cn) ltac:(lia)). assert (P3 := injZ_pos (cn - ln) ltac:(lia)).
  rewrite qdiv_ok by lra. cbn [rbind]. rewrite qdiv_ok by lra. cbn [rbind]. rewrite qdiv_ok by lra. cbn [rbind].
  match goal with |- context [qlt lq ?x] => set (nq := x) end.
  destruct (qlt lq nq) eqn:E1; [destruct (qlt nq rq) eqn:E2|]; cbn [andb].
  - exists ((cn + d)%Z, nq). apply qlt_true in E1, E2. cbn [fst snd]. split; auto. split; auto. split; lra.
  - destruct (Z.eqb_spec d 1) as [->|Hne].
    + rewrite qdiv_ok by lra. cbn [rbind]. eexists. split; [reflexivity|]. cbn [fst snd].
      destruct (frac_bound (rq - cq) (inject_Z (rn - cn))) as [F1 F2]; try lra; split; auto; split; lra.
    + assert (d = (-1)%Z) by lia. subst d.
      assert (En : (inject_Z (ln - cn) == - inject_Z (cn - ln))%Q) by (unfold Zminus; rewrite !inject_Z_plus, !inject_Z_opp; ring).
      rewrite qdiv_ok by lra. cbn [rbind]. eexists. split; [reflexivity|]. cbn [fst snd].
      assert (Ed : ((lq - cq) / inject_Z (ln - cn) == (cq - lq) / inject_Z (cn - ln))%Q) by (rewrite En; field; lra).
      destruct (frac_bound (cq - lq) (inject_Z (cn - ln))) as [F1 F2]; try lra; split; auto; rewrite Ed; split; lra.
  - destruct (Z.eqb_spec d 1) as [->|Hne].
    + rewrite qdiv_ok by lra. cbn [rbind]. eexists. split; [reflexivity|]. cbn [fst snd].
      destruct (frac_bound (rq - cq) (inject_Z (rn - cn))) as [F1 F2]; try lra; split; auto; split; lra.
    + assert (d = (-1)%Z) by lia. subst d.
      assert (En : (inject_Z (ln - cn) == - inject_Z (cn - ln))%Q) by (unfold Zminus; rewrite !inject_Z_plus, !inject_Z_opp; ring).
      rewrite qdiv_ok by lra. cbn [rbind]. eexists. split; [reflexivity|]. cbn [fst snd].
      assert (Ed : ((lq - cq) / inject_Z (ln - cn) == (cq - lq) / inject_Z (cn - ln))%Q) by (rewrite En; field; lra).
      destruct (frac_bound (cq - lq) (inject_Z (cn - ln))) as [F1 F2]; try lra; split; auto; rewrite Ed; split; lra.
Qed.

Lemma quad_pass_ok prev : forall l qs lft, mono (lft :: l) ->
  exists l', quad_pass prev qs lft l = Ok l' /\ mono (lft :: l') /\ length l' = length l /\ last l' (0%Z, 0%Q) = last l (0%Z, 0%Q).
Proof.
  induction l as [|c l IH]; intros qs lft Hm.
  - exists []. destruct qs; auto.
  - destruct l as [|r l].
    + exists [c]. destruct qs; auto.
    + destruct qs as [|q qs]; [exists (c :: r :: l); auto|].
      destruct Hm as (M1 & M2 & M3 & M4 & M5).
      destruct (adjust_ok prev q lft c r M1 M3 M2 M4) as (c' & Ea & Hp & Hl & Hr).
      destruct (IH qs c') as (l' & Eq & Ml & Ll & La).
      { simpl. split; [lia|]. split; auto. }
      change (quad_pass prev (q :: qs) lft (c :: r :: l)) with
        (let? cur' := adjust prev q lft c r in let? rest := quad_pass prev qs cur' (r :: l) in Ok (cur' :: rest)).
      rewrite Ea. cbn [rbind]. rewrite Eq. cbn [rbind]. exists (c' :: l').
      split; auto. split; [|split].
      * simpl. split; [lia|]. split; auto.
      * simpl in *. lia.
      * destruct l' as [|x l']; [simpl in Ll; discriminate|]. exact La.
Qed.

(** ** the back pass: the collision branch is never taken *)
Definition bp_head (v : Q) (l l' : list marker) : Prop :=
  match l, l' with
  | [a], [a'] => a' = a
  | a :: _ :: _, a' :: _ => fst a' = (fst a + if Qle_bool v (snd a) then 1 else 0)%Z
  | [], [] => True
  | _, _ => False
  end.
Lemma back_pass_ok v : forall l, mono_up l -> 
  mono (back_pass v l) /\ map snd (back_pass v l) = map snd l /\ last (back_pass v l) (0%Z, 0%Q) = last l (0%Z, 0%Q) /\ bp_head v l (back_pass v l).
Proof.
  induction l as [|a l IH]; intros Hm; [simpl; auto|].
  destruct l as [|b l]; [simpl; auto|].
  destruct Hm as (M1 & M2 & M3). destruct (IH M3) as (I1 & I2 & I3 & I4). clear IH.
  assert (E : back_pass v (a :: b :: l) = match back_pass v (b :: l) with
    | [] => [a]
    | nxt :: _ => (if Qle_bool v (snd a) then (if (fst a + 1 =? fst nxt)%Z then (fst a + 1 - 1)%Z else (fst a + 1)%Z, snd a) else a) :: back_pass v (b :: l)
    end) by reflexivity.
  rewrite E. clear E. destruct (back_pass v (b :: l)) as [|b' l'] eqn:Eb; [discriminate I2|].
  assert (Hsb : snd b' = snd b) by (simpl in I2; inversion I2; auto).
  assert (Hb' : (fst b <= fst b')%Z /\ ((Qle_bool v (snd a) = true) -> fst a + 1 < fst b')%Z).
  { destruct l as [|c l].
    - simpl in Eb. inversion Eb; subst. split; [lia|]. intros _. exact M1.
    - cbn in I4. 
 rewrite I4. split; [destruct (Qle_bool v (snd b)); lia|]. intros Hle.
      apply Qle_bool_iff in Hle. assert (Hvb : Qle_bool v (snd b) = true) by (apply Qle_bool_iff; lra). rewrite Hvb. lia. }
  destruct Hb' as [Hb1 Hb2].
  assert (Ha : (fst a < fst b')%Z) by (destruct l; lia).
  destruct (Qle_bool v (snd a)) eqn:Ev.
  - specialize (Hb2 eq_refl). destruct (Z.eqb_spec (fst a + 1) (fst b')) as [|_]; [lia|].
    split; [|split; [|split]].
    + split; [cbn [fst]; lia|]. split; [cbn [snd]; rewrite Hsb; auto | exact I1].
    + cbn [map snd] in *. f_equal. exact I2.
    + exact I3.
    + cbn. rewrite Ev. reflexivity.
  - split; [|split; [|split]].
    + split; [cbn [fst]; lia|]. split; [cbn [snd]; rewrite Hsb; auto | exact I1].
    + cbn [map snd] in *. f_equal. exact I2.
    + exact I3.
    + cbn. rewrite Ev. lia.
Qed.

(** ** extremes *)
Lemma mono_up_last mid mx mx' : mono (mid ++ [mx]) -> fst mx' = (fst mx + 1)%Z -> (snd mx <= snd mx')%Q -> mono_up (mid ++ [mx']).
Proof.
  intros H Hf Hs. induction mid as [|a mid IH]; [simpl; auto|].
  destruct mid as [|b mid]; simpl in *.
  - destruct H as (H1 & H2 & _). split; [lia|]. split; auto. lra.
  - destruct H as (H1 & H2 & H3). split; [destruct (mid ++ [mx']) eqn:E; [destruct mid; discriminate | lia]|]. split; [auto | exact (IH H3)].
Qed.
Lemma mono_tail a l : mono (a :: l) -> mono l.
Proof. destruct l; simpl; tauto. Qed.
Lemma mono_le a l : mono (a :: l) -> forall b, In b l -> (snd a <= snd b)%Q /\ (fst a < fst b)%Z.
Proof.
  revert a. induction l as [|c l IH]; intros a H b Hb; [destruct Hb|]. destruct H as (H1 & H2 & H3). destruct Hb as [<-|Hb]; [split; auto|].
  destruct (IH c H3 b Hb). split; [lra|lia].
Qed.
Definition mn' (v : Q) (mn : marker) : marker := if qlt v (snd mn) then (fst mn, v) else mn.
Definition mx' (v : Q) (mn mx : marker) : marker :=
  ((fst mx + 1)%Z, if qlt v (snd mn) then snd mx else if qlt (snd mx) v then v else snd mx).
Lemma set_last_app f l x : set_last f (l ++ [x]) = l ++ [f x].
Proof. unfold set_last. rewrite removelast_last, last_last. destruct (l ++ [x]) eqn:E; auto. destruct l; discriminate. Qed.
Lemma extremes_form v mn mid mx :
  p2_extremes v (mn :: mid ++ [mx]) = mn' v mn :: mid ++ [mx' v mn mx].
Proof.
  unfold p2_extremes. change (mn :: mid ++ [mx]) with ((mn :: mid) ++ [mx]).
  rewrite last_last, set_last_app. cbn [app].
  unfold mn', mx'. destruct (qlt v (snd mn)); [reflexivity|]. destruct (qlt (snd mx) v); [|reflexivity].
  change (mn :: mid ++ [((fst mx + 1)%Z, snd mx)]) with ((mn :: mid) ++ [((fst mx + 1)%Z, snd mx)]).
  rewrite set_last_app. reflexivity.
Qed.

Record p2_inv (qps data : list Q) (s : p2) : Prop := {
  pi_qps : p2_qps s = qps;
  pi_len : length (p2_vals s) = length qps;
  pi_mono : mono (p2_vals s);
  pi_form : exists mn mid mx, p2_vals s = mn :: mid ++ [mx] /\ fst mn = 1%Z /\ fst mx = Z.of_nat (length data) /\
            least_of data (Some (snd mn)) /\ greatest_of data (Some (snd mx))
}.
Lemma last_cons {A} (a : A) l d : l <> [] -> last (a :: l) d = last l d.
Proof. destruct l; [congruence | auto]. Qed.
(** All of [add] but the loop that moves the markers. *)
Lemma p2_step qps data s v : p2_inv qps data s -> exists mn1 rest,
  p2_extremes v (p2_vals s) = mn1 :: rest /\ mono (mn1 :: back_pass v rest) /\ map snd (back_pass v rest) = map snd rest /\
  (forall l', mono (mn1 :: l') -> length l' = length (back_pass v rest) -> last l' (0%Z, 0%Q) = last (back_pass v rest) (0%Z, 0%Q) ->
    p2_inv qps (data ++ [v]) (mkP2 qps (mn1 :: l'))).
Proof.
  intros [Iq Il Im (mn & mid & mx & Ev & F1 & Fn & Lmin & Lmax)]. rewrite Ev in *.
  rewrite extremes_form. exists (mn' v mn), (mid ++ [mx' v mn mx]). split; [reflexivity|].
  assert (Hmm : (snd mn <= snd mx)%Q /\ (fst mn < fst mx)%Z).
  { apply (mono_le mn (mid ++ [mx]) Im). apply in_or_app. right. left. auto. }
  assert (Hup : mono_up (mid ++ [mx' v mn mx])).
  { eapply mono_up_last; [eapply mono_tail; exact Im | reflexivity|]. unfold mx'. cbn [snd].
    destruct (qlt v (snd mn)); [lra|]. destruct (qlt (snd mx) v) eqn:E; [apply qlt_true in E; lra | lra]. }
  assert (Hmn : (snd (mn' v mn) <= snd mn)%Q /\ fst (mn' v mn) = 1%Z).
  { unfold mn'. destruct (qlt v (snd mn)) eqn:E; [apply qlt_true in E; cbn [fst snd]; split; [lra|auto] | split; [lra|auto]]. }
  destruct (back_pass_ok v _ Hup) as (B1 & B2 & B3 & B4).
  set (rest := mid ++ [mx' v mn mx]) in *. set (rest1 := back_pass v rest) in *.
  assert (Hlen1 : length rest1 = length rest) by (pose proof (f_equal (@length Q) B2) as Hx; rewrite !map_length in Hx; exact Hx). clearbody rest1.
  assert (Hrest : rest = mid ++ [mx' v mn mx]) by reflexivity. clearbody rest.
  assert (Hm1 : mono (mn' v mn :: rest1)).
  { destruct rest1 as [|a' r']; [simpl; auto|]. split; [|split; [|exact B1]].
    - assert (Hhd : exists a r, rest = a :: r /\ (fst a <= fst a')%Z).
      { clear Hrest.
destruct rest as [|a r]; [destruct B4|]. exists a, r. split; auto. destruct r; [destruct r'; [cbn in B4; subst; lia | destruct B4]|].
        cbn in B4. rewrite B4. destruct (Qle_bool v (snd a)); lia. }
      destruct Hhd as (a & r & Er & Hle). destruct Hmn as [_ ->].
      assert (Ha : (1 < fst a)%Z).
      { rewrite Hrest in Er. destruct mid as [|b mid]; cbn [app] in Er; inversion Er; subst a.
        - unfold mx'. cbn [fst]. lia.
        - destruct Im as (Im1 & _). cbn [app] in Im1. lia. }
      lia.
    - assert (Hs : exists a r, rest = a :: r /\ snd a = snd a').
      { clear Hrest. destruct rest as [|a r]; [discriminate B2|]. exists a, r. split; auto. simpl in B2. inversion B2. auto. }
      destruct Hs as (a & r & Er & Hs). rewrite <- Hs. destruct Hmn as [Hmn _].
      rewrite Hrest in Er. destruct mid as [|b mid]; cbn [app] in Er; inversion Er; subst a.
      + unfold mx', mn'. cbn [snd]. destruct (qlt v (snd mn)) eqn:E; [apply qlt_true in E; cbn [snd]; lra|].
        destruct (qlt (snd mx) v) eqn:E2; [apply qlt_true in E2; lra | lra].
      + destruct Im as (_ & Im2 & _). cbn [app] in Im2. lra. }
  split; [exact Hm1|]. split; [exact B2|]. intros l' Ml Ll La.
  assert (Hrl : last l' (0%Z, 0%Q) = mx' v mn mx) by (rewrite La, B3, Hrest; apply last_last).
  assert (Hlr : length rest = S (length mid)) by (rewrite Hrest, app_length; simpl; lia).
  constructor; cbn [p2_qps p2_vals]; auto.
  - cbn [length]. rewrite Ll, Hlen1, Hlr, <- Il. cbn [length]. rewrite app_length. simpl. lia.
  - destruct (exists_last (l := l')) as (mid' & mxx & El'); [intros ->; simpl in Ll; lia|].
    rewrite El', last_last in Hrl. subst mxx. exists (mn' v mn), mid', (mx' v mn mx). split; [rewrite El'; auto|].
    split; [apply Hmn|]. split; [unfold mx'; cbn [fst]; rewrite Fn, app_length; simpl; lia|].
    destruct Lmin as [Lm1 Lm2], Lmax as [Lx1 Lx2].
    split.
    + unfold mn'. destruct (qlt v (snd mn)) eqn:E; [apply qlt_true in E | apply qlt_false in E]; cbn [snd]; simpl.
      * split; [apply in_or_app; simpl; auto|]. intros x Hx. apply in_app_or in Hx. destruct Hx as [Hx|[<-|[]]]; [specialize (Lm2 x Hx); lra | lra].
      * split; [apply in_or_app; auto|]. intros x Hx. apply in_app_or in Hx. destruct Hx as [Hx|[<-|[]]]; [apply Lm2; auto | lra].
    + unfold mx'. cbn [snd]. destruct (qlt v (snd mn)) eqn:E; [apply qlt_true in E | apply qlt_false in E].
      * simpl. split; [apply in_or_app; auto|]. intros x Hx. apply in_app_or in Hx. destruct Hx as [Hx|[<-|[]]]; [apply Lx2; auto | lra].
      * destruct (qlt (snd mx) v) eqn:E2; [apply qlt_true in E2 | apply qlt_false in E2]; simpl.
        -- split; [apply in_or_app; simpl; auto|]. intros x Hx. apply in_app_or in Hx. destruct Hx as [Hx|[<-|[]]]; [specialize (Lx2 x Hx); lra | lra].
        -- split; [apply in_or_app; auto|]. intros x Hx. apply in_app_or in Hx. destruct Hx as [Hx|[<-|[]]]; [apply Lx2; auto | lra].
Qed.
Lemma p2_add_ok qps data s v : p2_inv qps data s -> exists s', p2_add s v = Ok s' /\ p2_inv qps (data ++ [v]) s'.
Proof.
  intros H. destruct (p2_step qps data s v H) as (mn1 & rest & E & Hm & _ & K). unfold p2_add. rewrite E.
  destruct (quad_pass_ok (fst (last (p2_vals s) (0%Z, 0%Q))) _ (tl (p2_qps s)) mn1 Hm) as (l' & Eq & Ml & Ll & La).
  rewrite Eq, (pi_qps _ _ _ H). cbn [rbind]. eexists. split; [reflexivity|]. apply K; auto.
Qed.
Lemma p2_adds_ok qps vs : forall data s, p2_inv qps data s -> exists s', p2_adds s vs = Ok s' /\ p2_inv qps (data ++ vs) s'.
Proof.
  induction vs as [|v vs IH]; intros data s H; [exists s; rewrite app_nil_r; auto|].
  destruct (p2_add_ok qps data s v H) as (s1 & E & I1). destruct (IH _ s1 I1) as (s2 & E2 & I2).
  cbn [p2_adds]. rewrite E. cbn [rbind]. exists s2. split; auto. rewrite <- app_assoc in I2. auto.
Qed.

(** ** initialisation *)
Lemma number_mono l : qasc l -> forall i, mono (number_from i l).
Proof.
  induction l as [|x l IH]; intros H i; simpl; auto. destruct H as [H1 H2]. destruct l as [|y l]; simpl; auto.
  split; [cbn [fst]; lia|]. split; [apply H1; left; auto|]. apply (IH H2 (i + 1)%Z).
Qed.
Lemma number_length l : forall i, length (number_from i l) = length l.
Proof. induction l; intros; simpl; auto. Qed.
Lemma number_app l1 : forall l2 i, number_from i (l1 ++ l2) = number_from i l1 ++ number_from (i + Z.of_nat (length l1)) l2.
Proof.
  induction l1 as [|x l1 IH]; intros l2 i; [simpl; f_equal; lia|]. cbn [app number_from length]. f_equal. rewrite IH. f_equal. f_equal. lia.
Qed.
Lemma p2_init_ok qps data : 2 <= length qps -> length data = length qps -> p2_inv qps data (mkP2 qps (number_from 1 (qsort data))).
Proof.
  intros H2 Hl. destruct (qsort_spec data) as [A P]. pose proof (Permutation_length P) as Hp.
  constructor; cbn [p2_qps p2_vals]; auto.
  - rewrite number_length. lia.
  - apply number_mono; auto.
  - destruct (qsort data) as [|x l] eqn:E; [simpl in Hp; lia|]. destruct (exists_last (l := l)) as (m & y & El); [intros ->; simpl in Hp; lia|].
    subst l. exists (1%Z, x), (number_from 2 m), ((2 + Z.of_nat (length m))%Z, y). split; [|split; [auto|split]].
    + cbn [number_from]. rewrite number_app. reflexivity.
    + cbn [fst]. rewrite Hp. cbn [length]. rewrite app_length. cbn [length]. lia.
    + cbn [snd]. destruct A as [A1 A2]. split.
      * simpl. split; [eapply Permutation_in; [apply Permutation_sym; exact P | left; auto]|].
        intros v Hv. eapply Permutation_in in Hv; [|exact P]. destruct Hv as [<-|Hv]; [lra|auto].
      * simpl. split; [eapply Permutation_in; [apply Permutation_sym; exact P | right; apply in_or_app; right; left; auto]|].
        intros v Hv. eapply Permutation_in in Hv; [|exact P]. apply qasc_app in A2. destruct A2 as (_ & _ & A2).
        destruct Hv as [<-|Hv]; [apply A1, in_or_app; right; left; auto|]. apply in_app_or in Hv.
        destruct Hv as [Hv|[<-|[]]]; [apply A2; auto; left; auto | lra].
Qed.
Lemma p2_new_ok q_points qs data : process_q_points q_points = Ok qs -> length qs + 2 <= length data ->
  exists s, p2_new q_points data = Ok s /\ p2_inv (0%Q :: qs ++ [1%Q]) data s.
Proof.
  intros Hq Hl. unfold p2_new. rewrite Hq. cbn [rbind].
  set (qps := 0%Q :: qs ++ [1%Q]) in *. assert (Hk : length qps = length qs + 2) by (unfold qps; simpl; rewrite app_length; simpl; lia).
  rewrite Hk. replace (length data <? length qs + 2) with false by (symmetry; apply Nat.ltb_ge; auto).
  set (k := length qs + 2) in *.
  destruct (p2_adds_ok qps (skipn k data) (firstn k data) (mkP2 qps (number_from 1 (qsort (firstn k data))))) as (s & E & Is).
  - apply p2_init_ok; [lia|]. rewrite firstn_length. lia.
  - rewrite firstn_skipn in Is. exists s. auto.
Qed.
Lemma p2_new_short q_points qs data : process_q_points q_points = Ok qs -> length data < length qs + 2 -> p2_new q_points data = ValueError.
Proof.
  intros Hq Hl. unfold p2_new. rewrite Hq. cbn [rbind length]. rewrite app_length. cbn [length].
  replace (length data <? S (length qs + 1)) with true by (symmetry; apply Nat.ltb_lt; lia). auto.
Qed.

(** Readable consequences. *)
Lemma mono_qasc l : mono l -> qasc (map snd l).
Proof.
  induction l as [|a l IH]; intros H; [exact I|]. split; [|apply IH; eapply mono_tail; eauto].
  intros y Hy. apply in_map_iff in Hy. destruct Hy as (b & <- & Hb). apply (mono_le a l H b Hb).
Qed.
Lemma mono_increasing l : mono l -> increasing (map fst l).
Proof.
  induction l as [|a l IH]; intros H; [exact I|]. split; [|apply IH; eapply mono_tail; eauto].
  intros y Hy. apply in_map_iff in Hy. destruct Hy as (b & <- & Hb). apply (mono_le a l H b Hb).
Qed.
Lemma combine_fst {A B} (a : list A) (b : list B) : length a = length b -> map fst (combine a b) = a.
Proof. revert b. induction a as [|x a IH]; intros [|y b] H; try discriminate; auto. simpl. f_equal. apply IH. simpl in H. lia. Qed.
Lemma combine_snd {A B} (a : list A) (b : list B) : length a = length b -> map snd (combine a b) = b.
Proof. revert b. induction a as [|x a IH]; intros [|y b] H; try discriminate; auto. simpl. f_equal. apply IH. simpl in H. lia. Qed.

Theorem p2_estimates q_points qs data more : process_q_points q_points = Ok qs -> length qs + 2 <= length data ->
  exists s lo mid hi, (let? s0 := p2_new q_points data in p2_adds s0 more) = Ok s /\
    p2_get_quantiles s = combine (0%Q :: qs ++ [1%Q]) (lo :: mid ++ [hi]) /\ length mid = length qs /\
    qasc (lo :: mid ++ [hi]) /\
    least_of (data ++ more) (Some lo) /\ greatest_of (data ++ more) (Some hi) /\
    increasing (map fst (p2_vals s)) /\
    hd_error (map fst (p2_vals s)) = Some 1%Z /\ last (map fst (p2_vals s)) 0%Z = Z.of_nat (length (data ++ more)).
Proof.
  intros Hq Hl. destruct (p2_new_ok q_points qs data Hq Hl) as (s0 & E0 & I0). destruct (p2_adds_ok _ more data s0 I0) as (s & E & [Iq Il Im Ifo]).
  rewrite E0. cbn [rbind]. destruct Ifo as (mn & mid & mx & Ev & F1 & Fn & Lm & Lx).
  exists s, (snd mn), (map snd mid), (snd mx). split; auto.
  assert (Em : map snd (p2_vals s) = snd mn :: map snd mid ++ [snd mx]) by (rewrite Ev; simpl; rewrite map_app; auto).
  split; [unfold p2_get_quantiles; rewrite Iq, Em; auto|].
  split; [rewrite map_length; rewrite Ev in Il; cbn [length] in Il; rewrite !app_length in Il; cbn [length] in Il; unfold marker in *; lia|].
  split; [rewrite <- Em; apply mono_qasc; auto|]. split; auto. split; auto.
  split; [apply mono_increasing; auto|]. rewrite Ev. split; [simpl; congruence|].
  change (mn :: mid ++ [mx]) with ((mn :: mid) ++ [mx]). rewrite map_app. cbn [map]. rewrite last_last. auto.
Qed.
