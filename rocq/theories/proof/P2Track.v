(** Marker positions of the P-squared estimator stay near the ranks they stand for. *)
From Coq Require Import Lqa.
From Verif Require Import model.PyBase model.Bisect model.Levels model.Quantile spec.QuantileSpec proof.QuantileProofs proof.QuantileProofs2 proof.P2Proofs.
Open Scope nat_scope.

Definition qz (z : Z) : Q := inject_Z z.
Lemma quot_facts n d : (0 < d)%Z -> (n = d * (n ÷ d) + Z.rem n d /\ ((0 <= n /\ 0 <= Z.rem n d < d) \/ (n <= 0 /\ - d < Z.rem n d <= 0)))%Z.
Proof.
  intros H. split; [apply Z.quot_rem'|]. destruct (Z.le_ge_cases 0 n).
  - left. split; [assumption|]. apply Z.rem_bound_pos; lia.
  - right. split; [assumption|]. (pose proof (Z.rem_opp_l n d ltac:(lia)); pose proof (Z.rem_bound_pos (- n) d ltac:(lia) ltac:(lia)); lia).
Qed.
Lemma qtrunc_zero x : qtrunc x = 0%Z -> (-1 < x)%Q /\ (x < 1)%Q.
Proof.
  destruct x as [n d]. unfold qtrunc, Qlt. cbn [Qnum Qden]. intros H. pose proof (quot_facts n (Zpos d) ltac:(lia)). rewrite H in *. lia.
Qed.
Lemma qtrunc_pos x : (0 < qtrunc x)%Z -> (1 <= x)%Q.
Proof.
  destruct x as [n d]. unfold qtrunc, Qle. cbn [Qnum Qden]. intros H. pose proof (quot_facts n (Zpos d) ltac:(lia)). nia.
Qed.
Lemma qtrunc_neg x : (qtrunc x < 0)%Z -> (x <= -1)%Q.
Proof.
  destruct x as [n d]. unfold qtrunc, Qle. cbn [Qnum Qden]. intros H. pose proof (quot_facts n (Zpos d) ltac:(lia)). nia.
Qed.
Definition moved (prev : Z) (q : Q) (l c r c' : marker) : Prop :=
  let x := (qz prev * q + 1 - qz (fst c))%Q in
  (fst c' = (fst c + 1)%Z /\ (1 <= x)%Q) \/ (fst c' = (fst c - 1)%Z /\ (x <= -1)%Q) \/
  (fst c' = fst c /\ (((-1 < x)%Q /\ (x < 1)%Q) \/ ((1 <= x)%Q /\ fst r = (fst c + 1)%Z) \/ ((x <= -1)%Q /\ fst l = (fst c - 1)%Z))).
Lemma rbind_ok {A B} (m : pyres A) (f : A -> pyres B) y : rbind m f = Ok y -> exists x, m = Ok x /\ f x = Ok y.
Proof. destruct m; cbn; try discriminate. eauto. Qed.
Lemma adjust_moved prev q l c r c' : (fst l < fst c)%Z -> (fst c < fst r)%Z -> adjust prev q l c r = Ok c' -> moved prev q l c r c'.
Proof.
  destruct l as [ln lq], c as [cn cq], r as [rn rq]. intros H1 H2. unfold adjust, moved. cbn [fst snd] in *. fold (qz prev) (qz cn).
  set (x := (qz prev * q + 1 - qz cn)%Q). destruct (Z.eqb_spec (qtrunc x) 0) as [E|E].
  - intros [= <-]. right; right. cbn. split; [reflexivity|]. left. apply qtrunc_zero, E.
  - destruct (Z.ltb_spec 0 (qtrunc x)) as [P|P].
    + apply qtrunc_pos in P. destruct (negb _) eqn:N.
      * intros [= <-]. right; right. cbn. split; [reflexivity|]. right; left. split; [exact P|].
        apply negb_true_iff, andb_false_iff in N. rewrite !Z.ltb_ge in N. lia.
      * intros H. left. split; [|exact P]. apply rbind_ok in H as (t & _ & H). apply rbind_ok in H as (a & _ & H). apply rbind_ok in H as (b & _ & H). cbv beta zeta in H.
        destruct (qlt _ _ && qlt _ _); [injection H as <-; reflexivity|]. cbn [Z.eqb Pos.eqb] in H. apply rbind_ok in H as (e & _ & H). injection H as <-. reflexivity.
    + assert (P' : (qtrunc x < 0)%Z) by lia. apply qtrunc_neg in P'. destruct (negb _) eqn:N.
      * intros [= <-]. right; right. cbn. split; [reflexivity|]. right; right. split; [exact P'|].
        apply negb_true_iff, andb_false_iff in N. rewrite !Z.ltb_ge in N. lia.
      * intros H. right; left. split; [|exact P']. apply rbind_ok in H as (t & _ & H). apply rbind_ok in H as (a & _ & H). apply rbind_ok in H as (b & _ & H). cbv beta zeta in H.
        destruct (qlt _ _ && qlt _ _); [injection H as <-; cbn; lia|]. cbn [Z.eqb] in H. apply rbind_ok in H as (e & _ & H). injection H as <-. cbn. lia.
Qed.

(** [i]: how many markers are to the left; [length l]: how many to the right. *)
Fixpoint pre (prev : Z) (i : nat) (qs : list Q) (l : list marker) : Prop :=
  match qs, l with
  | q :: qs', m :: l' =>
    match l' with
    | [] => (fst m = prev + 1)%Z /\ (q == 1)%Q
    | _ => (1 + (qz prev - 1) * q - 2 * qz (Z.of_nat (length l')) <= qz (fst m))%Q /\
           (qz (fst m) <= 1 + (qz prev - 1) * q + qz (Z.of_nat i) + 1)%Q /\ pre prev (S i) qs' l'
    end
  | _, _ => False
  end.
Fixpoint near (prev : Z) (i : nat) (qs : list Q) (l : list marker) : Prop :=
  match qs, l with
  | q :: qs', m :: l' =>
    (1 + qz prev * q - 2 * qz (Z.of_nat (length l')) <= qz (fst m))%Q /\
    (qz (fst m) <= 1 + qz prev * q + qz (Z.of_nat i))%Q /\ near prev (S i) qs' l'
  | [], [] => True
  | _, _ => False
  end.
Lemma qz_S n : (qz (Z.of_nat (S n)) == qz (Z.of_nat n) + 1)%Q.
Proof. unfold qz. rewrite Nat2Z.inj_succ, <- Z.add_1_r, inject_Z_plus. reflexivity. Qed.
Lemma qz_plus a b : (qz (a + b) == qz a + qz b)%Q. Proof. unfold qz. rewrite inject_Z_plus. reflexivity. Qed.
Lemma qz_nat n : (0 <= qz (Z.of_nat n))%Q.
Proof. change 0%Q with (qz 0). unfold qz. rewrite <- Zle_Qle. lia. Qed.
Lemma qz_pos z : (0 <= z)%Z -> (0 <= qz z)%Q.
Proof. intros H. change 0%Q with (qz 0). unfold qz. rewrite <- Zle_Qle. exact H. Qed.
Definition q01 (q : Q) : Prop := (0 <= q)%Q /\ (q <= 1)%Q.

Lemma quad_near prev : (1 <= prev)%Z -> forall l qs i lq lft l', mono (lft :: l) -> qasc (lq :: qs) -> Forall q01 (lq :: qs) ->
  length qs = length l -> pre prev (S i) qs l -> (qz (fst lft) <= 1 + qz prev * lq + qz (Z.of_nat i))%Q ->
  quad_pass prev qs lft l = Ok l' -> near prev (S i) qs l'.
Proof.
  intros Hp. induction l as [|c l IH]; intros qs i lq lft l' Hm Hq H01 Hl Hpre Hleft E.
  - destruct qs; [|discriminate]. contradiction.
  - destruct qs as [|q qs]; [discriminate|]. destruct l as [|r l].
    + destruct qs; [|discriminate]. cbn in E. injection E as <-. destruct Hpre as [P1 P2]. cbn [near length]. rewrite P1, P2.
      pose proof (qz_nat (S i)). change (Z.of_nat 0) with 0%Z. change (qz 0) with 0%Q. rewrite qz_plus. change (qz 1) with 1%Q. repeat split; lra.
    + destruct Hm as (M1 & M2 & M3 & M4 & M5). destruct (adjust_ok prev q lft c r M1 M3 M2 M4) as (c' & Ea & Hpos & Hl1 & Hr1).
      change (quad_pass prev (q :: qs) lft (c :: r :: l)) with
        (let? cur' := adjust prev q lft c r in let? rest := quad_pass prev qs cur' (r :: l) in Ok (cur' :: rest)) in E.
      rewrite Ea in E. cbn [rbind] in E. destruct (quad_pass prev qs c' (r :: l)) as [rest| | |] eqn:Er; cbn [rbind] in E; try discriminate.
      injection E as <-. pose proof (adjust_moved prev q lft c r c' M1 M3 Ea) as Hmv.
      destruct Hpre as (P1 & P2 & P3). destruct Hq as [Hq1 Hq2]. inversion H01 as [|? ? Hlq H01']; subst.
      pose proof (Hq1 q (or_introl eq_refl)) as Hle. inversion H01' as [|? ? [Hq0 Hq1'] H01'']; subst.
      pose proof (qz_pos prev ltac:(lia)) as Hp0. assert (Hp1 : (1 <= qz prev)%Q) by (change 1%Q with (qz 1); unfold qz; rewrite <- Zle_Qle; lia).
      assert (Hlr : length rest = S (length l)).
      { destruct (quad_pass_ok prev (r :: l) qs c') as (l2 & E2 & _ & L2 & _); [split; [lia|]; split; auto|]. rewrite Er in E2. injection E2 as <-. exact L2. }
      assert (Hmul : (qz prev * lq <= qz prev * q)%Q) by (rewrite !(Qmult_comm (qz prev)); apply Qmult_le_compat_r; lra).
      (* lower bound from the right neighbour *)
      assert (Hright : (1 + (qz prev - 1) * q - 2 * qz (Z.of_nat (length l)) <= qz (fst r))%Q).
      { destruct qs as [|q2 qs]; [discriminate|]. pose proof (proj1 Hq2 q2 (or_introl eq_refl)) as Hle2.
        assert (Hm2 : ((qz prev - 1) * q <= (qz prev - 1) * q2)%Q) by (rewrite !(Qmult_comm (qz prev - 1)); apply Qmult_le_compat_r; lra).
        destruct l as [|r2 l].
        - destruct P3 as [P3 P4]. rewrite P3, qz_plus. cbn [length]. change (Z.of_nat 0) with 0%Z. change (qz 0) with 0%Q. change (qz 1) with 1%Q. nra.
        - destruct P3 as (P3 & _). lra. }
      cbn [near]. rewrite Hlr. cbn [length] in P1. rewrite qz_S in P1 |- *.
      assert (Hc : (1 + qz prev * q - 2 * (qz (Z.of_nat (length l)) + 1) <= qz (fst c'))%Q /\ (qz (fst c') <= 1 + qz prev * q + qz (Z.of_nat (S i)))%Q).
      { rewrite (qz_S i) in P2 |- *. pose proof (qz_nat i) as Hi. pose proof (qz_nat (length l)) as Hln.
        destruct Hmv as [[E1 X]|[[E1 X]|[E1 [[X1 X2]|[[X Er']|[X El]]]]]].
        - rewrite E1, qz_plus. change (qz 1) with 1%Q. split; lra.
        - rewrite E1. unfold Z.sub. rewrite qz_plus. change (qz (- (1))) with (-1)%Q. split; lra.
        - rewrite E1. split; lra.
        - rewrite E1. rewrite Er', qz_plus in Hright. change (qz 1) with 1%Q in Hright. split; lra.
        - rewrite E1. rewrite El in Hleft. unfold Z.sub in Hleft. rewrite qz_plus in Hleft. change (qz (- (1))) with (-1)%Q in Hleft. split; lra. }
      destruct Hc as [C1 C2]. split; [exact C1|]. split; [exact C2|].
      apply (IH qs (S i) q c' rest); auto. split; [lia|]. split; auto.
Qed.

Lemma back_length v l : mono_up l -> length (back_pass v l) = length l.
Proof. intros H. destruct (back_pass_ok v l H) as (_ & E & _). pose proof (f_equal (@length Q) E) as L. rewrite !map_length in L. exact L. Qed.
Lemma qz_pred p : (qz (p - 1) == qz p - 1)%Q.
Proof. unfold Z.sub. rewrite qz_plus. change (qz (- (1))) with (-1)%Q. lra. Qed.
Lemma back_pre p v mx mx1 : fst mx1 = (p + 1)%Z -> forall mid qs i, near (p - 1) i qs (mid ++ [mx]) -> (last qs 0 == 1)%Q ->
  mono_up (mid ++ [mx1]) -> pre p i qs (back_pass v (mid ++ [mx1])).
Proof.
  intros Hx. induction mid as [|a mid IH]; intros qs i Hn Hl Hm.
  - destruct qs as [|q qs]; [destruct Hn|]. destruct Hn as (_ & _ & Hn). destruct qs; [|destruct Hn]. cbn in Hl |- *. auto.
  - destruct qs as [|q qs]; [destruct Hn|]. destruct Hn as (N1 & N2 & N3). cbn [app] in *.
    assert (Hm2 : mono_up (mid ++ [mx1])) by (destruct (mid ++ [mx1]) eqn:E; [exact I|apply Hm]).
    assert (Hl2 : (last qs 0 == 1)%Q) by (destruct qs; [destruct mid; destruct N3|exact Hl]).
    specialize (IH qs (S i) N3 Hl2 Hm2). destruct (back_pass_ok v _ Hm) as (_ & _ & _ & Hh). pose proof (back_length v _ Hm) as L. pose proof (back_length v _ Hm2) as L2.
    assert (E : exists a' , back_pass v (a :: mid ++ [mx1]) = a' :: back_pass v (mid ++ [mx1])).
    { cbn [back_pass]. destruct (back_pass v (mid ++ [mx1])) as [|n r] eqn:B; [rewrite app_length in L2; cbn in L2; lia|]. eexists. reflexivity. }
    destruct E as (a' & E). rewrite E in *. cbn [pre].
    destruct (mid ++ [mx1]) as [|b r] eqn:Em; [destruct mid; discriminate|].
    destruct (back_pass v (b :: r)) as [|b' r'] eqn:Eb; [discriminate|].
    assert (Hlen : length (b' :: r') = length (mid ++ [mx])) by (rewrite app_length; pose proof (f_equal (@length marker) Em) as X; rewrite app_length in X; cbn [length] in *; unfold marker in *; lia).
    rewrite Hlen. cbn [bp_head] in Hh. rewrite qz_pred in N1, N2.
    assert (Hb : (qz (fst a) <= qz (fst a') /\ qz (fst a') <= qz (fst a) + 1)%Q).
    { rewrite Hh, qz_plus. destruct (Qle_bool v (snd a)); [change (qz 1) with 1%Q|change (qz 0) with 0%Q]; lra. }
    destruct Hb as [B1 B2]. split; [lra|]. split; [lra|]. exact IH.
Qed.
Lemma back_mono v mn mid mx : fst mn = 1%Z -> mono (mn :: mid ++ [mx]) -> mono (mn' v mn :: back_pass v (mid ++ [mx' v mn mx])).
Proof.
  intros F1 Im.
  assert (Hmm : (snd mn <= snd mx)%Q /\ (fst mn < fst mx)%Z).
  { apply (mono_le mn (mid ++ [mx]) Im). apply in_or_app. right. left. auto. }
  assert (Hup : mono_up (mid ++ [mx' v mn mx])).
  { eapply mono_up_last; [eapply mono_tail; exact Im | reflexivity|]. unfold mx'. cbn [snd].
    destruct (qlt v (snd mn)); [lra|]. destruct (qlt (snd mx) v) eqn:E; [apply qlt_true in E; lra | lra]. }
  assert (Hmn : (snd (mn' v mn) <= snd mn)%Q /\ fst (mn' v mn) = 1%Z).
  { unfold mn'. destruct (qlt v (snd mn)) eqn:E; [apply qlt_true in E; cbn [fst snd]; split; [lra|auto] | split; [lra|auto]]. }
  destruct (back_pass_ok v _ Hup) as (B1 & B2 & B3 & B4).
  set (rest := mid ++ [mx' v mn mx]) in *. set (rest1 := back_pass v rest) in *. clearbody rest1.
  assert (Hrest : rest = mid ++ [mx' v mn mx]) by reflexivity. clearbody rest.
  destruct rest1 as [|a' r']; [simpl; auto|]. split; [|split; [|exact B1]].
  - assert (Hhd : exists a r, rest = a :: r /\ (fst a <= fst a')%Z).
    { clear Hrest. destruct rest as [|a r]; [destruct B4|]. exists a, r. split; auto. destruct r; [destruct r'; [cbn in B4; subst; lia | destruct B4]|].
      cbn in B4. rewrite B4. destruct (Qle_bool v (snd a)); lia. }
    destruct Hhd as (a & r & Er & Hle). destruct Hmn as [_ ->].
    assert (Ha : (1 < fst a)%Z).
    { rewrite Hrest in Er. destruct mid as [|b mid]; cbn [app] in Er; inversion Er; subst a.
      - unfold mx'. cbn [fst]. lia.
      - destruct Im as (Im1 & _). cbn [app] in Im1. lia. }
    lia.
  - assert (Hs : exists a r, rest = a :: r /\ snd a = snd a').
    { clear Hrest. destruct rest as [|a r]; [discriminate B2|]. exists a, r. split; auto. simpl in B2. inversion B2. auto. }
    destruct Hs as (a & r & Er & Hs). rewrite <- Hs. destruct Hmn as [Hmn _].
    rewrite Hrest in Er. destruct mid as [|b mid]; cbn [app] in Er; inversion Er; subst a.
    + unfold mx', mn'. cbn [snd]. destruct (qlt v (snd mn)) eqn:E; [apply qlt_true in E; cbn [snd]; lra|].
      destruct (qlt (snd mx) v) eqn:E2; [apply qlt_true in E2; lra | lra].
    + destruct Im as (_ & Im2 & _). cbn [app] in Im2. lra.
Qed.
Lemma last_snoc {A} (l : list A) x d : last (l ++ [x]) d = x. Proof. apply last_last. Qed.
Lemma add_near qs data s v s' : let qps := 0%Q :: qs ++ [1%Q] in
  qasc qps -> Forall q01 qps -> p2_inv qps data s -> near (Z.of_nat (length data) - 1) 0 qps (p2_vals s) ->
  p2_add s v = Ok s' -> near (Z.of_nat (length data)) 0 qps (p2_vals s').
Proof.
  intros qps Ha H01 [Iq Il Im (mn & mid & mx & Ev & F1 & Fn & Lmin & Lmax)] Hn E. unfold p2_add in E. rewrite Ev in *.
  rewrite extremes_form in E. change (mn :: mid ++ [mx]) with ((mn :: mid) ++ [mx]) in E at 1. rewrite last_snoc, Fn in E.
  assert (Hmm : (snd mn <= snd mx)%Q /\ (fst mn < fst mx)%Z).
  { apply (mono_le mn (mid ++ [mx]) Im). apply in_or_app. right. left. auto. }
  assert (Hup : mono_up (mid ++ [mx' v mn mx])).
  { eapply mono_up_last; [eapply mono_tail; exact Im | reflexivity|]. unfold mx'. cbn [snd].
    destruct (qlt v (snd mn)); [lra|]. destruct (qlt (snd mx) v) eqn:X; [apply qlt_true in X; lra | lra]. }
  rewrite Iq in E. unfold qps in E at 1. cbn [tl] in E.
  destruct (quad_pass (Z.of_nat (length data)) (qs ++ [1%Q]) (mn' v mn) (back_pass v (mid ++ [mx' v mn mx]))) as [rest| | |] eqn:Er; cbn [rbind] in E; try discriminate.
  injection E as <-. cbn [p2_vals]. unfold qps in *. destruct Hn as (_ & _ & Hn).
  assert (Hpre : pre (Z.of_nat (length data)) 1 (qs ++ [1%Q]) (back_pass v (mid ++ [mx' v mn mx]))).
  { eapply (back_pre _ v mx); [unfold mx'; cbn [fst]; lia|exact Hn|rewrite last_snoc; reflexivity|exact Hup]. }
  assert (Hlen : length (back_pass v (mid ++ [mx' v mn mx])) = length (qs ++ [1%Q])).
  { rewrite back_length by exact Hup. cbn [length] in Il. rewrite !app_length in *. cbn [length] in *. unfold marker in *. lia. }
  assert (Hm1 : fst (mn' v mn) = 1%Z) by (unfold mn'; destruct (qlt v (snd mn)); exact F1).
  assert (Hnr : near (Z.of_nat (length data)) 1 (qs ++ [1%Q]) rest).
  { assert (Hp : (1 <= Z.of_nat (length data))%Z) by lia. eapply (quad_near _ Hp _ _ 0 0%Q (mn' v mn)); eauto.
    - apply back_mono; assumption.
    - rewrite Hm1. change (qz 1) with 1%Q. change (qz (Z.of_nat 0)) with 0%Q. lra. }
  cbn [near]. split; [|split; [|exact Hnr]]; rewrite Hm1; change (qz 1) with 1%Q.
  - pose proof (qz_nat (length rest)). lra.
  - change (qz (Z.of_nat 0)) with 0%Q. lra.
Qed.

Lemma adds_near qs vs : let qps := 0%Q :: qs ++ [1%Q] in qasc qps -> Forall q01 qps ->
  forall data s s', p2_inv qps data s -> near (Z.of_nat (length data) - 1) 0 qps (p2_vals s) ->
  p2_adds s vs = Ok s' -> near (Z.of_nat (length (data ++ vs)) - 1) 0 qps (p2_vals s').
Proof.
  intros qps Ha H01. induction vs as [|v vs IH]; intros data s s' Hi Hn E.
  - cbn in E. injection E as <-. rewrite app_nil_r. exact Hn.
  - cbn [p2_adds] in E. destruct (p2_add_ok qps data s v Hi) as (s1 & E1 & I1). rewrite E1 in E. cbn [rbind] in E.
    pose proof (add_near qs data s v s1 Ha H01 Hi Hn E1) as N1. replace (data ++ v :: vs) with ((data ++ [v]) ++ vs) by (rewrite <- app_assoc; reflexivity).
    eapply IH; eauto. rewrite app_length. cbn [length]. replace (Z.of_nat (length data + 1) - 1)%Z with (Z.of_nat (length data)) by lia. exact N1.
Qed.
Lemma init_near k : forall l qs i, Forall q01 qs -> length qs = length l -> i + length l = S k -> 
  near (Z.of_nat k) i qs (number_from (Z.of_nat i + 1) l).
Proof.
  induction l as [|x l IH]; intros qs i H Hl Hk; destruct qs as [|q qs]; try discriminate; [exact I|].
  inversion H as [|? ? [Q0 Q1] H']; subst. cbn [near number_from fst]. rewrite number_length.
  assert (Ek : (qz (Z.of_nat k) == qz (Z.of_nat i) + qz (Z.of_nat (length l)))%Q).
  { cbn [length] in Hk. replace (Z.of_nat k) with (Z.of_nat i + Z.of_nat (length l))%Z by lia. apply qz_plus. }
  rewrite Ek, qz_plus. change (qz 1) with 1%Q. pose proof (qz_nat i). pose proof (qz_nat (length l)).
  assert (A : ((qz (Z.of_nat i) + qz (Z.of_nat (length l))) * q <= (qz (Z.of_nat i) + qz (Z.of_nat (length l))) * 1)%Q) by (rewrite !(Qmult_comm (qz (Z.of_nat i) + qz (Z.of_nat (length l)))); apply Qmult_le_compat_r; lra).
  assert (B : (0 <= (qz (Z.of_nat i) + qz (Z.of_nat (length l))) * q)%Q) by (apply Qmult_le_0_compat; lra).
  split; [lra|]. split; [lra|]. replace (Z.of_nat i + 1 + 1)%Z with (Z.of_nat (S i) + 1)%Z by lia. apply IH; auto; cbn [length] in *; lia.
Qed.
Lemma near_nth p : forall l qs i j q m, near p i qs l -> nth_error qs j = Some q -> nth_error l j = Some m ->
  (1 + qz p * q - 2 * qz (Z.of_nat (length l - 1 - j)) <= qz (fst m))%Q /\ (qz (fst m) <= 1 + qz p * q + qz (Z.of_nat (i + j)))%Q.
Proof.
  induction l as [|a l IH]; intros qs i j q m Hn Hq Hm; destruct qs as [|q0 qs]; try (destruct Hn; fail); [destruct j; discriminate|].
  destruct Hn as (N1 & N2 & N3). destruct j as [|j]; cbn [nth_error] in *.
  - injection Hq as <-. injection Hm as <-. rewrite Nat.add_0_r. cbn [length]. replace (S (length l) - 1 - 0) with (length l) by lia. auto.
  - destruct (IH _ _ _ _ _ N3 Hq Hm) as [A B]. cbn [length]. replace (S (length l) - 1 - S j) with (length l - 1 - j) by lia. rewrite <- plus_n_Sm. auto.
Qed.
Theorem p2_track q_points qs data more s : process_q_points q_points = Ok qs -> length qs + 2 <= length data ->
  (let? s0 := p2_new q_points data in p2_adds s0 more) = Ok s ->
  forall j q m, nth_error (0%Q :: qs ++ [1%Q]) j = Some q -> nth_error (map fst (p2_vals s)) j = Some m ->
  let rank := (1 + (inject_Z (Z.of_nat (length (data ++ more))) - 1) * q)%Q in
  (rank - 2 * inject_Z (Z.of_nat (length qs + 1 - j)) <= inject_Z m)%Q /\ (inject_Z m <= rank + inject_Z (Z.of_nat j))%Q.
Proof.
  intros Hq Hl E j q m Nq Nm. set (qps := 0%Q :: qs ++ [1%Q]) in *.
  destruct (process_sound _ _ Hq) as (Ha & vs & _ & zs & os & _ & _ & _ & _ & Hi).
  assert (Hasc : qasc qps) by (apply keys_asc; assumption).
  assert (H01 : Forall q01 qps).
  { constructor; [split; lra|]. apply Forall_app. split; [|constructor; [split; lra|constructor]].
    eapply Forall_impl; [|exact Hi]. intros x [X1 X2]. split; lra. }
  assert (Hk : length qps = length qs + 2) by (unfold qps; cbn [length]; rewrite app_length; cbn [length]; lia).
  unfold p2_new in E. rewrite Hq in E. cbn [rbind] in E. fold qps in E. rewrite Hk in E.
  replace (length data <? length qs + 2) with false in E by (symmetry; apply Nat.ltb_ge; lia).
  set (k := length qs + 2) in *.
  assert (L : length (firstn k data) = k) by (rewrite firstn_length; lia).
  destruct (qsort_spec (firstn k data)) as [_ P]. apply Permutation_length in P. rewrite L in P.
  assert (I0 : p2_inv qps (firstn k data) (mkP2 qps (number_from 1 (qsort (firstn k data))))) by (apply p2_init_ok; lia).
  assert (N0 : near (Z.of_nat (length (firstn k data)) - 1) 0 qps (p2_vals (mkP2 qps (number_from 1 (qsort (firstn k data)))))).
  { cbn [p2_vals]. rewrite L. replace (Z.of_nat k - 1)%Z with (Z.of_nat (k - 1)) by lia. apply (init_near (k - 1) _ _ 0); auto; lia. }
  destruct (p2_adds_ok qps (skipn k data) _ _ I0) as (s1 & E1 & I1). rewrite E1 in E. cbn [rbind] in E.
  pose proof (adds_near qs (skipn k data) Hasc H01 _ _ _ I0 N0 E1) as N1. fold qps in N1. rewrite firstn_skipn in I1, N1.
  destruct (p2_adds_ok qps more _ _ I1) as (s2 & E2 & I2). rewrite E2 in E. injection E as <-.
  pose proof (adds_near qs more Hasc H01 _ _ _ I1 N1 E2) as N2. fold qps in N2.
  rewrite nth_error_map in Nm. destruct (nth_error (p2_vals s2) j) as [mk|] eqn:Em; unfold marker in *; rewrite Em in Nm; cbn [option_map] in Nm; [|discriminate Nm]. injection Nm as <-.
  destruct (near_nth _ _ _ _ _ _ _ N2 Nq Em) as [A B]. rewrite (pi_len _ _ _ I2), Hk in A. unfold qz in *. rewrite Nat.add_0_l in B.
  assert (Ez : (inject_Z (Z.of_nat (length (data ++ more)) - 1) == inject_Z (Z.of_nat (length (data ++ more))) - 1)%Q) by apply qz_pred.
  rewrite Ez in A, B. cbv zeta. replace (length qs + 1 - j) with (k - 1 - j) by lia. split; lra.
Qed.
