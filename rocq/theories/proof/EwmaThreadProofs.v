(** Proofs for PEwmaThreads.v. *)
From Coq Require Import Lra Lia.
From Verif Require Import model.PyBase model.Ewma model.EwmaThreads spec.EwmaSpec spec.EwmaThreadSpec.
Open Scope R_scope.

Lemma upd_same f t p : upd_pc f t p t = p.
Proof. unfold upd_pc. rewrite Nat.eqb_refl. reflexivity. Qed.
Lemma upd_other f t p t' : t' <> t -> upd_pc f t p t' = f t'.
Proof. intros N. unfold upd_pc. destruct (Nat.eqb_spec t' t); [contradiction|reflexivity]. Qed.

(** ** Sums of returned calls *)
Definition SI (s : est) : Prop :=
  (forall i, In (Added i) (es_log s) -> (i < length (es_started s))%nat) /\
  sum_of_returned (es_started s) (es_log s) (ew_uncounted (es_acc s)) /\
  (forall t i v tmp, es_pc s t = AddStore i v tmp ->
     nth_error (es_started s) i = Some v /\ ~ In (Added i) (es_log s) /\ sum_of_returned (es_started s) (es_log s) tmp) /\
  (forall t t' i v v' tmp tmp', es_pc s t = AddStore i v tmp -> es_pc s t' = AddStore i v' tmp' -> t = t') /\
  (forall t k itv u l1 l2, es_log s = l1 ++ Sample t k itv u :: l2 -> sum_of_returned (es_started s) l2 u).

Lemma sum_log st log log' u : (forall i, In (Added i) log -> In (Added i) log') -> sum_of_returned st log u -> sum_of_returned st log' u.
Proof. intros H (c & A & B & C). exists c. auto. Qed.
Lemma sum_started st log v u : (forall i, In (Added i) log -> (i < length st)%nat) -> sum_of_returned st log u -> sum_of_returned (st ++ [v]) log u.
Proof.
  intros H (c & A & B & ->). exists c. split; [exact A|]. split; [exact B|]. f_equal. apply map_ext_in. intros i HI.
  rewrite app_nth1; [reflexivity|]. apply H, B, HI.
Qed.
Lemma sum_zero st log : sum_of_returned st log 0.
Proof. exists []. split; [constructor|]. split; [intros i []|reflexivity]. Qed.

Lemma advance_cases t p s s' p' o : advance t p s = Some (s', p', o) ->
  (exists i v tmp, p = AddStore i v tmp /\ s' = set_uncounted s (tmp + v) /\ p' = Idle /\ o = [Added i]) \/
  ((forall i v tmp, p' <> AddStore i v tmp) /\ (forall i v tmp, p <> AddStore i v tmp) /\ (forall i, ~ In (Added i) o) /\ (length o <= 1)%nat /\
   (ew_uncounted s' = ew_uncounted s \/ ew_uncounted s' = 0) /\
   (forall t' k itv u, In (Sample t' k itv u) o -> u = ew_uncounted s)).
Proof.
  intros H. destruct p; cbn in H; try discriminate;
  repeat match type of H with
    | (if ?c then _ else _) = _ => destruct c
    | match ?x with Some _ => _ | None => _ end = _ => destruct x eqn:?
    | match ?x with (_, _) => _ end = _ => destruct x
    | match ?x with Some _ => _ | None => _ end = _ => destruct x
    end; try discriminate; injection H as <- <- <-; [left; eauto 10|..]; right;
  (split; [intros ? ? ?; repeat match goal with |- context [if ?c then _ else _] => destruct c end; discriminate|]);
  (split; [discriminate|]); (split; [intros ? K; cbn in K; intuition congruence|]);
  (split; [cbn; lia|]); (split; [cbn; auto|]); intros ? ? ? ? K; cbn in K; intuition congruence.
Qed.

Lemma SI_step e s s' : estep e s = Some s' -> SI s -> SI s'.
Proof.
  intros H (HA & HB & HC & HD & HE). destruct e as [t v|t now|t now|t]; cbn in H.
  - destruct (es_pc s t) eqn:EP; try discriminate. injection H as <-. unfold SI; cbn.
    split; [intros i K; rewrite app_length; cbn; specialize (HA i K); lia|].
    split; [apply sum_started; assumption|].
    split; [|split].
    + intros t' i v' tmp K. destruct (Nat.eq_dec t' t) as [-> |N].
      * rewrite upd_same in K. injection K as <- <- <-. split; [rewrite nth_error_app2, Nat.sub_diag by lia; reflexivity|].
        split; [intros Q; specialize (HA _ Q); lia|apply sum_started; assumption].
      * rewrite upd_other in K by exact N. destruct (HC _ _ _ _ K) as (A & B & C). split; [|split; [exact B|apply sum_started; assumption]].
        rewrite nth_error_app1; [exact A|]. apply nth_error_Some. congruence.
    + intros t1 t2 i v1 v2 tmp1 tmp2 K1 K2. destruct (Nat.eq_dec t1 t) as [-> |N1], (Nat.eq_dec t2 t) as [-> |N2]; try rewrite upd_same in K1; try rewrite upd_same in K2; try rewrite upd_other in K1 by assumption; try rewrite upd_other in K2 by assumption.
      * reflexivity.
      * injection K1 as <- <- <-. destruct (HC _ _ _ _ K2) as (A & _). assert (length (es_started s) < length (es_started s))%nat; [|lia]. apply nth_error_Some. congruence.
      * injection K2 as <- <- <-. destruct (HC _ _ _ _ K1) as (A & _). assert (length (es_started s) < length (es_started s))%nat; [|lia]. apply nth_error_Some. congruence.
      * eapply HD; eauto.
    + intros t' k itv u l1 l2 K. apply sum_started; [|eapply HE; exact K]. intros i Q. apply HA. rewrite K. apply in_or_app. right. right. exact Q.
  - destruct (es_pc s t) eqn:EP; try discriminate. injection H as <-. unfold SI; cbn. split; [exact HA|]. split; [exact HB|]. split; [|split; [|exact HE]].
    + intros t' i v' tmp K. destruct (Nat.eq_dec t' t) as [-> |N]; [rewrite upd_same in K; discriminate|]. rewrite upd_other in K by exact N. eapply HC; eauto.
    + intros t1 t2 i v1 v2 tmp1 tmp2 K1 K2. destruct (Nat.eq_dec t1 t) as [-> |N1]; [rewrite upd_same in K1; discriminate|].
      destruct (Nat.eq_dec t2 t) as [-> |N2]; [rewrite upd_same in K2; discriminate|]. rewrite upd_other in K1, K2 by assumption. eapply HD; eauto.
  - destruct (es_pc s t) eqn:EP; try discriminate. injection H as <-. unfold SI; cbn. split; [exact HA|]. split; [exact HB|]. split; [|split; [|exact HE]].
    + intros t' i v' tmp K. destruct (Nat.eq_dec t' t) as [-> |N]; [rewrite upd_same in K; discriminate|]. rewrite upd_other in K by exact N. eapply HC; eauto.
    + intros t1 t2 i v1 v2 tmp1 tmp2 K1 K2. destruct (Nat.eq_dec t1 t) as [-> |N1]; [rewrite upd_same in K1; discriminate|].
      destruct (Nat.eq_dec t2 t) as [-> |N2]; [rewrite upd_same in K2; discriminate|]. rewrite upd_other in K1, K2 by assumption. eapply HD; eauto.
  - destruct (advance t (es_pc s t) (es_acc s)) as [[[a p] o]|] eqn:EA; [|discriminate]. injection H as <-.
    destruct (advance_cases _ _ _ _ _ _ EA) as [(i & v & tmp & EP & -> & -> & ->)|(N1 & N2 & N3 & N4 & N5 & N6)].
    + destruct (HC _ _ _ _ EP) as (CA & CB & CC). unfold SI; cbn. split; [|split; [|split; [|split]]].
      * intros j [K|K]; [|apply HA, K]. injection K as <-. apply nth_error_Some. congruence.
      * destruct CC as (c & A & B & ->). exists (i :: c). split; [constructor; [intros K; apply CB, B, K|exact A]|].
        split; [intros j [-> |K]; [left; reflexivity|right; apply B, K]|]. unfold total. cbn. rewrite (nth_error_nth _ _ 0 CA). lra.
      * intros t' j v' tmp' K. destruct (Nat.eq_dec t' t) as [-> |N]; [rewrite upd_same in K; discriminate|]. rewrite upd_other in K by exact N.
        destruct (HC _ _ _ _ K) as (A & B & C). split; [exact A|]. split.
        -- intros [Q|Q]; [|apply B, Q]. injection Q as ->. apply N. eapply HD; eauto.
        -- eapply sum_log; [|exact C]. cbn; auto.
      * intros t1 t2 j v1 v2 tmp1 tmp2 K1 K2. destruct (Nat.eq_dec t1 t) as [-> |M1]; [rewrite upd_same in K1; discriminate|].
        destruct (Nat.eq_dec t2 t) as [-> |M2]; [rewrite upd_same in K2; discriminate|]. rewrite upd_other in K1, K2 by assumption. eapply HD; eauto.
      * intros t' k itv u [|x l1] l2 K; cbn in K; [discriminate|]. injection K as _ K. eapply HE; exact K.
    + assert (IL : forall i, In (Added i) (es_log s) -> In (Added i) (o ++ es_log s)) by (intros; apply in_or_app; auto).
      assert (LI : forall i, In (Added i) (o ++ es_log s) -> In (Added i) (es_log s)) by (intros i K; apply in_app_or in K as [K|K]; [destruct (N3 i K)|exact K]).
      unfold SI; cbn. split; [intros i K; apply HA, LI, K|]. split; [|split; [|split]].
      * destruct N5 as [-> | ->]; [eapply sum_log; eauto|apply sum_zero].
      * intros t' j v' tmp' K. destruct (Nat.eq_dec t' t) as [-> |N]; [rewrite upd_same in K; destruct (N1 _ _ _ K)|]. rewrite upd_other in K by exact N.
        destruct (HC _ _ _ _ K) as (A & B & C). split; [exact A|]. split; [intros Q; apply B, LI, Q|]. eapply sum_log; [|exact C]. exact IL.
      * intros t1 t2 j v1 v2 tmp1 tmp2 K1 K2. destruct (Nat.eq_dec t1 t) as [-> |M1]; [rewrite upd_same in K1; destruct (N1 _ _ _ K1)|].
        destruct (Nat.eq_dec t2 t) as [-> |M2]; [rewrite upd_same in K2; destruct (N1 _ _ _ K2)|]. rewrite upd_other in K1, K2 by assumption. eapply HD; eauto.
      * intros t' k itv u l1 l2 K. destruct o as [|x [|y o]]; cbn in N4, K; [eapply HE; exact K| |lia].
        destruct l1 as [|z l1]; cbn in K; injection K as K1 K2; [|eapply HE; exact K2]. subst x l2. rewrite (N6 t' k itv u (or_introl eq_refl)). exact HB.
Qed.
Lemma SI_run evs : forall s s', eruns evs s = Some s' -> SI s -> SI s'.
Proof.
  induction evs as [|e evs IH]; intros s s' H HI; cbn in H; [injection H as <-; exact HI|].
  destruct (estep e s) as [s1|] eqn:E; [|discriminate]. eapply IH; [exact H|]. eapply SI_step; eauto.
Qed.
Lemma SI_new a : ew_uncounted a = 0 -> SI (est_new a).
Proof.
  intros H. unfold SI, est_new; cbn. split; [intros i []|]. split; [rewrite H; apply sum_zero|]. split; [discriminate|]. split; [discriminate|].
  intros t k itv u [|x l1] l2 K; discriminate.
Qed.
(** A sum over some of the calls is at most the sum over all. *)
Lemma total_app a b : total (a ++ b) = total a + total b.
Proof. unfold total. induction a as [|x a IH]; cbn; [lra|]. rewrite IH. lra. Qed.
Lemma sub_total (f : nat -> R) U : forall V, NoDup U -> incl U V -> (forall i, In i V -> 0 <= f i) -> total (map f U) <= total (map f V).
Proof.
  induction U as [|x U IH]; intros V HN HI HF.
  - clear HI. unfold total in *. cbn [map fold_right]. induction V as [|y V IHV]; cbn [map fold_right]; [lra|]. assert (0 <= f y) by (apply HF; left; reflexivity).
    assert (0 <= fold_right Rplus 0 (map f V)) by (apply IHV; intros; apply HF; right; assumption). lra.
  - inversion HN as [|? ? N1 N2]; subst. destruct (in_split x V) as (V1 & V2 & ->); [apply HI; left; reflexivity|].
    assert (total (map f U) <= total (map f (V1 ++ V2))) as K.
    { apply IH; [exact N2| |].
      - intros i Q. assert (In i (V1 ++ x :: V2)) as W by (apply HI; right; exact Q). apply in_app_or in W as [W|[W|W]]; [apply in_or_app; auto|subst; contradiction|apply in_or_app; auto].
      - intros i Q. apply HF. apply in_app_or in Q as [Q|Q]; apply in_or_app; [left|right; right]; assumption. }
    rewrite !map_app, !total_app in *. unfold total in *. cbn [map fold_right]. lra.
Qed.
Lemma map_nth_seq (l : list R) : map (fun i => nth i l 0) (seq 0 (length l)) = l.
Proof. induction l as [|x l IH]; [reflexivity|]. cbn. f_equal. rewrite <- seq_shift, map_map. cbn. exact IH. Qed.
Lemma returned_bounds started log u : (forall i, In (Added i) log -> (i < length started)%nat) -> Forall (Rle 0) started ->
  sum_of_returned started log u -> 0 <= u <= total started.
Proof.
  intros HL HF (c & A & B & ->). rewrite Forall_forall in HF.
  assert (P : forall i, 0 <= nth i started 0).
  { intros i. destruct (nth_in_or_default i started 0) as [K| ->]; [apply HF, K|lra]. }
  split.
  - apply (sub_total (fun i => nth i started 0) [] c); [constructor|intros i []|auto].
  - replace (total started) with (total (map (fun i => nth i started 0) (seq 0 (length started)))) by (rewrite map_nth_seq; reflexivity). apply sub_total; [exact A| |auto]. intros i K. apply in_seq. split; [lia|]. cbn. apply HL, B, K.
Qed.
Lemma started_run evs : forall s s', eruns evs s = Some s' -> nonnegative evs -> Forall (Rle 0) (es_started s) -> Forall (Rle 0) (es_started s').
Proof.
  induction evs as [|e evs IH]; intros s s' H HN HF; cbn in H; [injection H as <-; exact HF|].
  destruct (estep e s) as [s1|] eqn:E; [|discriminate]. eapply IH; [exact H|intros t v K; eapply HN; right; exact K|].
  destruct e as [t v|t now|t now|t]; cbn in E; try (destruct (es_pc s t); try discriminate; injection E as <-; cbn).
  - apply Forall_app. split; [exact HF|]. constructor; [|constructor]. eapply HN. left. reflexivity.
  - exact HF.
  - exact HF.
  - destruct (advance _ _ _) as [[[a p] o]|]; [|discriminate]. injection E as <-. exact HF.
Qed.

(** ** A call on its own *)
Definition with_rates (s : ewma) (cur : R) (l : list (R * option R)) : ewma := mkEwma (ew_interval s) l 0 cur (ew_force s).
(** The rest of the loop from the k-th period on, with [x] for the k-th rate. *)
Definition rest_with (s : ewma) (cur itv : R) (k : nat) (x : R) : option ewma :=
  match nth_error (ew_rates s) k with
  | Some (p, _) =>
    match ew_steps (ew_uncounted s) itv (skipn (S k) (ew_rates s)) with
    | Some l => Some (with_rates s cur (firstn k (ew_rates s) ++ (p, Some x) :: l))
    | None => None
    end
  | None => None
  end.
Definition finish (t2 : R) (p : pc) (s : ewma) : option ewma :=
  match p with
  | Idle | AddStore _ _ _ => None
  | ReadLast t1 => ew_read t1 t2 s
  | ReadForce => if ew_force s then ew_update t2 (clear_force s) else Some s
  | ClearForce => ew_update t2 (clear_force s)
  | UpdClock => ew_update t2 s
  | UpdLast cur => ew_update cur s
  | UpdLoop cur itv k =>
    match ew_steps (ew_uncounted s) itv (skipn k (ew_rates s)) with
    | Some l => Some (with_rates s cur (firstn k (ew_rates s) ++ l))
    | None => None
    end
  | UpdTest cur itv k nr =>
    match nth_error (ew_rates s) k with
    | Some (_, None) => rest_with s cur itv k nr
    | Some (p, Some r) => if Req_EM_T p 0 then None else rest_with s cur itv k (r + (1 - exp (- itv / p)) * (nr - r))
    | None => None
    end
  | UpdFirst cur itv k nr => rest_with s cur itv k nr
  | UpdLeft cur itv k nr =>
    match nth_error (ew_rates s) k with
    | Some (p, Some r) => rest_with s cur itv k (r + (1 - exp (- itv / p)) * (nr - r))
    | _ => None
    end
  | UpdRight cur itv k nr l =>
    match nth_error (ew_rates s) k with
    | Some (p, Some r) => rest_with s cur itv k (l + (1 - exp (- itv / p)) * (nr - r))
    | _ => None
    end
  | UpdStore cur itv k x => rest_with s cur itv k x
  | UpdReset cur => Some (with_rates s cur (ew_rates s))
  | UpdDone cur => Some (set_last s cur)
  | Copy => Some s
  end.

Lemma skipn_nth {A} (l : list A) k x : nth_error l k = Some x -> skipn k l = x :: skipn (S k) l.
Proof. revert l. induction k as [|k IH]; intros [|y l] H; cbn in H; try discriminate; [injection H as ->; reflexivity|]. cbn. rewrite (IH l H). reflexivity. Qed.
Lemma set_rate_split l k p r x : nth_error l k = Some (p, r) -> set_rate l k x = firstn k l ++ (p, Some x) :: skipn (S k) l.
Proof.
  revert l. induction k as [|k IH]; intros [|[q y] l] H; cbn in H; try discriminate; [injection H as -> ->; reflexivity|].
  cbn [set_rate firstn app]. rewrite (IH l H). reflexivity.
Qed.
Lemma finish_store s cur itv k x : (exists e, nth_error (ew_rates s) k = Some e) ->
  rest_with s cur itv k x = finish 0 (UpdLoop cur itv (S k)) (set_rates s (set_rate (ew_rates s) k x)).
Proof.
  intros ([p r] & H). unfold rest_with. rewrite H. cbn [finish ew_rates set_rates ew_uncounted]. rewrite (set_rate_split _ _ _ _ _ H).
  assert (L : length (firstn k (ew_rates s)) = k). { apply firstn_length_le. apply Nat.lt_le_incl. apply nth_error_Some. congruence. }
  rewrite skipn_app, firstn_app, L. replace (S k - k)%nat with 1%nat by lia.
  rewrite (skipn_all2 (firstn k (ew_rates s))) by lia. rewrite (firstn_all2 (firstn k (ew_rates s))) by lia.
  cbn [skipn firstn app]. destruct (ew_steps _ _ _); [|reflexivity]. unfold with_rates. cbn. rewrite <- app_assoc. reflexivity.
Qed.
(** The k-th period exists. *)
Definition at_period (p : pc) (s : ewma) : Prop :=
  match p with
  | UpdTest _ _ k _ | UpdFirst _ _ k _ | UpdLeft _ _ k _ | UpdRight _ _ k _ _ | UpdStore _ _ k _ => exists e, nth_error (ew_rates s) k = Some e
  | _ => True
  end.
Lemma finish_advance t t2 p s s' p' o : (forall i v tmp, p <> AddStore i v tmp) -> at_period p s -> advance t p s = Some (s', p', o) ->
  (p' <> Idle /\ finish t2 p s = finish t2 p' s' /\ at_period p' s' /\ (forall i v tmp, p' <> AddStore i v tmp) /\ Forall (fun x => exists k itv u, x = Sample t k itv u) o) \/
  (p' = Idle /\ finish t2 p s = Some s' /\ o = [Returned t (ew_rates s')]) \/
  (p' = Idle /\ finish t2 p s = None /\ o = [Raised t]).
Proof.
  intros NA AP H. destruct p; cbn [advance] in H; try discriminate.
  - destruct (NA _ _ _ eq_refl).
  - injection H as <- <- <-. left. cbn [finish]. unfold ew_read. destruct (Rle_dec _ _); (split; [discriminate|]); (split; [reflexivity|]); (split; [exact I|]); (split; [discriminate|constructor]).
  - injection H as <- <- <-. left. cbn [finish]. destruct (ew_force s); (split; [discriminate|]); (split; [reflexivity|]); (split; [exact I|]); (split; [discriminate|constructor]).
  - injection H as <- <- <-. left. (split; [discriminate|]); (split; [reflexivity|]); (split; [exact I|]); (split; [discriminate|constructor]).
  - injection H as <- <- <-. left. cbn [finish skipn firstn app]. unfold ew_update, with_rates. (split; [discriminate|]); (split; [reflexivity|]); (split; [exact I|]); (split; [discriminate|constructor]).
  - destruct (nth_error (ew_rates s) k) as [[p r]|] eqn:EK.
    + destruct (Req_EM_T itv 0) as [Z|NZ]; injection H as <- <- <-.
      * right. right. split; [reflexivity|]. split; [|reflexivity]. cbn [finish]. rewrite (skipn_nth _ _ _ EK). cbn [ew_steps ew_step]. destruct (Req_EM_T itv 0); [reflexivity|contradiction].
      * left. split; [discriminate|]. split; [|split; [cbn; rewrite EK; eauto|split; [discriminate|constructor; [eauto|constructor]]]].
        cbn [finish]. unfold rest_with. rewrite EK, (skipn_nth _ _ _ EK). cbn [ew_steps ew_step]. destruct (Req_EM_T itv 0); [contradiction|].
        destruct r as [r|]; [destruct (Req_EM_T p 0); [reflexivity|]|]; destruct (ew_steps _ _ _); reflexivity.
    + injection H as <- <- <-. left. split; [discriminate|]. split; [|split; [exact I|split; [discriminate|constructor]]].
      cbn [finish]. apply nth_error_None in EK. rewrite skipn_all2, firstn_all2 by lia. cbn. rewrite app_nil_r. reflexivity.
  - destruct (nth_error (ew_rates s) k) as [[p [r|]]|] eqn:EK; [destruct (Req_EM_T p 0) as [Z|NZ]| |discriminate]; injection H as <- <- <-.
    + right. right. split; [reflexivity|]. split; [|reflexivity]. cbn [finish]. rewrite EK. destruct (Req_EM_T p 0); [reflexivity|contradiction].
    + left. split; [discriminate|]. split; [|split; [cbn; rewrite EK; eauto|split; [discriminate|constructor]]]. cbn [finish]. rewrite EK. destruct (Req_EM_T p 0); [contradiction|reflexivity].
    + left. split; [discriminate|]. split; [|split; [cbn; rewrite EK; eauto|split; [discriminate|constructor]]]. cbn [finish]. rewrite EK. reflexivity.
  - injection H as <- <- <-. left. split; [discriminate|]. split; [|split; [exact I|split; [discriminate|constructor]]]. cbn [finish]. apply finish_store, AP.
  - destruct (nth_error (ew_rates s) k) as [[p [r|]]|] eqn:EK; injection H as <- <- <-.
    + left. split; [discriminate|]. split; [|split; [cbn; rewrite EK; eauto|split; [discriminate|constructor]]]. cbn [finish]. rewrite EK. reflexivity.
    + right. right. split; [reflexivity|]. split; [|reflexivity]. cbn [finish]. rewrite EK. reflexivity.
    + right. right. split; [reflexivity|]. split; [|reflexivity]. cbn [finish]. rewrite EK. reflexivity.
  - destruct (nth_error (ew_rates s) k) as [[p [r|]]|] eqn:EK; injection H as <- <- <-.
    + left. split; [discriminate|]. split; [|split; [cbn; rewrite EK; eauto|split; [discriminate|constructor]]]. cbn [finish]. rewrite EK. reflexivity.
    + right. right. split; [reflexivity|]. split; [|reflexivity]. cbn [finish]. rewrite EK. reflexivity.
    + right. right. split; [reflexivity|]. split; [|reflexivity]. cbn [finish]. rewrite EK. reflexivity.
  - injection H as <- <- <-. left. split; [discriminate|]. split; [|split; [exact I|split; [discriminate|constructor]]]. cbn [finish]. apply finish_store, AP.
  - injection H as <- <- <-. left. split; [discriminate|]. split; [reflexivity|split; [exact I|split; [discriminate|constructor]]].
  - injection H as <- <- <-. left. split; [discriminate|]. split; [reflexivity|split; [exact I|split; [discriminate|constructor]]].
  - injection H as <- <- <-. right. left. split; [reflexivity|]. split; reflexivity.
Qed.

Lemma alone_run t t2 evs : forall s s', own_steps t t2 evs -> eruns evs s = Some s' -> es_pc s t <> Idle -> (forall i v tmp, es_pc s t <> AddStore i v tmp) ->
  at_period (es_pc s t) (es_acc s) -> es_pc s' t = Idle ->
  es_started s' = es_started s /\ (forall t', t' <> t -> es_pc s' t' = es_pc s t') /\
  exists samples, Forall (fun x => exists k itv u, x = Sample t k itv u) samples /\
    ((finish t2 (es_pc s t) (es_acc s) = Some (es_acc s') /\ es_log s' = Returned t (ew_rates (es_acc s')) :: samples ++ es_log s) \/
     (finish t2 (es_pc s t) (es_acc s) = None /\ es_log s' = Raised t :: samples ++ es_log s)).
Proof.
  induction evs as [|e evs IH]; intros s s' HO H NI NA AP HF; cbn in H; [injection H as <-; contradiction|].
  inversion HO as [|? ? HE HO']; subst. destruct (estep e s) as [s1|] eqn:E; [|discriminate].
  destruct HE as [-> | ->]; cbn in E.
  - destruct (advance t (es_pc s t) (es_acc s)) as [[[a p] o]|] eqn:EA; [|discriminate]. injection E as <-.
    destruct (finish_advance t t2 _ _ _ _ _ NA AP EA) as [(F1 & F2 & F3 & F4 & F5)|[(-> & F2 & ->)|(-> & F2 & ->)]].
    + edestruct IH as (A & B & samples & C & D); [exact HO'|exact H|..]; cbn; rewrite ?upd_same; try assumption.
      cbn in A, B, D. rewrite upd_same in D. split; [exact A|]. split; [intros t' N; rewrite (B t' N); apply upd_other, N|].
      exists (samples ++ o). split; [apply Forall_app; split; assumption|]. rewrite F2, <- app_assoc. exact D.
    + destruct evs as [|e evs]; [cbn in H; injection H as <-|].
      * cbn. split; [reflexivity|]. split; [intros t' N; apply upd_other, N|]. exists []. split; [constructor|]. left. split; [exact F2|reflexivity].
      * exfalso. cbn in H. inversion HO' as [|? ? [-> | ->] _]; subst; cbn in H; rewrite upd_same in H; discriminate.
    + destruct evs as [|e evs]; [cbn in H; injection H as <-|].
      * cbn. split; [reflexivity|]. split; [intros t' N; apply upd_other, N|]. exists []. split; [constructor|]. right. split; [exact F2|reflexivity].
      * exfalso. cbn in H. inversion HO' as [|? ? [-> | ->] _]; subst; cbn in H; rewrite upd_same in H; discriminate.
  - destruct (es_pc s t) eqn:EP; try discriminate. injection E as <-.
    edestruct IH as (A & B & samples & C & D); [exact HO'|exact H|..]; cbn; rewrite ?upd_same; try assumption; try discriminate; try exact I.
    cbn in A, B, D. rewrite upd_same in D. split; [exact A|]. split; [intros t' N; rewrite (B t' N); apply upd_other, N|].
    exists samples. split; [exact C|]. exact D.
Qed.
(** On its own a call comes to an end. *)
Definition measure (p : pc) (n : nat) : nat :=
  match p with
  | Idle => 0 | AddStore _ _ _ => 1 | Copy => 1 | UpdDone _ => 2 | UpdReset _ => 3
  | UpdLoop _ _ k => 4 + 8 * (n - k)
  | UpdTest _ _ k _ => 11 + 8 * (n - S k) | UpdFirst _ _ k _ => 6 + 8 * (n - S k)
  | UpdLeft _ _ k _ => 10 + 8 * (n - S k) | UpdRight _ _ k _ _ => 9 + 8 * (n - S k) | UpdStore _ _ k _ => 6 + 8 * (n - S k)
  | UpdLast _ => 5 + 8 * n | UpdClock => 6 + 8 * n | ClearForce => 7 + 8 * n | ReadForce => 8 + 8 * n | ReadLast _ => 9 + 8 * n
  end%nat.
Lemma set_rate_length l : forall k x, length (set_rate l k x) = length l.
Proof. induction l as [|[p r] l IH]; intros [|k] x; cbn; auto. Qed.
Lemma advance_measure t p s s' p' o : at_period p s -> advance t p s = Some (s', p', o) ->
  length (ew_rates s') = length (ew_rates s) /\ (measure p' (length (ew_rates s)) < measure p (length (ew_rates s)))%nat.
Proof.
  intros AP H. destruct p; cbn [advance] in H; try discriminate;
  repeat match type of H with
    | match ?x with Some _ => _ | None => _ end = _ => destruct x eqn:?
    | (if ?c then _ else _) = _ => destruct c
    | match ?x with (_, _) => _ end = _ => destruct x
    end; try discriminate; injection H as <- <- <-; (split; [cbn; rewrite ?set_rate_length; reflexivity|]); cbn [measure];
  repeat match goal with |- context [if ?c then _ else _] => destruct c end; cbn [measure]; try lia;
  try match goal with E : nth_error ?l ?k = Some _ |- _ => assert (k < length l)%nat by (apply nth_error_Some; congruence) end; lia.
Qed.
Lemma alone_completes t t2 n : forall s, es_pc s t <> Idle -> (forall i v tmp, es_pc s t <> AddStore i v tmp) -> at_period (es_pc s t) (es_acc s) ->
  (measure (es_pc s t) (length (ew_rates (es_acc s))) <= n)%nat -> exists evs s', own_steps t t2 evs /\ eruns evs s = Some s' /\ es_pc s' t = Idle.
Proof.
  induction n as [|n IH]; intros s NI NA AP HM.
  - destruct (es_pc s t); cbn in HM; try lia. contradiction.
  - destruct (advance t (es_pc s t) (es_acc s)) as [[[a p] o]|] eqn:EA.
    + destruct (advance_measure _ _ _ _ _ _ AP EA) as (L & M).
      assert (ES : estep (EvStep t) s = Some (mkEst a (upd_pc (es_pc s) t p) (es_started s) (o ++ es_log s))) by (cbn; rewrite EA; reflexivity).
      destruct (finish_advance t t2 _ _ _ _ _ NA AP EA) as [(F1 & F2 & F3 & F4 & F5)|[(-> & F2 & _)|(-> & F2 & _)]].
      * edestruct (IH (mkEst a (upd_pc (es_pc s) t p) (es_started s) (o ++ es_log s))) as (evs & s' & A & B & C); cbn; rewrite ?upd_same; try assumption; [rewrite L; lia|].
        exists (EvStep t :: evs), s'. split; [constructor; auto|]. split; [|exact C]. cbn [eruns]. rewrite ES. exact B.
      * eexists [EvStep t], _. split; [constructor; [auto|constructor]|]. split; [cbn [eruns]; rewrite ES; reflexivity|]. cbn. apply upd_same.
      * eexists [EvStep t], _. split; [constructor; [auto|constructor]|]. split; [cbn [eruns]; rewrite ES; reflexivity|]. cbn. apply upd_same.
    + destruct (es_pc s t) eqn:EP; cbn [advance] in EA; try discriminate; try contradiction.
      * edestruct (IH (mkEst (es_acc s) (upd_pc (es_pc s) t (UpdLast t2)) (es_started s) (es_log s))) as (evs & s' & A & B & C); cbn [es_pc es_acc]; rewrite ?upd_same; try discriminate; try exact I.
        { cbn [measure] in *. lia. }
        exists (EvClock t t2 :: evs), s'. split; [constructor; auto|]. split; [|exact C]. cbn [eruns estep]. rewrite EP. exact B.
      * destruct (nth_error _ _) as [[? ?]|]; [destruct (Req_EM_T _ _)|]; discriminate.
      * cbn in AP. destruct AP as ([q r] & AP). rewrite AP in EA. destruct r; [destruct (Req_EM_T _ _)|]; discriminate.
      * destruct (nth_error _ _) as [[? [?|]]|]; discriminate.
      * destruct (nth_error _ _) as [[? [?|]]|]; discriminate.
Qed.

(** ** Calls that do not overlap *)
Definition EI (k : nat) (s : est) (p : pc) : Prop :=
  let sum := counted k (es_log s) in let tot := total (es_started s) in let u := ew_uncounted (es_acc s) in
  match p with
  | AddStore _ v tmp => tmp = u /\ sum + u + v = tot
  | UpdLoop _ _ j => if (j <=? k)%nat then sum + u = tot else sum = tot
  | UpdTest _ _ j _ | UpdFirst _ _ j _ | UpdLeft _ _ j _ | UpdRight _ _ j _ _ | UpdStore _ _ j _ => if (j <? k)%nat then sum + u = tot else sum = tot
  | UpdReset _ => sum = tot
  | UpdDone _ => sum = tot /\ u = 0
  | _ => sum + u = tot
  end.
Definition no_raise (log : list obs) : Prop := forall t, ~ In (Raised t) log.
Lemma EI_advance k t p s a p' o : (k < length (ew_rates (es_acc s)))%nat -> EI k s p -> advance t p (es_acc s) = Some (a, p', o) -> no_raise o ->
  length (ew_rates a) = length (ew_rates (es_acc s)) /\ forall f, EI k (mkEst a f (es_started s) (o ++ es_log s)) p'.
Proof.
  intros HK HE H HN. destruct p; cbn [advance] in H; try discriminate.
  all: repeat match type of H with
    | match ?x with Some _ => _ | None => _ end = _ => destruct x eqn:?
    | (if ?c then _ else _) = _ => destruct c
    | match ?x with (_, _) => _ end = _ => destruct x
    end; try discriminate; injection H as <- <- <-; try (exfalso; apply (HN t); left; reflexivity);
    (split; [cbn; rewrite ?set_rate_length; reflexivity|]); intros f; unfold EI in *; cbn -[Nat.leb Nat.ltb Nat.eqb total] in *.
  all: try lra.
  all: try (destruct (Rle_dec _ _); lra).
  all: try (destruct (ew_force _); lra).
  all: repeat match goal with E : nth_error ?l ?j = None |- _ => apply nth_error_None in E end.
  all: repeat match goal with
    | H : context [Nat.eqb ?x ?y] |- _ => destruct (Nat.eqb_spec x y)
    | |- context [Nat.eqb ?x ?y] => destruct (Nat.eqb_spec x y)
    | H : context [Nat.leb ?x ?y] |- _ => destruct (Nat.leb_spec x y)
    | |- context [Nat.leb ?x ?y] => destruct (Nat.leb_spec x y)
    | H : context [Nat.ltb ?x ?y] |- _ => destruct (Nat.ltb_spec x y)
    | |- context [Nat.ltb ?x ?y] => destruct (Nat.ltb_spec x y)
    end; try lia; try lra.
Qed.
Definition EJ (k : nat) (s : est) : Prop := exists t, (forall t', t' <> t -> es_pc s t' = Idle) /\ EI k s (es_pc s t).
Lemma EJ_idle k s : EJ k s -> (forall t, es_pc s t = Idle) -> counted k (es_log s) + ew_uncounted (es_acc s) = total (es_started s).
Proof. intros (t & _ & H) HI. rewrite HI in H. exact H. Qed.
Lemma log_grows evs : forall s s', eruns evs s = Some s' -> exists l, es_log s' = l ++ es_log s.
Proof.
  induction evs as [|e evs IH]; intros s s' H; cbn in H; [injection H as <-; exists []; reflexivity|].
  destruct (estep e s) as [s1|] eqn:E; [|discriminate]. destruct (IH _ _ H) as (l & ->).
  assert (exists o, es_log s1 = o ++ es_log s) as (o & ->); [|exists (l ++ o); apply app_assoc].
  destruct e as [t v|t now|t now|t]; cbn in E; try (destruct (es_pc s t); try discriminate; injection E as <-; exists []; reflexivity).
  destruct (advance _ _ _) as [[[a p] o]|]; [|discriminate]. injection E as <-. exists o. reflexivity.
Qed.
Lemma EJ_run k evs : forall s s', eruns evs s = Some s' -> apart evs s -> no_raise (es_log s') ->
  (k < length (ew_rates (es_acc s)))%nat -> EJ k s -> EJ k s'.
Proof.
  induction evs as [|e evs IH]; intros s s' H HA HN HK HJ; cbn in H; [injection H as <-; exact HJ|].
  cbn in HA. destruct HA as (HA1 & HA2). destruct (estep e s) as [s1|] eqn:E; [|discriminate].
  assert (N1 : no_raise (es_log s1)). { destruct (log_grows _ _ _ H) as (l & EL). intros t K. apply (HN t). rewrite EL. apply in_or_app. right. exact K. }
  assert (S1 : (k < length (ew_rates (es_acc s1)))%nat /\ EJ k s1); [|destruct S1; eapply IH; eauto].
  destruct e as [t v|t now|t now|t]; cbn in E.
  - destruct (es_pc s t) eqn:EP; try discriminate. pose proof (EJ_idle k s HJ HA1) as HS. injection E as <-. split; [exact HK|]. exists t. cbn. rewrite upd_same. split.
    + intros t' N. rewrite upd_other by exact N. apply HA1.
    + unfold EI. cbn. split; [reflexivity|]. rewrite total_app. unfold total in *. cbn. lra.
  - destruct (es_pc s t) eqn:EP; try discriminate. pose proof (EJ_idle k s HJ HA1) as HS. injection E as <-. split; [exact HK|]. exists t. cbn. rewrite upd_same. split.
    + intros t' N. rewrite upd_other by exact N. apply HA1.
    + exact HS.
  - destruct (es_pc s t) eqn:EP; try discriminate. injection E as <-. split; [exact HK|]. destruct HJ as (t0 & J1 & J2).
    assert (t0 = t) as ->. { destruct (Nat.eq_dec t t0) as [X|X]; [auto|]. rewrite (J1 t X) in EP. discriminate. }
    exists t. cbn. rewrite upd_same. split; [intros t' N; rewrite upd_other by exact N; apply J1, N|]. rewrite EP in J2. exact J2.
  - destruct (advance t (es_pc s t) (es_acc s)) as [[[a p] o]|] eqn:EA; [|discriminate]. injection E as <-. destruct HJ as (t0 & J1 & J2).
    assert (t0 = t) as ->. { destruct (Nat.eq_dec t t0) as [X|X]; [auto|]. rewrite (J1 t X) in EA. discriminate. }
    destruct (EI_advance k t _ _ _ _ _ HK J2 EA) as (A & B).
    { intros t' K. apply (N1 t'). cbn. apply in_or_app. left. exact K. }
    cbn [es_acc]. split; [lia|]. exists t. cbn [es_pc]. rewrite upd_same. split; [intros t' N; rewrite upd_other by exact N; apply J1, N|]. apply B.
Qed.
