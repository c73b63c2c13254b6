(** Statistics over the lines of a program: C90. *)
From Verif Require Import model.PyBase model.Quantile model.Sinks spec.SinkSpec model.Core spec.CoreSpec spec.ProgramSpec
  model.StatFeed spec.StatSpec proof.CoreLib proof.CoreWith proof.CoreDispatch proof.CoreAsync proof.ProgramProofs.
Open Scope nat_scope.

Definition matches (names : nat -> string) (e : end_ev) (n : line) : Prop :=
  ee_logger e = (n_log n, names (n_log n)) /\ ee_name e = n_name n /\ ee_status e = status_name (n_status n) /\ answered e = true.

Lemma fed_app names getter w s a b : fed names getter w s (a ++ b) = fed names getter w s a ++ fed names getter w s b.
Proof. apply flat_map_app. Qed.
Lemma fed_handed names getter w s t : fed names getter w s t = fed names getter w s (handed t).
Proof. induction t as [|o t IH]; [reflexivity|]. unfold fed in *. destruct o; cbn; [..]; try (rewrite IH; reflexivity); exact IH. Qed.
Lemma fed_deliveries names getter w s l k e d : NoDup d ->
  fed names getter w s (deliveries l k e d) = if kind_eqb k KEnd && existsb (Nat.eqb s) d then [end_seen names getter w e] else [].
Proof.
  unfold deliveries. induction 1 as [|x d Hx Hd IH]; [destruct k; reflexivity|]. cbn [map fed flat_map existsb].
  unfold fed in IH. rewrite IH. rewrite (Nat.eqb_sym s x). destruct k; cbn [kind_eqb andb]; try reflexivity.
  destruct (Nat.eqb_spec x s) as [->|]; cbn [orb]; [|reflexivity].
  destruct (existsb (Nat.eqb s) d) eqn:E; [|reflexivity]. apply existsb_eqb_In in E. contradiction.
Qed.

Lemma fed_evs cfg names getter w w' s evs : (forall l, NoDup (lg_sinks (w_logs w l))) -> cf_has cfg s KEnd = true ->
  Forall (fun q => owned w' (fst q) (snd (snd q))) evs ->
  Forall2 (matches names) (fed names getter w' s (flat_map (heard_by cfg (fun l => lg_sinks (w_logs w l))) evs))
    (ended w s (map (fun q => line_seen w' (fst q) (snd q)) evs)).
Proof.
  intros HN HE. induction evs as [|[l [k e]] evs IH]; intro HF; [constructor|].
  inversion HF as [|? ? Ho HF']; subst. specialize (IH HF'). cbn [flat_map map]. rewrite fed_app.
  unfold heard_by at 1. cbn [fst snd] in *. rewrite fed_deliveries by (apply NoDup_filter, HN).
  unfold ended. cbn [filter]. change (n_log (line_seen w' l (k, e))) with l. change (n_kind (line_seen w' l (k, e))) with k.
  assert (E : kind_eqb k KEnd && existsb (Nat.eqb s) (heard cfg (fun l => lg_sinks (w_logs w l)) l k) =
              kind_eqb k KEnd && existsb (Nat.eqb s) (lg_sinks (w_logs w l))).
  { destruct (kind_eqb k KEnd) eqn:Ek; [|reflexivity]. apply kind_eqb_eq in Ek. subst k. cbn [andb]. apply eq_true_iff_eq.
    rewrite !existsb_eqb_In. unfold heard. rewrite filter_In. tauto. }
  rewrite E. clear E. destruct (kind_eqb k KEnd && existsb (Nat.eqb s) (lg_sinks (w_logs w l))); [|exact IH]. cbn [app]. constructor; [|exact IH].
  destruct Ho as (a & Ha & Hl). unfold end_seen, matches, line_seen. cbn [fst snd n_log n_name n_status]. rewrite Ha, Hl. cbn. auto.
Qed.

Lemma Forall2_len {A B} (R : A -> B -> Prop) la lb : Forall2 R la lb -> length la = length lb.
Proof. induction 1; cbn; auto. Qed.
Lemma Forall2_filter {A B} (R : A -> B -> Prop) (f : A -> bool) (g : B -> bool) la lb :
  Forall2 R la lb -> (forall a b, R a b -> In b lb -> f a = g b) -> Forall2 R (filter f la) (filter g lb).
Proof.
  induction 1 as [|a b la lb Hab HF IH]; intro H; [constructor|]. cbn.
  rewrite (H a b Hab (or_introl eq_refl)). assert (IH' : Forall2 R (filter f la) (filter g lb)) by (apply IH; intros; apply H; [assumption|right; assumption]).
  destruct (g b); [constructor|]; assumption.
Qed.
Lemma Forall2_count {A B} (R : A -> B -> Prop) (f : A -> bool) (g : B -> bool) la lb :
  Forall2 R la lb -> (forall a b, R a b -> In b lb -> f a = g b) -> count_if f la = count_if g lb.
Proof. intros H1 H2. unfold count_if. eapply Forall2_len. eapply Forall2_filter; eassumption. Qed.
Lemma all_answered names es ls : Forall2 (matches names) es ls -> filter answered es = es.
Proof. induction 1 as [|e n es ls H HF IH]; [reflexivity|]. cbn. destruct H as (_ & _ & _ & ->). rewrite IH. reflexivity. Qed.
Lemma count_answered names es ls f : Forall2 (matches names) es ls -> count_if answered (filter f es) = count_if f es.
Proof.
  intro H. unfold count_if. f_equal. induction H as [|e n es ls Hm HF IH]; [reflexivity|]. cbn. destruct Hm as (_ & _ & _ & Ha).
  destruct (f e); cbn; rewrite ?Ha, IH; reflexivity.
Qed.

Lemma matches_in names es ls e : Forall2 (matches names) es ls -> In e es -> exists n, In n ls /\ matches names e n.
Proof. induction 1 as [|a b la lb Hab HF IH]; [contradiction|]. intros [<-|H]; [exists b; split; [left|]; auto|]. destruct (IH H) as (n & N1 & N2). exists n. split; [right|]; auto. Qed.
Lemma matches_in' names es ls n : Forall2 (matches names) es ls -> In n ls -> exists e, In e es /\ matches names e n.
Proof. induction 1 as [|a b la lb Hab HF IH]; [contradiction|]. intros [<-|H]; [exists a; split; [left|]; auto|]. destruct (IH H) as (m & N1 & N2). exists m. split; [right|]; auto. Qed.

Lemma matches_distinct names es ls : proper_names names -> Forall2 (matches names) es ls -> distinct_names es.
Proof.
  intros [HI _] H e e' He He'. destruct (matches_in _ _ _ _ H He) as (n & _ & (-> & _)). destruct (matches_in _ _ _ _ H He') as (n' & _ & (-> & _)).
  cbn. split; [congruence|apply HI].
Qed.
Lemma matches_reserved names es ls : proper_names names -> (forall n, In n ls -> n_name n <> "__all__") -> Forall2 (matches names) es ls -> no_reserved es.
Proof.
  intros [_ HA] HL H e He. destruct (matches_in _ _ _ _ H He) as (n & Hn & (-> & -> & -> & _)). cbn.
  split; [apply HA|]. split; [apply HL, Hn|]. destruct (n_status n) as [[]|]; discriminate.
Qed.

Lemma name_eqb names l l' : proper_names names -> String.eqb (names l) (names l') = Nat.eqb l l'.
Proof.
  intros [HI _]. destruct (Nat.eqb_spec l l') as [->|Hn]; [apply String.eqb_refl|]. apply String.eqb_neq. intro E. apply Hn, HI, E.
Qed.

(** The end events handed to the sink during the program are its end lines. *)
Lemma fed_lines cfg describe names getter s w sk t :
  reach cfg w -> all_quiet cfg -> (forall x, cf_describe cfg x = Ok (describe x)) ->
  (forall l, lg_async (w_logs w l) = false /\ lg_queue (w_logs w l) = []) ->
  scoped [] s -> cf_has cfg sk KEnd = true ->
  let w' := fst (eval cfg None s w) in
  w_trace w' = w_trace w ++ t ->
  Forall2 (matches names) (fed names getter w' sk t) (ended w sk (lines_of describe (w_active w) s (length (w_acts w)))).
Proof.
  intros HR HA HD HM HS HE w' Ht.
  destruct (program_log cfg describe s w HR HA HD HM HS) as (_ & _ & _ & _ & t' & q & H4 & H5 & H6 & H7). fold w' in H4, H6, H7.
  assert (t' = t) by (eapply app_inv_head; rewrite <- H4; exact Ht). subst t'.
  rewrite fed_handed, H5. unfold lines_of. rewrite <- H6. apply fed_evs; auto. intro l. apply (wi_hooks _ _ (reach_winv cfg w HR)).
Qed.
Lemma of_name_is names e n n' : proper_names names -> matches names e n' -> of_name (names (n_log n)) (n_name n) e = same_name n n'.
Proof.
  intros HP (N1 & N2 & _). unfold of_name, of_logger, same_name, same_logger. rewrite N1, N2. cbn [snd]. rewrite (name_eqb names _ _ HP). reflexivity.
Qed.
Lemma values_count names es ls f : Forall2 (matches names) es ls -> length (values_of f es) = count_if f es.
Proof.
  intro H. unfold values_of, count_if. induction H as [|e n es ls Hm HF IH]; [reflexivity|]. cbn. destruct Hm as (_ & _ & _ & Ha).
  unfold answered in Ha. destruct (ee_value e) eqn:E; [|discriminate]. destruct (f e); [|exact IH]. cbn. rewrite E. cbn. rewrite IH. reflexivity.
Qed.

Definition end_of names getter w (p : kind * event) : list end_ev := match fst p with KEnd => [end_seen names getter w (snd p)] | _ => [] end.
Lemma fed_received names getter w s l t : fed names getter w s (calls_of l t) = flat_map (end_of names getter w) (received l s t).
Proof.
  induction t as [|o t IH]; [reflexivity|]. destruct o as [l' k s' e| |]; [|exact IH|exact IH].
  cbn [calls_of filter received flat_map]. fold (calls_of l t). fold (received l s t). destruct (l' =? l) eqn:E; cbn [andb]; [|exact IH].
  change (fed names getter w s (ODeliver l' k s' e :: calls_of l t)) with
    ((match k with KEnd => if s' =? s then [end_seen names getter w e] else [] | _ => [] end) ++ fed names getter w s (calls_of l t)).
  rewrite flat_map_app, <- IH. f_equal. destruct (s' =? s); destruct k; reflexivity.
Qed.
Lemma end_of_plain names getter w ps : flat_map (end_of names getter w) ps = flat_map (end_of names getter w) (filter plain ps).
Proof. induction ps as [|[k e] ps IH]; [reflexivity|]. destruct k; cbn; rewrite IH; reflexivity. Qed.

Lemma ended_concluded describe root w sk s n y : In y (ended w sk (lines_of describe root s n)) -> n_status y <> None.
Proof.
  unfold ended. rewrite filter_In. intros [H1 H2]. apply andb_true_iff in H2. destruct H2 as [H2 _]. apply kind_eqb_eq in H2.
  exact (log_concluded describe root s None n [] y H1 H2).
Qed.
Lemma status_is y : n_status y <> None -> status_name (n_status y) = outcome_text y.
Proof. unfold outcome_text. destruct (n_status y) as [[]|]; intro H; try reflexivity. contradiction. Qed.
Lemma of_status_is names e n n' : proper_names names -> matches names e n' -> n_status n <> None -> n_status n' <> None ->
  of_status (names (n_log n)) (n_name n) (outcome_text n) e = same_status n n'.
Proof.
  intros HP Hm H H'. unfold of_status, same_status. rewrite (of_name_is names e n n' HP Hm). f_equal.
  destruct Hm as (_ & _ & -> & _). rewrite <- (status_is n H). destruct (n_status n) as [[]|]; destruct (n_status n') as [[]|]; try reflexivity; contradiction.
Qed.
