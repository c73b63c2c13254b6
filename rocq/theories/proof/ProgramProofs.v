(** The log of a program: C89. *)
From Verif Require Import model.PyBase model.Core spec.CoreSpec spec.CallSpec spec.ProgramSpec
  proof.CoreLib proof.CoreTrans proof.CoreInv proof.CoreWith proof.CoreDispatch proof.CoreAsync proof.CallProofs.

Section S.
Variable cfg : config.
Hypothesis HQ : forall k, hook_quiet cfg k.
Hypothesis HP : forall t l h, cf_pre cfg t l h = None.
Hypothesis HN : forall t m, cf_note cfg t m = None.
Variable describe : exn -> string.
Hypothesis HD : forall x, cf_describe cfg x = Ok (describe x).
Variable root : nat -> option nat.
Variable ss : nat -> list nat.

Definition heard (l : nat) (k : kind) : list nat := filter (fun s => cf_has cfg s k) (ss l).

Definition steady (w : world) : Prop :=
  forall l, lg_async (w_logs w l) = false /\ lg_queue (w_logs w l) = [] /\ lg_sinks (w_logs w l) = ss l /\
            forall k, lg_hooks (w_logs w l) k = heard l k.

Lemma steady_same w w' : w_logs w' = w_logs w -> steady w -> steady w'.
Proof. intros E H l. rewrite E. apply H. Qed.

Lemma publish_steady l k e w : steady w -> publish cfg l k e w = (add_trace (deliveries l k e (heard l k)) w, Ok tt).
Proof.
  intros H. unfold publish, bind, get_log. destruct (H l) as (-> & _ & _ & ->). apply call_hooks_quiet. intros h s. apply HQ.
Qed.

(** ** What happens between two states *)
Definition statics (w w' : world) : Prop :=
  forall r a, nth_error (w_acts w) r = Some a -> exists a', nth_error (w_acts w') r = Some a' /\ same_static a a'.

Lemma statics_refl w w' : w_acts w' = w_acts w -> statics w w'.
Proof. intros E r a H. exists a. rewrite E. split; [exact H|apply same_static_refl]. Qed.
Lemma statics_trans w1 w2 w3 : statics w1 w2 -> statics w2 w3 -> statics w1 w3.
Proof.
  intros H1 H2 r a Ha. destruct (H1 r a Ha) as (b & Hb & S1). destruct (H2 r b Hb) as (c & Hc & S2).
  exists c. split; [exact Hc|]. unfold same_static in *. intuition congruence.
Qed.
Lemma statics_set w w' r a a' : nth_error (w_acts w) r = Some a -> w_acts w' = list_set (w_acts w) r a' -> same_static a a' -> statics w w'.
Proof.
  intros Ha E S q b Hb. rewrite E. destruct (Nat.eq_dec r q) as [<-|Hn].
  - exists a'. split; [apply nth_error_list_set_eq; eapply nth_error_lt; exact Ha|]. congruence.
  - exists b. rewrite nth_error_list_set_neq by exact Hn. split; [exact Hb|apply same_static_refl].
Qed.
Lemma statics_snoc w w' a : w_acts w' = w_acts w ++ [a] -> statics w w'.
Proof.
  intros E r b Hb. exists b. rewrite E, nth_error_app1 by (eapply nth_error_lt; exact Hb). split; [exact Hb|apply same_static_refl].
Qed.

Definition heard_by (q : nat * (kind * event)) : list obs :=
  deliveries (fst q) (fst (snd q)) (snd (snd q)) (heard (fst q) (fst (snd q))).

(** The event belongs to an action of the logger. *)
Definition owned (w : world) (l : nat) (e : event) : Prop := exists a, nth_error (w_acts w) (e_act e) = Some a /\ a_log a = l.
Lemma owned_keep w w' l e : statics w w' -> owned w l e -> owned w' l e.
Proof. intros S (a & Ha & Hl). destruct (S _ _ Ha) as (a' & Ha' & _ & S2 & _). exists a'. split; congruence. Qed.
Lemma owned_lt w l e : owned w l e -> e_act e < length (w_acts w).
Proof. intros (a & Ha & _). eapply nth_error_lt; exact Ha. Qed.

Definition grows (w w' : world) (ls : list line) : Prop :=
  statics w w' /\
  exists t evs, w_trace w' = w_trace w ++ t /\ handed t = flat_map heard_by evs /\
    map (fun q => line_seen w' (fst q) (snd q)) evs = ls /\
    Forall (fun q => owned w' (fst q) (snd (snd q))) evs.

Lemma grows_quiet w w' t : statics w w' -> w_trace w' = w_trace w ++ t -> handed t = [] -> grows w w' [].
Proof. intros S E H. split; [exact S|]. exists t, []. repeat split; auto. Qed.

Lemma grows_nil w w' : w_acts w' = w_acts w -> w_trace w' = w_trace w -> grows w w' [].
Proof. intros E H. apply (grows_quiet w w' []); [apply statics_refl, E|rewrite app_nil_r; exact H|reflexivity]. Qed.

Lemma handed_app a b : handed (a ++ b) = handed a ++ handed b.
Proof. apply filter_app. Qed.
Lemma handed_deliveries l k e hs : handed (deliveries l k e hs) = deliveries l k e hs.
Proof. unfold handed, deliveries. induction hs as [|h hs IH]; [reflexivity|]. cbn. rewrite IH. reflexivity. Qed.

Lemma line_seen_static w w' l p : statics w w' -> e_act (snd p) < length (w_acts w) -> line_seen w' l p = line_seen w l p.
Proof.
  intros S H. unfold line_seen. destruct (nth_error (w_acts w) (e_act (snd p))) as [a|] eqn:Ea; [|apply nth_error_None in Ea; lia].
  destruct (S _ _ Ea) as (a' & -> & _ & _ & S3 & S4 & _ & S6). rewrite S3, S4, S6. reflexivity.
Qed.

Lemma grows_trans w1 w2 w3 a b : grows w1 w2 a -> grows w2 w3 b -> grows w1 w3 (a ++ b).
Proof.
  intros (S1 & t1 & e1 & T1 & H1 & M1 & F1) (S2 & t2 & e2 & T2 & H2 & M2 & F2).
  split; [eapply statics_trans; eassumption|]. exists (t1 ++ t2), (e1 ++ e2).
  split; [rewrite T2, T1, app_assoc; reflexivity|]. split; [rewrite handed_app, H1, H2, flat_map_app; reflexivity|].
  split.
  - rewrite map_app, M2. f_equal. rewrite <- M1. apply map_ext_in. intros q Hq. rewrite Forall_forall in F1.
    apply line_seen_static; [exact S2|]. eapply owned_lt. apply F1, Hq.
  - apply Forall_app. split; [|exact F2]. eapply Forall_impl; [|exact F1]. intros q Hq. eapply owned_keep; eassumption.
Qed.

Lemma grows_one w w' l k e t n : statics w w' -> owned w' l e ->
  w_trace w' = w_trace w ++ t -> t = deliveries l k e (heard l k) -> line_seen w' l (k, e) = n -> grows w w' [n].
Proof.
  intros S He Ht -> Hn. split; [exact S|]. exists (deliveries l k e (heard l k)), [(l, (k, e))].
  split; [exact Ht|]. split; [cbn; rewrite app_nil_r; apply handed_deliveries|]. split; [cbn; rewrite Hn; reflexivity|]. constructor; [exact He|constructor].
Qed.

(** ** Blocks and actions *)
Definition verdict_is (v : option (status * string * option exn)) (r : nat) (oe : option event) : Prop :=
  match v, oe with
  | None, None => True
  | Some (st, m, x), Some e => e_status e = Some st /\ e_msg e = m /\ e_exc e = x /\ e_act e = r /\ e_kind e = KEnd
  | _, _ => False
  end.

Definition is_nil {A} (l : list A) : bool := match l with [] => true | _ => false end.

Record okf (a : action) (f : block) : Prop := {
  ok_log : a_log a = f_log f; ok_level : a_level a = f_level f; ok_name : a_name a = f_name f;
  ok_par : a_parent a = f_parent f; ok_keyed : f_keyed f = negb (is_nil (a_data a));
  ok_trans : a_trans a = true; ok_defer : a_defer a = true; ok_begun : a_begin a <> None;
  ok_verdict : verdict_is (f_verdict f) (f_num f) (a_end a) }.

Definition okb (w : world) (f : block) : Prop :=
  w_env w (f_var f) = Some (f_num f) /\ exists a, nth_error (w_acts w) (f_num f) = Some a /\ okf a f.

Fixpoint linked (fs : list block) : Prop :=
  match fs with [] => True | f :: fs' => f_parent f = current root (f_log f) fs' /\ linked fs' end.

Record rel (n : nat) (fs : list block) (w : world) : Prop := {
  r_steady : steady w; r_len : length (w_acts w) = n; r_ok : Forall (okb w) fs;
  r_nums : NoDup (map f_num fs); r_vars : NoDup (map f_var fs);
  r_active : forall l, w_active w l = current root l fs; r_linked : linked fs }.

Definition ident (f : block) := (f_var f, f_num f, f_log f, f_parent f).
Definition keeps (g : block -> block) : Prop := forall f, ident (g f) = ident f.

Lemma on_ident x g fs : keeps g -> map ident (on_block x g fs) = map ident fs.
Proof.
  intros Hg. unfold on_block. rewrite map_map. apply map_ext. intros f. destruct (f_var f =? x); [apply Hg|reflexivity].
Qed.
Lemma ident_map {A} (h : block -> A) (h' : nat * nat * nat * option nat -> A) fs fs' :
  (forall f, h f = h' (ident f)) -> map ident fs = map ident fs' -> map h fs = map h fs'.
Proof.
  intros Hh H. rewrite (map_ext _ _ Hh), <- (map_map ident h'), H, map_map. rewrite (map_ext _ _ Hh). reflexivity.
Qed.
Lemma ident_vars fs fs' : map ident fs = map ident fs' -> map f_var fs = map f_var fs'.
Proof. apply (ident_map f_var (fun q => fst (fst (fst q)))). reflexivity. Qed.
Lemma ident_nums fs fs' : map ident fs = map ident fs' -> map f_num fs = map f_num fs'.
Proof. apply (ident_map f_num (fun q => snd (fst (fst q)))). reflexivity. Qed.
Lemma cons_inv {A} (x y : A) l l' : x :: l = y :: l' -> x = y /\ l = l'.
Proof. intros H. split; congruence. Qed.
Lemma list_set_set {A} (l : list A) i a b : list_set (list_set l i a) i b = list_set l i b.
Proof. revert i. induction l as [|x l IH]; intros [|i]; cbn; f_equal; auto. Qed.
Lemma ident_current l fs fs' : map ident fs = map ident fs' -> current root l fs = current root l fs'.
Proof.
  revert fs'. induction fs as [|f fs IH]; intros [|f' fs'] H; try discriminate; [reflexivity|].
  cbn [map] in H. apply cons_inv in H. destruct H as [H1 H2]. unfold current in *. cbn [find]. unfold ident in H1.
  assert (E : f_log f = f_log f' /\ f_num f = f_num f') by (injection H1; auto). destruct E as [-> E].
  destruct (f_log f' =? l); [rewrite E; reflexivity|apply IH, H2].
Qed.
Lemma ident_linked fs fs' : map ident fs = map ident fs' -> linked fs -> linked fs'.
Proof.
  revert fs'. induction fs as [|f fs IH]; intros [|f' fs'] H; try discriminate; [auto|].
  cbn [map] in H. apply cons_inv in H. destruct H as [H1 H2]. cbn. intros [L1 L2]. unfold ident in H1.
  assert (E : f_log f = f_log f' /\ f_parent f = f_parent f') by (injection H1; auto). destruct E as [E1 E2].
  rewrite <- E1, <- E2, <- (ident_current _ _ _ H2). split; [exact L1|apply IH; assumption].
Qed.

Lemma find_in x fs f : find_block x fs = Some f -> In f fs /\ f_var f = x.
Proof. intros H. apply find_some in H. destruct H as [H1 H2]. apply Nat.eqb_eq in H2. auto. Qed.
Lemma find_scoped x fs : In x (map f_var fs) -> exists f, find_block x fs = Some f.
Proof.
  intros H. apply in_map_iff in H. destruct H as (f & Hx & Hf). unfold find_block.
  destruct (find (fun f => f_var f =? x) fs) as [f'|] eqn:E; [exists f'; reflexivity|].
  pose proof (find_none _ _ E f Hf) as Hn. cbn in Hn. rewrite Hx, Nat.eqb_refl in Hn. discriminate.
Qed.

Lemma NoDup_map_inj {A B} (h : A -> B) l a b : NoDup (map h l) -> In a l -> In b l -> h a = h b -> a = b.
Proof.
  induction l as [|c l IH]; cbn; [tauto|]. intros H Ha Hb E. inversion H as [|? ? H1 H2]; subst.
  destruct Ha as [->|Ha], Hb as [->|Hb]; auto.
  - exfalso. apply H1. rewrite E. apply in_map, Hb.
  - exfalso. apply H1. rewrite <- E. apply in_map, Ha.
Qed.

(** One action changed. *)
Lemma rel_set n fs w w' x f a' g : rel n fs w -> find_block x fs = Some f ->
  w_acts w' = list_set (w_acts w) (f_num f) a' -> w_env w' = w_env w -> w_active w' = w_active w -> w_logs w' = w_logs w ->
  okf a' (g f) -> keeps g -> rel n (on_block x g fs) w'.
Proof.
  intros R Hf Ea Ee Ec El Hok Hg. destruct (find_in _ _ _ Hf) as [Hin Hx]. pose proof (on_ident x g fs Hg) as Hid.
  destruct R as [R1 R2 R3 R4 R5 R6 R7]. constructor.
  - eapply steady_same; eassumption.
  - rewrite Ea, list_set_length. exact R2.
  - unfold on_block. apply Forall_map. rewrite Forall_forall in R3 |- *. intros h Hh. destruct (R3 h Hh) as (E1 & a & Ha & Hoka).
    destruct (Nat.eqb_spec (f_var h) x) as [E|Hne].
    + assert (h = f) by (eapply (NoDup_map_inj f_var fs); eauto; congruence). subst h.
      pose proof (Hg f) as Hgf. unfold ident in Hgf. injection Hgf as G1 G2 G3 G4.
      split; [rewrite Ee, G1, G2; exact E1|]. exists a'. split; [|exact Hok].
      rewrite Ea, G2. apply nth_error_list_set_eq. eapply nth_error_lt; exact Ha.
    + split; [rewrite Ee; exact E1|]. exists a. split; [|exact Hoka]. rewrite Ea, nth_error_list_set_neq; [exact Ha|].
      intro E. apply Hne. rewrite <- Hx. f_equal. symmetry. eapply (NoDup_map_inj f_num fs); eauto.
  - rewrite (ident_nums _ _ Hid). exact R4.
  - rewrite (ident_vars _ _ Hid). exact R5.
  - intro l. rewrite Ec, (ident_current l _ _ Hid). apply R6.
  - eapply ident_linked; [symmetry; exact Hid|exact R7].
Qed.

Lemma rel_get n fs w x f : rel n fs w -> find_block x fs = Some f ->
  w_env w x = Some (f_num f) /\ exists a, nth_error (w_acts w) (f_num f) = Some a /\ okf a f.
Proof.
  intros R Hf. destruct (find_in _ _ _ Hf) as [Hin <-]. pose proof (r_ok _ _ _ R) as H. rewrite Forall_forall in H. apply H, Hin.
Qed.

Lemma rel_lookup n fs w x f : rel n fs w -> find_block x fs = Some f -> lookup x w = (w, Ok (f_num f)).
Proof. intros R Hf. unfold lookup. destruct (rel_get _ _ _ _ _ R Hf) as (-> & _). reflexivity. Qed.

Lemma dset_nonnil k v d : is_nil (dset String.eqb k v d : data) = false.
Proof. destruct d as [|[k' v'] d]; [reflexivity|]. cbn. destruct (String.eqb k k'); reflexivity. Qed.
Lemma dupdate_nil d kw : negb (is_nil (dupdate String.eqb d kw : data)) = (negb (is_nil d) || given kw)%bool.
Proof.
  unfold dupdate. revert d. induction kw as [|[k v] kw IH]; intro d; cbn [fold_left fst snd].
  - cbn. rewrite orb_false_r. reflexivity.
  - rewrite IH, dset_nonnil. cbn. rewrite orb_true_r. reflexivity.
Qed.

Lemma append_nil s : s +s "" = s.
Proof. induction s as [|c s IH]; [reflexivity|]. cbn. rewrite IH. reflexivity. Qed.
Lemma default_is a f s : okf a f -> with_data a (a_name a +s s) = default f s.
Proof.
  intros H. unfold with_data, default. rewrite (ok_keyed _ _ H), <- (ok_name _ _ H).
  destruct (a_data a); cbn; [rewrite append_nil|]; reflexivity.
Qed.

Lemma okf_keyed a f kw : okf a f -> okf (kw_upd kw a) (keyed kw f).
Proof.
  intros []. constructor; cbn; auto. rewrite dupdate_nil, ok_keyed0. reflexivity.
Qed.
Lemma keeps_keyed kw : keeps (keyed kw).
Proof. intro f. reflexivity. Qed.

Definition runs (n : nat) (fs : list block) (w : world) (p : world * res unit) (o : outcome) : Prop :=
  let '(n', fs', ls, r) := o in
  snd p = r /\ rel n' fs' (fst p) /\ map ident fs' = map ident fs /\ grows w (fst p) ls.

Lemma line_of_block a f w' k e : nth_error (w_acts w') (f_num f) = Some a ->
  a_log a = f_log f -> a_level a = f_level f -> a_name a = f_name f -> a_parent a = f_parent f -> e_act e = f_num f ->
  line_seen w' (f_log f) (k, e) = line_at f k (e_status e) (e_msg e) (e_exc e).
Proof. intros Ha H1 H2 H3 H4 He. unfold line_seen. cbn [fst snd]. rewrite He, Ha, H2, H3, H4. reflexivity. Qed.

Lemma begin_runs n fs w x m kw cur : rel n fs w -> In x (map f_var fs) ->
  runs n fs w (eval cfg cur (SBegin x m kw) w) (n, on_block x (keyed kw) fs, [], Ok tt).
Proof.
  intros R Hx. destruct (find_scoped _ _ Hx) as (f & Hf). destruct (rel_get _ _ _ _ _ R Hf) as (_ & a & Ha & Hok).
  cbn [eval]. unfold bind. rewrite (rel_lookup _ _ _ _ _ R Hf), begin_eq, Ha. cbv zeta.
  destruct (a_begin a) eqn:Eb; [|destruct (ok_begun _ _ Hok Eb)]. cbn [fst snd runs].
  split; [reflexivity|]. split; [|split; [apply on_ident, keeps_keyed|]].
  - eapply rel_set; try eassumption; try reflexivity; [apply okf_keyed, Hok|apply keeps_keyed].
  - apply (grows_quiet _ _ []); [|rewrite app_nil_r; reflexivity|reflexivity]. eapply statics_set; [exact Ha|reflexivity|repeat split].
Qed.

Lemma set_runs n fs w x k v cur : rel n fs w -> In x (map f_var fs) ->
  runs n fs w (eval cfg cur (SSet x k v) w) (n, on_block x (keyed [(k, v)]) fs, [], Ok tt).
Proof.
  intros R Hx. destruct (find_scoped _ _ Hx) as (f & Hf). destruct (rel_get _ _ _ _ _ R Hf) as (_ & a & Ha & Hok).
  cbn [eval]. unfold bind, setitem, mod_act. rewrite (rel_lookup _ _ _ _ _ R Hf), Ha. cbn [fst snd runs].
  split; [reflexivity|]. split; [|split; [apply on_ident, keeps_keyed|]].
  - eapply rel_set; try eassumption; try reflexivity; [|apply keeps_keyed].
    apply (okf_keyed a f [(k, v)] Hok).
  - apply (grows_quiet _ _ []); [|rewrite app_nil_r; reflexivity|reflexivity]. eapply statics_set; [exact Ha|reflexivity|repeat split].
Qed.

Lemma warn_runs n fs w x m kw cur : rel n fs w -> In x (map f_var fs) ->
  runs n fs w (eval cfg cur (SWarn x m kw) w) (log_of describe root cur (SWarn x m kw) n fs).
Proof.
  intros R Hx. destruct (find_scoped _ _ Hx) as (f & Hf). destruct (rel_get _ _ _ _ _ R Hf) as (_ & a & Ha & Hok).
  cbn [eval log_of]. unfold bind. rewrite (rel_lookup _ _ _ _ _ R Hf), warn_eq, Ha, Hf. cbv zeta.
  set (e := mkEvent _ _ _ _ _ _ _). set (w1 := with_event _ _ _ _).
  rewrite publish_steady by (eapply steady_same; [|exact (r_steady _ _ _ R)]; reflexivity). cbn [fst snd runs].
  split; [reflexivity|]. split; [|split; [apply on_ident, keeps_keyed|]].
  - eapply rel_set; try eassumption; try reflexivity; [|apply keeps_keyed].
    pose proof (okf_keyed a f kw Hok) as K. destruct K. constructor; auto.
  - pose proof (nth_error_lt _ _ _ Ha) as Hlt.
    eapply (grows_one _ _ (a_log a) KWarn e); [eapply statics_set; [exact Ha|reflexivity|repeat split]| |reflexivity|reflexivity|].
    + eexists. split; [cbn; apply nth_error_list_set_eq; exact Hlt|reflexivity].
    + rewrite (ok_log _ _ Hok).
      rewrite (line_of_block (a_set_warns (a_warns a ++ [e]) (kw_upd kw a)) f);
        [reflexivity|cbn; apply nth_error_list_set_eq; exact Hlt| | | | |reflexivity]; destruct Hok; auto.
Qed.

(** Ending a transactional action: the event is published unless that is deferred. *)
Lemma end_world w r a st m kw et ex : steady w -> nth_error (w_acts w) r = Some a -> a_trans a = true ->
  exists w' e, end_ cfg r st m kw et ex w = (w', Ok tt) /\
    w_acts w' = list_set (w_acts w) r (a_set_end (Some e) (kw_upd kw a)) /\
    (e_status e = Some st /\ e_msg e = m /\ e_exc e = ex /\ e_act e = r /\ e_kind e = KEnd) /\
    w_env w' = w_env w /\ w_active w' = w_active w /\ w_logs w' = w_logs w /\
    w_trace w' = w_trace w ++ (if a_defer a then [] else deliveries (a_log a) KEnd e (heard (a_log a) KEnd)).
Proof.
  intros HS Ha Ht. rewrite end_eq, Ha. cbv zeta. rewrite Ht. pose proof (nth_error_lt _ _ _ Ha) as Hlt.
  assert (F : forall t w1, w_acts w1 = list_set (w_acts w) r (kw_upd kw a) -> w_env w1 = w_env w -> w_active w1 = w_active w ->
     w_logs w1 = w_logs w -> w_trace w1 = w_trace w ->
     exists w' e, finish_end cfg r st m ex t w1 = (w', Ok tt) /\
       w_acts w' = list_set (w_acts w) r (a_set_end (Some e) (kw_upd kw a)) /\
       (e_status e = Some st /\ e_msg e = m /\ e_exc e = ex /\ e_act e = r /\ e_kind e = KEnd) /\
       w_env w' = w_env w /\ w_active w' = w_active w /\ w_logs w' = w_logs w /\
       w_trace w' = w_trace w ++ (if a_defer a then [] else deliveries (a_log a) KEnd e (heard (a_log a) KEnd))).
  { intros t w1 E1 E2 E3 E4 E5. unfold finish_end. rewrite E1, nth_error_list_set_eq by exact Hlt. cbv zeta.
    change (a_defer (kw_upd kw a)) with (a_defer a). change (a_log (kw_upd kw a)) with (a_log a). destruct (a_defer a).
    - eexists. eexists. split; [reflexivity|]. cbn. rewrite E1, list_set_set, E5, app_nil_r. repeat split; auto.
    - rewrite publish_steady by (eapply steady_same; [|exact HS]; exact E4).
      eexists. eexists. split; [reflexivity|]. cbn. rewrite E1, list_set_set, E5. repeat split; auto. }
  destruct et as [t|]; [destruct (Z.eqb t 0)|]; apply F; reflexivity.
Qed.

Lemma exception_world w r a m kw ex : steady w -> nth_error (w_acts w) r = Some a -> a_trans a = true ->
  exists w' x e, exception_ cfg r (Some ex) m kw w = (w', Ok tt) /\
    w_acts w' = list_set (w_acts w) r (a_set_end (Some e) (kw_upd kw (a_set_excs (a_excs a ++ [x]) a))) /\
    (let mm := text m (with_data a (a_name a +s " raised exception: " +s describe ex)) in
     (e_status e = Some Exception_ /\ e_msg e = mm /\ e_exc e = Some ex /\ e_act e = r /\ e_kind e = KEnd) /\
     (e_status x = None /\ e_msg x = mm /\ e_exc x = Some ex /\ e_act x = r)) /\
    w_env w' = w_env w /\ w_active w' = w_active w /\ w_logs w' = w_logs w /\
    w_trace w' = w_trace w ++ deliveries (a_log a) KExc x (heard (a_log a) KExc) ++
      (if a_defer a then [] else deliveries (a_log a) KEnd e (heard (a_log a) KEnd)).
Proof.
  intros HS Ha Ht. rewrite exception_eq, Ha. cbv zeta. unfold exc_msg.
  set (mm := text m (with_data a (a_name a +s " raised exception: " +s describe ex))).
  assert (Em : (if String.eqb (opt_msg m "") "" then match cf_describe cfg ex with
      | Ok d => Ok (dm_suffix a (a_name a +s " raised exception: " +s d)) | Raise y => Raise y end else Ok (opt_msg m "")) = Ok mm).
  { rewrite HD, data_dm, text_opt. unfold mm. destruct m as [[|c s]|]; reflexivity. }
  rewrite Em. set (x := mkEvent _ _ _ _ _ _ _). set (w1 := with_event _ _ _ _).
  rewrite call_hooks_quiet by (intros; apply HQ). set (w2 := add_trace _ _).
  pose proof (nth_error_lt _ _ _ Ha) as Hlt.
  assert (A1 : nth_error (w_acts w2) r = Some (a_set_excs (a_excs a ++ [x]) a)) by (cbn; apply nth_error_list_set_eq; exact Hlt).
  destruct (end_world w2 r _ Exception_ mm kw (Some (cf_clock cfg (w_clk w))) (Some ex) HS A1 Ht)
    as (w' & e & E1 & E2 & E3 & E4 & E5 & E6 & E7).
  rewrite E1. exists w', x, e. split; [reflexivity|]. split; [rewrite E2; cbn; apply list_set_set|].
  split; [split; [exact E3|repeat split]|]. split; [exact E4|]. split; [exact E5|]. split; [exact E6|].
  rewrite E7. unfold w2. cbn [w_trace add_trace set_trace w1 with_event act_upd set_acts set_hist set_ctr tick set_clk a_defer a_log a_set_excs].
  destruct (HS (a_log a)) as (_ & _ & _ & Hh). specialize (Hh KExc). cbn [lg_hooks] in Hh. rewrite Hh, <- app_assoc. reflexivity.
Qed.

Lemma conclude_runs n fs w x m kw cur (ok : bool) : rel n fs w -> In x (map f_var fs) ->
  runs n fs w (eval cfg cur (if ok then SSuccess x m kw else SFailure x m kw) w)
    (log_of describe root cur (if ok then SSuccess x m kw else SFailure x m kw) n fs).
Proof.
  intros R Hx. destruct (find_scoped _ _ Hx) as (f & Hf). destruct (rel_get _ _ _ _ _ R Hf) as (_ & a & Ha & Hok).
  set (v := fun f => (if ok then Success else Failure, text m (default f (if ok then " succeeded" else " failed")), @None exn)).
  assert (EL : log_of describe root cur (if ok then SSuccess x m kw else SFailure x m kw) n fs =
     (n, on_block x (fun f => keyed kw (judged (v f) f)) fs, [], Ok tt)) by (destruct ok; reflexivity).
  rewrite EL.
  destruct (end_world w (f_num f) a (if ok then Success else Failure) (text m (default f (if ok then " succeeded" else " failed"))) kw None None
     (r_steady _ _ _ R) Ha (ok_trans _ _ Hok)) as (w' & e & E1 & E2 & E3 & E4 & E5 & E6 & E7).
  assert (EE : eval cfg cur (if ok then SSuccess x m kw else SFailure x m kw) w =
     (set_hist (w_hist w' ++ [HCall (f_num f) (if ok then Success else Failure)]) w', Ok tt)).
  { destruct ok; cbn [eval]; unfold bind at 1; rewrite (rel_lookup _ _ _ _ _ R Hf); unfold success, failure; unfold bind, get_act; rewrite Ha;
      rewrite text_opt, data_dm, (default_is a f _ Hok), E1; reflexivity. }
  rewrite EE. cbn [fst snd runs]. assert (KG : keeps (fun f => keyed kw (judged (v f) f))) by (intro; reflexivity).
  split; [reflexivity|]. split; [|split; [apply on_ident, KG|]].
  - eapply (rel_set n fs w _ x f (a_set_end (Some e) (kw_upd kw a)) (fun f => keyed kw (judged (v f) f))); try eassumption.
    pose proof (okf_keyed a f kw Hok) as K. destruct K. constructor; auto; cbn; intuition.
  - apply (grows_quiet _ _ []); [|cbn; rewrite E7, (ok_defer _ _ Hok); reflexivity|reflexivity].
    eapply statics_set; [exact Ha|exact E2|repeat split].
Qed.

Lemma exception_runs n fs w x m kw cur : rel n fs w -> In x (map f_var fs) ->
  runs n fs w (eval cfg cur (SException x m kw) w) (log_of describe root cur (SException x m kw) n fs).
Proof.
  intros R Hx. destruct (find_scoped _ _ Hx) as (f & Hf). destruct (rel_get _ _ _ _ _ R Hf) as (_ & a & Ha & Hok).
  cbn [eval log_of]. unfold bind at 1. rewrite (rel_lookup _ _ _ _ _ R Hf). destruct cur as [ex|].
  - destruct (exception_world w (f_num f) a m kw ex (r_steady _ _ _ R) Ha (ok_trans _ _ Hok))
      as (w' & y & e & E1 & E2 & (E3 & E3') & E4 & E5 & E6 & E7).
    rewrite (default_is a f _ Hok : with_data a (a_name a +s " raised exception: " +s describe ex) = failed_with describe f ex) in E3, E3'.
    unfold bind. rewrite E1, Hf. cbn [fst snd runs add_hist].
    set (g := fun f => keyed kw (judged (Exception_, text m (failed_with describe f ex), Some ex) f)).
    assert (KG : keeps g) by (intro; reflexivity). pose proof (nth_error_lt _ _ _ Ha) as Hlt.
    split; [reflexivity|]. split; [|split; [apply (on_ident x g), KG|]].
    + eapply (rel_set n fs w _ x f (a_set_end (Some e) (kw_upd kw (a_set_excs (a_excs a ++ [y]) a))) g); try eassumption.
      pose proof (okf_keyed a f kw Hok) as K. destruct K. constructor; auto; cbn; intuition.
    + rewrite (ok_defer _ _ Hok), app_nil_r in E7.
      eapply (grows_one _ _ (a_log a) KExc y); [eapply statics_set; [exact Ha|exact E2|repeat split]| |exact E7|reflexivity|].
      * eexists. split; [cbn; rewrite E2, (proj2 (proj2 (proj2 E3'))); apply nth_error_list_set_eq; exact Hlt|reflexivity].
      * rewrite (ok_log _ _ Hok). destruct E3' as (Y1 & Y2 & Y3 & Y4).
        rewrite (line_of_block (a_set_end (Some e) (kw_upd kw (a_set_excs (a_excs a ++ [y]) a))) f);
          [rewrite Y1, Y2, Y3; reflexivity|cbn; rewrite E2; apply nth_error_list_set_eq; exact Hlt| | | | |exact Y4]; destruct Hok; auto.
  - unfold bind. rewrite exception_eq, Ha. cbn [fst snd runs]. split; [reflexivity|]. split; [|split; [reflexivity|apply grows_nil; reflexivity]].
    destruct R. constructor; auto.
Qed.

Lemma rel_same n fs w w' : rel n fs w -> w_acts w' = w_acts w -> w_env w' = w_env w -> w_active w' = w_active w -> steady w' -> rel n fs w'.
Proof.
  intros R E1 E2 E3 HS. destruct R. constructor; auto; try congruence. eapply Forall_impl; [|exact r_ok0].
  intros f (A & B). unfold okb. rewrite E1, E2. auto.
Qed.

Lemma elapsed_runs n fs w x cur : rel n fs w -> In x (map f_var fs) ->
  runs n fs w (eval cfg cur (SElapsed x) w) (n, fs, [], Ok tt).
Proof.
  intros R Hx. destruct (find_scoped _ _ Hx) as (f & Hf). destruct (rel_get _ _ _ _ _ R Hf) as (_ & a & Ha & Hok).
  cbn [eval]. unfold bind at 1. rewrite (rel_lookup _ _ _ _ _ R Hf). unfold discard, get_elapsed_time, bind, get_act. rewrite Ha.
  destruct (a_begin a); cbn; (split; [reflexivity|]; split; [|split; [reflexivity|apply grows_nil; reflexivity]]);
    (eapply rel_same; [exact R|reflexivity|reflexivity|reflexivity|exact (r_steady _ _ _ R)]).
Qed.

Lemma flush_runs n fs w l : rel n fs w -> runs n fs w (flush cfg l w) (n, fs, [], Ok tt).
Proof.
  intros R. pose proof (r_steady _ _ _ R) as HS. rewrite flush_eq, (preflush_quiet cfg HP).
  destruct (HS l) as (_ & Hq & _). cbn [w_logs add_trace set_trace]. rewrite Hq. cbn. split; [reflexivity|]. split; [|split; [reflexivity|]].
  - eapply rel_same; try exact R; try reflexivity. intro l'. cbn. unfold upd. destruct (Nat.eqb_spec l' l) as [->|]; apply HS.
  - eapply (grows_quiet _ _ (map (OPre l) (lg_pre (w_logs w l)))); [apply statics_refl; reflexivity|reflexivity|].
    generalize (lg_pre (w_logs w l)). intro hs. induction hs as [|h hs IH]; [reflexivity|exact IH].
Qed.

Lemma okb_snoc w w' a fs : w_acts w' = w_acts w ++ [a] -> w_env w' = w_env w -> Forall (okb w) fs -> Forall (okb w') fs.
Proof.
  intros E1 E2 H. eapply Forall_impl; [|exact H]. intros f (A & b & B & C). unfold okb. rewrite E1, E2. split; [exact A|].
  exists b. split; [|exact C]. rewrite nth_error_app1 by (eapply nth_error_lt; exact B). exact B.
Qed.

Lemma comment_runs n fs w l m kw cur : rel n fs w ->
  runs n fs w (comment cfg l m kw None w) (log_of describe root cur (SComment l m kw) n fs).
Proof.
  intros R. pose proof (r_steady _ _ _ R) as HS. rewrite comment_eq, publish_steady by (eapply steady_same; [|exact HS]; reflexivity).
  cbn [log_of fst snd runs]. split; [reflexivity|]. split; [|split; [reflexivity|]].
  - destruct R. constructor; auto.
    + cbn. rewrite app_length. cbn. lia.
    + eapply okb_snoc; [| |exact r_ok0]; reflexivity.
  - eapply (grows_one _ _ l KComment (cc cfg (length (w_acts w)) w m)); [eapply statics_snoc; reflexivity| |reflexivity|reflexivity|].
    + eexists. split; [cbn; rewrite nth_error_app2, Nat.sub_diag by lia; reflexivity|reflexivity].
    + unfold line_seen. cbn. rewrite nth_error_app2, Nat.sub_diag by lia. cbn. rewrite (r_len _ _ _ R), (r_active _ _ _ R). reflexivity.
Qed.

(** ** Entering and leaving a block *)
Lemma enter_runs n fs w x l lvl nm kw rr : rel n fs w -> ~ In x (map f_var fs) ->
  let f := Block x n l lvl nm (current root l fs) (given kw) None in
  exists w1, enter cfg n (new_act_world l lvl nm kw rr (w_active w l) w) = (w1, Ok tt) /\
    rel (S n) (f :: fs) (fst (bind_var x n w1)) /\ grows w (fst (bind_var x n w1)) [line_at f KBegin None (nm +s " beginning") None] /\
    exists a, nth_error (w_acts w1) n = Some a /\ a_reraise a = rr.
Proof.
  intros R Hx f. pose proof (r_steady _ _ _ R) as HS. pose proof (r_len _ _ _ R) as HL.
  set (w0 := new_act_world l lvl nm kw rr (w_active w l) w).
  set (a0 := mkAction (w_ctr w) l lvl nm kw rr (w_active w l) None None [] [] false false).
  assert (A0 : w_acts w0 = w_acts w ++ [a0]) by reflexivity.
  assert (N0 : nth_error (w_acts w0) n = Some a0) by (rewrite A0, nth_error_app2, HL, Nat.sub_diag by lia; reflexivity).
  assert (L0 : length (w_acts w0) = S n) by (rewrite A0, app_length; cbn; lia).
  rewrite enter_eq, N0, begin_eq. rewrite flag_enter_nth by lia. cbv zeta. cbn [a_begin a_set_defer a_set_trans a0].
  set (e := mkEvent _ _ _ _ _ _ _). set (w1 := with_event _ _ _ _).
  set (a1 := a_set_begin (Some e) (kw_upd [] (a_set_defer true (a_set_trans true a0)))) in w1.
  rewrite publish_steady by (eapply steady_same; [|exact HS]; reflexivity).
  eexists. split; [reflexivity|].
  assert (A1 : w_acts w1 = w_acts w ++ [a1]).
  { unfold w1. cbn. rewrite list_set_set, <- HL. apply list_set_snoc. }
  assert (N1 : nth_error (w_acts w1) n = Some a1) by (rewrite A1, nth_error_app2, HL, Nat.sub_diag by lia; reflexivity).
  split; [|split].
  - constructor.
    + exact HS.
    + change (length (w_acts w1) = S n). rewrite A1, app_length. cbn. lia.
    + constructor.
      * split; [cbn; apply upd_eq|]. exists a1. split; [exact N1|]. constructor; try reflexivity; try discriminate; cbn.
        -- apply (r_active _ _ _ R).
        -- unfold given. destruct kw; reflexivity.
      * pose proof (r_ok _ _ _ R) as HF. rewrite Forall_forall in HF |- *. intros h Hh. destruct (HF h Hh) as (E1 & b & B & C).
        split.
        -- cbn. rewrite upd_neq; [exact E1|]. intro E. apply Hx. rewrite <- E. apply in_map, Hh.
        -- exists b. split; [|exact C]. change (nth_error (w_acts w1) (f_num h) = Some b). rewrite A1, nth_error_app1 by (eapply nth_error_lt; exact B). exact B.
    + cbn. constructor; [|exact (r_nums _ _ _ R)]. intro H. apply in_map_iff in H. destruct H as (h & Eh & Hh).
      pose proof (r_ok _ _ _ R) as HF. rewrite Forall_forall in HF. destruct (HF h Hh) as (_ & b & B & _). apply nth_error_lt in B. lia.
    + cbn. constructor; [exact Hx|exact (r_vars _ _ _ R)].
    + intro l'. cbn. unfold current, upd. cbn. destruct (Nat.eqb_spec l' l) as [->|Hn]; [rewrite Nat.eqb_refl; reflexivity|].
      rewrite (proj2 (Nat.eqb_neq l l')) by congruence. apply (r_active _ _ _ R).
    + cbn. split; [reflexivity|exact (r_linked _ _ _ R)].
  - eapply (grows_one _ _ l KBegin e); [eapply statics_snoc; exact A1| |reflexivity|reflexivity|].
    + exists a1. split; [exact N1|reflexivity].
    + rewrite (line_of_block a1 f); [reflexivity|exact N1|reflexivity|reflexivity|reflexivity|cbn; apply (r_active _ _ _ R)|reflexivity].
  - exists a1. split; [exact N1|reflexivity].
Qed.

Definition suppresses (rr : option bool) : bool := match rr with Some false => true | _ => false end.

Lemma rel_tail n f fs w w' a' : rel n (f :: fs) w -> w_acts w' = list_set (w_acts w) (f_num f) a' -> w_env w' = w_env w ->
  w_logs w' = w_logs w -> w_active w' = upd (w_active w) (f_log f) (f_parent f) -> rel n fs w'.
Proof.
  intros R Ea Ee El Ec. destruct R as [R1 R2 R3 R4 R5 R6 R7]. inversion R3 as [|? ? H1 H2]; subst. inversion R4; subst. inversion R5; subst. destruct R7 as [R7 R8].
  constructor; auto.
  - eapply steady_same; eassumption.
  - rewrite Ea, list_set_length. reflexivity.
  - rewrite Forall_forall in H2 |- *. intros h Hh. destruct (H2 h Hh) as (E1 & b & B & C). split; [rewrite Ee; exact E1|].
    exists b. split; [|exact C]. rewrite Ea, nth_error_list_set_neq; [exact B|]. intro E. apply H3. rewrite E. apply in_map, Hh.
  - intro l. rewrite Ec. unfold upd. destruct (Nat.eqb_spec l (f_log f)) as [->|Hn]; [exact R7|].
    rewrite R6. unfold current. cbn. rewrite (proj2 (Nat.eqb_neq (f_log f) l)) by congruence. reflexivity.
Qed.

Lemma exit_runs n f fs w (r : res unit) a : rel n (f :: fs) w -> nth_error (w_acts w) (f_num f) = Some a ->
  exists w', exit_ cfg (f_num f) (match r with Raise x => Some x | Ok _ => None end) w = (w', Ok (suppresses (a_reraise a))) /\
    rel n fs w' /\ grows w w' (closing describe f r).
Proof.
  intros R Ha. pose proof (r_steady _ _ _ R) as HS.
  pose proof (r_ok _ _ _ R) as HF. inversion HF as [|? ? Hf _]; subst. destruct Hf as (_ & b & Hb & Hok). assert (b = a) by congruence. subst b.
  pose proof (nth_error_lt _ _ _ Ha) as Hlt. unfold exit_. unfold bind at 1, mod_act at 1. rewrite Ha.
  set (w0 := set_acts _ w). set (a0 := a_set_defer false a).
  assert (A0 : nth_error (w_acts w0) (f_num f) = Some a0) by (cbn; apply nth_error_list_set_eq; exact Hlt).
  assert (HS0 : steady w0) by exact HS. assert (T0 : a_trans a0 = true) by exact (ok_trans _ _ Hok).
  assert (Fin : forall w1 a1, w_acts w1 = list_set (w_acts w) (f_num f) a1 -> same_static a a1 -> w_env w1 = w_env w -> w_active w1 = w_active w ->
    w_logs w1 = w_logs w -> grows w w1 (closing describe f r) ->
    exists w', (a <- get_act (f_num f) ;; set_active_parent (a_log a) (a_parent a) ;;;
      ret (match a_reraise a with Some false => true | _ => false end)) w1 = (w', Ok (suppresses (a_reraise a))) /\ rel n fs w' /\ grows w w' (closing describe f r)).
  { intros w1 a1 E1 (_ & S2 & _ & _ & S5 & S6) E3 E4 E5 HG. unfold bind, get_act, set_active_parent, ret.
    rewrite E1, nth_error_list_set_eq, S5, S2, S6 by exact Hlt. eexists. split; [reflexivity|]. split.
    - eapply rel_tail; [exact R|exact E1|exact E3|exact E5|]. cbn. rewrite E4, (ok_log _ _ Hok), (ok_par _ _ Hok). reflexivity.
    - rewrite <- (app_nil_r (closing describe f r)). eapply grows_trans; [exact HG|]. apply grows_nil; reflexivity. }
  assert (Hok0 : forall s, with_data a0 (a_name a0 +s s) = default f s) by exact (fun s => default_is a f s Hok).
  destruct r as [u|ex].
  - unfold bind at 1. unfold bind at 1, get_act at 1. rewrite A0. change (a_end a0) with (a_end a).
    pose proof (ok_verdict _ _ Hok) as HV. unfold verdict_is in HV. unfold closing in Fin |- *.
    destruct (f_verdict f) as [[[st m] y]|] eqn:Ev; destruct (a_end a) as [e|] eqn:Ee; try contradiction.
    + rewrite on_end_publish, publish_steady by exact HS0. apply (Fin _ a0); try reflexivity; [repeat split|].
      destruct HV as (V1 & V2 & V3 & V4 & V5).
      eapply (grows_one _ _ (a_log a0) KEnd e); [eapply statics_set; [exact Ha|reflexivity|repeat split]| |reflexivity|reflexivity|].
      * exists a0. split; [rewrite V4; exact A0|reflexivity].
      * change (a_log a0) with (a_log a). rewrite (ok_log _ _ Hok).
        rewrite (line_of_block a0 f); [rewrite V1, V2, V3; reflexivity|exact A0| | | | |exact V4]; destruct Hok; auto.
    + unfold success. unfold bind at 1, get_act at 1. rewrite A0, text_opt, data_dm, Hok0.
      destruct (end_world w0 (f_num f) a0 Success (text None (default f " succeeded")) [] None None HS0 A0 T0)
        as (w' & e & E1 & E2 & (V1 & V2 & V3 & V4 & V5) & E4 & E5 & E6 & E7).
      rewrite E1. assert (E2' : w_acts w' = list_set (w_acts w) (f_num f) (a_set_end (Some e) (kw_upd [] a0))) by (rewrite E2; apply list_set_set).
      apply (Fin _ _ E2'); auto; [repeat split|].
      eapply (grows_one _ _ (a_log a0) KEnd e); [eapply statics_set; [exact Ha|exact E2'|repeat split]| |exact E7|reflexivity|].
      * eexists. split; [rewrite E2', V4; apply nth_error_list_set_eq; exact Hlt|reflexivity].
      * change (a_log a0) with (a_log a). rewrite (ok_log _ _ Hok).
        rewrite (line_of_block (a_set_end (Some e) (kw_upd [] a0)) f);
          [rewrite V1, V2, V3; reflexivity|rewrite E2'; apply nth_error_list_set_eq; exact Hlt| | | | |exact V4]; destruct Hok; auto.
  - destruct (exception_world w0 (f_num f) a0 None [] ex HS0 A0 T0) as (w' & x & e & E1 & E2 & (E3 & E3') & E4 & E5 & E6 & E7).
    unfold bind at 1. rewrite E1.
    set (a1 := a_set_end (Some e) (kw_upd [] (a_set_excs (a_excs a0 ++ [x]) a0))) in E2.
    assert (E2' : w_acts w' = list_set (w_acts w) (f_num f) a1) by (rewrite E2; apply list_set_set).
    rewrite Hok0 in E3, E3'. change (text None (default f (" raised exception: " +s describe ex))) with (failed_with describe f ex) in E3, E3'.
    destruct E3 as (V1 & V2 & V3 & V4 & V5), E3' as (Y1 & Y2 & Y3 & Y4).
    assert (N1 : nth_error (w_acts w') (f_num f) = Some a1) by (rewrite E2'; apply nth_error_list_set_eq; exact Hlt).
    apply (Fin _ a1); auto; [repeat split|]. split; [eapply statics_set; [exact Ha|exact E2'|repeat split]|].
    exists (deliveries (a_log a0) KExc x (heard (a_log a0) KExc) ++ deliveries (a_log a0) KEnd e (heard (a_log a0) KEnd)),
           [(f_log f, (KExc, x)); (f_log f, (KEnd, e))].
    split; [exact E7|]. split; [rewrite handed_app, !handed_deliveries; cbn; change (a_log a0) with (a_log a); rewrite (ok_log _ _ Hok), app_nil_r; reflexivity|].
    split.
    + cbn [map fst snd]. rewrite (line_of_block a1 f), (line_of_block a1 f), V1, V2, V3, Y1, Y2, Y3; auto; destruct Hok; auto.
    + repeat constructor; exists a1; cbn [fst snd]; rewrite ?V4, ?Y4; (split; [exact N1|exact (ok_log _ _ Hok)]).
Qed.

Theorem program_runs : forall s cur w n fs, scoped (map f_var fs) s -> rel n fs w ->
  runs n fs w (eval cfg cur s w) (log_of describe root cur s n fs).
Proof.
  assert (Idle : forall n fs w r, rel n fs w -> runs n fs w (w, r) (n, fs, [], r)).
  { intros n fs w r R. split; [reflexivity|]. split; [exact R|]. split; [reflexivity|]. apply grows_nil; reflexivity. }
  induction s as [|s1 IH1 s2 IH2| | |x l lvl nm kw rr px b IH| | | | | | | | | | | |all s1 IH1 s2 IH2]; intros cur w n fs HS R; cbn [scoped] in HS; try contradiction.
  - apply Idle, R.
  - destruct HS as [S1 S2]. specialize (IH1 cur w n fs S1 R). cbn [eval log_of]. unfold bind.
    destruct (log_of describe root cur s1 n fs) as [[[n1 fs1] ls1] r1]. destruct (eval cfg cur s1 w) as [w1 q1]. destruct IH1 as (E & R1 & I1 & G1). cbn [fst snd] in *. subst q1.
    destruct r1 as [u|x]; [|split; auto].
    specialize (IH2 cur w1 n1 fs1). rewrite (ident_vars _ _ I1) in IH2. specialize (IH2 S2 R1).
    destruct (log_of describe root cur s2 n1 fs1) as [[[n2 fs2] ls2] r2]. destruct (eval cfg cur s2 w1) as [w2 q2]. destruct IH2 as (E2 & R2 & I2 & G2). cbn [fst snd] in *.
    split; [exact E2|]. split; [exact R2|]. split; [congruence|eapply grows_trans; eassumption].
  - destruct HS as (Hx & -> & Hb). cbn [eval log_of lookup_opt]. unfold bind at 1, ret at 1. unfold bind at 1. rewrite new_action_eq, (r_len _ _ _ R).
    destruct (enter_runs n fs w x l lvl nm kw rr R Hx) as (w1 & E1 & R1 & G1 & a1 & Ha1 & Hr1). unfold with_block. rewrite E1.
    set (f := Block x n l lvl nm (current root l fs) (given kw) None) in *.
    unfold bind. change (bind_var x n w1) with (fst (bind_var x n w1), Ok tt). cbv iota beta.
    specialize (IH cur (fst (bind_var x n w1)) (S n) (f :: fs) Hb R1).
    destruct (log_of describe root cur b (S n) (f :: fs)) as [[[n2 fs1] ls] r]. destruct (eval cfg cur b (fst (bind_var x n w1))) as [w2 q].
    destruct IH as (E2 & R2 & I2 & G2). cbn [fst snd] in E2, R2, G2. subst q. destruct fs1 as [|f1 fs2]; [discriminate I2|].
    cbn [map] in I2. apply cons_inv in I2. destruct I2 as [If I2].
    assert (Enum : f_num f1 = n) by (unfold ident in If; injection If; auto).
    destruct (proj1 G2 n a1 Ha1) as (a2 & Ha2 & _ & _ & _ & _ & S5 & _).
    destruct (exit_runs n2 f1 fs2 w2 r a2 R2 ltac:(rewrite Enum; exact Ha2)) as (w3 & E3 & R3 & G3).
    rewrite Enum, S5, Hr1 in E3.
    assert (G : grows w w3 (line_at f KBegin None (nm +s " beginning") None :: ls ++ closing describe f1 r)).
    { change (line_at f KBegin None (nm +s " beginning") None :: ls ++ closing describe f1 r) with ([line_at f KBegin None (nm +s " beginning") None] ++ ls ++ closing describe f1 r).
      eapply grows_trans; [exact G1|]. eapply grows_trans; [exact G2|exact G3]. }
    destruct r as [u|ex]; [unfold discard, bind; rewrite E3; cbn; split; [reflexivity|split; auto]|].
    rewrite E3. unfold propagate, suppresses. destruct rr as [[|]|]; (split; [reflexivity|split; auto]).
  - apply begin_runs; assumption.
  - apply warn_runs; assumption.
  - exact (conclude_runs n fs w x m kw cur true R HS).
  - exact (conclude_runs n fs w x m kw cur false R HS).
  - apply exception_runs; assumption.
  - apply set_runs; assumption.
  - apply elapsed_runs; assumption.
  - apply comment_runs; assumption.
  - apply flush_runs; assumption.
  - apply Idle, R.
  - cbn [eval log_of]. destruct cur; apply Idle, R.
  - destruct HS as [S1 S2]. specialize (IH1 cur w n fs S1 R). cbn [eval log_of].
    destruct (log_of describe root cur s1 n fs) as [[[n1 fs1] ls1] r1]. destruct (eval cfg cur s1 w) as [w1 q1]. destruct IH1 as (E & R1 & I1 & G1). cbn [fst snd] in *. subst q1.
    destruct r1 as [u|x]; [split; auto|]. destruct (all || exn_ord x)%bool; [|split; auto].
    specialize (IH2 (Some x) w1 n1 fs1). rewrite (ident_vars _ _ I1) in IH2. specialize (IH2 S2 R1).
    destruct (log_of describe root (Some x) s2 n1 fs1) as [[[n2 fs2] ls2] r2]. destruct (eval cfg (Some x) s2 w1) as [w2 q2]. destruct IH2 as (E2 & R2 & I2 & G2). cbn [fst snd] in *.
    split; [exact E2|]. split; [exact R2|]. split; [congruence|eapply grows_trans; eassumption].
Qed.
End S.

(** ** From states to sinks *)
Lemma reach_steady cfg w : reach cfg w -> (forall l, lg_async (w_logs w l) = false /\ lg_queue (w_logs w l) = []) ->
  steady cfg (fun l => lg_sinks (w_logs w l)) w.
Proof.
  intros HR H l. destruct (H l) as [H1 H2]. repeat split; auto. intro k. apply (wi_hooks _ _ (reach_winv cfg w HR)).
Qed.

Lemma received_evs cfg ss l s evs : NoDup (ss l) -> In s (ss l) ->
  received l s (flat_map (heard_by cfg ss) evs) = map snd (filter (fun q => Nat.eqb (fst q) l && cf_has cfg s (fst (snd q))) evs).
Proof.
  intros HN Hin. induction evs as [|[l' [k e]] evs IH]; [reflexivity|].
  cbn [flat_map filter map fst snd]. rewrite received_app, IH. unfold heard_by at 1. cbn [fst snd].
  destruct (Nat.eqb_spec l' l) as [->|Hn]; [|rewrite received_other by exact Hn; reflexivity].
  rewrite received_here by (apply NoDup_filter, HN). unfold heard. cbn [andb].
  assert (E : existsb (Nat.eqb s) (filter (fun s0 => cf_has cfg s0 k) (ss l)) = cf_has cfg s k).
  { destruct (cf_has cfg s k) eqn:Eh.
    - apply existsb_eqb_In. apply filter_In. auto.
    - destruct (existsb _ _) eqn:Ex; [|reflexivity]. apply existsb_eqb_In in Ex. apply filter_In in Ex. destruct Ex. congruence. }
  rewrite E. destruct (cf_has cfg s k); reflexivity.
Qed.

Lemma seen_evs cfg w l s evs :
  map (line_seen w l) (map snd (filter (fun q => Nat.eqb (fst q) l && cf_has cfg s (fst (snd q))) evs)) =
  lines_for cfg l s (map (fun q => line_seen w (fst q) (snd q)) evs).
Proof.
  unfold lines_for. induction evs as [|[l' [k e]] evs IH]; [reflexivity|]. cbn [map filter fst snd]. 
  change (n_log (line_seen w l' (k, e))) with l'. change (n_kind (line_seen w l' (k, e))) with k.
  destruct (Nat.eqb_spec l' l) as [->|Hn]; cbn [andb]; [|exact IH]. destruct (cf_has cfg s k); cbn [map fst snd]; rewrite IH; reflexivity.
Qed.

Lemma program_log_from cfg describe s w : steady cfg (fun l => lg_sinks (w_logs w l)) w -> all_quiet cfg -> (forall x, cf_describe cfg x = Ok (describe x)) -> scoped [] s ->
  let w' := fst (eval cfg None s w) in
  let o := log_of describe (w_active w) None s (length (w_acts w)) [] in
  snd (eval cfg None s w) = snd o /\ (forall l, w_active w' l = w_active w l) /\
  length (w_acts w') = fst (fst (fst o)) /\
  (forall l, lg_sinks (w_logs w' l) = lg_sinks (w_logs w l) /\ lg_async (w_logs w' l) = false /\ lg_queue (w_logs w' l) = []) /\
  exists t evs, w_trace w' = w_trace w ++ t /\ handed t = flat_map (heard_by cfg (fun l => lg_sinks (w_logs w l))) evs /\
    map (fun q => line_seen w' (fst q) (snd q)) evs = snd (fst o) /\
    Forall (fun q => owned w' (fst q) (snd (snd q))) evs.
Proof.
  intros HR (HQ & HP & HN & _) HD HS. cbv zeta.
  assert (R : rel cfg (w_active w) (fun l => lg_sinks (w_logs w l)) (length (w_acts w)) [] w).
  { constructor; [exact HR|reflexivity|constructor|constructor|constructor|reflexivity|exact I]. }
  pose proof (program_runs cfg HQ HP describe HD (w_active w) (fun l => lg_sinks (w_logs w l)) s None w _ [] HS R) as H.
  destruct (log_of describe (w_active w) None s (length (w_acts w)) []) as [[[n' fs'] ls] r]. destruct (eval cfg None s w) as [w' q].
  destruct H as (H1 & H2 & H3 & _ & t & evs & H4 & H5 & H6 & H7). cbn [fst snd] in *. destruct fs'; [|discriminate H3].
  split; [exact H1|]. split; [exact (r_active _ _ _ _ _ _ H2)|]. split; [exact (r_len _ _ _ _ _ _ H2)|]. split.
  - intro l. destruct (r_steady _ _ _ _ _ _ H2 l) as (A1 & A2 & A3 & _). auto.
  - exists t, evs. auto.
Qed.

Lemma program_log cfg describe s w : reach cfg w -> all_quiet cfg -> (forall x, cf_describe cfg x = Ok (describe x)) ->
  (forall l, lg_async (w_logs w l) = false /\ lg_queue (w_logs w l) = []) -> scoped [] s ->
  let w' := fst (eval cfg None s w) in
  let o := log_of describe (w_active w) None s (length (w_acts w)) [] in
  snd (eval cfg None s w) = snd o /\ (forall l, w_active w' l = w_active w l) /\
  length (w_acts w') = fst (fst (fst o)) /\
  (forall l, lg_sinks (w_logs w' l) = lg_sinks (w_logs w l) /\ lg_async (w_logs w' l) = false /\ lg_queue (w_logs w' l) = []) /\
  exists t evs, w_trace w' = w_trace w ++ t /\ handed t = flat_map (heard_by cfg (fun l => lg_sinks (w_logs w l))) evs /\
    map (fun q => line_seen w' (fst q) (snd q)) evs = snd (fst o) /\
    Forall (fun q => owned w' (fst q) (snd (snd q))) evs.
Proof.
  intros HR HA HD HM HS. exact (program_log_from cfg describe s w (reach_steady cfg w HR HM) HA HD HS).
Qed.

(** ** Brackets *)
Lemma nested_app a b : nested a -> nested b -> nested (a ++ b).
Proof.
  intros Ha Hb. induction Ha as [|r i n Hi IHi Hn IHn]; [exact Hb|].
  cbn. rewrite <- app_assoc. cbn. constructor; assumption.
Qed.
Lemma brackets_app a b : brackets (a ++ b) = brackets a ++ brackets b.
Proof. apply flat_map_app. Qed.
Lemma closing_brackets cfg describe l s f r : cf_has cfg s KEnd = true ->
  brackets (lines_for cfg l s (closing describe f r)) = if Nat.eqb (f_log f) l then [(KEnd, f_num f)] else [].
Proof.
  intros HE. unfold closing, lines_for. destruct r as [u|x]; [destruct (f_verdict f) as [[[st m] y]|]|];
    cbn; rewrite HE; destruct (Nat.eqb (f_log f) l); cbn; try reflexivity. destruct (cf_has cfg s KExc); reflexivity.
Qed.

Lemma log_ident describe root : forall s cur n fs, map ident (snd (fst (fst (log_of describe root cur s n fs)))) = map ident fs.
Proof.
  assert (KK : forall x (g : block -> block) fs, (forall f, ident (g f) = ident f) -> map ident (on_block x g fs) = map ident fs) by (intros; apply on_ident; assumption).
  induction s as [|s1 IH1 s2 IH2| | |x l lvl nm kw rr px b IH| | | | | | | | | | | |all s1 IH1 s2 IH2]; intros cur n fs; cbn [log_of]; try reflexivity; try (cbn [fst snd]; apply KK; reflexivity).
  - specialize (IH1 cur n fs). destruct (log_of describe root cur s1 n fs) as [[[n1 fs1] ls1] [u|x]]; [|exact IH1].
    specialize (IH2 cur n1 fs1). destruct (log_of describe root cur s2 n1 fs1) as [[[n2 fs2] ls2] r]. cbn [fst snd] in *. congruence.
  - set (f := Block _ _ _ _ _ _ _ _). specialize (IH cur (S n) (f :: fs)). destruct (log_of describe root cur b (S n) (f :: fs)) as [[[n1 fs1] ls] r].
    cbn [fst snd map] in IH. destruct fs1 as [|f1 fs1]; [discriminate IH|]. cbn [map] in IH. apply cons_inv in IH. apply IH.
  - destruct cur; [cbn [fst snd]; apply KK; reflexivity|reflexivity].
  - specialize (IH1 cur n fs). destruct (log_of describe root cur s1 n fs) as [[[n1 fs1] ls1] [u|x]]; [exact IH1|].
    destruct (all || exn_ord x)%bool; [|exact IH1].
    specialize (IH2 (Some x) n1 fs1). destruct (log_of describe root (Some x) s2 n1 fs1) as [[[n2 fs2] ls2] r]. cbn [fst snd] in *. congruence.
Qed.

Lemma lines_for_app cfg l s a b : lines_for cfg l s (a ++ b) = lines_for cfg l s a ++ lines_for cfg l s b.
Proof. apply filter_app. Qed.

Lemma log_nested cfg describe root l sk : cf_has cfg sk KBegin = true -> cf_has cfg sk KEnd = true ->
  forall s cur n fs, nested (brackets (lines_for cfg l sk (snd (fst (log_of describe root cur s n fs))))).
Proof.
  intros HB HE. assert (Quiet : forall ls, (forall x, In x ls -> n_kind x <> KBegin /\ n_kind x <> KEnd) -> nested (brackets (lines_for cfg l sk ls))).
  { intros ls H. replace (brackets (lines_for cfg l sk ls)) with (@nil (kind * nat)); [constructor|].
    induction ls as [|x ls IH]; [reflexivity|]. unfold lines_for. cbn [filter].
    assert (IH' : [] = brackets (lines_for cfg l sk ls)) by (apply IH; intros y Hy; apply H; right; exact Hy).
    destruct (_ && _)%bool; [|exact IH']. unfold lines_for in IH'. cbn [brackets flat_map]. unfold brackets in IH'. rewrite <- IH'.
    destruct (H x (or_introl eq_refl)) as [H1 H2]. destruct (n_kind x); try congruence; reflexivity. }
  induction s as [|s1 IH1 s2 IH2| | |x l' lvl nm kw rr px b IH| | | | | | | | | | | |all s1 IH1 s2 IH2]; intros cur n fs; cbn [log_of]; try (constructor; fail).
  - specialize (IH1 cur n fs). destruct (log_of describe root cur s1 n fs) as [[[n1 fs1] ls1] [u|x]]; [|exact IH1].
    specialize (IH2 cur n1 fs1). destruct (log_of describe root cur s2 n1 fs1) as [[[n2 fs2] ls2] r]. cbn [fst snd] in *.
    rewrite lines_for_app, brackets_app. apply nested_app; assumption.
  - set (f := Block _ _ _ _ _ _ _ _). specialize (IH cur (S n) (f :: fs)). pose proof (log_ident describe root b cur (S n) (f :: fs)) as HI.
    destruct (log_of describe root cur b (S n) (f :: fs)) as [[[n1 fs1] ls] r].
    cbn [fst snd map] in *. destruct fs1 as [|f1 fs1]; [discriminate HI|]. cbn [map] in HI. apply cons_inv in HI. destruct HI as [HI _].
    cbn [fst snd]. unfold ident in HI. cbn in HI. assert (E : f_num f1 = n /\ f_log f1 = l') by (injection HI; auto). destruct E as [E1 E2].
    change (line_at f KBegin None (nm +s " beginning") None :: ls ++ closing describe f1 r) with ([line_at f KBegin None (nm +s " beginning") None] ++ ls ++ closing describe f1 r).
    rewrite !lines_for_app, !brackets_app, closing_brackets, E1, E2 by exact HE.
    unfold lines_for at 1. cbn. rewrite HB. destruct (Nat.eqb l' l); cbn; [|rewrite app_nil_r; exact IH].
    apply (nested_block n _ []); [exact IH|constructor].
  - destruct (find_block x fs); apply Quiet; cbn; [intros y [<-|[]]; cbn; split; discriminate|tauto].
  - destruct cur; [|constructor]. destruct (find_block x fs); apply Quiet; cbn; [intros y [<-|[]]; cbn; split; discriminate|tauto].
  - apply Quiet. cbn. intros y [<-|[]]; cbn; split; discriminate.
  - specialize (IH1 cur n fs). destruct (log_of describe root cur s1 n fs) as [[[n1 fs1] ls1] [u|x]]; [exact IH1|].
    destruct (all || exn_ord x)%bool; [|exact IH1].
    specialize (IH2 (Some x) n1 fs1). destruct (log_of describe root (Some x) s2 n1 fs1) as [[[n2 fs2] ls2] r]. cbn [fst snd] in *.
    rewrite lines_for_app, brackets_app. apply nested_app; assumption.
Qed.

(** ** End lines carry an outcome *)
Lemma log_concluded describe root : forall s cur n fs y,
  In y (snd (fst (log_of describe root cur s n fs))) -> n_kind y = KEnd -> n_status y <> None.
Proof.
  induction s as [|s1 IH1 s2 IH2| | |x l lvl nm kw rr px b IH| | | | | | | | | | | |all s1 IH1 s2 IH2]; intros cur n fs y; cbn [log_of]; try (intros []; fail).
  - specialize (IH1 cur n fs y). destruct (log_of describe root cur s1 n fs) as [[[n1 fs1] ls1] [u|x]]; [|exact IH1].
    specialize (IH2 cur n1 fs1 y). destruct (log_of describe root cur s2 n1 fs1) as [[[n2 fs2] ls2] r]. cbn [fst snd] in *.
    rewrite in_app_iff. tauto.
  - set (f := Block _ _ _ _ _ _ _ _). specialize (IH cur (S n) (f :: fs) y).
    destruct (log_of describe root cur b (S n) (f :: fs)) as [[[n1 fs1] ls] r]. cbn [fst snd] in IH.
    destruct fs1 as [|f1 fs1]; [exact IH|]. cbn [fst snd In]. rewrite in_app_iff. intros [<-|[H|H]]; [discriminate|exact (IH H)|].
    unfold closing in H. destruct r as [u|x0]; [destruct (f_verdict f1) as [[[st m] z]|]|]; cbn in H; repeat (destruct H as [<-|H]; [discriminate|]); contradiction.
  - destruct (find_block x fs); cbn; intuition (subst; discriminate).
  - destruct cur; [|intros []]. destruct (find_block x fs); cbn; intuition (subst; discriminate).
  - cbn. intuition (subst; discriminate).
  - specialize (IH1 cur n fs y). destruct (log_of describe root cur s1 n fs) as [[[n1 fs1] ls1] [u|x]]; [exact IH1|].
    destruct (all || exn_ord x)%bool; [|exact IH1].
    specialize (IH2 (Some x) n1 fs1 y). destruct (log_of describe root (Some x) s2 n1 fs1) as [[[n2 fs2] ls2] r]. cbn [fst snd] in *.
    rewrite in_app_iff. tauto.
Qed.

(** Setting up loggers logs nothing. *)
Lemma setup_blank cfg os : (forall o, In o os -> is_setup o) -> forall w,
  w_trace (run_ops cfg os w) = w_trace w /\ w_acts (run_ops cfg os w) = w_acts w /\ w_active (run_ops cfg os w) = w_active w.
Proof.
  induction os as [|o os IH]; intros Ho w; [auto|]. cbn [run_ops]. destruct (IH ltac:(intros; apply Ho; right; assumption) (fst (step cfg o w))) as (-> & -> & ->).
  specialize (Ho o (or_introl eq_refl)). destruct o; cbn in Ho; try contradiction; cbn; auto.
Qed.
