(** Every thread of a process runs in step with its program alone. *)
From Coq Require Import Cantor.
From Verif Require Import model.PyBase model.Core model.Concurrent model.ThreadPrograms spec.CoreSpec spec.ConcurrentSpec spec.ThreadProgramSpec
  proof.CoreLib proof.CoreDispatch proof.ConcurrentProofs proof.ConcurrentCalls
  proof.ThreadProgramAlone proof.ThreadProgramSim proof.ThreadProgramLogger proof.ThreadProgramValid.
Open Scope nat_scope.

(** The program alone: one sink that takes everything on the logger of interest. *)
Definition alone_cfg (cfg : config) : config :=
  mkConfig (cf_clock cfg) (fun _ _ => true) (fun _ _ _ _ _ => None) (fun _ _ _ => None) (fun _ _ => None) (cf_describe cfg).
Definition alone_start (cfg : config) (l0 : nat) : world := fst (step (alone_cfg cfg) (OpAddSink l0 0) (init (fun _ => false))).
Definition alone_logs (l0 : nat) (w : world) : Prop := forall l,
  lg_async (w_logs w l) = false /\ lg_queue (w_logs w l) = [] /\ lg_pre (w_logs w l) = [] /\
  forall k, lg_hooks (w_logs w l) k = if l =? l0 then [0] else [].
Lemma alone_start_logs cfg l0 : alone_logs l0 (alone_start cfg l0).
Proof.
  intros l. cbn. unfold upd, lg_add_sink. cbn. destruct (l =? l0); repeat split; intros []; reflexivity.
Qed.
Definition shown_by (l0 l : nat) (c : call) : list item :=
  match c with CLog k e => if l =? l0 then [(k, e)] else [] | _ => [] end.
Lemma received_app l s a b : received l s (a ++ b) = received l s a ++ received l s b.
Proof. apply flat_map_app. Qed.
Lemma alone_hooks cfg l0 l k e w : alone_logs l0 w -> forall hs, hs = (if l =? l0 then [0] else []) ->
  exists w', call_hooks (alone_cfg cfg) l k e hs w = (w', Ok tt) /\ w_logs w' = w_logs w /\ w_acts w' = w_acts w /\ w_env w' = w_env w /\ w_active w' = w_active w /\
    received l0 0 (w_trace w') = received l0 0 (w_trace w) ++ shown_by l0 l (CLog k e).
Proof.
  intros H hs ->. unfold shown_by. destruct (Nat.eqb_spec l l0) as [-> |N]; cbn.
  - eexists. split; [reflexivity|]. cbn [set_trace w_trace w_logs w_acts w_env w_active]. rewrite received_app. unfold received at 2. cbn [flat_map].
    rewrite Nat.eqb_refl. cbn. auto 10.
  - eexists. split; [reflexivity|]. rewrite app_nil_r. auto 10.
Qed.
Lemma alone_call cfg l0 l c w : (forall b, c <> CSetAsync b) -> alone_logs l0 w ->
  exists w', do_call (alone_cfg cfg) l c w = (w', Ok tt) /\ alone_logs l0 w' /\ w_acts w' = w_acts w /\ w_env w' = w_env w /\ w_active w' = w_active w /\
    received l0 0 (w_trace w') = received l0 0 (w_trace w) ++ shown_by l0 l c.
Proof.
  intros HC H. destruct (H l) as (H1 & H2 & H3 & H4). destruct c as [k e| |b]; [| |destruct (HC b eq_refl)].
  - destruct (alone_hooks cfg l0 l k e w H _ (H4 k)) as (w' & A & B & C). exists w'.
    split; [|split; [intros l'; rewrite B; apply H|exact C]].
    destruct k; cbn [do_call]; unfold on_begin, on_warn, on_end, on_exception, on_comment, bind, get_log; rewrite ?H1; exact A.
  - cbn [do_call]. unfold flush, bind, get_log. rewrite H3. cbn [run_preflush ret]. rewrite H2. cbn. eexists. split; [reflexivity|]. cbn.
    rewrite app_nil_r. split; [|auto]. intros l'. cbn. unfold upd. destruct (Nat.eqb_spec l' l) as [-> |]; [|apply H]. cbn. rewrite H1, H2, H3.
    repeat split; auto.
Qed.

(** ** Steps of a logger, seen from its threads *)
Lemma St_logged lis t b g g' : St lis t b g g' -> exists new, g_trace g' = g_trace g ++ new /\
  (forall t', t' <> t -> logged_by t' new = []) /\
  logged_by t new = match nth_error (g_threads g) t with
                    | Some th => match th_pc th, th_todo th with Idle, CLog k e :: _ => [(k, e)] | _, _ => [] end
                    | None => []
                    end.
Proof.
  intros HS. assert (Hn : forall t', t' <> t -> (t =? t') = false) by (intros t' K; apply Nat.eqb_neq; congruence).
  destruct HS; (eexists; split; [cbn; reflexivity|]); (split; [intros t' K; cbn; rewrite ?(Hn t' K); reflexivity|]);
    repeat match goal with H : nth_error _ _ = Some _ |- _ => rewrite H; clear H end; cbn; rewrite ?Nat.eqb_refl; reflexivity.
Qed.
Lemma St_thread lis t b g g' : St lis t b g g' -> exists th th',
  nth_error (g_threads g) t = Some th /\ g_threads g' = list_set (g_threads g) t th' /\
  (th_pc th <> Idle -> th_todo th' = th_todo th) /\
  (th_pc th = Idle -> exists c, th_todo th = c :: th_todo th' /\ th_pc th' <> Idle).
Proof.
  intros HS. destruct HS; (eexists; eexists; split; [eassumption|split; [cbn; reflexivity|]]); cbn;
    split; try reflexivity; try congruence; try (intros _; eexists; split; [reflexivity|discriminate]).
Qed.

Section R.
Variable cfg : config.
Variable lis : nat -> kind -> list nat.
Variable slot : nat -> nat.
Variable async : nat -> bool.
Variable progs : list stmt.
Variable l0 : nat.
Hypothesis Hnote : forall tr m, cf_note cfg tr m = None.
Local Notation n := (length progs).
Local Notation cfg2 := (alone_cfg cfg).
Local Notation id1 := (fun r : nat => r).

Definition V (t l : nat) : Prop := exists s, nth_error progs t = Some s /\ In l (makes_on s).
(** No other thread using the same part of the map of active actions makes actions on [l]. *)
Definition U (t l : nat) : Prop := forall t', t' <> t -> slot t' = slot t -> ~ V t' l.
Definition item_sim (t : nat) (x y : item) : Prop := fst x = fst y /\ ev_sim t (snd x) (snd y).
Definition TI (t : nat) (th : tprog) (p : stmt) (s : mstate) : Prop := exists c2 w,
  wsim (V t) (U t) t (view slot t th s) w /\ alone_logs l0 w /\
  crel (V t) (U t) t l0 eq (match tp_busy th with Some _ => after_call (tp_code th) | None => tp_code th end) c2 /\
  seq cfg2 c2 w = eval cfg2 None p (alone_start cfg l0) /\
  Forall2 (item_sim t) (logged_by t (g_trace (ms_logs s l0))) (received l0 0 (w_trace w)) /\
  wp (fun _ _ => True) (w_acts w) c2 /\ Forall (fun y => of_logger (w_acts w) l0 (snd y)) (received l0 0 (w_trace w)).
Definition GI (s : mstate) : Prop := forall l,
  gruns (lis l) (async l) n (ms_logs s l) /\
  forall t gt th, nth_error (g_threads (ms_logs s l)) t = Some gt -> nth_error (ms_threads s) t = Some th ->
    th_todo gt = [] /\ (tp_busy th = Some l <-> th_pc gt <> Idle).
Definition MI (s : mstate) : Prop :=
  length (ms_threads s) = n /\ GI s /\
  forall t th p, nth_error (ms_threads s) t = Some th -> nth_error progs t = Some p -> TI t th p s.

Lemma gruns_length li a m g : gruns li a m g -> length (g_threads g) = m.
Proof.
  induction 1 as [|t g g' H IH E|t c g H IH E C].
  - cbn. rewrite map_length, repeat_length. reflexivity.
  - destruct (St_thread _ _ _ _ _ (tstep_St _ _ _ _ _ E)) as (a1 & a2 & _ & -> & _). rewrite list_set_len. exact IH.
  - cbn. rewrite list_set_len. exact IH.
Qed.

(** The steps of other threads. *)
Lemma TI_frame t th p s s' : TI t th p s ->
  (forall l, U t l -> ms_active s' (slot t) l = ms_active s (slot t) l) ->
  logged_by t (g_trace (ms_logs s' l0)) = logged_by t (g_trace (ms_logs s l0)) -> TI t th p s'.
Proof.
  intros (c2 & w & S & A & C & E & F & Y) HA HL. exists c2, w. split; [|rewrite HL; auto].
  destruct S as (S1 & S2 & S3). split; [exact S1|]. split; [exact S2|]. intros l HU. cbn. rewrite HA by exact HU. apply S3, HU.
Qed.
Lemma calls_of l x c2 k RA t : crel (V t) (U t) t l0 RA (@Call unit l x k) c2 -> forall b, x <> CSetAsync b.
Proof. destruct c2 as [| | |l2 x2 k2]; cbn; try contradiction. intros (_ & H & _) b ->. exact H. Qed.

Lemma MI_step t s s' : mstep lis slot t s = Some s' -> MI s -> MI s'.
Proof.
  intros HS (HL & HG & HT). unfold mstep in HS. destruct (nth_error (ms_threads s) t) as [th|] eqn:ET; [|discriminate].
  assert (LT : t < n) by (rewrite <- HL; apply nth_error_Some; congruence).
  destruct (nth_error progs t) as [p|] eqn:EP; [|apply nth_error_None in EP; lia].
  destruct (HT t th p ET EP) as (c2 & w & S & A & C & E & F & Y & Z).
  destruct (tp_busy th) as [l|] eqn:EB.
  - (* inside a logger method *)
    destruct (tstep (lis l) t false (ms_logs s l)) as [g|] eqn:EG; [|discriminate]. injection HS as <-.
    pose proof (tstep_St _ _ _ _ _ EG) as HSt. destruct (St_thread _ _ _ _ _ HSt) as (gt & gt' & G1 & G2 & G3 & G4).
    destruct (St_logged _ _ _ _ _ HSt) as (new & N1 & N2 & N3).
    destruct (HG l) as (R1 & R2). destruct (R2 t gt th G1 ET) as (T1 & T2). assert (NI : th_pc gt <> Idle) by (apply T2, EB).
    assert (N3' : logged_by t new = []) by (rewrite N3, G1; destruct (th_pc gt); congruence).
    assert (HLg : forall t', logged_by t' (g_trace (upd (ms_logs s) l g l0)) = logged_by t' (g_trace (ms_logs s l0))).
    { intros t'. unfold upd. destruct (Nat.eqb_spec l0 l) as [-> |]; [|reflexivity]. rewrite N1, lby_app.
      destruct (Nat.eq_dec t' t) as [-> |D]; [rewrite N3'|rewrite (N2 t' D)]; apply app_nil_r. }
    assert (Gt' : nth_error (g_threads g) t = Some gt') by (rewrite G2; eapply nth_set_eq; eauto).
    assert (RF : returned_from t g = true <-> th_pc gt' = Idle).
    { unfold returned_from. rewrite Gt', (G3 NI), T1. destruct (th_pc gt'); split; congruence. }
    set (th' := if returned_from t g then mkTP (tp_acts th) (tp_env th) (after_call (tp_code th)) None else th).
    assert (EA : tp_acts th' = tp_acts th /\ tp_env th' = tp_env th) by (unfold th'; destruct (returned_from t g); auto).
    split; [cbn; rewrite list_set_len; exact HL|]. split.
    + intros l'. cbn. unfold upd. destruct (Nat.eqb_spec l' l) as [-> |D].
      * split; [eapply gr_step; eauto|]. intros t' gt0 th0 H1 H2. destruct (Nat.eq_dec t' t) as [-> |D].
        { rewrite Gt' in H1. injection H1 as <-. rewrite (nth_set_eq _ _ _ _ ET) in H2. injection H2 as <-. split; [rewrite (G3 NI); exact T1|].
          unfold th'. destruct (returned_from t g) eqn:ER; cbn; [|rewrite EB].
          - assert (th_pc gt' = Idle) by (apply RF; reflexivity). split; congruence.
          - split; [|reflexivity]. intros _ X. apply RF in X. discriminate. }
        { rewrite G2, nth_set_neq in H1 by auto. rewrite nth_set_neq in H2 by auto. apply (R2 t' gt0 th0 H1 H2). }
      * destruct (HG l') as (Q1 & Q2). split; [exact Q1|]. intros t' gt0 th0 H1 H2. destruct (Nat.eq_dec t' t) as [-> |D'].
        { rewrite (nth_set_eq _ _ _ _ ET) in H2. injection H2 as <-. destruct (Q2 t gt0 th H1 ET) as (Y1 & Y2). split; [exact Y1|].
          rewrite EB in Y2. unfold th'. destruct (returned_from t g); cbn; [|rewrite EB; exact Y2].
          split; [discriminate|]. intros X. apply Y2 in X. congruence. }
        { rewrite nth_set_neq in H2 by auto. apply (Q2 t' gt0 th0 H1 H2). }
    + intros t' th0 p0 H1 H2. cbn in H1. destruct (Nat.eq_dec t' t) as [-> |D].
      * rewrite (nth_set_eq _ _ _ _ ET) in H1. injection H1 as <-. assert (p0 = p) by congruence. subst p0.
        exists c2, w. split; [|split; [exact A|split; [|split; [exact E|split; [|split; [exact Y|exact Z]]]]]].
        { destruct S as (S1 & S2 & S3). destruct EA as (EA1 & EA2).
          split; [cbn [view w_acts]; rewrite EA1; exact S1|]. split; [cbn [view w_env]; rewrite EA2; exact S2|exact S3]. }
        { unfold th'. destruct (returned_from t g); cbn; [exact C|rewrite EB; exact C]. }
        { change (ms_logs (set_glog l g (set_thread t th' s)) l0) with (upd (ms_logs s) l g l0). rewrite HLg. exact F. }
      * rewrite nth_set_neq in H1 by auto. eapply TI_frame; [apply HT; eassumption|reflexivity|]. exact (HLg t').
  - destruct (tp_code th) as [a|e|B m k|l x k] eqn:EC; try discriminate.
    + (* an atomic step *)
      destruct c2 as [|? |B2 m2 k2|]; cbn in C; try contradiction.
      destruct (C _ _ S) as ((I1 & I2 & I3 & I4 & I5) & C').
      destruct (m (view slot t th s)) as [v' r] eqn:EM. cbn [fst snd] in *. injection HS as <-.
      split; [cbn; rewrite list_set_len; exact HL|]. split.
      * intros l. destruct (HG l) as (Q1 & Q2). split; [exact Q1|]. intros t' gt th0 H1 H2. cbn in H1, H2. destruct (Nat.eq_dec t' t) as [-> |D].
        { rewrite (nth_set_eq _ _ _ _ ET) in H2. injection H2 as <-. destruct (Q2 t gt th H1 ET) as (Y1 & Y2). split; [exact Y1|]. cbn. rewrite EB in Y2. exact Y2. }
        { rewrite nth_set_neq in H2 by auto. apply (Q2 t' gt th0 H1 H2). }
      * intros t' th0 p0 H1 H2. cbn in H1. destruct (Nat.eq_dec t' t) as [-> |D].
        { rewrite (nth_set_eq _ _ _ _ ET) in H1. injection H1 as <-. assert (p0 = p) by congruence. subst p0.
          exists (k2 (snd (m2 w))), (fst (m2 w)). destruct (Y w eq_refl) as (Y1 & Y2). split; [|split; [|split; [|split; [|split; [|split; [exact Y2|]]]]]].
          - destruct I1 as (S1 & S2 & S3). split; [exact S1|]. split; [exact S2|]. cbn. unfold upd. rewrite Nat.eqb_refl. exact S3.
          - intros l. rewrite I3. apply A.
          - cbn. exact C'.
          - rewrite <- E. cbn [seq]. destruct (m2 w); reflexivity.
          - cbn [ms_logs]. rewrite I4. exact F.
          - rewrite I4. eapply Forall_impl; [|exact Z]. intros y (a & K1 & K2). destruct (Y1 _ _ K1) as (a' & K3 & K4). exists a'. split; [exact K3|congruence]. }
        { rewrite nth_set_neq in H1 by auto. eapply TI_frame; [apply HT; eassumption| |reflexivity].
          intros l HU. cbn. unfold upd. destruct (Nat.eqb_spec (slot t') (slot t)) as [X|]; [|reflexivity].
          rewrite X. apply I2. apply (HU t); [congruence|auto]. }
    + (* a call begins *)
      destruct (tstep (lis l) t false (hand t x (ms_logs s l))) as [g|] eqn:EG; [|discriminate]. injection HS as <-.
      pose proof (calls_of _ _ _ _ _ _ C) as HX.
      destruct c2 as [| | |l2 x2 k2]; cbn in C; try contradiction. destruct C as (<- & CS & C').
      assert (HX2 : forall b, x2 <> CSetAsync b) by (intros b ->; destruct x; exact CS).
      destruct (alone_call cfg l0 l x2 w HX2 A) as (w' & D1 & D2 & D3 & D4 & D5 & D6).
      pose proof (tstep_St _ _ _ _ _ EG) as HSt. destruct (St_thread _ _ _ _ _ HSt) as (gt & gt' & G1 & G2 & G3 & G4).
      destruct (St_logged _ _ _ _ _ HSt) as (new & N1 & N2 & N3). cbn [hand g_threads g_trace] in *.
      destruct (HG l) as (R1 & R2).
      destruct (nth_error (g_threads (ms_logs s l)) t) as [gt0|] eqn:EG0.
      2:{ apply nth_error_None in EG0. rewrite (gruns_length _ _ _ _ R1) in EG0. lia. }
      rewrite (nth_set_eq _ _ _ _ EG0) in G1. injection G1 as <-. destruct (R2 t gt0 th EG0 ET) as (T1 & T2).
      assert (P0 : gt0 = mkThread Idle []).
      { destruct gt0 as [p0 td]. cbn in T1, T2. subst td. rewrite EB in T2. destruct p0; try (destruct T2 as [_ T2]; discriminate (T2 ltac:(discriminate))). reflexivity. }
      rewrite P0 in EG0. destruct (G4 eq_refl) as (c & Gc & Gi). cbn in Gc. injection Gc as _ Gtd.
      rewrite (nth_set_eq _ _ _ _ EG0) in N3. cbn in N3.
      rewrite list_set_same in G2.
      assert (Gt' : nth_error (g_threads g) t = Some gt') by (rewrite G2; eapply nth_set_eq; eauto).
      assert (Htd : th_todo gt' = []) by congruence.
      split; [cbn; rewrite list_set_len; exact HL|]. split.
      * intros l'. cbn. unfold upd. destruct (Nat.eqb_spec l' l) as [-> |D].
        { split; [eapply gr_step; [|exact EG]; apply gr_hand; auto|]. intros t' gt1 th0 H1 H2. destruct (Nat.eq_dec t' t) as [-> |D].
          - rewrite Gt' in H1. injection H1 as <-. rewrite (nth_set_eq _ _ _ _ ET) in H2. injection H2 as <-. cbn. split; [exact Htd|]. split; auto.
          - rewrite G2, nth_set_neq in H1 by auto. rewrite nth_set_neq in H2 by auto. apply (R2 t' gt1 th0 H1 H2). }
        { destruct (HG l') as (Q1 & Q2). split; [exact Q1|]. intros t' gt1 th0 H1 H2. destruct (Nat.eq_dec t' t) as [-> |D'].
          - rewrite (nth_set_eq _ _ _ _ ET) in H2. injection H2 as <-. destruct (Q2 t gt1 th H1 ET) as (Y1 & Y2). split; [exact Y1|]. cbn.
            rewrite EB in Y2. split; [congruence|]. intros X. apply Y2 in X. discriminate.
          - rewrite nth_set_neq in H2 by auto. apply (Q2 t' gt1 th0 H1 H2). }
      * assert (HLg : forall t', logged_by t' (g_trace (upd (ms_logs s) l g l0)) = logged_by t' (g_trace (ms_logs s l0)) ++ if t' =? t then shown_by l0 l x else []).
        { intros t'. unfold upd, shown_by. rewrite (Nat.eqb_sym l l0). destruct (Nat.eqb_spec l0 l) as [-> |].
          - rewrite N1, lby_app. f_equal. destruct (Nat.eqb_spec t' t) as [-> |D]; [exact N3|apply N2, D].
          - destruct (t' =? t), x; rewrite app_nil_r; reflexivity. }
        intros t' th0 p0 H1 H2. cbn in H1. destruct (Nat.eq_dec t' t) as [-> |D].
        { rewrite (nth_set_eq _ _ _ _ ET) in H1. injection H1 as <-. assert (p0 = p) by congruence. subst p0.
          exists (k2 (Ok tt)), w'. destruct Y as (Y1 & Y2).
          split; [|split; [exact D2|split; [|split; [|split; [|split; [rewrite D3; exact Y2|]]]]]].
          - destruct S as (S1 & S2 & S3). split; [rewrite D3; exact S1|]. split; [rewrite D4; exact S2|rewrite D5; exact S3].
          - cbn. exact C'.
          - rewrite <- E. cbn [seq]. rewrite D1. reflexivity.
          - change (ms_logs (set_glog l g (set_thread t {| tp_acts := tp_acts th; tp_env := tp_env th; tp_code := Call l x k; tp_busy := Some l |} s)) l0) with (upd (ms_logs s) l g l0).
            rewrite HLg, D6, Nat.eqb_refl. apply Forall2_app; [exact F|]. clear - CS. unfold shown_by.
            destruct x as [k1 e1| |], x2 as [k3 e3| |]; cbn in CS; try contradiction; [|constructor]. destruct CS as (-> & CS).
            destruct (l =? l0); constructor; [|constructor]. split; [reflexivity|exact CS].
          - rewrite D3, D6. apply Forall_app. split; [exact Z|]. unfold shown_by. destruct x2 as [k3 e3| |]; [|constructor|constructor].
            destruct (Nat.eqb_spec l l0) as [-> |]; constructor; [exact Y1|constructor]. }
        { rewrite nth_set_neq in H1 by auto. eapply TI_frame; [apply HT; eassumption|reflexivity|].
          change (logged_by t' (g_trace (upd (ms_logs s) l g l0)) = logged_by t' (g_trace (ms_logs s l0))).
          rewrite HLg. destruct (Nat.eqb_spec t' t); [contradiction|]. apply app_nil_r. }
Qed.

Lemma nth_boot t th : nth_error (ms_threads (mstart cfg async progs)) t = Some th ->
  exists p, nth_error progs t = Some p /\ th = boot cfg (t, p).
Proof.
  cbn. rewrite nth_error_map. intros H. destruct (nth_error (combine (List.seq 0 n) progs) t) as [[i p]|] eqn:E; [|discriminate].
  cbn in H. injection H as <-. exists p.
  assert (G : forall (ps : list stmt) a, nth_error (combine (List.seq a (length ps)) ps) t = Some (i, p) -> nth_error ps t = Some p /\ i = a + t).
  { clear. induction t as [|t IH]; intros [|q ps] a H; try discriminate; cbn in H.
    - injection H as <- <-. split; [reflexivity|lia].
    - destruct (IH ps (S a) H) as (A & ->). split; [exact A|lia]. }
  destruct (G progs 0 E) as (A & ->). auto.
Qed.
Lemma MI_start : MI (mstart cfg async progs).
Proof.
  split; [cbn; rewrite map_length, combine_length, seq_length; lia|]. split.
  - intros l. cbn. assert (X : map (fun _ : stmt => @nil call) progs = repeat [] n) by (clear; induction progs; cbn; congruence). rewrite X. split; [constructor|].
    intros t gt th H1 H2. destruct (nth_boot t th H2) as (p & _ & ->). apply nth_error_In, in_map_iff in H1 as (q & <- & HI). apply repeat_spec in HI. subst q.
    cbn. split; [reflexivity|]. split; [discriminate|congruence].
  - intros t th p H1 H2. destruct (nth_boot t th H1) as (p' & H3 & ->). assert (p' = p) by congruence. subst p'.
    exists (prog cfg2 id1 None p), (alone_start cfg l0). split; [|split; [apply alone_start_logs|split; [|split; [apply sp_prog|split; [constructor|split; [apply prog_valid|constructor]]]]]].
    + split; [constructor|]. split; reflexivity.
    + cbn. apply cr_prog; auto. intros l HI. exists p. auto.
Qed.
Theorem MI_run sc : MI (mrun lis slot sc (mstart cfg async progs)).
Proof.
  generalize MI_start. generalize (mstart cfg async progs) as s. induction sc as [|t sc IH]; intros s H; [exact H|]. cbn [mrun]. apply IH.
  destruct (mstep lis slot t s) eqn:E; [|exact H]. eapply MI_step; eauto.
Qed.
End R.
