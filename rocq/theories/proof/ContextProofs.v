(** Context: C13, C14, C60. *)
From Verif Require Import model.PyBase model.Core model.Context spec.CoreSpec spec.ContextSpec
  proof.CoreLib proof.CoreTrans proof.CoreWith proof.CoreDispatch proof.CoreAsync.

Section C.
Variable cfg : config.
Notation chain := (chain cfg).

(** *** Registration order *)
Fixpoint incr (lo : nat) (l : list (nat * nat)) : Prop :=
  match l with [] => True | p :: l' => lo <= snd p /\ incr (S (snd p)) l' end.
Lemma incr_weaken l : forall a b, a <= b -> incr b l -> incr a l.
Proof. induction l as [|p l IH]; intros a b L H; auto. destruct H. split; [lia|auto]. Qed.
Lemma sort_incr l : forall lo, incr lo l -> fold_right insert_by_number [] l = l.
Proof.
  induction l as [|p l IH]; intros lo H; [reflexivity|]. destruct H as [H1 H2]. cbn [fold_right]. rewrite (IH _ H2). destruct l as [|q l]; [reflexivity|].
  cbn [insert_by_number]. destruct H2 as [H2 _]. destruct (Nat.leb_spec (snd p) (snd q)); [reflexivity|lia].
Qed.
Lemma incr_snoc l x n : forall lo, incr lo l -> Forall (fun p => snd p < n) l -> lo <= n -> incr lo (l ++ [(x, n)]).
Proof.
  induction l as [|p l IH]; intros lo H F L; cbn [app incr]; [auto|]. destruct H. inversion F; subst. split; auto.
Qed.
Lemma incr_filter f l : forall lo, incr lo l -> incr lo (filter f l).
Proof.
  induction l as [|p l IH]; intros lo H; auto. destruct H as [H1 H2]. cbn [filter]. destruct (f p); [split; auto|]. apply IH. eapply incr_weaken; [|exact H2]. lia.
Qed.
Record reg_inv (c : cstate) (ls : list nat) : Prop := {
  ri_incr : incr 0 (c_loggers c);
  ri_bound : Forall (fun p => snd p < c_count c) (c_loggers c);
  ri_names : map fst (c_loggers c) = ls }.
Lemma reg_sorted c ls : reg_inv c ls -> sorted_loggers c = ls.
Proof. intros [H1 H2 H3]. unfold sorted_loggers. rewrite (sort_incr _ _ H1). exact H3. Qed.
Lemma reg_same c c' ls : c_loggers c' = c_loggers c -> c_count c' = c_count c -> reg_inv c ls -> reg_inv c' ls.
Proof. intros E1 E2 [H1 H2 H3]. constructor; rewrite ?E1, ?E2; auto. Qed.
Lemma existsb_fst l ls : existsb (fun p : nat * nat => fst p =? l) ls = existsb (Nat.eqb l) (map fst ls).
Proof. induction ls as [|p ls IH]; [reflexivity|]. cbn [existsb map]. rewrite IH, (Nat.eqb_sym l). reflexivity. Qed.
Lemma reg_add l c ls : reg_inv c ls -> reg_inv (add_logger l c) (if existsb (Nat.eqb l) ls then ls else ls ++ [l]).
Proof.
  intros [H1 H2 H3]. unfold add_logger. rewrite existsb_fst, H3. destruct (existsb (Nat.eqb l) ls) eqn:E; [constructor; auto|]. constructor; cbn.
  - apply incr_snoc; auto. lia.
  - apply Forall_app. split; [eapply Forall_impl; [|exact H2]; cbn; intros; lia|]. constructor; [cbn; lia|constructor].
  - rewrite map_app, H3. reflexivity.
Qed.
Lemma filter_map_fst l ls : map fst (filter (fun p : nat * nat => negb (fst p =? l)) ls) = filter (fun x => negb (l =? x)) (map fst ls).
Proof. induction ls as [|p ls IH]; [reflexivity|]. cbn [filter map]. rewrite (Nat.eqb_sym l). destruct (negb (fst p =? l)); cbn [map]; rewrite IH; reflexivity. Qed.
Lemma reg_remove l c ls : reg_inv c ls -> reg_inv (remove_logger l c) (filter (fun x => negb (l =? x)) ls).
Proof.
  intros [H1 H2 H3]. unfold remove_logger. constructor; cbn.
  - apply incr_filter; auto.
  - apply Forall_forall. intros p Hp. apply filter_In in Hp as [Hp _]. apply (proj1 (Forall_forall _ _) H2 p Hp).
  - rewrite filter_map_fst, H3. reflexivity.
Qed.
Lemma ctx_flush_frame c : let c' := fst (ctx_flush cfg c) in
  c_async c' = c_async c /\ c_loggers c' = c_loggers c /\ c_count c' = c_count c /\ c_actor c' = c_actor c /\ c_sig c' = c_sig c /\ c_w c' = fst (flush_list cfg (sorted_loggers c) (c_w c)) /\ c_atexit c' = c_atexit c.
Proof. unfold ctx_flush. destruct (flush_list cfg (sorted_loggers c) (c_w c)). repeat split. Qed.
Lemma install_frame m c : let c' := fst (install_sigterm m c) in c_loggers c' = c_loggers c /\ c_count c' = c_count c /\ c_w c' = c_w c /\ c_async c' = c_async c /\ c_actor c' = c_actor c.
Proof. unfold install_sigterm. destruct (c_sig c), m; repeat split. Qed.
Lemma uninstall_frame m f c : let c' := fst (uninstall_sigterm m f c) in c_loggers c' = c_loggers c /\ c_count c' = c_count c /\ c_w c' = c_w c /\ c_async c' = c_async c /\ c_actor c' = c_actor c.
Proof. unfold uninstall_sigterm. destruct (f || _), m; repeat split. Qed.
Lemma register_frame c : let c' := register_exit c in c_loggers c' = c_loggers c /\ c_count c' = c_count c /\ c_w c' = c_w c /\ c_async c' = c_async c /\ c_actor c' = c_actor c /\ c_sig c' = c_sig c.
Proof. unfold register_exit. destruct (c_atexit c); repeat split. Qed.
Lemma enable_frame m o c : c_loggers (fst (enable_async m o c)) = c_loggers c /\ c_count (fst (enable_async m o c)) = c_count c.
Proof.
  unfold enable_async. pose proof (install_frame m (c_set_async true c)) as (A & B & _). cbv zeta in *. destruct (o_sigterm o).
  - destruct (install_sigterm m (c_set_async true c)) as [c2 [x|e]]; cbn [fst] in *; [|auto].
    destruct (o_actor o), (o_loggers o); cbn [fst]; match goal with |- context [register_exit ?x] => pose proof (register_frame x) as (-> & -> & _) end; cbn; auto.
  - destruct (o_actor o), (o_loggers o); cbn [fst]; match goal with |- context [register_exit ?x] => pose proof (register_frame x) as (-> & -> & _) end; cbn; auto.
Qed.
Lemma disable_frame m o c : c_loggers (fst (disable_async cfg m o c)) = c_loggers c /\ c_count (fst (disable_async cfg m o c)) = c_count c.
Proof.
  unfold disable_async. assert (H : forall c1, c_loggers c1 = c_loggers c -> c_count c1 = c_count c ->
    let r := (let c2 := if o_actor o then match c_actor c1 with Some _ => c_set_actor (Some false) c1 | None => c1 end else c1 in
    let c3 := if o_loggers o then c_set_w (set_async_list (sorted_loggers c2) false (c_w c2)) c2 else c2 in
    match ctx_flush cfg c3 with
    | (c4, Raise e) => (c4, Raise e)
    | (c4, Ok _) => (c_set_async false c4, Ok tt)
    end) in c_loggers (fst r) = c_loggers c /\ c_count (fst r) = c_count c).
  { intros c1 E1 E2. cbv zeta. set (c2 := if o_actor o then _ else c1). assert (F2 : c_loggers c2 = c_loggers c /\ c_count c2 = c_count c) by (unfold c2; destruct (o_actor o); [destruct (c_actor c1)|]; auto). clearbody c2.
    set (c3 := if o_loggers o then _ else c2). assert (F3 : c_loggers c3 = c_loggers c /\ c_count c3 = c_count c) by (unfold c3; destruct (o_loggers o); auto). clearbody c3.
    pose proof (ctx_flush_frame c3) as (_ & A & B & _). destruct (ctx_flush cfg c3) as [c4 [x|e]]; cbn [fst] in *; destruct F3; split; cbn; congruence. }
  destruct (o_sigterm o); [|apply H; reflexivity].
  pose proof (uninstall_frame m false c) as (A & B & _). destruct (uninstall_sigterm m false c) as [c1 [x|e]]; cbn [fst] in *; [apply H; auto|auto].
Qed.
Lemma crun_registered os : forall c ls, reg_inv c ls -> reg_inv (crun cfg os c) (registered ls os).
Proof.
  induction os as [|o os IH]; intros c ls H; [exact H|]. cbn [crun registered]. destruct o; cbn [cstep fst]; apply IH.
  - eapply reg_same; [| |apply (reg_add l); exact H]; reflexivity.
  - apply reg_add; auto.
  - apply reg_remove; auto.
  - destruct H as [H1 H2 H3]. constructor; cbn; auto. eapply Forall_impl; [|exact H2]. cbn. intros; lia.
  - eapply reg_same; [| |exact H]; apply enable_frame.
  - eapply reg_same; [| |exact H]; apply disable_frame.
  - eapply reg_same; [| |exact H]; apply ctx_flush_frame.
  - eapply reg_same; [| |exact H]; reflexivity.
  - eapply reg_same; [| |exact H]; reflexivity.
  - destruct (c_sig c); exact H || (eapply reg_same; [| |exact H]; reflexivity).
  - destruct (step cfg o (c_w c)). eapply reg_same; [| |exact H]; reflexivity.
  - destruct (eval cfg None s (c_w c)). eapply reg_same; [| |exact H]; reflexivity.
Qed.
Lemma init_reg sig n w : reg_inv (c_init sig n w) [].
Proof. constructor; cbn; auto. Qed.

(** *** Reachable contexts have well-formed worlds *)
Definition good (w : world) : Prop := winv cfg w /\ q_inv w.
Lemma chain_good P w w' : CoreTrans.chain cfg P w w' -> good w -> good w'.
Proof.
  intros HC [H1 H2]. split; [eapply chain_winv; eauto|].
  eapply (chain_inv cfg q_inv P); [intros lb w1 w2 _; apply T_q | exact HC | exact H2].
Qed.
Lemma flush_list_chain ls : forall w, CoreTrans.chain cfg Pother w (fst (flush_list cfg ls w)).
Proof.
  induction ls as [|l ls IH]; intros w; cbn [flush_list]; [constructor|].
  pose proof (flush_chain cfg l w) as HC. destruct (flush cfg l w) as [w' [u|x]]; cbn [fst] in HC.
  - eapply chain_trans; [exact HC|apply IH].
  - destruct (exn_ord x); [|exact HC]. unfold bind, note. destruct (cf_note cfg (w_trace w') "context_flush"); cbn [fst].
    + eapply chain_trans; [exact HC|]. eapply chain_one; [reflexivity|apply T_note].
    + eapply chain_trans; [exact HC|]. eapply chain_trans; [|apply IH]. eapply chain_one; [reflexivity|apply T_note].
Qed.
Lemma set_async_list_chain ls b : forall w, CoreTrans.chain cfg Pany w (set_async_list ls b w).
Proof.
  induction ls as [|l ls IH]; intros w; cbn [set_async_list]; [constructor|].
  eapply ch_step; [exact I | apply (T_async cfg w l b)|]. apply IH.
Qed.
Lemma cstep_good o c : good (c_w c) -> good (c_w (fst (cstep cfg o c))).
Proof.
  intros H. destruct o; cbn [cstep fst].
  - unfold create_logger. cbn. assert (E : c_w (add_logger l c) = c_w c) by (unfold add_logger; destruct (existsb _ _); reflexivity).
    rewrite E. eapply (chain_good Pany); [|exact H]. eapply chain_one; [exact I|apply T_async].
  - unfold add_logger; destruct (existsb _ _); exact H.
  - exact H.
  - exact H.
  - unfold enable_async. pose proof (install_frame main (c_set_async true c)) as (_ & _ & W & _). cbv zeta in W. cbn in W.
    assert (G : forall c2, good (c_w c2) -> good (c_w (let c3 := if o_actor o then c_set_actor (Some true) c2 else c2 in
       let c4 := if o_loggers o then c_set_w (set_async_list (sorted_loggers c3) false (c_w c3)) c3 else c3 in register_exit c4))).
    { intros c2 H2. cbv zeta. match goal with |- context [register_exit ?x] => pose proof (register_frame x) as (_ & _ & -> & _) end. destruct (o_actor o), (o_loggers o); cbn; auto; (eapply (chain_good Pany); [apply set_async_list_chain|exact H2]). }
    destruct (o_sigterm o); [|apply G; exact H].
    destruct (install_sigterm main (c_set_async true c)) as [c2 [x|e]]; cbn [fst] in *; [apply G|]; rewrite W; exact H.
  - unfold disable_async. pose proof (uninstall_frame main false c) as (_ & _ & W & _). cbv zeta in W.
    assert (G : forall c1, good (c_w c1) -> good (c_w (fst (let c2 := if o_actor o then match c_actor c1 with Some _ => c_set_actor (Some false) c1 | None => c1 end else c1 in
    let c3 := if o_loggers o then c_set_w (set_async_list (sorted_loggers c2) false (c_w c2)) c2 else c2 in
    match ctx_flush cfg c3 with
    | (c4, Raise e) => (c4, Raise e)
    | (c4, Ok _) => (c_set_async false c4, Ok tt)
    end)))).
    { intros c1 H1. cbv zeta. set (c2 := if o_actor o then _ else c1).
      assert (H2 : good (c_w c2)) by (unfold c2; destruct (o_actor o); [destruct (c_actor c1)|]; exact H1). clearbody c2.
      set (c3 := if o_loggers o then _ else c2).
      assert (H3 : good (c_w c3)) by (unfold c3; destruct (o_loggers o); cbn; auto; eapply (chain_good Pany); [apply set_async_list_chain|exact H2]). clearbody c3.
      assert (H4 : good (c_w (fst (ctx_flush cfg c3)))).
      { pose proof (ctx_flush_frame c3) as (_ & _ & _ & _ & _ & -> & _). eapply chain_good; [apply flush_list_chain|exact H3]. }
      destruct (ctx_flush cfg c3) as [c4 [x|e]]; exact H4. }
    destruct (o_sigterm o); [|apply G; exact H].
    destruct (uninstall_sigterm main false c) as [c1 [x|e]]; cbn [fst] in *; [apply G|]; rewrite W; exact H.
  - pose proof (ctx_flush_frame c) as (_ & _ & _ & _ & _ & -> & _). eapply chain_good; [apply flush_list_chain|exact H].
  - exact H.
  - exact H.
  - destruct (c_sig c); exact H.
  - pose proof (step_chain cfg o (c_w c) (wi_b _ _ (proj1 H))) as HC. destruct (step cfg o (c_w c)) as [w r]. eapply chain_good; [exact HC|exact H].
  - pose proof (eval_chain cfg None s (c_w c) (proj1 H)) as HC. destruct (eval cfg None s (c_w c)) as [w r]. eapply chain_good; [exact HC|exact H].
Qed.
Lemma crun_good os : forall c, good (c_w c) -> good (c_w (crun cfg os c)).
Proof. induction os as [|o os IH]; intros c H; [exact H|]. apply IH, cstep_good, H. Qed.
Lemma init_good async : good (init async).
Proof. split; [apply init_winv|]. apply (reach_q cfg). constructor. Qed.

(** *** Flushing one logger leaves the others alone *)
Lemma flush_queue_other l l' : l' <> l -> forall q w, w_logs (fst (flush_queue cfg l q w)) l' = w_logs w l'.
Proof.
  intros Hn. induction q as [|[k e] q IH]; intros w; [reflexivity|].
  rewrite flush_queue_cons. set (w1 := set_logs _ w). assert (E : w_logs w1 l' = w_logs w l') by (unfold w1; cbn; apply upd_neq; auto).
  unfold bind. pose proof (dispatch_spec cfg l k e w1) as HD. cbv zeta in HD.
  assert (ED : w_logs (fst (dispatch cfg l k e w1)) = w_logs w1).
  { unfold dispatch, bind, get_log. destruct k; try (destruct (call_hooks_spec cfg l _ e (lg_hooks (w_logs w1 l) KBegin) w1) as (d & rest & _ & H2 & _)); unfold note;
    try (match goal with |- context [call_hooks cfg l ?k e ?h w1] => destruct (call_hooks_spec cfg l k e h w1) as (d' & rest' & _ & H2' & _); rewrite H2'; reflexivity end).
    destruct (cf_note _ _ _); reflexivity. }
  destruct (dispatch cfg l k e w1) as [w2 [u|x]]; cbn [fst] in *; [rewrite IH|]; rewrite ED; exact E.
Qed.
Lemma flush_other l l' w : l' <> l -> w_logs (fst (flush cfg l w)) l' = w_logs w l'.
Proof.
  intros Hn. rewrite flush_eq. destruct (preflush_spec cfg l (lg_pre (w_logs w l)) w) as (n1 & H1 & _).
  destruct (run_preflush cfg l (lg_pre (w_logs w l)) w) as [w1 [u|x]]; cbn [fst] in H1; subst w1; [|reflexivity].
  pose proof (flush_queue_other l l' Hn (lg_queue (w_logs (add_trace n1 w) l)) (add_trace n1 w)) as E.
  destruct (flush_queue cfg l _ (add_trace n1 w)) as [w2 [v|x]]; cbn [fst] in *; [|exact E]. cbn. rewrite upd_neq by auto. exact E.
Qed.

Lemma by_app l a b : by_logger l (a ++ b) = by_logger l a ++ by_logger l b. Proof. apply filter_app. Qed.
Lemma by_handed l n : by_logger l n = by_logger l (handed n).
Proof. induction n as [|o n IH]; [reflexivity|]. destruct o; cbn; auto. destruct (l0 =? l); rewrite ?IH; auto. f_equal. exact IH. Qed.
Lemma by_deliveries l l' k e d : by_logger l (map (fun s => ODeliver l' k s e) d) = if Nat.eqb l' l then map (fun s => ODeliver l' k s e) d else [].
Proof. unfold by_logger. induction d as [|x d IH]; cbn; [destruct (l' =? l); reflexivity|]. rewrite IH. destruct (l' =? l); reflexivity. Qed.
Lemma by_everyone l l' w q : by_logger l (everyone cfg w l' q) = if Nat.eqb l' l then everyone cfg w l' q else [].
Proof.
  unfold everyone. induction q as [|p q IH]; cbn [flat_map]; [destruct (l' =? l); reflexivity|]. rewrite by_app, IH, by_deliveries. destruct (l' =? l); reflexivity.
Qed.
Lemma flush_by_other l l' w : l' <> l -> good w -> exists n, w_trace (fst (flush cfg l w)) = w_trace w ++ n /\ by_logger l' n = [].
Proof.
  intros Hn [HW HQ]. destruct (flush_spec cfg l w (wi_hooks _ _ HW) HQ) as (n & Hn1 & HO). exists n. split; [exact Hn1|].
  rewrite by_handed. destruct (Nat.eqb_spec l l') as [->|Hd]; [congruence|]. apply Nat.eqb_neq in Hd.
  inversion HO as [A B|dn k e lf called s missed t x A B C D E|x A B C]; rewrite ?B, ?C, ?D.
  - rewrite by_everyone, Hd. reflexivity.
  - rewrite by_app, by_everyone, by_deliveries, Hd. reflexivity.
  - reflexivity.
Qed.
Lemma flush_raises_ordinary l w x : ordinary cfg -> good w -> snd (flush cfg l w) = Raise x -> exn_ord x = true.
Proof.
  intros (O1 & O2 & O3) [HW HQ] Hx. destruct (flush_spec cfg l w (wi_hooks _ _ HW) HQ) as (n & _ & HO). rewrite Hx in HO.
  inversion HO as [A B|dn k e lf called s missed t y A B C D E F|y A B C F]; subst; [eapply O1; eauto|].
  destruct A as [(t & h & A1 & A2)|(t & m & A1)]; [eapply O2; eauto|]. rewrite O3 in A1. discriminate.
Qed.
Lemma good_note w m : good w -> good (set_trace (w_trace w ++ [ONote m]) w).
Proof. intros H. eapply (chain_good Pother); [|exact H]. eapply chain_one; [reflexivity|apply T_note]. Qed.
Lemma good_flush l w : good w -> good (fst (flush cfg l w)).
Proof. intros H. eapply chain_good; [apply flush_chain|exact H]. Qed.
Lemma flush_list_each ls : ordinary cfg -> forall w, good w ->
  snd (flush_list cfg ls w) = Ok tt /\ flushed_each cfg ls w (fst (flush_list cfg ls w)).
Proof.
  intros HO. induction ls as [|l ls IH]; intros w HG; [split; [reflexivity|constructor]|]. cbn [flush_list].
  pose proof (flush_raises_ordinary l w) as HR. pose proof (good_flush l w HG) as HG'.
  destruct (flush cfg l w) as [w' [[]|x]] eqn:HF; cbn [fst snd] in *.
  - destruct (IH w' HG') as [I1 I2]. split; [exact I1|]. apply each_ok; rewrite HF; auto.
  - rewrite (HR x HO HG eq_refl). unfold bind, note. destruct HO as (_ & _ & O3). rewrite O3.
    destruct (IH _ (good_note w' "context_flush" HG')) as [I1 I2]. split; [exact I1|]. eapply each_failed; rewrite HF; [reflexivity|exact I2].
Qed.
Lemma flush_quiet_logger l w : ordinary cfg -> logger_quiet cfg l -> good w ->
  snd (flush cfg l w) = Ok tt /\ lg_queue (w_logs (fst (flush cfg l w)) l) = [] /\
  exists n, w_trace (fst (flush cfg l w)) = w_trace w ++ n /\ by_logger l n = everyone cfg w l (lg_queue (w_logs w l)).
Proof.
  intros (O1 & O2 & O3) [Q1 Q2] [HW HQ]. destruct (flush_spec cfg l w (wi_hooks _ _ HW) HQ) as (n & Hn & HO).
  inversion HO as [A B E|dn k e lf called s missed t y A B C D E F|y A B C F].
  - split; [reflexivity|]. split; [exact A|]. exists n. split; [exact Hn|]. rewrite by_handed, B, by_everyone, Nat.eqb_refl. reflexivity.
  - rewrite Q1 in E. discriminate.
  - destruct A as [(t & h & A1 & A2)|(t & m & A1)]; [rewrite Q2 in A1|rewrite O3 in A1]; discriminate.
Qed.
Lemma flush_list_others ls l : ~ In l ls -> forall w, good w -> w_logs (fst (flush_list cfg ls w)) l = w_logs w l /\
  exists n, w_trace (fst (flush_list cfg ls w)) = w_trace w ++ n /\ by_logger l n = [].
Proof.
  induction ls as [|l' ls IH]; intros Hn w HG; cbn [flush_list].
  - split; [reflexivity|]. exists []. rewrite app_nil_r. auto.
  - assert (Hd : l <> l') by (intros ->; apply Hn; left; auto). assert (Hn' : ~ In l ls) by (intros H; apply Hn; right; auto).
    pose proof (flush_other l' l w Hd) as HL. destruct (flush_by_other l' l w Hd HG) as (n & Hn1 & Hn2). pose proof (good_flush l' w HG) as HG'.
    destruct (flush cfg l' w) as [w' [u|x]]; cbn [fst] in *.
    + destruct (IH Hn' w' HG') as (I1 & n2 & I2 & I3). split; [congruence|]. exists (n ++ n2). rewrite I2, Hn1, app_assoc, by_app, Hn2, I3. auto.
    + destruct (exn_ord x); [|split; [exact HL|exists n; auto]]. unfold bind, note. destruct (cf_note cfg (w_trace w') "context_flush"); cbn [fst].
      * split; [exact HL|]. exists (n ++ [ONote "context_flush"]). cbn. rewrite Hn1, <- app_assoc, by_app, Hn2. auto.
      * destruct (IH Hn' _ (good_note w' "context_flush" HG')) as (I1 & n2 & I2 & I3). split; [rewrite I1; exact HL|].
        exists (n ++ [ONote "context_flush"] ++ n2). rewrite I2. cbn [set_trace w_trace]. rewrite Hn1, <- !app_assoc, !by_app, Hn2, I3. auto.
Qed.
Lemma everyone_same l w w' : w_logs w' l = w_logs w l -> everyone cfg w' l (lg_queue (w_logs w' l)) = everyone cfg w l (lg_queue (w_logs w l)).
Proof. intros E. unfold everyone, listeners. rewrite E. reflexivity. Qed.
Lemma flush_list_quiet ls l : ordinary cfg -> logger_quiet cfg l -> In l ls -> NoDup ls -> forall w, good w ->
  lg_queue (w_logs (fst (flush_list cfg ls w)) l) = [] /\
  exists n, w_trace (fst (flush_list cfg ls w)) = w_trace w ++ n /\ by_logger l n = everyone cfg w l (lg_queue (w_logs w l)).
Proof.
  intros HO HQ. induction ls as [|l' ls IH]; intros Hin Hnd w HG; [destruct Hin|]. inversion Hnd as [|? ? Hn' Hnd']; subst. cbn [flush_list].
  destruct (Nat.eq_dec l' l) as [->|Hd].
  - destruct (flush_quiet_logger l w HO HQ HG) as (F1 & F2 & n & F3 & F4). pose proof (good_flush l w HG) as HG'.
    destruct (flush cfg l w) as [w' [u|x]]; cbn [fst snd] in *; [|discriminate].
    destruct (flush_list_others ls l Hn' w' HG') as (I1 & n2 & I2 & I3). split; [rewrite I1; exact F2|]. exists (n ++ n2).
    rewrite I2, F3, app_assoc, by_app, F4, I3, app_nil_r. auto.
  - destruct Hin as [Hin|Hin]; [congruence|]. assert (Hd2 : l <> l') by auto.
    pose proof (flush_other l' l w Hd2) as HL. destruct (flush_by_other l' l w Hd2 HG) as (n & Hn1 & Hn2). pose proof (good_flush l' w HG) as HG'.
    pose proof (flush_raises_ordinary l' w) as HR. destruct (flush cfg l' w) as [w' [u|x]]; cbn [fst snd] in *.
    + destruct (IH Hin Hnd' w' HG') as (I1 & n2 & I2 & I3). split; [exact I1|]. exists (n ++ n2).
      rewrite I2, Hn1, app_assoc, by_app, Hn2, I3. split; [reflexivity|]. apply everyone_same; auto.
    + rewrite (HR x HO HG eq_refl). unfold bind, note. rewrite (proj2 (proj2 HO)).
      destruct (IH Hin Hnd' _ (good_note w' "context_flush" HG')) as (I1 & n2 & I2 & I3). split; [exact I1|].
      exists (n ++ [ONote "context_flush"] ++ n2). rewrite I2. cbn [set_trace w_trace]. rewrite Hn1, <- !app_assoc, !by_app, Hn2, I3. split; [reflexivity|].
      apply (everyone_same l w). exact HL.
Qed.
Lemma nodup_snoc (l : list nat) x : NoDup l -> ~ In x l -> NoDup (l ++ [x]).
Proof.
  induction 1 as [|y l Hy Hl IH]; intros Hx; cbn; [constructor; [intros []|constructor]|]. constructor.
  - rewrite in_app_iff. intros [H|[H|[]]]; [auto|]. subst. apply Hx. left; auto.
  - apply IH. intros H. apply Hx. right; auto.
Qed.
Lemma registered_nodup os : forall ls, NoDup ls -> NoDup (registered ls os).
Proof.
  assert (A : forall l ls, NoDup ls -> NoDup (if existsb (Nat.eqb l) ls then ls else ls ++ [l])).
  { intros l ls H. destruct (existsb (Nat.eqb l) ls) eqn:E; [exact H|]. apply nodup_snoc; auto. intros Hin. apply existsb_eqb_In in Hin. congruence. }
  induction os as [|o os IH]; intros ls H; [exact H|]. destruct o; cbn [registered]; apply IH; auto. apply NoDup_filter; auto.
Qed.

(** *** Modes *)
Lemma set_async_list_spec ls b : forall w l, w_logs (set_async_list ls b w) l = if existsb (Nat.eqb l) ls then lg_set_async b (w_logs w l) else w_logs w l.
Proof.
  induction ls as [|l0 ls IH]; intros w l; [reflexivity|]. cbn [set_async_list existsb]. rewrite IH. cbn. unfold upd.
  destruct (l =? l0) eqn:E; cbn [orb]; [|reflexivity]. apply Nat.eqb_eq in E as <-.
  destruct (existsb (Nat.eqb l) ls); reflexivity.
Qed.
Lemma flush_list_async ls l : forall w, lg_async (w_logs (fst (flush_list cfg ls w)) l) = lg_async (w_logs w l).
Proof.
  intros w. eapply (chain_rel cfg (fun w w' => lg_async (w_logs w' l) = lg_async (w_logs w l)) Pother); [auto | congruence | | apply flush_list_chain].
  intros lb w1 w2 Hp HT. apply (T_logs _ _ _ _ HT). unfold Pother in Hp. congruence.
Qed.
Lemma sorted_same c c' : c_loggers c' = c_loggers c -> sorted_loggers c' = sorted_loggers c.
Proof. unfold sorted_loggers. intros ->. reflexivity. Qed.
Lemma enable_modes m o c : o_loggers o = true -> snd (enable_async m o c) = Ok tt -> forall l, In l (sorted_loggers c) ->
  lg_async (w_logs (c_w (fst (enable_async m o c))) l) = false.
Proof.
  intros Ho Hr l Hin. unfold enable_async in *. pose proof (install_frame m (c_set_async true c)) as (A & _ & B & _). cbv zeta in A, B.
  destruct (if o_sigterm o then install_sigterm m (c_set_async true c) else (c_set_async true c, Ok false)) as [c2 [x|e]] eqn:E; [|discriminate].
  assert (S2 : sorted_loggers c2 = sorted_loggers c).
  { destruct (o_sigterm o); [rewrite E in A; cbn in A; apply sorted_same; exact A|inversion E; apply sorted_same; reflexivity]. }
  rewrite Ho. cbn [fst]. match goal with |- context [register_exit ?x] => pose proof (register_frame x) as (_ & _ & -> & _) end. cbn [c_set_w c_w]. rewrite set_async_list_spec.
  assert (S3 : sorted_loggers (if o_actor o then c_set_actor (Some true) c2 else c2) = sorted_loggers c) by (rewrite <- S2; destruct (o_actor o); reflexivity).
  rewrite S3. rewrite (proj2 (existsb_eqb_In l _) Hin). reflexivity.
Qed.
Lemma disable_modes m o c : good (c_w c) -> ordinary cfg -> o_loggers o = true -> (m = true \/ o_sigterm o = false) ->
  NoDup (sorted_loggers c) ->
  snd (disable_async cfg m o c) = Ok tt /\
  c_async (fst (disable_async cfg m o c)) = false /\
  forall l, In l (sorted_loggers c) ->
    lg_async (w_logs (c_w (fst (disable_async cfg m o c))) l) = false /\
    (logger_quiet cfg l -> lg_queue (w_logs (c_w (fst (disable_async cfg m o c))) l) = [] /\
      exists n, w_trace (c_w (fst (disable_async cfg m o c))) = w_trace (c_w c) ++ n /\ by_logger l n = everyone cfg (c_w c) l (lg_queue (w_logs (c_w c) l))).
Proof.
  intros HG HO Ho Hm Hnd. unfold disable_async. pose proof (uninstall_frame m false c) as (A & _ & B & _). cbv zeta in A, B.
  assert (U : exists c1 b, (if o_sigterm o then uninstall_sigterm m false c else (c, Ok false)) = (c1, Ok b)).
  { destruct (o_sigterm o); [|eauto]. destruct Hm as [->|Hm]; [|discriminate]. unfold uninstall_sigterm. destruct (false || _); eauto. }
  destruct U as (c1 & b & E). rewrite E. rewrite Ho.
  assert (F1 : c_loggers c1 = c_loggers c /\ c_w c1 = c_w c) by (destruct (o_sigterm o); [rewrite E in A, B; auto|inversion E; auto]).
  cbv zeta. set (c2 := if o_actor o then _ else c1). assert (F2 : c_loggers c2 = c_loggers c /\ c_w c2 = c_w c) by (unfold c2; destruct (o_actor o); [destruct (c_actor c1)|]; auto). clearbody c2.
  set (c3 := c_set_w _ c2). assert (S3 : sorted_loggers c3 = sorted_loggers c) by (apply sorted_same; apply F2).
  assert (S2 : sorted_loggers c2 = sorted_loggers c) by (apply sorted_same; apply F2).
  assert (W3 : c_w c3 = set_async_list (sorted_loggers c) false (c_w c)) by (unfold c3; cbn; destruct F2 as [_ ->]; rewrite S2; reflexivity).
  assert (G3 : good (c_w c3)) by (rewrite W3; eapply (chain_good Pany); [apply set_async_list_chain|exact HG]).
  assert (T3 : w_trace (c_w c3) = w_trace (c_w c)).
  { rewrite W3. clear. generalize (sorted_loggers c) (c_w c). induction l as [|l0 ls IH]; intros w; [reflexivity|]. cbn [set_async_list]. rewrite IH. reflexivity. }
  clearbody c3. pose proof (ctx_flush_frame c3) as (_ & _ & _ & _ & _ & FW & _). pose proof (flush_list_each (sorted_loggers c3) HO (c_w c3) G3) as [R _].
  assert (R' : snd (ctx_flush cfg c3) = Ok tt) by (unfold ctx_flush; destruct (flush_list cfg (sorted_loggers c3) (c_w c3)); exact R).
  cbv zeta in FW. destruct (ctx_flush cfg c3) as [c4 r4]. cbn [fst snd] in *. subst r4. cbn [fst snd c_set_async c_async c_w]. split; [reflexivity|]. split; [reflexivity|].
  intros l Hin. rewrite FW, S3. split.
  - rewrite flush_list_async, W3, set_async_list_spec, (proj2 (existsb_eqb_In l _) Hin). reflexivity.
  - intros HQ. destruct (flush_list_quiet (sorted_loggers c) l HO HQ Hin Hnd (c_w c3) G3) as (Q1 & n & Q2 & Q3). split; [exact Q1|].
    exists n. rewrite Q2, T3, Q3. split; [reflexivity|]. unfold everyone, listeners. rewrite W3, set_async_list_spec, (proj2 (existsb_eqb_In l _) Hin). reflexivity.
Qed.

(** *** SIGTERM *)
Definition foreign (h : handler) : Prop := h <> SigDfl /\ h <> SigLithoxyl.
Lemma install_sig m c : c_sig (fst (install_sigterm m c)) = match c_sig c with SigDfl => if m then SigLithoxyl else SigDfl | h => h end.
Proof. unfold install_sigterm. destruct (c_sig c) eqn:E, m; cbn; auto. Qed.
Lemma uninstall_sig m c : c_sig (fst (uninstall_sigterm m false c)) = match c_sig c with SigLithoxyl => if m then SigDfl else SigLithoxyl | h => h end.
Proof. unfold uninstall_sigterm. destruct (c_sig c) eqn:E, m; cbn; auto. Qed.
Lemma enable_sig m o c : c_sig (fst (enable_async m o c)) = if o_sigterm o then c_sig (fst (install_sigterm m c)) else c_sig c.
Proof.
  unfold enable_async. destruct (o_sigterm o).
  - assert (E : c_sig (fst (install_sigterm m (c_set_async true c))) = c_sig (fst (install_sigterm m c))) by (rewrite !install_sig; reflexivity).
    destruct (install_sigterm m (c_set_async true c)) as [c2 [x|e]]; cbn [fst] in *; [|exact E]. destruct (o_actor o), (o_loggers o); match goal with |- context [register_exit ?x] => pose proof (register_frame x) as (_ & _ & _ & _ & _ & ->) end; exact E.
  - destruct (o_actor o), (o_loggers o); cbn [fst]; match goal with |- context [register_exit ?x] => pose proof (register_frame x) as (_ & _ & _ & _ & _ & ->) end; reflexivity.
Qed.
Lemma disable_sig m o c : c_sig (fst (disable_async cfg m o c)) = if o_sigterm o then c_sig (fst (uninstall_sigterm m false c)) else c_sig c.
Proof.
  unfold disable_async. assert (H : forall c1, c_sig (fst (let c2 := if o_actor o then match c_actor c1 with Some _ => c_set_actor (Some false) c1 | None => c1 end else c1 in
    let c3 := if o_loggers o then c_set_w (set_async_list (sorted_loggers c2) false (c_w c2)) c2 else c2 in
    match ctx_flush cfg c3 with
    | (c4, Raise e) => (c4, Raise e)
    | (c4, Ok _) => (c_set_async false c4, Ok tt)
    end)) = c_sig c1).
  { intros c1. cbv zeta. set (c2 := if o_actor o then _ else c1). assert (F2 : c_sig c2 = c_sig c1) by (unfold c2; destruct (o_actor o); [destruct (c_actor c1)|]; auto). clearbody c2.
    set (c3 := if o_loggers o then _ else c2). assert (F3 : c_sig c3 = c_sig c1) by (unfold c3; destruct (o_loggers o); auto). clearbody c3.
    pose proof (ctx_flush_frame c3) as (_ & _ & _ & _ & A & _). destruct (ctx_flush cfg c3) as [c4 [x|e]]; cbn [fst] in *; cbn; congruence. }
  destruct (o_sigterm o); [|apply H]. destruct (uninstall_sigterm m false c) as [c1 [x|e]]; cbn [fst]; [apply H|reflexivity].
Qed.
Lemma cstep_sig o c : (forall h, o <> CoSignal h) -> c_sig (fst (cstep cfg o c)) = c_sig c \/
  (c_sig c = SigDfl /\ c_sig (fst (cstep cfg o c)) = SigLithoxyl) \/ (c_sig c = SigLithoxyl /\ c_sig (fst (cstep cfg o c)) = SigDfl).
Proof.
  intros Hn. destruct o; cbn [cstep fst]; auto.
  - left. unfold create_logger, add_logger. destruct (existsb _ _); reflexivity.
  - left. unfold add_logger. destruct (existsb _ _); reflexivity.
  - rewrite enable_sig. destruct (o_sigterm o); auto. rewrite install_sig. destruct (c_sig c), main; auto.
  - rewrite disable_sig. destruct (o_sigterm o); auto. rewrite uninstall_sig. destruct (c_sig c), main; auto.
  - left. apply ctx_flush_frame.
  - destruct (Hn h eq_refl).
  - left. destruct (c_sig c) eqn:E; cbn; congruence.
  - left. destruct (step cfg o (c_w c)); reflexivity.
  - left. destruct (eval cfg None s (c_w c)); reflexivity.
Qed.
Lemma crun_sig os : forall c, no_signal os -> (c_sig (crun cfg os c) = c_sig c \/
  (c_sig c = SigDfl /\ c_sig (crun cfg os c) = SigLithoxyl) \/ (c_sig c = SigLithoxyl /\ c_sig (crun cfg os c) = SigDfl)).
Proof.
  induction os as [|o os IH]; intros c Hn; [auto|]. cbn [crun].
  destruct (IH (fst (cstep cfg o c))) as [I|[[I1 I2]|[I1 I2]]]; [intros h Hh; apply (Hn h); right; exact Hh| | |];
    (destruct (cstep_sig o c) as [J|[[J1 J2]|[J1 J2]]]; [intros h ->; apply (Hn h); left; reflexivity| | |]);
    try (rewrite I1 in *); try (rewrite I2); try (rewrite I); try (rewrite J); try (rewrite J1); try rewrite J2; auto; try congruence.
Qed.
Lemma last_signal_foreign os h : last_signal os = Some h -> foreign h -> forall c, c_sig (crun cfg os c) = h.
Proof.
  intros HL [F1 F2]. induction os as [|o os IH]; intros c; [discriminate|].
  assert (Hcase : last_signal os = Some h \/ (last_signal os = None /\ o = CoSignal h)).
  { destruct o; cbn in HL; auto. destruct (last_signal os); [auto|]. inversion HL; auto. }
  destruct Hcase as [HC|[HC ->]]; [apply IH; exact HC|]. cbn [crun cstep fst].
  assert (Hno : no_signal os).
  { clear -HC. intros h Hin. induction os as [|o os IH]; [destruct Hin|]. destruct Hin as [->|Hin].
    - cbn in HC. destruct (last_signal os); discriminate.
    - destruct o; cbn in HC; try (apply (IH HC Hin)). destruct (last_signal os); discriminate. }
  destruct (crun_sig os (c_set_sig h c) Hno) as [E|[[E1 E2]|[E1 E2]]]; cbn in *; congruence.
Qed.

(** *** Exit functions *)
Definition count_hook (p : hook -> bool) (hs : list hook) : nat := length (filter p hs).
Definition is_disable (h : hook) : bool := match h with HDisable => true | _ => false end.
Definition is_reissue (h : hook) : bool := negb (ordinary_hook h).
Lemma count_app p a b : count_hook p (a ++ b) = count_hook p a + count_hook p b.
Proof. unfold count_hook. rewrite filter_app, app_length. reflexivity. Qed.
Definition xs (c : cstate) : bool * list hook := (c_atexit c, c_exits c).
Lemma install_xs m c : xs (fst (install_sigterm m c)) = xs c.
Proof. unfold install_sigterm. destruct (c_sig c), m; reflexivity. Qed.
Lemma uninstall_xs m f c : xs (fst (uninstall_sigterm m f c)) = xs c.
Proof. unfold uninstall_sigterm. destruct (f || _), m; reflexivity. Qed.
Lemma flush_xs c : xs (fst (ctx_flush cfg c)) = xs c.
Proof. unfold ctx_flush. destruct (flush_list cfg (sorted_loggers c) (c_w c)). reflexivity. Qed.
Lemma disable_xs m o c : xs (fst (disable_async cfg m o c)) = xs c.
Proof.
  unfold disable_async. assert (H : forall c1, xs c1 = xs c -> xs (fst (let c2 := if o_actor o then match c_actor c1 with Some _ => c_set_actor (Some false) c1 | None => c1 end else c1 in
    let c3 := if o_loggers o then c_set_w (set_async_list (sorted_loggers c2) false (c_w c2)) c2 else c2 in
    match ctx_flush cfg c3 with
    | (c4, Raise e) => (c4, Raise e)
    | (c4, Ok _) => (c_set_async false c4, Ok tt)
    end)) = xs c).
  { intros c1 E1. cbv zeta. set (c2 := if o_actor o then _ else c1). assert (F2 : xs c2 = xs c) by (unfold c2; destruct (o_actor o); [destruct (c_actor c1)|]; auto). clearbody c2.
    set (c3 := if o_loggers o then _ else c2). assert (F3 : xs c3 = xs c) by (unfold c3; destruct (o_loggers o); auto). clearbody c3.
    pose proof (flush_xs c3) as A. destruct (ctx_flush cfg c3) as [c4 [x|e]]; cbn [fst] in *; [change (xs (c_set_async false c4)) with (xs c4)|]; congruence. }
  destruct (o_sigterm o); [|apply H; reflexivity].
  pose proof (uninstall_xs m false c) as A. destruct (uninstall_sigterm m false c) as [c1 [x|e]]; cbn [fst] in *; [apply H; auto|auto].
Qed.
Lemma enable_xs m o c : xs (fst (enable_async m o c)) =
  match snd (enable_async m o c) with
  | Ok _ => (true, if c_atexit c then c_exits c else c_exits c ++ [HDisable])
  | Raise _ => xs c
  end.
Proof.
  unfold enable_async. assert (H : forall c2, xs c2 = xs c ->
    xs (register_exit (let c3 := if o_actor o then c_set_actor (Some true) c2 else c2 in
       if o_loggers o then c_set_w (set_async_list (sorted_loggers c3) false (c_w c3)) c3 else c3)) = (true, if c_atexit c then c_exits c else c_exits c ++ [HDisable])).
  { intros c2 E. inversion E as [[E1 E2]]. unfold register_exit. destruct (o_actor o), (o_loggers o); cbn; rewrite ?E1; destruct (c_atexit c) eqn:A; unfold xs; cbn; congruence. }
  destruct (o_sigterm o); [|apply H; reflexivity].
  pose proof (install_xs m (c_set_async true c)) as A. destruct (install_sigterm m (c_set_async true c)) as [c2 [x|e]]; cbn [fst snd] in *; [apply H|]; exact A.
Qed.
Lemma cstep_xs o c : xs (fst (cstep cfg o c)) =
  match o with
  | CoEnable m p => match snd (enable_async m p c) with Ok _ => (true, if c_atexit c then c_exits c else c_exits c ++ [HDisable]) | Raise _ => xs c end
  | CoAtexit n => (c_atexit c, c_exits c ++ [HApp n])
  | CoSigterm => (c_atexit c, c_exits c ++ match c_sig c with SigLithoxyl => [HReissue] | _ => [] end)
  | _ => xs c
  end.
Proof.
  destruct o; cbn [cstep fst]; auto using enable_xs, disable_xs, flush_xs.
  - unfold create_logger, add_logger. destruct (existsb _ _); reflexivity.
  - unfold add_logger. destruct (existsb _ _); reflexivity.
  - unfold xs. destruct (c_sig c); cbn; rewrite ?app_nil_r; reflexivity.
  - destruct (step cfg o (c_w c)); reflexivity.
  - destruct (eval cfg None s (c_w c)); reflexivity.
Qed.
Lemma crun_exits os : forall c,
  count_hook is_disable (c_exits c) = (if c_atexit c then 1 else 0) ->
  count_hook is_disable (c_exits (crun cfg os c)) = (if c_atexit (crun cfg os c) then 1 else 0) /\
  count_hook is_reissue (c_exits (crun cfg os c)) <= count_hook is_reissue (c_exits c) + sigterms os /\
  (c_atexit c = true -> c_atexit (crun cfg os c) = true).
Proof.
  induction os as [|o os IH]; intros c H; [unfold sigterms; cbn; repeat split; auto; lia|]. cbn [crun].
  assert (Y : (fun x : bool * list hook => count_hook is_disable (snd x) = (if fst x then 1 else 0) /\
    count_hook is_reissue (snd x) <= count_hook is_reissue (c_exits c) + sigterms [o] /\ (c_atexit c = true -> fst x = true)) (xs (fst (cstep cfg o c)))).
  { rewrite cstep_xs. unfold sigterms, xs. destruct o; cbn [fst snd filter length]; try (repeat split; auto; lia).
    - destruct (snd (enable_async main o c)) as [u|e]; cbn [fst snd]; [|repeat split; auto; lia].
      destruct (c_atexit c); [repeat split; auto; lia|]. rewrite !count_app, H. cbn. repeat split; auto; lia.
    - rewrite !count_app. cbn. repeat split; auto; lia.
    - rewrite !count_app. destruct (c_sig c); cbn; repeat split; auto; lia. }
  unfold xs in Y. cbn [fst snd] in Y. destruct Y as (Y1 & Y2 & Y3). destruct (IH _ Y1) as (Z1 & Z2 & Z3). split; [exact Z1|]. split; [|auto].
  assert (E : sigterms (o :: os) = sigterms [o] + sigterms os) by (unfold sigterms; cbn [filter]; destruct o; cbn [length]; auto). lia.
Qed.
Lemma enabled_exits os c : count_hook is_disable (c_exits c) = (if c_atexit c then 1 else 0) -> was_enabled cfg os c ->
  count_hook is_disable (c_exits (crun cfg os c)) = 1.
Proof.
  intros H (os1 & m & o & os2 & -> & E).
  assert (A : forall a b c0, crun cfg (a ++ b) c0 = crun cfg b (crun cfg a c0)) by (induction a as [|x a IHa]; intros; cbn; auto).
  rewrite A. cbn [crun]. destruct (crun_exits os1 c H) as (B1 & _ & _). set (c1 := crun cfg os1 c) in *.
  pose proof (cstep_xs (CoEnable m o) c1) as X. cbv beta iota in X. rewrite E in X. set (c2 := fst (cstep cfg (CoEnable m o) c1)) in *. clearbody c2.
  unfold xs in X. injection X as X1 X2.
  assert (K : count_hook is_disable (c_exits c2) = (if c_atexit c2 then 1 else 0)).
  { rewrite X1, X2. destruct (c_atexit c1); [exact B1|]. rewrite count_app, B1. reflexivity. }
  destruct (crun_exits os2 c2 K) as (D1 & _ & D3). rewrite D1, (D3 X1). reflexivity.
Qed.
End C.

(** Which exit functions run. *)
Lemma rev_last_cons {A} (a : A) l x : rev (a :: l) = x -> exists y r, x = y :: r /\ In y (a :: l).
Proof.
  intros <-. destruct (rev (a :: l)) as [|y r] eqn:E; [apply (f_equal (@length A)) in E; rewrite rev_length in E; discriminate|].
  exists y, r. split; auto. apply in_rev. rewrite E. left. auto.
Qed.
Lemma again_all s : (forall h, In h s -> ordinary_hook h = true) -> run_hooks_again (s ++ [HReissue]) = (s, true).
Proof.
  induction s as [|h s IH]; intros H; [reflexivity|]. cbn [app run_hooks_again]. rewrite IH by (intros x Hx; apply H; right; auto).
  destruct h; auto. discriminate (H HReissue). left. auto.
Qed.
Lemma count_zero p hs : count_hook p hs = 0 -> forall h, In h hs -> p h = false.
Proof.
  unfold count_hook. intros H h Hin. destruct (p h) eqn:E; auto. assert (Hf : In h (filter p hs)) by (apply filter_In; auto). destruct (filter p hs); [destruct Hf|discriminate].
Qed.
Lemma run_one s : count_hook is_reissue s <= 1 ->
  run_hooks true s = (filter ordinary_hook s, Nat.eqb (count_hook is_reissue s) 1).
Proof.
  induction s as [|h s IH]; intros H; [reflexivity|]. unfold count_hook in H. cbn [filter] in H.
  destruct h; cbn [is_reissue ordinary_hook negb] in H.
  1, 3: cbn [run_hooks filter ordinary_hook]; rewrite IH by exact H; unfold count_hook; reflexivity.
  cbn [length] in H. assert (Z0 : count_hook is_reissue s = 0) by (unfold count_hook; lia).
  assert (O : forall x, In x s -> ordinary_hook x = true).
  { intros x Hx. pose proof (count_zero _ _ Z0 x Hx) as Hr. unfold is_reissue in Hr. destruct (ordinary_hook x); auto. }
  assert (F : filter ordinary_hook s = s). { clear -O. induction s as [|x s IH]; auto. cbn. rewrite (O x) by (left; auto). rewrite IH; auto. intros y Hy. apply O. right. auto. }
  unfold count_hook. cbn [filter ordinary_hook is_reissue negb length]. unfold count_hook in Z0. rewrite Z0, F. cbn [Nat.eqb].
  cbn [run_hooks]. destruct s as [|x s]; [reflexivity|].
  destruct (rev_last_cons x s _ eq_refl) as (y & r & E & Hy). rewrite E. pose proof (O y Hy). destruct y; try discriminate; apply again_all; exact O.
Qed.
Lemma run_py3 s : run_hooks false s = (filter ordinary_hook s, false).
Proof. induction s as [|[| |n] s IH]; cbn; rewrite ?IH; auto. Qed.
Lemma filter_rev' {A} (p : A -> bool) l : filter p (rev l) = rev (filter p l).
Proof. induction l as [|x l IH]; auto. cbn. rewrite filter_app, IH. cbn. destruct (p x); cbn; rewrite ?app_nil_r; auto. Qed.
Lemma count_rev p l : count_hook p (rev l) = count_hook p l.
Proof. unfold count_hook. rewrite filter_rev', rev_length. auto. Qed.
Lemma count_as_filter (p q : hook -> bool) l : (forall h, p h = true -> q h = true) -> count_hook p (filter q l) = count_hook p l.
Proof.
  intros H. unfold count_hook. induction l as [|x l IH]; auto. cbn. destruct (q x) eqn:Q; cbn; destruct (p x) eqn:P; cbn; rewrite ?IH; auto.
  rewrite (H x P) in Q. discriminate.
Qed.
Lemma effect_none cfg r c : count_hook is_disable r = 0 -> hooks_effect cfg r c = c.
Proof. revert c. induction r as [|h r IH]; intros c H; auto. destruct h; cbn in *; auto; discriminate. Qed.
Lemma effect_one cfg r c : count_hook is_disable r = 1 -> hooks_effect cfg r c = fst (disable_async cfg true all_opts c).
Proof.
  revert c. induction r as [|h r IH]; intros c H; [discriminate|]. destruct h; cbn [hooks_effect]; try (apply IH; exact H).
  apply effect_none. unfold count_hook in *. cbn in H. lia.
Qed.
