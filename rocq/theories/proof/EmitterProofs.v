(** Proofs about the emitters: C49-C51. *)
From Verif Require Import model.PyBase model.Emitters spec.EmitterSpec.
Open Scope nat_scope.

Lemma sub_refl {A} (l : list A) : sub l l. Proof. induction l; constructor; auto. Qed.
Lemma sub_empty {A} (l : list A) : sub [] l. Proof. induction l; constructor; auto. Qed.
Lemma sub_app {A} (a b c d : list A) : sub a b -> sub c d -> sub (a ++ c) (b ++ d).
Proof. induction 1; intros; cbn [app]; auto; constructor; auto. Qed.
Lemma sub_trans {A} (a b c : list A) : sub b c -> sub a b -> sub a c.
Proof.
  intros H. revert a. induction H; intros a Ha; auto.
  - inversion Ha; subst; [constructor; auto | apply sub_drop; auto].
  - apply sub_drop. auto.
Qed.
Lemma lines_app em a b : lines em (a ++ b) = lines em a ++ lines em b.
Proof. unfold lines. rewrite map_app, concat_app. reflexivity. Qed.
Lemma lines_one em e : lines em [e] = line em e.
Proof. unfold lines. cbn. apply app_nil_r. Qed.

Section Generic.
Context {W : Type} (io : io_ops W) (taken : W -> bytes).
Hypothesis R : records io taken.

Lemma note_taken w : taken (fst (io_note io w)) = taken w. Proof. apply R. Qed.
Lemma flush_taken em w : taken (fst (flush io em w)) = taken w.
Proof.
  unfold flush. destruct (em_stream em) as [h|]; auto. destruct R as (_ & _ & F & _ & _ & N). specialize (F h w).
  destruct (io_flush io h w) as [w1 [e|]]; cbn [fst] in *; auto. rewrite N. exact F.
Qed.
Lemma waf_taken em d w : let '(w', r) := write_and_flush io em d w in
  (taken w' = taken w ++ d) \/ (taken w' = taken w /\ r <> None).
Proof.
  unfold write_and_flush, stream_write. destruct (em_stream em) as [h|].
  - destruct R as (A & B & _). destruct (io_write io h d w) as [w1 [e|]] eqn:E.
    + right. split; [eapply B; eauto | discriminate].
    + pose proof (flush_taken em w1) as F. destruct (flush io em w1) as [w2 r]. left. cbn [fst] in F. rewrite F. eapply A; eauto.
  - right. split; auto. discriminate.
Qed.
Lemma emit_em em e w : let '(_, em', _) := emit_entry io em e w in
  em_encode em' = em_encode em /\ em_sep em' = em_sep em /\ em_reopen em' = em_reopen em /\ em_name em' = em_name em.
Proof.
  unfold emit_entry. destruct (em_encode em e); auto. destruct (write_and_flush io em _ w) as [w1 [x|]]; auto.
  destruct (io_note io w1) as [w2 [x2|]]; auto. destruct (is_stale em x); auto. destruct (reopen_name em); auto.
  destruct (io_note io w2) as [w3 [x3|]]; auto. destruct (io_open io s w3) as [w4 [h|x4]]; auto.
  destruct (write_and_flush io (em_set_stream em (Some h)) _ w4) as [w5 r]. auto.
Qed.
Lemma stale_only em e : is_stale em e = true -> em_reopen em = true /\ e = ExOS (Some ESTALE).
Proof.
  unfold is_stale. destruct e as [[n|]|]; try discriminate. intros H. apply andb_true_iff in H. destruct H as [H1 H2]. apply Z.eqb_eq in H2. subst. auto.
Qed.
End Generic.

(** A first write that is accepted in full but whose flush runs into a raising note
    handler may be followed by a retry: with quiet notes this cannot happen. *)
Section Quiet.
Context {W : Type} (io : io_ops W) (taken : W -> bytes).
Hypothesis R : records io taken.
Hypothesis Q : quiet_notes io.

Lemma flush_quiet em w : snd (flush io em w) = None.
Proof.
  unfold flush. destruct (em_stream em) as [h|]; auto. destruct (io_flush io h w) as [w1 [e|]]; auto.
Qed.
Lemma waf_quiet em d w : let '(w', r) := write_and_flush io em d w in
  (r = None /\ taken w' = taken w ++ d) \/ (r <> None /\ taken w' = taken w).
Proof.
  unfold write_and_flush, stream_write. destruct (em_stream em) as [h|].
  - destruct R as (A & B & _). destruct (io_write io h d w) as [w1 [e|]] eqn:E.
    + right. split; [discriminate | eapply B; eauto].
    + pose proof (flush_quiet em w1) as F1. pose proof (flush_taken io taken R em w1) as F. destruct (flush io em w1) as [w2 r]. left. cbn [fst snd] in *. split; auto. rewrite F. eapply A; eauto.
  - right. split; auto. discriminate.
Qed.
Lemma emit_taken em e w : let '(w', em', r) := emit_entry io em e w in
  taken w' = taken w ++ line em e \/ taken w' = taken w.
Proof.
  unfold emit_entry, line. destruct (em_encode em e) as [b|]; [|right; auto].
  pose proof (waf_quiet em (b ++ em_sep em) w) as H1. destruct (write_and_flush io em (b ++ em_sep em) w) as [w1 [x|]].
  - destruct H1 as [[H1 _]|[_ H1]]; [discriminate|].
    pose proof (note_taken io taken R w1) as N1. destruct (io_note io w1) as [w2 [x2|]]; cbn [fst] in N1; [right; congruence|].
    destruct (is_stale em x); [|right; congruence]. destruct (reopen_name em) as [n|]; [|right; congruence].
    pose proof (note_taken io taken R w2) as N2. destruct (io_note io w2) as [w3 [x3|]]; cbn [fst] in N2; [right; congruence|].
    assert (O : taken (fst (io_open io n w3)) = taken w3) by apply R. destruct (io_open io n w3) as [w4 [h|x4]]; cbn [fst] in O; [|right; congruence].
    pose proof (waf_quiet (em_set_stream em (Some h)) (b ++ em_sep em) w4) as H2.
    destruct (write_and_flush io (em_set_stream em (Some h)) (b ++ em_sep em) w4) as [w5 r]. destruct H2 as [[_ H2]|[_ H2]]; [left|right]; congruence.
  - destruct H1 as [[_ H1]|[H1 _]]; [left; auto | congruence].
Qed.
Lemma line_em em em' e : em_encode em' = em_encode em -> em_sep em' = em_sep em -> line em' e = line em e.
Proof. unfold line. intros -> ->. reflexivity. Qed.
Lemma lines_em em em' es : em_encode em' = em_encode em -> em_sep em' = em_sep em -> lines em' es = lines em es.
Proof. intros H1 H2. unfold lines. f_equal. apply map_ext. intros. apply line_em; auto. Qed.
Lemma emit_all_taken es em w : let '(w', em', rs) := emit_all io em es w in
  exists kept, sub kept es /\ taken w' = taken w ++ lines em kept.
Proof.
  revert em w. induction es as [|e es IH]; intros em w; cbn [emit_all].
  - exists []. split; [constructor|]. unfold lines. cbn. rewrite app_nil_r. reflexivity.
  - pose proof (emit_taken em e w) as H1. pose proof (emit_em io em e w) as H2. destruct (emit_entry io em e w) as [[w1 em1] r].
    destruct H2 as (H2 & H3 & _). specialize (IH em1 w1). destruct (emit_all io em1 es w1) as [[w2 em2] rs]. destruct IH as (kept & K1 & K2).
    rewrite (lines_em em em1) in K2 by auto. destruct H1 as [H1|H1].
    + exists (e :: kept). split; [constructor; auto|]. change (e :: kept) with ([e] ++ kept). rewrite lines_app, lines_one, app_assoc, <- H1. exact K2.
    + exists kept. split; [apply sub_drop; auto|]. congruence.
Qed.
Lemma emit_written em e w h b w1 :
  em_encode em e = Some b -> em_stream em = Some h -> io_write io h (b ++ em_sep em) w = (w1, None) ->
  let '(w', em', r) := emit_entry io em e w in taken w' = taken w ++ line em e /\ em' = em /\ r = None.
Proof.
  intros He Hs Hw. unfold emit_entry, line. rewrite He. pose proof (waf_quiet em (b ++ em_sep em) w) as H1.
  unfold write_and_flush, stream_write in *. rewrite Hs, Hw in *. pose proof (flush_quiet em w1) as F. destruct (flush io em w1) as [w2 r]. cbn [snd] in F. subst r.
  destruct H1 as [[_ H1]|[H1 _]]; [auto | congruence].
Qed.
Lemma emit_plain_failure em e w h b :
  em_encode em e = Some b -> em_stream em = Some h -> plain_failure (snd (io_write io h (b ++ em_sep em) w)) ->
  let '(w', em', r) := emit_entry io em e w in taken w' = taken w /\ em' = em /\ r = None.
Proof.
  intros He Hs (x & Hx & Hn). unfold emit_entry. rewrite He. unfold write_and_flush, stream_write. rewrite Hs.
  destruct R as (_ & B & _). destruct (io_write io h (b ++ em_sep em) w) as [w1 y] eqn:Ew. cbn [snd] in Hx. subst y.
  pose proof (B _ _ _ _ _ Ew) as T. pose proof (Q w1) as Q1. pose proof (note_taken io taken R w1) as N1. destruct (io_note io w1) as [w2 z]. cbn [fst snd] in *. subst z.
  destruct (is_stale em x) eqn:S; [apply stale_only in S; destruct S; contradiction|]. split; [congruence|auto].
Qed.
Lemma emit_stale_retry em e w h b w1 n :
  em_encode em e = Some b -> em_stream em = Some h -> em_reopen em = true -> reopen_name em = Some n ->
  io_write io h (b ++ em_sep em) w = (w1, Some (ExOS (Some ESTALE))) ->
  (forall v, exists v' h', io_open io n v = (v', inl h') /\ snd (io_write io h' (b ++ em_sep em) v') = None) ->
  let '(w', em', r) := emit_entry io em e w in taken w' = taken w ++ line em e /\ r = None.
Proof.
  intros He Hs Hr Hn Hw Ho. unfold emit_entry, line. rewrite He. unfold write_and_flush at 1, stream_write at 1. rewrite Hs, Hw.
  destruct R as (_ & B & _ & _ & O & _). pose proof (B _ _ _ _ _ Hw) as T.
  pose proof (Q w1) as Q1. pose proof (note_taken io taken R w1) as N1. destruct (io_note io w1) as [w2 z]. cbn [fst snd] in *. subst z.
  assert (St : is_stale em (ExOS (Some ESTALE)) = true) by (unfold is_stale; rewrite Hr; reflexivity). rewrite St, Hn.
  pose proof (Q w2) as Q2. pose proof (note_taken io taken R w2) as N2. destruct (io_note io w2) as [w3 z]. cbn [fst snd] in *. subst z.
  destruct (Ho w3) as (v' & h' & Ho1 & Ho2). specialize (O n w3). rewrite Ho1 in *. cbn [fst] in O.
  pose proof (waf_quiet (em_set_stream em (Some h')) (b ++ em_sep em) v') as H2. unfold write_and_flush, stream_write in *. cbn [em_set_stream em_stream] in *.
  destruct (io_write io h' (b ++ em_sep em) v') as [v2 y]. cbn [snd] in Ho2. subst y.
  pose proof (flush_quiet (em_set_stream em (Some h')) v2) as F. destruct (flush io (em_set_stream em (Some h')) v2) as [v3 y]. cbn [snd] in F. subst y.
  destruct H2 as [[_ H2]|[H2 _]]; [split; congruence | congruence].
Qed.
Lemma emit_all_written es em w h :
  em_stream em = Some h -> encodable em es -> writes_work io ->
  let '(w', em', rs) := emit_all io em es w in
  taken w' = taken w ++ lines em es /\ em' = em /\ forall r, In r rs -> r = None.
Proof.
  intros Hs. revert w. induction es as [|e es IH]; intros w He Hw; cbn [emit_all].
  - unfold lines. cbn. rewrite app_nil_r. split; auto. split; auto. intros r [].
  - destruct (em_encode em e) as [b|] eqn:Eb; [|exfalso; apply (He e); cbn; auto].
    pose proof (Hw h (b ++ em_sep em) w) as Hw1. destruct (io_write io h (b ++ em_sep em) w) as [w1 z] eqn:E. cbn [snd] in Hw1. subst z.
    pose proof (emit_written em e w h b w1 Eb Hs E) as H1. destruct (emit_entry io em e w) as [[w2 em2] r]. destruct H1 as (H1 & -> & ->).
    specialize (IH w2). destruct (emit_all io em es w2) as [[w3 em3] rs]. destruct IH as (I1 & I2 & I3); [intros x Hx; apply He; cbn; auto | auto |].
    split; [|split; auto].
    + change (e :: es) with ([e] ++ es). rewrite lines_app, lines_one, app_assoc, <- H1. exact I1.
    + intros r [<-|Hr]; auto.
Qed.
End Quiet.

Section Raising.
Context {W : Type} (io : io_ops W).
Hypothesis Q : quiet_notes io.
Lemma emit_raises em e w x : snd (emit_entry io em e w) = Some x ->
  em_encode em e = None \/
  exists h b w1, em_stream em = Some h /\ em_encode em e = Some b /\ em_reopen em = true /\
    io_write io h (b ++ em_sep em) w = (w1, Some (ExOS (Some ESTALE))) /\
    ((exists n w2, snd (io_open io n w2) = inr x) \/ (exists h' w3, snd (io_write io h' (b ++ em_sep em) w3) = Some x)).
Proof.
  unfold emit_entry. destruct (em_encode em e) as [b|]; [|auto]. intros H. right.
  unfold write_and_flush at 1, stream_write at 1 in H. destruct (em_stream em) as [h|].
  - destruct (io_write io h (b ++ em_sep em) w) as [w1 [y|]] eqn:Ew.
    + pose proof (Q w1) as Q1. destruct (io_note io w1) as [w2 z]. cbn [snd] in Q1. subst z. destruct (is_stale em y) eqn:S; [|discriminate].
      apply stale_only in S. destruct S as [S1 ->]. destruct (reopen_name em) as [n|]; [|discriminate].
      pose proof (Q w2) as Q2. destruct (io_note io w2) as [w3 z]. cbn [snd] in Q2. subst z.
      exists h, b, w1. repeat split; auto. destruct (io_open io n w3) as [w4 [h'|y]] eqn:Eo.
      * right. exists h', w4. unfold write_and_flush, stream_write in H. cbn [em_set_stream em_stream] in H.
        destruct (io_write io h' (b ++ em_sep em) w4) as [w5 [z|]]; auto.
        pose proof (flush_quiet io Q (mkEm (Some h') (em_name em) (em_sep em) (em_reopen em) (em_encode em)) w5) as F.
        unfold em_set_stream in H. destruct (flush io _ w5) as [w6 z]. cbn [snd] in *. congruence.
      * left. exists n, w3. rewrite Eo. cbn [snd] in *. congruence.
    + pose proof (flush_quiet io Q em w1) as F. destruct (flush io em w1) as [w2 z]. cbn [snd] in F. subst z. discriminate.
  - pose proof (Q w) as Q1. destruct (io_note io w) as [w2 z]. cbn [snd] in Q1. subst z. cbn [is_stale] in H. discriminate.
Qed.
Lemma close_quiet em w : snd (close io em w) = None.
Proof.
  unfold close. destruct (em_stream em) as [h|]; auto. pose proof (flush_quiet io Q em w) as F. destruct (flush io em w) as [w1 z]. cbn [snd] in F. subst z.
  destruct (io_close io h w1) as [w2 [y|]]; auto. pose proof (Q w2) as Q1. destruct (io_note io w2) as [w3 z]. auto.
Qed.
Lemma emit_closed taken es em w : records io taken -> em_stream em = None -> encodable em es ->
  let '(w', em', rs) := emit_all io em es w in taken w' = taken w /\ em' = em /\ forall r, In r rs -> r = None.
Proof.
  intros R Hs. revert w. induction es as [|e es IH]; intros w He; cbn [emit_all].
  - split; auto. split; auto. intros r [].
  - assert (H1 : emit_entry io em e w = (fst (io_note io w), em, None)).
    { unfold emit_entry. destruct (em_encode em e) eqn:Eb; [|exfalso; apply (He e); cbn; auto]. unfold write_and_flush, stream_write. rewrite Hs.
      pose proof (Q w) as Q1. destruct (io_note io w) as [w2 z]. cbn [snd] in Q1. subst z. reflexivity. }
    rewrite H1. specialize (IH (fst (io_note io w))). destruct (emit_all io em es _) as [[w3 em3] rs]. destruct IH as (I1 & I2 & I3); [intros x Hx; apply He; cbn; auto|].
    split; [|split; auto]; [rewrite I1; apply (note_taken io taken R) | intros r [<-|Hr]; auto].
Qed.
End Raising.

(** ** The file model *)
Lemma nth_set_handle hs i h j : nth_error (set_handle hs i h) j = if (j =? i) && (j <? length hs) then Some h else nth_error hs j.
Proof.
  revert i j. induction hs as [|x hs IH]; intros i j; cbn [set_handle].
  - rewrite andb_false_r. destruct j; reflexivity.
  - destruct i, j; cbn [nth_error Nat.eqb length andb]; auto. rewrite IH. reflexivity.
Qed.
Lemma set_handle_length hs i h : length (set_handle hs i h) = length hs.
Proof. revert i. induction hs; intros [|i]; cbn; auto. Qed.

(** State of the emitter's own handle between events: either fresh with an empty
    buffer, or stale with at most [cap] bytes. *)
Definition finv (cap : nat) (w : fs) (em : emitter) (buf : bytes) (st : bool) : Prop :=
  exists i, em_stream em = Some i /\ nth_error (fs_handles w) i = Some (mkFh buf st) /\
  length buf <= cap /\ (st = false -> buf = []).
Lemma finv_buffered cap w em buf st : finv cap w em buf st -> buffered w em = buf.
Proof. intros (i & E & H & _). unfold buffered. rewrite E, H. reflexivity. Qed.
Lemma nth_set_same hs i h x : nth_error hs i = Some x -> nth_error (set_handle hs i h) i = Some h.
Proof.
  intros H. rewrite nth_set_handle, Nat.eqb_refl. assert (L : i < length hs) by (apply nth_error_Some; congruence). apply Nat.ltb_lt in L. rewrite L. reflexivity.
Qed.
Lemma fs_quiet cap : quiet_notes (fs_io cap). Proof. intros w. reflexivity. Qed.

(** Writing [d] and flushing on a fresh handle appends [d] to the file. *)
Lemma waf_fresh cap em d w i : em_stream em = Some i -> nth_error (fs_handles w) i = Some (mkFh [] false) ->
  exists w', write_and_flush (fs_io cap) em d w = (w', None) /\ fs_data w' = fs_data w ++ d /\
    nth_error (fs_handles w') i = Some (mkFh [] false).
Proof.
  intros Hs Hn. unfold write_and_flush, stream_write. rewrite Hs. cbn [fs_io io_write]. unfold fs_write. rewrite Hn. cbn [fh_buf fh_stale length Nat.add app].
  assert (RW : forall b x, raw_write (mkFh [] false) b x = Some (x ++ b)) by (intros [|z b] x; cbn; rewrite ?app_nil_r; reflexivity).
  assert (RW2 : forall b, raw_write (mkFh b false) b (fs_data w) = Some (fs_data w ++ b)) by (intros [|z b]; cbn; rewrite ?app_nil_r; reflexivity).
  assert (K : forall x, exists w', flush (fs_io cap) em (mkFs (fs_data w) (set_handle (fs_handles w) i (mkFh x false))) = (w', None) /\ fs_data w' = fs_data w ++ x /\
    nth_error (fs_handles w') i = Some (mkFh [] false)).
  { intros x. unfold flush. rewrite Hs. cbn [fs_io io_flush]. unfold fs_flush. cbn [fs_handles fs_data]. rewrite (nth_set_same _ _ _ _ Hn). cbn [fh_buf fh_stale]. rewrite RW2.
    eexists. split; [reflexivity|]. cbn [fs_data fs_handles]. split; auto. eapply nth_set_same. eapply nth_set_same. eauto. }
  destruct ((length d <=? cap) && (length d <? cap)) eqn:E; [apply K|].
  rewrite RW. rewrite app_nil_r. destruct (length d <=? cap) eqn:E2; [apply K|]. rewrite RW.
  unfold flush. rewrite Hs. cbn [fs_io io_flush]. unfold fs_flush. cbn [fs_handles fs_data]. rewrite (nth_set_same _ _ _ _ Hn). cbn [fh_buf fh_stale raw_write].
  eexists. split; [reflexivity|]. cbn [fs_data fs_handles]. split; auto. eapply nth_set_same. eapply nth_set_same. eauto.
Qed.
(** On a stale handle the data is buffered, or the write raises ESTALE and changes
    neither file nor buffer. *)
Lemma waf_stale cap em d w i buf : em_stream em = Some i -> nth_error (fs_handles w) i = Some (mkFh buf true) -> length buf <= cap ->
  exists w', fs_data w' = fs_data w /\
   ((write_and_flush (fs_io cap) em d w = (w', None) /\ nth_error (fs_handles w') i = Some (mkFh (buf ++ d) true) /\ length (buf ++ d) <= cap) \/
    (write_and_flush (fs_io cap) em d w = (w', Some (ExOS (Some ESTALE))) /\ (0 < cap \/ d <> []) /\ nth_error (fs_handles w') i = Some (mkFh buf true))).
Proof.
  intros Hs Hn Hc. unfold write_and_flush, stream_write. rewrite Hs. cbn [fs_io io_write]. unfold fs_write. rewrite Hn. cbn [fh_buf fh_stale].
  assert (K : forall x, exists w', flush (fs_io cap) em (mkFs (fs_data w) (set_handle (fs_handles w) i (mkFh x true))) = (w', None) /\ fs_data w' = fs_data w /\
    nth_error (fs_handles w') i = Some (mkFh x true)).
  { intros x. unfold flush. rewrite Hs. cbn [fs_io io_flush]. unfold fs_flush. cbn [fs_handles fs_data]. rewrite (nth_set_same _ _ _ _ Hn). cbn [fh_buf fh_stale].
    destruct x as [|z x]; cbn [raw_write fh_stale].
    - eexists. split; [reflexivity|]. cbn [fs_data fs_handles]. split; auto. eapply nth_set_same. eapply nth_set_same. eauto.
    - cbn [io_note fs_io]. eexists. split; [reflexivity|]. cbn [fs_data fs_handles]. split; auto. eapply nth_set_same. eauto. }
  destruct ((length buf + length d <=? cap) && (length d <? cap)) eqn:E.
  - destruct (K (buf ++ d)) as (w' & K1 & K2 & K3). exists w'. split; auto. left. split; auto. split; auto. apply andb_true_iff in E. destruct E as [E _]. apply Nat.leb_le in E. rewrite app_length. lia.
  - destruct buf as [|z buf]; cbn [raw_write fh_stale].
    + destruct (length d <=? cap) eqn:E2.
      * destruct (K d) as (w' & K1 & K2 & K3). exists w'. split; auto. left. apply Nat.leb_le in E2. auto.
      * apply Nat.leb_gt in E2. destruct d as [|y d]; [cbn in E2; lia|]. cbn [raw_write fh_stale]. exists (mkFs (fs_data w) (set_handle (fs_handles w) i (mkFh [] true))). split; [reflexivity|]. right. split; [reflexivity|]. split; [right; discriminate|]. cbn [fs_handles]. eapply nth_set_same; eauto.
    + exists w. split; [reflexivity|]. right. split; [reflexivity|]. split; auto. left. cbn in Hc. lia.
Qed.
Lemma fopen_fresh (hs : list fhandle) h : nth_error (hs ++ [h]) (length hs) = Some h.
Proof. rewrite nth_error_app2 by lia. rewrite Nat.sub_diag. reflexivity. Qed.

(** One emission.  [lost] is what was in the old stream's buffer when it was
    replaced. *)
Lemma femit cap em e b w buf st :
  finv cap w em buf st -> em_encode em e = Some b -> em_reopen em = true -> (exists n, reopen_name em = Some n) ->
  let '(w', em', r) := emit_entry (fs_io cap) em e w in r = None /\
  exists buf' st', finv cap w' em' buf' st' /\
    ((st = false /\ st' = false /\ fs_data w' = fs_data w ++ line em e /\ buf' = []) \/
     (st = true /\ st' = true /\ fs_data w' = fs_data w /\ buf' = buf ++ line em e) \/
     (st = true /\ st' = false /\ fs_data w' = fs_data w ++ line em e /\ buf' = [])).
Proof.
  intros (i & Hs & Hn & Hc & Hb) He Hr (n & Hnm). unfold line. unfold emit_entry. rewrite He. destruct st.
  - destruct (waf_stale cap em (b ++ em_sep em) w i buf Hs Hn Hc) as (w1 & D & [(E & N & L)|(E & _ & N)]); rewrite E.
    + split; auto. exists (buf ++ b ++ em_sep em), true. split; [|right; left; auto]. exists i. repeat split; auto. discriminate.
    + cbn [fs_io io_note]. assert (S : is_stale em (ExOS (Some ESTALE)) = true) by (unfold is_stale; rewrite Hr; reflexivity). rewrite S, Hnm. cbn [fs_io io_open].
      set (em' := em_set_stream em (Some (length (fs_handles w1)))). set (w2 := mkFs (fs_data w1) (fs_handles w1 ++ [mkFh [] false])).
      destruct (waf_fresh cap em' (b ++ em_sep em) w2 (length (fs_handles w1))) as (w3 & E3 & D3 & N3); [reflexivity | apply fopen_fresh|].
      change (mkIo fs (fs_write cap) fs_flush fs_flush _ _) with (fs_io cap). rewrite E3. split; auto. exists [], false. split.
      * exists (length (fs_handles w1)). repeat split; auto. cbn. lia.
      * right. right. repeat split; auto. rewrite D3. cbn [w2 fs_data]. rewrite D. reflexivity.
  - rewrite (Hb eq_refl) in *. destruct (waf_fresh cap em (b ++ em_sep em) w i Hs Hn) as (w1 & E & D & N). rewrite E. split; auto. exists [], false. split.
    + exists i. repeat split; auto.
    + left. auto.
Qed.

Definition cfg_same (em em' : emitter) : Prop :=
  em_encode em' = em_encode em /\ em_sep em' = em_sep em /\ em_reopen em' = em_reopen em /\ em_name em' = em_name em.
Lemma go_stale_inv cap w em buf st : finv cap w em buf st -> finv cap (fs_go_stale w) em buf true.
Proof.
  intros (i & Hs & Hn & Hc & _). exists i. split; auto. split; [|split; auto; discriminate]. cbn [fs_go_stale fs_handles]. erewrite map_nth_error by exact Hn. reflexivity.
Qed.
Lemma fs_run_main cap evs : forall em w buf st,
  finv cap w em buf st -> em_reopen em = true -> (exists n, reopen_name em = Some n) -> encodable em (emitted evs) ->
  let '(w', em', rs) := fs_run cap em evs w in
  (forall r, In r rs -> r = None) /\
  exists kept buf' st', finv cap w' em' buf' st' /\
    (exists bl, (bl = buf \/ bl = []) /\ fs_data w' ++ buf' = fs_data w ++ bl ++ lines em kept /\
     length (buf ++ lines em (emitted evs)) <= length (bl ++ lines em kept) + (incidents evs + (if st then 1 else 0) - (if st' then 1 else 0)) * cap /\
     (if st' then 1 else 0) <= incidents evs + (if st then 1 else 0)) /\ sub kept (emitted evs).
Proof.
  induction evs as [|ev evs IH]; intros em w buf st Hf Hr Hnm He; cbn [fs_run].
  - split; [intros r []|]. exists [], buf, st. split; auto. split; [|constructor]. exists buf. split; auto. unfold lines. cbn. rewrite app_nil_r. split; auto. split; lia.
  - destruct ev as [e|].
    + destruct (em_encode em e) as [b|] eqn:Eb; [|exfalso; apply (He e); cbn; auto].
      pose proof (femit cap em e b w buf st Hf Eb Hr Hnm) as H1. pose proof (emit_em (fs_io cap) em e w) as H2. destruct (emit_entry (fs_io cap) em e w) as [[w1 em1] r].
      destruct H1 as (-> & buf1 & st1 & F1 & Hcase). destruct H2 as (C1 & C2 & C3 & C4).
      assert (Hnm1 : exists n, reopen_name em1 = Some n) by (unfold reopen_name in *; rewrite C4; exact Hnm).
      assert (He1 : encodable em1 (emitted evs)) by (intros x Hx; rewrite C1; apply He; cbn; auto).
      specialize (IH em1 w1 buf1 st1 F1 ltac:(congruence) Hnm1 He1). destruct (fs_run cap em1 evs w1) as [[w2 em2] rs].
      destruct IH as (I0 & kept & buf2 & st2 & F2 & (bl & B1 & B2 & B3 & B4) & B5).
      assert (CE : forall es, lines em1 es = lines em es) by (intros; apply lines_em; auto). rewrite !CE in *.
      split; [intros r [<-|Hr']; auto|]. cbn [emitted incidents]. change (e :: emitted evs) with ([e] ++ emitted evs). rewrite lines_app, lines_one.
      assert (Lb : length buf <= cap) by (destruct Hf as (? & _ & _ & ? & _); auto).
      destruct Hcase as [(-> & -> & D & ->)|[(-> & -> & D & ->)|(-> & -> & D & ->)]].
      * assert (bl = []) by (destruct B1; auto). subst bl. cbn [app] in *. exists (e :: kept), buf2, st2. split; auto. split; [|constructor; auto].
        exists []. assert (buf = []) by (destruct Hf as (? & _ & _ & _ & Hb); auto). subst buf. split; auto.
        change (e :: kept) with ([e] ++ kept). rewrite lines_app, lines_one. cbn [app]. split; [rewrite B2, D, app_assoc; reflexivity|].
        rewrite !app_length in *. cbn [length] in *. split; lia.
      * destruct B1 as [->| ->].
        -- exists (e :: kept), buf2, st2. split; auto. split; [|constructor; auto]. exists buf. split; auto.
           change (e :: kept) with ([e] ++ kept). rewrite lines_app, lines_one. split; [rewrite B2, D, <- !app_assoc; reflexivity|].
           rewrite !app_length in *. cbn [length] in *. split; lia.
        -- exists kept, buf2, st2. split; auto. split; [|apply sub_drop; auto]. exists []. split; auto. split; [rewrite B2, D; reflexivity|].
           rewrite !app_length in *. cbn [length app] in *. split; lia.
      * assert (bl = []) by (destruct B1; auto). subst bl. cbn [app] in *. exists (e :: kept), buf2, st2. split; auto. split; [|constructor; auto].
        exists []. split; auto. change (e :: kept) with ([e] ++ kept). rewrite lines_app, lines_one. cbn [app]. split; [rewrite B2, D, app_assoc; reflexivity|].
        rewrite !app_length in *. cbn [length] in *. split; [|lia].
        assert (M : (incidents evs + 1 - (if st2 then 1 else 0)) * cap = (incidents evs + 0 - (if st2 then 1 else 0)) * cap + cap) by (destruct st2; nia). rewrite M. lia.
    + specialize (IH em (fs_go_stale w) buf true (go_stale_inv _ _ _ _ _ Hf) Hr Hnm He). destruct (fs_run cap em evs (fs_go_stale w)) as [[w2 em2] rs].
      destruct IH as (I0 & kept & buf2 & st2 & F2 & (bl & B1 & B2 & B3 & B4) & B5). split; auto. exists kept, buf2, st2. split; auto. split; auto.
      exists bl. split; auto. split; auto. cbn [emitted incidents]. split; [|destruct st, st2; lia].
      eapply Nat.le_trans; [exact B3|]. apply Nat.add_le_mono_l. apply Nat.mul_le_mono_r. destruct st, st2; lia.
Qed.
