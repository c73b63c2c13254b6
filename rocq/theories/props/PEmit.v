(** Properties of the stream and file emitters: C49-C51. *)
From Verif Require Import model.PyBase model.Emitters spec.EmitterSpec proof.EmitterProofs.
Open Scope nat_scope.

(** C49.  [io] is any world of streams, [taken] what they have accepted. *)
Theorem C49_in_order_at_most_once : forall W (io : io_ops W) taken em es w,
  records io taken -> quiet_notes io ->
  let '(w', _, _) := emit_all io em es w in
  exists kept, sub kept es /\ taken w' = taken w ++ lines em kept.
Proof. intros. apply emit_all_taken; auto. Qed.
Print Assumptions C49_in_order_at_most_once.
(** Nothing is dropped while writes return. *)
Theorem C49_working_stream_gets_everything : forall W (io : io_ops W) taken em es w h,
  records io taken -> quiet_notes io -> writes_work io -> em_stream em = Some h -> encodable em es ->
  let '(w', em', rs) := emit_all io em es w in
  taken w' = taken w ++ lines em es /\ em' = em /\ forall r, In r rs -> r = None.
Proof. intros. eapply emit_all_written; eauto. Qed.
Print Assumptions C49_working_stream_gets_everything.
(** An entry whose write returns is written once; one whose write fails with
    anything but ESTALE is dropped, silently; one whose write fails with ESTALE is
    written once if the file can be reopened. *)
Theorem C49_written_once : forall W (io : io_ops W) taken em e w h b w1,
  records io taken -> quiet_notes io -> em_encode em e = Some b -> em_stream em = Some h ->
  io_write io h (b ++ em_sep em) w = (w1, None) ->
  let '(w', em', r) := emit_entry io em e w in taken w' = taken w ++ line em e /\ em' = em /\ r = None.
Proof. intros. eapply emit_written; eauto. Qed.
Print Assumptions C49_written_once.
Theorem C49_failure_drops : forall W (io : io_ops W) taken em e w h b,
  records io taken -> quiet_notes io -> em_encode em e = Some b -> em_stream em = Some h ->
  plain_failure (snd (io_write io h (b ++ em_sep em) w)) ->
  let '(w', em', r) := emit_entry io em e w in taken w' = taken w /\ em' = em /\ r = None.
Proof. intros. eapply emit_plain_failure; eauto. Qed.
Print Assumptions C49_failure_drops.
Theorem C49_stale_retry_once : forall W (io : io_ops W) taken em e w h b w1 n,
  records io taken -> quiet_notes io -> em_encode em e = Some b -> em_stream em = Some h ->
  em_reopen em = true -> em_name em = Some n -> ~ In n [""%string; "<stdout>"%string; "<stderr>"%string] ->
  io_write io h (b ++ em_sep em) w = (w1, Some (ExOS (Some ESTALE))) ->
  (forall v, exists v' h', io_open io n v = (v', inl h') /\ snd (io_write io h' (b ++ em_sep em) v') = None) ->
  let '(w', em', r) := emit_entry io em e w in taken w' = taken w ++ line em e /\ r = None.
Proof.
  intros W io taken em e w h b w1 n R Q He Hs Hr Hn Hx Hw Ho. eapply emit_stale_retry; eauto. unfold reopen_name. rewrite Hn.
  destruct (String.eqb_spec n ""); [exfalso; apply Hx; cbn; auto|]. destruct (String.eqb_spec n "<stdout>"); [exfalso; apply Hx; cbn; auto|].
  destruct (String.eqb_spec n "<stderr>"); [exfalso; apply Hx; cbn; auto|]. reflexivity.
Qed.
Print Assumptions C49_stale_retry_once.
Lemma scripted_records : records scripted fst.
Proof.
  unfold records, scripted. cbn [io_write io_flush io_close io_open io_note]. repeat split.
  - intros h b [l [|[x|] s]] w' H; cbn in H; inversion H; reflexivity.
  - intros h b [l [|[x|] s]] w' x2 H; cbn in H; inversion H; reflexivity.
Qed.
Lemma scripted_quiet : quiet_notes scripted. Proof. intros w. reflexivity. Qed.
(** Three entries; the second write fails for good, the third is stale and is
    retried on the reopened file. *)
Example C49_example :
  let em := mkEm (Some 0) (Some "app.log"%string) [10%N] true (fun t => Some t) in
  emit_all scripted em [[65%N]; [66%N]; [67%N]] ([], [None; Some ExOther; Some (ExOS (Some ESTALE)); None]) =
  (([65; 10; 67; 10]%N, []), mkEm (Some 7) (Some "app.log"%string) [10%N] true (fun t => Some t), [None; None; None]).
Proof. reflexivity. Qed.

(** Streams without a file name, and the standard streams, are never reopened: what
    opening a file would do makes no difference, and the stream stays. *)
Theorem C49_standard_streams_not_reopened : forall W wr fl cl (op op' : string -> W -> W * (nat + exc)) nt em e w,
  match em_name em with None => True | Some n => In n [""%string; "<stdout>"%string; "<stderr>"%string] end ->
  emit_entry (mkIo W wr fl cl op nt) em e w = emit_entry (mkIo W wr fl cl op' nt) em e w /\
  snd (fst (emit_entry (mkIo W wr fl cl op nt) em e w)) = em.
Proof.
  intros W wr fl cl op op' nt em e w H.
  assert (N : reopen_name em = None) by (unfold reopen_name; destruct (em_name em) as [n|]; [|reflexivity]; destruct H as [<-|[<-|[<-|[]]]]; reflexivity).
  unfold emit_entry. rewrite N. destruct (em_encode em e) as [b|]; [|split; reflexivity].
  assert (X : write_and_flush (mkIo W wr fl cl op nt) em (b ++ em_sep em) w = write_and_flush (mkIo W wr fl cl op' nt) em (b ++ em_sep em) w) by reflexivity.
  rewrite <- X. destruct (write_and_flush _ em (b ++ em_sep em) w) as [w1 [x|]]; [|split; reflexivity].
  cbn [io_note]. destruct (nt w1) as [w2 [x2|]]; [split; reflexivity|]. destruct (is_stale em x); split; reflexivity.
Qed.
Print Assumptions C49_standard_streams_not_reopened.

(** C50 *)
Theorem C50_emit_raises_only_after_stale : forall W (io : io_ops W) em e w x,
  quiet_notes io -> snd (emit_entry io em e w) = Some x ->
  em_encode em e = None \/
  exists h b w1, em_stream em = Some h /\ em_encode em e = Some b /\ em_reopen em = true /\
    io_write io h (b ++ em_sep em) w = (w1, Some (ExOS (Some ESTALE))) /\
    ((exists n w2, snd (io_open io n w2) = inr x) \/ (exists h' w3, snd (io_write io h' (b ++ em_sep em) w3) = Some x)).
Proof. intros. apply emit_raises; auto. Qed.
Print Assumptions C50_emit_raises_only_after_stale.
(** An entry that cannot be encoded does raise, and nothing is written. *)
Theorem C50_unencodable_entry_refuted : forall W (io : io_ops W) em e w,
  em_encode em e = None -> emit_entry io em e w = (w, em, Some ExOther).
Proof. intros W io em e w H. unfold emit_entry. rewrite H. reflexivity. Qed.
Print Assumptions C50_unencodable_entry_refuted.
Theorem C50_flush_and_close_never_raise : forall W (io : io_ops W) em w,
  quiet_notes io -> snd (flush io em w) = None /\ snd (close io em w) = None.
Proof. intros. split; [apply flush_quiet | apply close_quiet]; auto. Qed.
Print Assumptions C50_flush_and_close_never_raise.
(** Once [close] has closed the stream every later emission is a silent no-op. *)
Theorem C50_emit_after_close : forall W (io : io_ops W) taken em es w w1 em1 r h,
  records io taken -> quiet_notes io -> encodable em es ->
  em_stream em = Some h -> (forall v, snd (io_close io h v) = None) -> close io em w = (w1, em1, r) ->
  let '(w', em', rs) := emit_all io em1 es w1 in taken w' = taken w /\ em' = em1 /\ forall x, In x rs -> x = None.
Proof.
  intros W io taken em es w w1 em1 r h R Q He Hs Hc H. unfold close in H. rewrite Hs in H.
  pose proof (flush_quiet io Q em w) as F. pose proof (flush_taken io taken R em w) as T. destruct (flush io em w) as [v z]. cbn [fst snd] in *. subst z.
  specialize (Hc v). assert (T2 : taken (fst (io_close io h v)) = taken v) by apply R. destruct (io_close io h v) as [v2 z]. cbn [fst snd] in *. subst z.
  injection H as <- <- <-. pose proof (emit_closed io Q taken es (em_set_stream em None) v2 R eq_refl He) as X.
  destruct (emit_all io (em_set_stream em None) es v2) as [[w' em'] rs]. destruct X as (X1 & X2 & X3). split; auto. congruence.
Qed.
Print Assumptions C50_emit_after_close.
Example C50_example :
  let em := mkEm (Some 0) (Some "app.log"%string) [10%N] true (fun t => Some t) in
  let '(w, em1, r) := close scripted em ([65%N], []) in
  r = None /\ emit_all scripted em1 [[66%N]] w = (([65%N], []), em1, [None]) /\
  snd (emit_entry scripted em [66%N] ([], [Some (ExOS (Some 28%Z))])) = None.
Proof. repeat split. Qed.
(** A note handler that raises lets a write error reach the application. *)
Theorem C50_raising_note_handler_refuted : exists W (io : io_ops W) em e w,
  (forall n v, exists h, snd (io_open io n v) = inl h) /\ em_encode em e <> None /\
  snd (io_write io 0 [66%N; 10%N] w) = Some (ExOS (Some 28%Z)) /\ snd (emit_entry io em e w) = Some ExOther.
Proof.
  exists unit, (mkIo unit (fun _ _ w => (w, Some (ExOS (Some 28%Z)))) (fun _ w => (w, None)) (fun _ w => (w, None)) (fun _ w => (w, inl 0)) (fun w => (w, Some ExOther))),
    (mkEm (Some 0) None [10%N] true (fun t => Some t)), [66%N], tt.
  repeat split; try discriminate. intros. exists 0. reflexivity.
Qed.
Print Assumptions C50_raising_note_handler_refuted.

(** C51.  [cap] is the size of the stream's buffer; a run is any sequence of
    emissions and incidents that make all open handles stale. *)
Definition file_name (n : string) : Prop := ~ In n [""%string; "<stdout>"%string; "<stderr>"%string].
Lemma file_name_reopen n sep enc : file_name n -> exists m, reopen_name (file_emitter n sep enc) = Some m.
Proof.
  intros Hx. exists n. unfold reopen_name, file_emitter. cbn [em_name].
  destruct (String.eqb_spec n ""); [exfalso; apply Hx; cbn; auto|]. destruct (String.eqb_spec n "<stdout>"); [exfalso; apply Hx; cbn; auto|].
  destruct (String.eqb_spec n "<stderr>"); [exfalso; apply Hx; cbn; auto|]. reflexivity.
Qed.
Lemma start_inv cap n sep enc : finv cap fs_new (file_emitter n sep enc) [] false.
Proof. exists 0. repeat split. cbn. lia. Qed.
(** Full statement (false, see below): the file holds every entry.  Proved: it does
    for an unbuffered file ... *)
Theorem C51_unbuffered_file_loses_nothing_partial : forall n sep enc evs,
  file_name n -> let em := file_emitter n sep enc in encodable em (emitted evs) ->
  let '(w, _, rs) := fs_run 0 em evs fs_new in
  fs_data w = lines em (emitted evs) /\ forall r, In r rs -> r = None.
Proof.
  intros n sep enc evs Hn em He. pose proof (fs_run_main 0 evs em fs_new [] false (start_inv 0 n sep enc) eq_refl (file_name_reopen n sep enc Hn) He) as H.
  destruct (fs_run 0 em evs fs_new) as [[w em'] rs]. destruct H as (H0 & kept & buf & st & F & (bl & B1 & B2 & B3 & B4) & Sb). split; auto.
  assert (bl = []) by (destruct B1; auto). subst bl. destruct F as (i & _ & _ & F & _). destruct buf; [|cbn in F; lia]. rewrite app_nil_r in B2. cbn in B2. rewrite B2.
  assert (L : length (lines em (emitted evs)) <= length (lines em kept)) by (cbn [app] in B3; nia).
  clear - Sb L. assert (G : forall k es, sub k es -> length (lines em k) <= length (lines em es) /\ (length (lines em es) <= length (lines em k) -> lines em k = lines em es)).
  { intros k es. unfold lines. induction 1 as [|x a b S [IH1 IH2]|x a b S [IH1 IH2]]; cbn [map concat]; auto; rewrite !app_length.
    - split; [lia|]. intros. rewrite IH2 by lia. reflexivity.
    - split; [lia|]. intros. destruct (line em x); [|cbn [length] in *; lia]. cbn. apply IH2. cbn in *. lia. }
  apply (G kept (emitted evs)); auto.
Qed.
Print Assumptions C51_unbuffered_file_loses_nothing_partial.
(** ... and for a buffered one each incident loses at most one buffer of whole
    entries, and nothing is reordered, duplicated or torn. *)
Theorem C51_loss_bounded_partial : forall cap n sep enc evs,
  file_name n -> let em := file_emitter n sep enc in encodable em (emitted evs) ->
  let '(w, em', rs) := fs_run cap em evs fs_new in
  (forall r, In r rs -> r = None) /\
  exists kept, sub kept (emitted evs) /\ fs_data w ++ buffered w em' = lines em kept /\
    length (lines em (emitted evs)) <= length (lines em kept) + incidents evs * cap.
Proof.
  intros cap n sep enc evs Hn em He. pose proof (fs_run_main cap evs em fs_new [] false (start_inv cap n sep enc) eq_refl (file_name_reopen n sep enc Hn) He) as H.
  destruct (fs_run cap em evs fs_new) as [[w em'] rs]. destruct H as (H0 & kept & buf & st & F & (bl & B1 & B2 & B3 & B4) & Sb). split; auto.
  assert (bl = []) by (destruct B1; auto). subst bl. exists kept. split; auto. rewrite (finv_buffered _ _ _ _ _ F). split; auto.
  cbn [app] in B3. eapply Nat.le_trans; [exact B3|]. apply Nat.add_le_mono_l. apply Nat.mul_le_mono_r. lia.
Qed.
Print Assumptions C51_loss_bounded_partial.
(** Without an incident a FileEmitter's file always holds every entry emitted. *)
Theorem C51_no_incident_partial : forall cap n sep enc es,
  file_name n -> let em := file_emitter n sep enc in encodable em es ->
  let '(w, _, _) := fs_run cap em (map FEmit es) fs_new in fs_data w = lines em es.
Proof.
  intros cap n sep enc es Hn em He.
  assert (G : forall w, finv cap w em [] false -> let '(w', em', _) := fs_run cap em (map FEmit es) w in fs_data w' = fs_data w ++ lines em es).
  { induction es as [|e es IH]; intros w F; cbn [map fs_run].
    - unfold lines. cbn. rewrite app_nil_r. reflexivity.
    - destruct (em_encode em e) as [b|] eqn:Eb; [|exfalso; apply (He e); cbn; auto]. destruct F as (i & Hs & F2 & F3 & F4).
      destruct (waf_fresh cap em (b ++ em_sep em) w i Hs F2) as (w1 & E & D & N).
      unfold emit_entry. rewrite Eb, E. specialize (IH ltac:(intros x Hx; apply He; cbn; auto) w1).
      destruct (fs_run cap em (map FEmit es) w1) as [[w2 em2] rs]. rewrite IH; [|exists i; repeat split; auto].
      rewrite D. change (e :: es) with ([e] ++ es). rewrite lines_app, lines_one. unfold line. rewrite Eb. rewrite <- !app_assoc. reflexivity. }
  specialize (G fs_new (start_inv cap n sep enc)). destruct (fs_run cap em (map FEmit es) fs_new) as [[w em'] rs]. exact G.
Qed.
Print Assumptions C51_no_incident_partial.
(** For every buffer size the entry emitted next after an incident can be lost for
    good without any error, although the file is reopened and written later. *)
Theorem C51_buffered_file_refuted : forall cap, 2 <= cap ->
  exists n sep enc evs, file_name n /\ (let em := file_emitter n sep enc in encodable em (emitted evs) /\
  let '(w, em', rs) := fs_run cap em evs fs_new in
  (forall r, In r rs -> r = None) /\ buffered w em' = [] /\
  exists e rest, emitted evs = e :: rest /\ line em e <> [] /\ fs_data w = lines em rest).
Proof.
  intros cap Hc. exists "app.log"%string, [], (fun t => Some t), [FStale; FEmit [65%N]; FEmit (repeat 66%N cap)].
  split; [unfold file_name; cbn; intuition discriminate|]. cbn zeta. split; [intros e _; discriminate|].
  set (d := repeat 66%N cap). assert (Ld : length d = cap) by apply repeat_length.
  set (em := file_emitter "app.log" [] (fun t => Some t)).
  assert (E1 : (1 <=? cap) && (1 <? cap) = true) by (apply andb_true_iff; split; [apply Nat.leb_le | apply Nat.ltb_lt]; lia).
  assert (E2 : (S cap <=? cap) = false) by (apply Nat.leb_gt; lia).
  assert (S1 : emit_entry (fs_io cap) em [65%N] (mkFs [] [mkFh [] true]) = (mkFs [] [mkFh [65%N] true], em, None)).
  { cbv -[Nat.leb Nat.ltb andb N.add]. rewrite E1. reflexivity. }
  assert (R : raw_write (mkFh d false) d [] = Some d) by (unfold raw_write; destruct d; reflexivity).
  assert (S2 : emit_entry (fs_io cap) em d (mkFs [] [mkFh [65%N] true]) = (mkFs d [mkFh [65%N] true; mkFh [] false], em_set_stream em (Some 1), None)).
  { unfold emit_entry, em, file_emitter. cbn [em_encode em_sep]. rewrite app_nil_r. unfold write_and_flush, stream_write. cbn [em_stream fs_io io_write em_set_stream].
    unfold fs_write at 1. cbn [nth_error fs_handles fh_buf fh_stale length Nat.add]. rewrite Ld, E2. cbn.
    unfold fs_write. cbn [nth_error fs_handles fh_buf fh_stale length Nat.add app]. rewrite ?Ld, ?Nat.leb_refl, ?Nat.ltb_irrefl. cbn [andb raw_write fs_data set_handle].
    match goal with |- context [if ?c then ?x else ?x] => replace (if c then x else x) with x by (destruct c; reflexivity) end.
    unfold flush, fs_flush. cbn [em_stream io_flush fs_io nth_error fs_handles fh_buf fh_stale fs_data]. rewrite R. reflexivity. }
  change (fs_run cap em [FStale; FEmit [65%N]; FEmit d] fs_new) with (fs_run cap em [FEmit [65%N]; FEmit d] (mkFs [] [mkFh [] true])).
  cbn [fs_run]. rewrite S1, S2.
  split; [intros r [<-|[<-|[]]]; reflexivity|]. split; [reflexivity|]. exists [65%N], [d]. split; auto. split; [discriminate|].
  unfold lines, line. cbn. rewrite !app_nil_r. reflexivity.
Qed.
Print Assumptions C51_buffered_file_refuted.
Example C51_example : let em := file_emitter "app.log" [10%N] (fun t => Some t) in
  let evs := [FEmit [65%N]; FStale; FEmit [66%N]; FEmit [67%N]] in
  file_name "app.log" /\ fs_data (fst (fst (fs_run 0 em evs fs_new))) = [65; 10; 66; 10; 67; 10]%N /\
  fs_data (fst (fst (fs_run 3 em evs fs_new))) = [65; 10; 67; 10]%N.
Proof. split; [unfold file_name; cbn; intuition discriminate|]. split; reflexivity. Qed.
