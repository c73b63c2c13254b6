(** A FileEmitter used by several threads: C97. *)
From Verif Require Import model.PyBase model.Core model.Emitters model.EmitThreads spec.EmitterSpec spec.EmitThreadsSpec proof.CoreLib proof.HookThreadsProofs.
Open Scope nat_scope.

Section Emit.
Variables (cap : nat) (line : nat -> bytes).
Notation text := (text_of line).

(** *** Steps *)
Definition env : Type := fs * list bool * option nat.
Definition env_of (w : xstate) : env := (x_fs w, x_closed w, x_stream w).
Inductive XSt (t : nat) (w : xstate) : xpc -> list xop -> env -> xpc -> list xop -> list xobs -> Prop :=
| X_emit k todo : XSt t w EIdle (XEmit k :: todo) (env_of w) (ELoad k false) todo [OCalled t k]
| X_close todo : XSt t w EIdle (XClose :: todo) (env_of w) CCheck todo [OClose t]
| X_stale todo : XSt t w EIdle (XStale :: todo) (fs_go_stale (x_fs w), x_closed w, x_stream w) EIdle todo [OStale t]
| X_load k h r todo : x_stream w = Some h -> XSt t w (ELoad k r) todo (env_of w) (EWrite k h r) todo []
| X_load_none k r todo : x_stream w = None -> XSt t w (ELoad k r) todo (env_of w) (if r then ERaise k else EReturn k) todo []
| X_write k h r todo f : is_closed h w = false -> fs_write cap h (line k) (x_fs w) = (f, None) ->
    XSt t w (EWrite k h r) todo (f, x_closed w, x_stream w) (EFlushLoad k r) todo [OWrote t k]
| X_write_fails k h r todo f e : is_closed h w = false -> fs_write cap h (line k) (x_fs w) = (f, Some e) ->
    XSt t w (EWrite k h r) todo (f, x_closed w, x_stream w) (if r then ERaise k else match e with ExOS (Some n) => if Z.eqb n ESTALE then EOpen k else EReturn k | _ => EReturn k end) todo []
| X_write_closed k h r todo : is_closed h w = true -> XSt t w (EWrite k h r) todo (env_of w) (if r then ERaise k else EReturn k) todo []
| X_flush_load k r h todo : x_stream w = Some h -> XSt t w (EFlushLoad k r) todo (env_of w) (EFlush k h r) todo []
| X_flush_none k r todo : x_stream w = None -> XSt t w (EFlushLoad k r) todo (env_of w) (EReturn k) todo []
| X_flush k h r todo : XSt t w (EFlush k h r) todo (x_fs (h_flush h w), x_closed w, x_stream w) (EReturn k) todo []
| X_open k todo : XSt t w (EOpen k) todo (x_fs (fst (h_open w)), x_closed w ++ [false], x_stream w) (ESet k (length (fs_handles (x_fs w)))) todo []
| X_set k h todo : XSt t w (ESet k h) todo (x_fs w, x_closed w, Some h) (ELoad k true) todo []
| X_return k todo : XSt t w (EReturn k) todo (env_of w) EIdle todo [ODone t k]
| X_raise k todo : XSt t w (ERaise k) todo (env_of w) EIdle todo [ORaised t k]
| X_check todo : XSt t w CCheck todo (env_of w) (match x_stream w with Some _ => CFlushLoad | None => CReturn end) todo []
| X_cflush_load todo : XSt t w CFlushLoad todo (env_of w) (match x_stream w with Some h => CFlush h | None => CTest end) todo []
| X_cflush h todo : XSt t w (CFlush h) todo (x_fs (h_flush h w), x_closed w, x_stream w) CTest todo []
| X_test todo : XSt t w CTest todo (env_of w) (match x_stream w with Some _ => CLoad | None => CReturn end) todo []
| X_cload todo : XSt t w CLoad todo (env_of w) (match x_stream w with Some h => CClose h | None => CReturn end) todo []
| X_cclose h todo : XSt t w (CClose h) todo (x_fs (fst (h_close h w)), x_closed (fst (h_close h w)), x_stream w) (if snd (h_close h w) then CSet else CReturn) todo []
| X_cset todo : XSt t w CSet todo (x_fs w, x_closed w, None) CReturn todo []
| X_creturn todo : XSt t w CReturn todo (env_of w) EIdle todo [OCloseDone t].
Definition after (w : xstate) (e : env) (t : nat) (pc : xpc) (todo : list xop) (new : list xobs) : xstate :=
  mkXS (fst (fst e)) (snd (fst e)) (snd e) (list_set (x_threads w) t (mkXT pc todo)) (x_trace w ++ new).
Lemma h_flush_parts h w : h_flush h w = mkXS (x_fs (h_flush h w)) (x_closed w) (x_stream w) (x_threads w) (x_trace w).
Proof. unfold h_flush. destruct (is_closed h w); destruct w; reflexivity. Qed.
Lemma h_close_parts h w : fst (h_close h w) = mkXS (x_fs (fst (h_close h w))) (x_closed (fst (h_close h w))) (x_stream w) (x_threads w) (x_trace w).
Proof. unfold h_close. destruct (is_closed h w); [destruct w; reflexivity|]. destruct (fs_flush h (x_fs w)); reflexivity. Qed.
Lemma xmove_XSt t w w' : xmove cap line t w = Some w' -> exists pc todo e pc' todo' new, nth_error (x_threads w) t = Some (mkXT pc todo) /\ XSt t w pc todo e pc' todo' new /\ w' = after w e t pc' todo' new.
Proof.
  unfold xmove. destruct (nth_error (x_threads w) t) as [[pc todo]|] eqn:E; [|discriminate]. cbn [xt_pc xt_todo]. intros E1. exists pc, todo.
  destruct pc as [|k r|k h r|k r|k h r|k|k h|k|k| | |h| | |h| |].
  - destruct todo as [|[k| |] todo]; [discriminate| | |]; injection E1 as <-; do 4 eexists; (split; [reflexivity|]); (split; [constructor|reflexivity]).
  - destruct (x_stream w) as [h|] eqn:Es; injection E1 as <-; do 4 eexists; (split; [reflexivity|]); (split; [constructor; exact Es|]); destruct w; reflexivity.
  - unfold h_write in E1. destruct (is_closed h w) eqn:Ec.
    + destruct r; injection E1 as <-; do 4 eexists; (split; [reflexivity|]); (split; [apply X_write_closed; exact Ec|reflexivity]).
    + destruct (fs_write cap h (line k) (x_fs w)) as [f [e|]] eqn:Ew.
      * assert (E2 : w' = after w (f, x_closed w, x_stream w) t (if r then ERaise k else match e with ExOS (Some n) => if Z.eqb n ESTALE then EOpen k else EReturn k | _ => EReturn k end) todo []).
        { destruct r; [injection E1 as <-; reflexivity|]. destruct e as [[n|]|]; injection E1 as <-; reflexivity. }
        do 4 eexists. split; [reflexivity|]. split; [exact (X_write_fails t w k h r todo f e Ec Ew)|exact E2].
      * injection E1 as <-. do 4 eexists. split; [reflexivity|]. split; [exact (X_write t w k h r todo f Ec Ew)|reflexivity].
  - destruct (x_stream w) as [h|] eqn:Es; injection E1 as <-; do 4 eexists; (split; [reflexivity|]); (split; [constructor; exact Es|]); destruct w; reflexivity.
  - injection E1 as <-. do 4 eexists. split; [reflexivity|]. split; [constructor|]. rewrite (h_flush_parts h w) at 1. reflexivity.
  - injection E1 as <-. do 4 eexists. split; [reflexivity|]. split; [constructor|]. reflexivity.
  - injection E1 as <-. do 4 eexists. split; [reflexivity|]. split; [constructor|]. reflexivity.
  - injection E1 as <-. do 4 eexists. split; [reflexivity|]. split; [constructor|]. reflexivity.
  - injection E1 as <-. do 4 eexists. split; [reflexivity|]. split; [constructor|]. reflexivity.
  - injection E1 as <-. do 4 eexists. split; [reflexivity|]. split; [constructor|]. reflexivity.
  - injection E1 as <-. do 4 eexists. split; [reflexivity|]. split; [constructor|]. reflexivity.
  - injection E1 as <-. do 4 eexists. split; [reflexivity|]. split; [constructor|]. rewrite (h_flush_parts h w) at 1. reflexivity.
  - injection E1 as <-. do 4 eexists. split; [reflexivity|]. split; [constructor|]. reflexivity.
  - injection E1 as <-. do 4 eexists. split; [reflexivity|]. split; [constructor|]. reflexivity.
  - destruct (h_close h w) as [w1 ok] eqn:Eh. injection E1 as <-. pose proof (h_close_parts h w) as Hp. rewrite Eh in Hp. cbn [fst] in Hp. do 4 eexists. split; [reflexivity|]. split; [apply X_cclose|]. rewrite Eh. cbn [fst snd]. rewrite Hp at 1. reflexivity.
  - injection E1 as <-. do 4 eexists. split; [reflexivity|]. split; [constructor|]. reflexivity.
  - injection E1 as <-. do 4 eexists. split; [reflexivity|]. split; [constructor|]. reflexivity.
Qed.

(** *** Closing file objects no longer referred to *)
Lemma collect_ind (P : xstate -> Prop) w : (forall w h, P w -> referenced h w = false -> P (fst (h_close h w))) -> P w -> P (collect w).
Proof.
  intros St. unfold collect. generalize (seq 0 (length (x_closed w))). intros l. revert w. induction l as [|h l IH]; intros w Pw; [exact Pw|]. cbn [fold_left]. apply IH. unfold drop. destruct (referenced h w) eqn:R; [exact Pw|exact (St _ _ Pw R)].
Qed.
Lemma collect_rest w : x_stream (collect w) = x_stream w /\ x_threads (collect w) = x_threads w /\ x_trace (collect w) = x_trace w.
Proof. apply (collect_ind (fun v => x_stream v = x_stream w /\ x_threads v = x_threads w /\ x_trace v = x_trace w)); [|repeat split]. intros v h (A & B & C) _. rewrite (h_close_parts h v). cbn. tauto. Qed.
Lemma xrun_inv (I : xstate -> Prop) sc w :
  (forall t w pc todo e pc' todo' new, nth_error (x_threads w) t = Some (mkXT pc todo) -> XSt t w pc todo e pc' todo' new -> I w -> I (collect (after w e t pc' todo' new))) ->
  I w -> I (xrun cap line sc w).
Proof.
  intros St. revert w. induction sc as [|t sc IH]; intros w Iw; [exact Iw|]. cbn [xrun]. apply IH. unfold xstep. destruct (xmove cap line t w) as [w'|] eqn:E; [|exact Iw].
  destruct (xmove_XSt _ _ _ E) as (pc & todo & e & pc' & todo' & new & A & S & ->). exact (St _ _ _ _ _ _ _ _ A S Iw).
Qed.
Lemma xstart_thread progs t th : nth_error (x_threads (xstart progs)) t = Some th -> exists p, nth_error progs t = Some p /\ th = mkXT EIdle p.
Proof. cbn [xstart x_threads]. rewrite nth_error_map. destruct (nth_error progs t) as [p|]; [|discriminate]. intros [= <-]. exists p. split; reflexivity. Qed.

(** *** Whole lines, each at most once *)
Lemma text_app a b : text (a ++ b) = text a ++ text b.
Proof. unfold text_of. rewrite map_app, concat_app. reflexivity. Qed.
Definition cocc := count_occ Nat.eq_dec.
Record held (f : fs) (fl : list nat) (bls : list (list nat)) : Prop := mkHeld {
  hd_file : fs_data f = text fl;
  hd_bufs : Forall2 (fun fh b => fh_buf fh = text b) (fs_handles f) bls }.
Definition all_of (fl : list nat) (bls : list (list nat)) : list nat := fl ++ concat bls.
Lemma F2_nth {X Y} (R : X -> Y -> Prop) a b i x : Forall2 R a b -> nth_error a i = Some x -> exists y, nth_error b i = Some y /\ R x y.
Proof. intros F. revert i. induction F as [|x0 y0 a b H F IH]; intros [|i] E; try discriminate; [injection E as <-; exists y0; split; [reflexivity|exact H]|exact (IH _ E)]. Qed.
Lemma F2_set {Y} (R : fhandle -> Y -> Prop) a b i x y : Forall2 R a b -> R x y -> Forall2 R (set_handle a i x) (list_set b i y).
Proof. intros F H. revert i. induction F as [|x0 y0 a b H0 F IH]; intros [|i]; cbn; constructor; auto. Qed.
Lemma concat_set (bls : list (list nat)) h b b' k : nth_error bls h = Some b -> cocc (concat (list_set bls h b')) k + cocc b k = cocc (concat bls) k + cocc b' k.
Proof.
  revert h. induction bls as [|x bls IH]; intros [|h] E; try discriminate; cbn [list_set concat]; unfold cocc in *; rewrite !count_occ_app.
  - injection E as ->. lia.
  - specialize (IH _ E). lia.
Qed.
Lemma raw_held fh b f d fl : fs_data f = text fl -> raw_write fh (text b) (fs_data f) = Some d -> d = text (fl ++ b).
Proof. intros E. unfold raw_write. rewrite text_app, <- E. destruct (text b) eqn:Eb; [intros [= <-]; symmetry; apply app_nil_r|]. destruct (fh_stale fh); [discriminate|]. intros [= <-]. reflexivity. Qed.
Lemma flush_held h f fl bls : held f fl bls -> exists fl' bls', held (fst (fs_flush h f)) fl' bls' /\ length bls' = length bls /\ forall k, cocc (all_of fl' bls') k = cocc (all_of fl bls) k.
Proof.
  intros [H1 H2]. unfold fs_flush. destruct (nth_error (fs_handles f) h) as [fh|] eqn:E; [|exists fl, bls; repeat split; assumption].
  destruct (F2_nth _ _ _ _ _ H2 E) as (b & Eb & Hb). rewrite Hb. destruct (raw_write fh (text b) (fs_data f)) as [d|] eqn:Er; [|exists fl, bls; repeat split; assumption].
  exists (fl ++ b), (list_set bls h []). split; [|split; [apply list_set_length|]].
  - constructor; cbn [fst fs_data fs_handles]; [exact (raw_held _ _ _ _ _ H1 Er)|]. apply F2_set; [exact H2|reflexivity].
  - intros k. unfold all_of. pose proof (concat_set bls h b [] k Eb) as K. unfold cocc in *. rewrite !count_occ_app in *. cbn [count_occ] in K. lia.
Qed.
Lemma write_held h f fl bls k f' r : held f fl bls -> fs_write cap h (line k) f = (f', r) -> exists fl' bls', held f' fl' bls' /\ length bls' = length bls /\
  forall x, cocc (all_of fl' bls') x = match r with None => cocc [k] x | Some _ => 0 end + cocc (all_of fl bls) x.
Proof.
  intros [H1 H2]. unfold fs_write. destruct (nth_error (fs_handles f) h) as [fh|] eqn:E; [|intros [= <- <-]; exists fl, bls; repeat split; assumption].
  destruct (F2_nth _ _ _ _ _ H2 E) as (b & Eb & Hb). rewrite Hb.
  assert (Lk : text [k] = line k) by (unfold text_of; cbn; apply app_nil_r).
  destruct ((length (text b) + length (line k) <=? cap) && (length (line k) <? cap)).
  - intros [= <- <-]. exists fl, (list_set bls h (b ++ [k])). split; [|split; [apply list_set_length|]].
    + constructor; [exact H1|]. cbn [fs_handles]. apply F2_set; [exact H2|]. cbn [fh_buf]. rewrite text_app, Lk. reflexivity.
    + intros x. unfold all_of. pose proof (concat_set bls h b (b ++ [k]) x Eb) as K. unfold cocc in *. rewrite !count_occ_app in *. lia.
  - destruct (raw_write fh (text b) (fs_data f)) as [d|] eqn:Er.
    + pose proof (raw_held _ _ _ _ _ H1 Er) as Ed. destruct (length (line k) <=? cap).
      * intros [= <- <-]. exists (fl ++ b), (list_set bls h [k]). split; [|split; [apply list_set_length|]].
        -- constructor; [exact Ed|]. cbn [fs_handles]. apply F2_set; [exact H2|]. cbn [fh_buf]. symmetry. exact Lk.
        -- intros x. unfold all_of. pose proof (concat_set bls h b [k] x Eb) as K. unfold cocc in *. rewrite !count_occ_app in *. lia.
      * destruct (raw_write fh (line k) d) as [d'|] eqn:Er2; intros [= <- <-].
        -- exists (fl ++ b ++ [k]), (list_set bls h []). split; [|split; [apply list_set_length|]].
           ++ constructor; cbn [fs_data fs_handles]; [|apply F2_set; [exact H2|reflexivity]]. rewrite <- Lk in Er2. rewrite app_assoc. exact (raw_held fh [k] (mkFs d []) d' (fl ++ b) Ed Er2).
           ++ intros x. unfold all_of. pose proof (concat_set bls h b [] x Eb) as K. unfold cocc in *. rewrite !count_occ_app in *. cbn [count_occ] in K. lia.
        -- exists (fl ++ b), (list_set bls h []). split; [|split; [apply list_set_length|]].
           ++ constructor; cbn [fs_data fs_handles]; [exact Ed|apply F2_set; [exact H2|reflexivity]].
           ++ intros x. unfold all_of. pose proof (concat_set bls h b [] x Eb) as K. unfold cocc in *. rewrite !count_occ_app in *. cbn [count_occ] in K. lia.
    + intros [= <- <-]. exists fl, bls. repeat split; assumption.
Qed.
Lemma stale_held f fl bls : held f fl bls -> held (fs_go_stale f) fl bls.
Proof. intros [H1 H2]. constructor; [exact H1|]. cbn [fs_go_stale fs_handles]. clear H1. induction H2; cbn; constructor; assumption. Qed.
Definition lines_inv (w : xstate) : Prop := exists fl bls, held (x_fs w) fl bls /\ forall k, cocc (all_of fl bls) k = cocc (map snd (emits_written (x_trace w))) k.
Lemma lines_close h w : lines_inv w -> lines_inv (fst (h_close h w)).
Proof.
  intros (fl & bls & H & C). unfold h_close. destruct (is_closed h w); [exists fl, bls; split; assumption|]. destruct (flush_held h _ _ _ H) as (fl' & bls' & H' & _ & E).
  destruct (fs_flush h (x_fs w)) as [f r]. cbn [fst] in *. exists fl', bls'. split; [exact H'|]. intros k. rewrite E. exact (C k).
Qed.
Lemma written_app a b : emits_written (a ++ b) = emits_written a ++ emits_written b. Proof. apply flat_map_app. Qed.
Lemma called_app a b : emits_called (a ++ b) = emits_called a ++ emits_called b. Proof. apply flat_map_app. Qed.
Lemma ended_app a b : emits_ended (a ++ b) = emits_ended a ++ emits_ended b. Proof. apply flat_map_app. Qed.
Lemma by_app t a b : by_thread t (a ++ b) = by_thread t a ++ by_thread t b.
Proof. unfold by_thread. rewrite filter_app, map_app. reflexivity. Qed.
Lemma XSt_lines t w pc todo e pc' todo' new : XSt t w pc todo e pc' todo' new -> lines_inv w -> lines_inv (after w e t pc' todo' new).
Proof.
  intros S (fl & bls & H & C).
  assert (Same : forall f c s, emits_written new = [] -> held f fl bls -> lines_inv (after w (f, c, s) t pc' todo' new)).
  { intros f c s En Hf. exists fl, bls. split; [exact Hf|]. intros k. cbn [after x_trace]. rewrite written_app, En, app_nil_r. exact (C k). }
  destruct S; try (apply Same; [reflexivity|exact H]).
  - apply Same; [reflexivity|]. apply stale_held. exact H.
  - destruct (write_held _ _ _ _ _ _ _ H H1) as (fl' & bls' & H' & _ & E). exists fl', bls'. split; [exact H'|]. intros x. rewrite E. cbn [after x_trace]. rewrite written_app, map_app. unfold cocc in *. rewrite count_occ_app. cbn [emits_written flat_map map snd app]. specialize (C x). lia.
  - destruct (write_held _ _ _ _ _ _ _ H H1) as (fl' & bls' & H' & _ & E). exists fl', bls'. split; [exact H'|]. intros x. rewrite E. cbn [after x_trace]. rewrite written_app, map_app. unfold cocc in *. rewrite count_occ_app. cbn [emits_written flat_map map count_occ]. specialize (C x). lia.
  - unfold h_flush. destruct (is_closed h w); [apply Same; [reflexivity|exact H]|]. destruct (flush_held h _ _ _ H) as (fl' & bls' & H' & _ & E). exists fl', bls'. split; [exact H'|]. intros x. rewrite E. cbn [after x_trace]. rewrite app_nil_r. exact (C x).
  - destruct H as [H1 H2]. exists fl, (bls ++ [[]]). split; [constructor; [exact H1|]|].
    + cbn [after fst snd h_open x_fs fs_handles]. apply Forall2_app; [exact H2|]. constructor; [reflexivity|constructor].
    + intros x. cbn [after x_trace]. rewrite app_nil_r. unfold all_of in *. rewrite concat_app. cbn. rewrite !app_nil_r. exact (C x).
  - unfold h_flush. destruct (is_closed h w); [apply Same; [reflexivity|exact H]|]. destruct (flush_held h _ _ _ H) as (fl' & bls' & H' & _ & E). exists fl', bls'. split; [exact H'|]. intros x. rewrite E. cbn [after x_trace]. rewrite app_nil_r. exact (C x).
  - destruct (lines_close h w) as (fl' & bls' & H' & C'); [exists fl, bls; split; assumption|]. exists fl', bls'. split; [exact H'|]. rewrite (h_close_parts h w) in C'. cbn [x_trace] in C'. intros x. cbn [after x_trace]. rewrite app_nil_r. exact (C' x).
Qed.
Lemma run_lines progs sc : lines_inv (xrun cap line sc (xstart progs)).
Proof.
  apply xrun_inv.
  - intros t w pc todo e pc' todo' new A S L. apply collect_ind; [intros v h Lv _; exact (lines_close h v Lv)|]. exact (XSt_lines _ _ _ _ _ _ _ _ S L).
  - exists [], [[]]. split; [constructor; [reflexivity|]|intros k; cbn; lia]. cbn. constructor; [reflexivity|constructor].
Qed.

(** counting *)
Definition pair_dec : forall x y : nat * nat, {x = y} + {x <> y}.
Proof. decide equality; apply Nat.eq_dec. Defined.
Lemma by_count t l k : cocc (by_thread t l) k = count_occ pair_dec l (t, k).
Proof.
  unfold by_thread, cocc. induction l as [|[t' k'] l IH]; [reflexivity|]. cbn [filter fst count_occ]. destruct (Nat.eqb_spec t' t) as [->|N]; cbn [map snd count_occ].
  - destruct (Nat.eq_dec k' k) as [E|Nk], (pair_dec (t, k') (t, k)); try congruence; rewrite IH; reflexivity.
  - destruct (pair_dec (t', k') (t, k)); [congruence|exact IH].
Qed.
Lemma count_split (a b : list (nat * nat)) : (forall p, count_occ pair_dec a p <= count_occ pair_dec b p) -> forall k, cocc (map snd a) k <= cocc (map snd b) k.
Proof.
  revert b. induction a as [|p a IH]; intros b H k; [cbn; lia|]. assert (I0 : In p b). { apply (count_occ_In pair_dec). specialize (H p). cbn [count_occ] in H. destruct (pair_dec p p); [lia|congruence]. }
  apply in_split in I0. destruct I0 as (b1 & b2 & ->). assert (K : cocc (map snd a) k <= cocc (map snd (b1 ++ b2)) k).
  { apply IH. intros q. specialize (H q). rewrite count_occ_app in *. cbn [count_occ] in H. destruct (pair_dec p q); lia. }
  unfold cocc in *. rewrite map_app, count_occ_app in *. cbn [map count_occ]. destruct (Nat.eq_dec (snd p) k); lia.
Qed.
Lemma sub_count (a b : list nat) k : sub a b -> cocc a k <= cocc b k.
Proof. unfold cocc. induction 1; cbn [count_occ]; try destruct (Nat.eq_dec x k); lia. Qed.

(** *** Calls of a thread *)
Definition in_call (pc : xpc) : list nat :=
  match pc with ELoad k _ | EWrite k _ _ | EFlushLoad k _ | EFlush k _ _ | EOpen k | ESet k _ | EReturn k | ERaise k => [k] | _ => [] end.
Definition calls_pc (p : list xop) (tr : list xobs) (t : nat) (th : xthread) : Prop :=
  by_thread t (emits_called tr) = by_thread t (emits_ended tr) ++ in_call (xt_pc th) /\ entries_of p = by_thread t (emits_called tr) ++ entries_of (xt_todo th).
Lemma by_self t k : by_thread t [(t, k)] = [k]. Proof. unfold by_thread. cbn. rewrite Nat.eqb_refl. reflexivity. Qed.
Lemma by_other t t' k : t <> t' -> by_thread t' [(t, k)] = []. Proof. intros N. unfold by_thread. cbn. destruct (Nat.eqb_spec t t'); [contradiction|reflexivity]. Qed.
Lemma XSt_obs t w pc todo e pc' todo' new : XSt t w pc todo e pc' todo' new ->
  in_call pc ++ by_thread t (emits_called new) = by_thread t (emits_ended new) ++ in_call pc' /\ entries_of todo = by_thread t (emits_called new) ++ entries_of todo' /\
  forall t', t' <> t -> by_thread t' (emits_called new) = [] /\ by_thread t' (emits_ended new) = [] /\ by_thread t' (emits_written new) = [].
Proof.
  intros S. destruct S; cbn [emits_called emits_ended emits_written flat_map app in_call]; rewrite ?by_self; cbn [app];
    (split; [|split; [try reflexivity|intros t' N; repeat split; try reflexivity; apply by_other; congruence]]); try reflexivity.
  - destruct r; reflexivity.
  - destruct r; [reflexivity|]. destruct e as [[n|]|]; try reflexivity. destruct (Z.eqb n ESTALE); reflexivity.
  - destruct r; reflexivity.
  - destruct (x_stream w); reflexivity.
  - destruct (x_stream w); reflexivity.
  - destruct (x_stream w); reflexivity.
  - destruct (x_stream w); reflexivity.
  - destruct (snd (h_close h w)); reflexivity.
Qed.
Definition calls_inv (progs : list (list xop)) (w : xstate) : Prop :=
  forall t th, nth_error (x_threads w) t = Some th -> exists p, nth_error progs t = Some p /\ calls_pc p (x_trace w) t th.
Lemma run_calls progs sc : calls_inv progs (xrun cap line sc (xstart progs)).
Proof.
  apply xrun_inv.
  - intros t w pc todo e pc' todo' new A S C t1 th1 A1. destruct (collect_rest (after w e t pc' todo' new)) as (_ & Et & Er). rewrite Et in A1. rewrite Er. cbn [after x_threads x_trace] in *.
    destruct (XSt_obs _ _ _ _ _ _ _ _ S) as (O1 & O2 & O3). destruct (set_cases _ _ _ _ _ A1) as [[-> ->]|[N E]].
    + destruct (C _ _ A) as (p & Ep & C1 & C2). exists p. split; [exact Ep|]. unfold calls_pc in *. cbn [xt_pc xt_todo] in *. rewrite called_app, ended_app, !by_app, C2, C1. split; [rewrite <- !app_assoc, O1; reflexivity|]. rewrite O2, !app_assoc. reflexivity.
    + destruct (C _ _ E) as (p & Ep & C1 & C2). exists p. split; [exact Ep|]. destruct (O3 _ N) as (O4 & O5 & _). unfold calls_pc. rewrite called_app, ended_app, !by_app, O4, O5, !app_nil_r. split; assumption.
  - intros t th A. destruct (xstart_thread progs t th A) as (p & Ep & ->). exists p. split; [exact Ep|]. split; reflexivity.
Qed.
(** each call writes at most once *)
Definition before_write (pc : xpc) : bool := match pc with ELoad _ _ | EWrite _ _ _ | EOpen _ | ESet _ _ => true | _ => false end.
Lemma sub_app_r {X} (a b : list X) x : sub a b -> sub a (b ++ [x]).
Proof. induction 1; cbn; constructor; auto. constructor. Qed.
Lemma sub_snoc {X} (a b : list X) x : sub a b -> sub (a ++ [x]) (b ++ [x]).
Proof. induction 1; cbn; repeat constructor; auto. Qed.
Definition once_inv (w : xstate) : Prop := forall t th, nth_error (x_threads w) t = Some th ->
  sub (by_thread t (emits_written (x_trace w))) (by_thread t (emits_ended (x_trace w)) ++ (if before_write (xt_pc th) then [] else in_call (xt_pc th))).
Lemma XSt_once t w pc todo e pc' todo' new : XSt t w pc todo e pc' todo' new -> forall wr en,
  sub wr (en ++ (if before_write pc then [] else in_call pc)) -> sub (wr ++ by_thread t (emits_written new)) ((en ++ by_thread t (emits_ended new)) ++ (if before_write pc' then [] else in_call pc')).
Proof.
  intros S wr en. destruct S; cbn [emits_called emits_ended emits_written flat_map app before_write in_call]; rewrite ?by_self; cbn [app]; unfold by_thread; cbn [filter map]; rewrite ?app_nil_r; try (intros H'; exact H').
  - destruct r; cbn; intros H'; apply sub_app_r; exact H'.
  - intros H'. apply sub_snoc. exact H'.
  - intros H'. destruct r; [cbn; apply sub_app_r; exact H'|]. destruct e as [[n|]|]; [destruct (Z.eqb n ESTALE)| |]; cbn; rewrite ?app_nil_r; try (apply sub_app_r; exact H'). exact H'.
  - destruct r; cbn; intros H'; apply sub_app_r; exact H'.
  - destruct (x_stream w); cbn; rewrite app_nil_r; tauto.
  - destruct (x_stream w); cbn; rewrite app_nil_r; tauto.
  - destruct (x_stream w); cbn; rewrite app_nil_r; tauto.
  - destruct (x_stream w); cbn; rewrite app_nil_r; tauto.
  - destruct (snd (h_close h w)); cbn; rewrite app_nil_r; tauto.
Qed.
Lemma run_once progs sc : once_inv (xrun cap line sc (xstart progs)).
Proof.
  apply xrun_inv.
  - intros t w pc todo e pc' todo' new A S C t1 th1 A1. destruct (collect_rest (after w e t pc' todo' new)) as (_ & Et & Er). rewrite Et in A1. rewrite Er. cbn [after x_threads x_trace] in *.
    rewrite written_app, ended_app, !by_app. destruct (set_cases _ _ _ _ _ A1) as [[-> ->]|[N E]].
    + exact (XSt_once _ _ _ _ _ _ _ _ S _ _ (C _ _ A)).
    + destruct (XSt_obs _ _ _ _ _ _ _ _ S) as (_ & _ & O3). destruct (O3 _ N) as (_ & O5 & O6). rewrite O5, O6, !app_nil_r. exact (C _ _ E).
  - intros t th A. destruct (xstart_thread progs t th A) as (p & Ep & ->). constructor.
Qed.

(** *** Without incidents *)
Definition some_close (tr : list xobs) : Prop := exists t, In (OClose t) tr.
Definition flushed (t : nat) (rest : list (nat * nat)) : Prop := by_thread t rest = [].
Definition npc (c : bool) (rest : list (nat * nat)) (tr : list xobs) (t : nat) (pc : xpc) : Prop :=
  match pc with
  | EIdle | EReturn _ => flushed t rest
  | ELoad _ r => r = false /\ flushed t rest
  | EWrite _ h r => h = 0 /\ r = false /\ flushed t rest
  | EFlushLoad _ r => r = false
  | EFlush _ h r => h = 0 /\ r = false
  | EOpen _ | ESet _ _ | ERaise _ => False
  | CFlush h | CClose h => h = 0 /\ flushed t rest /\ some_close tr
  | CSet | CReturn => c = true /\ flushed t rest /\ some_close tr
  | CCheck | CFlushLoad | CTest | CLoad => flushed t rest /\ some_close tr
  end.
Record one (w : xstate) (c : bool) (buf : bytes) (ks rest : list (nat * nat)) : Prop := mkOne {
  on_handles : fs_handles (x_fs w) = [mkFh buf false];
  on_closed : x_closed w = [c];
  on_written : emits_written (x_trace w) = ks ++ rest;
  on_data : fs_data (x_fs w) = text (map snd ks);
  on_buf : buf = text (map snd rest);
  on_empty : c = true -> rest = [];
  on_stream : x_stream w = Some 0 \/ (x_stream w = None /\ c = true);
  on_close : c = true -> some_close (x_trace w);
  on_done : forall t, In (OCloseDone t) (x_trace w) -> c = true;
  on_pc : forall t th, nth_error (x_threads w) t = Some th -> npc c rest (x_trace w) t (xt_pc th) /\ ~ In XStale (xt_todo th);
  on_raised : forall t k, ~ In (ORaised t k) (x_trace w) }.
Definition one_inv (w : xstate) : Prop := exists c buf ks rest, one w c buf ks rest.
Lemma some_close_app tr new : some_close tr -> some_close (tr ++ new).
Proof. intros [t I0]. exists t. apply in_or_app. left. exact I0. Qed.
Lemma npc_mono c c' rest rest' tr new t pc : (c = true -> c' = true) -> (flushed t rest -> flushed t rest') -> npc c rest tr t pc -> npc c' rest' (tr ++ new) t pc.
Proof.
  intros Hc Hf. pose proof (some_close_app tr new) as Hs. destruct pc; cbn [npc]; tauto.
Qed.
Lemma one_collect w c buf ks rest : one w c buf ks rest -> collect w = w.
Proof.
  intros O. unfold collect. rewrite (on_closed _ _ _ _ _ O). cbn [length seq fold_left]. unfold drop. destruct (referenced 0 w) eqn:R; [reflexivity|]. unfold h_close, is_closed. rewrite (on_closed _ _ _ _ _ O). cbn [nth].
  destruct (on_stream _ _ _ _ _ O) as [E|[E Ec]]; [|rewrite Ec; reflexivity]. unfold referenced in R. rewrite E in R. discriminate.
Qed.
Lemma write_one data buf b : exists d' buf', fs_write cap 0 b (mkFs data [mkFh buf false]) = (mkFs d' [mkFh buf' false], None) /\
  ((d' = data /\ buf' = buf ++ b) \/ (d' = data ++ buf /\ buf' = b) \/ (d' = data ++ buf ++ b /\ buf' = [])).
Proof.
  assert (R : forall x d, raw_write (mkFh buf false) x d = Some (d ++ x)) by (intros [|y x] d; cbn; [rewrite app_nil_r|]; reflexivity).
  unfold fs_write. cbn [nth_error fs_handles fs_data fh_buf fh_stale]. destruct ((length buf + length b <=? cap) && (length b <? cap)); [do 2 eexists; split; [reflexivity|left; split; reflexivity]|].
  rewrite R. destruct (length b <=? cap); [do 2 eexists; split; [reflexivity|right; left; split; reflexivity]|]. rewrite R. do 2 eexists. split; [reflexivity|]. right. right. split; [rewrite app_assoc; reflexivity|reflexivity].
Qed.
Lemma flush_one data buf : fs_flush 0 (mkFs data [mkFh buf false]) = (mkFs (data ++ buf) [mkFh [] false], None).
Proof. unfold fs_flush. cbn [nth_error fs_handles fs_data fh_buf fh_stale]. destruct buf as [|x buf]; cbn; [rewrite app_nil_r|]; reflexivity. Qed.
Lemma fs_eta f hs : fs_handles f = hs -> f = mkFs (fs_data f) hs.
Proof. destruct f. cbn. intros <-. reflexivity. Qed.
Lemma mtext (a b : list (nat * nat)) : text (map snd (a ++ b)) = text (map snd a) ++ text (map snd b).
Proof. rewrite map_app. apply text_app. Qed.

Lemma XSt_one t w pc todo e pc' todo' new : nth_error (x_threads w) t = Some (mkXT pc todo) -> XSt t w pc todo e pc' todo' new -> one_inv w -> one_inv (after w e t pc' todo' new).
Proof.
  intros A S (c & buf & ks & rest & O). pose proof O as [Oh Oc Ow Od Ob Oe Os Ol On Op Or]. destruct (Op _ _ A) as [Pc Pt]. cbn [xt_pc xt_todo] in Pc, Pt.
  assert (Hc : forall h, h = 0 -> is_closed h w = c) by (intros h ->; unfold is_closed; rewrite Oc; reflexivity).
  assert (Tod : forall o, In o todo' -> In o todo) by (destruct S; intros o I0; try (right; exact I0); exact I0).
  assert (Go : forall f cl c' s' ks' rest' buf', e = (f, cl, s') -> fs_handles f = [mkFh buf' false] -> cl = [c'] -> fs_data f = text (map snd ks') -> buf' = text (map snd rest') ->
     (c' = true -> rest' = []) -> (s' = Some 0 \/ (s' = None /\ c' = true)) -> (c' = true -> some_close (x_trace w ++ new)) -> (c = true -> c' = true) ->
     emits_written (x_trace w) ++ emits_written new = ks' ++ rest' -> (forall t1, t1 <> t -> flushed t1 rest -> flushed t1 rest') -> npc c' rest' (x_trace w ++ new) t pc' ->
     (forall t1 k1, ~ In (ORaised t1 k1) new) -> one_inv (after w e t pc' todo' new)).
  { assert (Nd : forall t1, In (OCloseDone t1) new -> c = true) by (destruct S; intros t1 I0; cbn in I0; try (destruct I0 as [I0|[]]; try discriminate I0); try contradiction; exact (proj1 Pc)).
    intros f cl c' s' ks' rest' buf' -> G1 G2 G3 G4 G5 G6 G7 G8 G9 G10 G11 G12. exists c', buf', ks', rest'. constructor; cbn [after fst snd x_fs x_closed x_stream x_trace x_threads]; try assumption.
    - rewrite written_app. exact G9.
    - intros t1 I0. apply G8. apply in_app_or in I0. destruct I0 as [I0|I0]; [exact (On _ I0)|exact (Nd _ I0)].
    - intros t1 th1 A1. destruct (set_cases _ _ _ _ _ A1) as [[-> ->]|[N E]]; [split; [exact G11|intros I0; exact (Pt (Tod _ I0))]|]. destruct (Op _ _ E) as [P1 P2]. split; [|exact P2]. exact (npc_mono _ _ _ _ _ _ _ _ G8 (G10 _ N) P1).
    - intros t1 k1 I0. apply in_app_or in I0. destruct I0 as [I0|I0]; [exact (Or _ _ I0)|exact (G12 _ _ I0)]. }
  assert (Quiet : e = env_of w -> emits_written new = [] -> npc c rest (x_trace w ++ new) t pc' -> (forall t1 k1, ~ In (ORaised t1 k1) new) -> one_inv (after w e t pc' todo' new)).
  { intros Ee En Ep Er. apply (Go (x_fs w) (x_closed w) c (x_stream w) ks rest buf); try assumption; try tauto.
    - intros Ec. apply some_close_app. exact (Ol Ec).
    - rewrite En, app_nil_r. exact Ow. }
  assert (Flush : forall h s', h = 0 -> s' = x_stream w -> e = (x_fs (h_flush h w), x_closed w, s') -> new = [] -> (c = true -> some_close (x_trace w)) -> npc c [] (x_trace w ++ new) t pc' -> one_inv (after w e t pc' todo' new)).
  { intros h s' -> -> Ee En Hs Ep. unfold h_flush in Ee. rewrite (Hc 0 eq_refl) in Ee. destruct c.
    - apply (Go (x_fs w) (x_closed w) true (x_stream w) ks [] buf); try assumption; try tauto; rewrite ?(Oe eq_refl) in *; try assumption; try tauto.
      + intros _. apply some_close_app. exact (Hs eq_refl).
      + rewrite En. cbn. rewrite app_nil_r. exact Ow.
      + rewrite En. cbn. tauto.
    - rewrite (fs_eta _ _ Oh), flush_one in Ee. cbn [fst set_fs x_fs] in Ee. apply (Go _ _ false _ (ks ++ rest) [] [] Ee); try assumption; try reflexivity; try discriminate.
      + cbn [fs_data]. rewrite Od, Ob, mtext. reflexivity.
      + rewrite En. cbn. rewrite !app_nil_r. exact Ow.
      + rewrite En. cbn. tauto. }
  destruct S; cbn [npc] in Pc.
  - apply Quiet; try reflexivity; [cbn; tauto|]. intros t1 k1 [I0|[]]. discriminate.
  - apply Quiet; try reflexivity; [|intros t1 k1 [I0|[]]; discriminate]. cbn. split; [exact Pc|]. exists t. apply in_or_app. right. left. reflexivity.
  - destruct Pt. left. reflexivity.
  - apply Quiet; try reflexivity; [|intros t1 k1 []]. cbn. destruct Os as [Es|[Es _]]; [|congruence]. split; [congruence|]. exact Pc.
  - apply Quiet; try reflexivity; [|intros t1 k1 []]. destruct Pc as [-> Pf]. exact Pf.
  - destruct Pc as (-> & -> & Pf). rewrite (fs_eta _ _ Oh) in H0. destruct (write_one (fs_data (x_fs w)) buf (line k)) as (d' & buf' & E & Cs). rewrite E in H0. injection H0 as <-.
    rewrite (Hc 0 eq_refl) in H. subst c.
    assert (Lk : text (map snd [(t, k)]) = line k) by (unfold text_of; cbn; apply app_nil_r).
    assert (Fo : forall t1, t1 <> t -> flushed t1 [(t, k)]) by (intros t1 N; unfold flushed; apply by_other; congruence).
    destruct Cs as [[-> ->]|[[-> ->]|[-> ->]]].
    + apply (Go _ _ false _ ks (rest ++ [(t, k)]) (buf ++ line k) eq_refl); try assumption; try reflexivity; try discriminate.
      * rewrite mtext, Lk, Ob. reflexivity.
      * rewrite Ow. cbn. rewrite app_assoc. reflexivity.
      * intros t1 N K. unfold flushed in *. rewrite by_app, K. apply (Fo _ N).
      * intros t1 k1 [I0|[]]. discriminate.
    + apply (Go _ _ false _ (ks ++ rest) [(t, k)] (line k) eq_refl); try assumption; try reflexivity; try discriminate.
      * cbn [fs_data]. rewrite mtext, Od, Ob. reflexivity.
      * symmetry. exact Lk.
      * rewrite Ow. cbn. reflexivity.
      * intros t1 N K. apply (Fo _ N).
      * intros t1 k1 [I0|[]]. discriminate.
    + apply (Go _ _ false _ (ks ++ rest ++ [(t, k)]) [] [] eq_refl); try assumption; try reflexivity; try discriminate.
      * cbn [fs_data]. rewrite !mtext, Lk, Od, Ob. reflexivity.
      * rewrite Ow. cbn. rewrite app_nil_r, app_assoc. reflexivity.
      * intros t1 k1 [I0|[]]. discriminate.
  - destruct Pc as (-> & -> & Pf). rewrite (fs_eta _ _ Oh) in H0. destruct (write_one (fs_data (x_fs w)) buf (line k)) as (d' & buf' & E & Cs). rewrite E in H0. discriminate.
  - apply Quiet; try reflexivity; [|intros t1 k1 []]. destruct Pc as (-> & -> & Pf). exact Pf.
  - apply Quiet; try reflexivity; [|intros t1 k1 []]. cbn. destruct Os as [Es|[Es _]]; [|congruence]. split; [congruence|]. exact Pc.
  - apply Quiet; try reflexivity; [|intros t1 k1 []]. destruct Os as [Es|[Es Ec]]; [congruence|]. cbn. rewrite (Oe Ec). reflexivity.
  - destruct Pc as [-> ->]. apply (Flush 0 (x_stream w)); try reflexivity; try assumption.
  - destruct Pc.
  - destruct Pc.
  - apply Quiet; try reflexivity; [exact Pc|]. intros t1 k1 [I0|[]]. discriminate.
  - destruct Pc.
  - apply Quiet; try reflexivity; [|intros t1 k1 []]. rewrite app_nil_r. destruct Os as [Es|[Es Ec]]; rewrite Es; cbn; tauto.
  - apply Quiet; try reflexivity; [|intros t1 k1 []]. rewrite app_nil_r. destruct Os as [Es|[Es Ec]]; rewrite Es; cbn; tauto.
  - destruct Pc as (-> & Pf & Pcl). apply (Flush 0 (x_stream w)); try reflexivity; try assumption. cbn. split; [reflexivity|]. apply some_close_app. exact Pcl.
  - apply Quiet; try reflexivity; [|intros t1 k1 []]. rewrite app_nil_r. destruct Os as [Es|[Es Ec]]; rewrite Es; cbn; tauto.
  - apply Quiet; try reflexivity; [|intros t1 k1 []]. rewrite app_nil_r. destruct Os as [Es|[Es Ec]]; rewrite Es; cbn; tauto.
  - destruct Pc as (-> & Pf & Pcl). destruct c.
    + assert (Eh : h_close 0 w = (w, true)) by (unfold h_close; rewrite (Hc 0 eq_refl); reflexivity). rewrite Eh in *. cbn [fst snd] in *. apply Quiet; try reflexivity; [|intros t1 k1 []]. cbn. rewrite app_nil_r. tauto.
    + assert (Eh : h_close 0 w = (set_closed 0 (set_fs (mkFs (fs_data (x_fs w) ++ buf) [mkFh [] false]) w), true)).
      { unfold h_close. rewrite (Hc 0 eq_refl). rewrite (fs_eta _ _ Oh) at 1. rewrite flush_one. reflexivity. }
      rewrite Eh in *. cbn [fst snd set_closed set_fs x_fs x_closed] in *. rewrite Oc in *. apply (Go _ _ true _ (ks ++ rest) [] [] eq_refl); try reflexivity; try (intros; apply some_close_app; exact Pcl); try tauto.
      * cbn [fs_data]. rewrite Od, Ob, mtext. reflexivity.
      * cbn. rewrite !app_nil_r. exact Ow.
      * cbn. repeat split. apply some_close_app. exact Pcl.
  - destruct Pc as (Ec & Pf & Pcl). apply (Go _ _ c _ ks rest buf eq_refl); try assumption; try tauto.
    + intros _. apply some_close_app. exact Pcl.
    + cbn. rewrite app_nil_r. exact Ow.
    + cbn. split; [exact Ec|]. split; [exact Pf|]. apply some_close_app. exact Pcl.
  - apply Quiet; try reflexivity; [exact (proj1 (proj2 Pc))|]. intros t1 k1 [I0|[]]. discriminate.
Qed.
Lemma run_one progs sc : no_incident progs -> one_inv (xrun cap line sc (xstart progs)).
Proof.
  intros Ni. apply xrun_inv.
  - intros t w pc todo e pc' todo' new A S O. pose proof (XSt_one _ _ _ _ _ _ _ _ A S O) as (c & buf & ks & rest & O'). rewrite (one_collect _ _ _ _ _ O'). exists c, buf, ks, rest. exact O'.
  - exists false, [], [], []. constructor; try reflexivity; try discriminate; [left; reflexivity|intros t []| |intros t k []].
    intros t th A. destruct (xstart_thread progs t th A) as (p & Ep & ->). split; [reflexivity|]. exact (Ni p (nth_error_In _ _ Ep)).
Qed.

(** as long as close has not been called every call writes *)
Definition exact_inv (w : xstate) : Prop := not_closed (x_trace w) -> forall t th, nth_error (x_threads w) t = Some th ->
  by_thread t (emits_written (x_trace w)) = by_thread t (emits_ended (x_trace w)) ++ (if before_write (xt_pc th) then [] else in_call (xt_pc th)).
Lemma XSt_exact t w pc todo e pc' todo' new : nth_error (x_threads w) t = Some (mkXT pc todo) -> XSt t w pc todo e pc' todo' new -> one_inv w -> not_closed (x_trace w) -> forall wr en,
  wr = en ++ (if before_write pc then [] else in_call pc) -> wr ++ by_thread t (emits_written new) = (en ++ by_thread t (emits_ended new)) ++ (if before_write pc' then [] else in_call pc').
Proof.
  intros A S (c & buf & ks & rest & O) Nc wr en. destruct (on_pc _ _ _ _ _ O _ _ A) as [Pc _]. cbn [xt_pc] in Pc.
  assert (Ec : c = false) by (destruct c; [destruct (on_close _ _ _ _ _ O eq_refl) as [t1 K]; destruct (Nc _ K)|reflexivity]). subst c.
  assert (Es : x_stream w = Some 0) by (destruct (on_stream _ _ _ _ _ O) as [E|[_ E]]; [exact E|discriminate]).
  destruct S; cbn [emits_called emits_ended emits_written flat_map app before_write in_call npc] in *; rewrite ?by_self; cbn [app]; unfold by_thread; cbn [filter map]; rewrite ?app_nil_r; try (intros H'; exact H'); try congruence; try (destruct Pc; contradiction); try contradiction.
  - exfalso. destruct Pc as (-> & -> & _). rewrite (fs_eta _ _ (on_handles _ _ _ _ _ O)) in H0. destruct (write_one (fs_data (x_fs w)) buf (line k)) as (d' & buf' & E & _). rewrite E in H0. discriminate.
  - exfalso. destruct Pc as (-> & _). unfold is_closed in H. rewrite (on_closed _ _ _ _ _ O) in H. discriminate.
  - destruct (x_stream w); cbn; rewrite app_nil_r; tauto.
  - destruct (x_stream w); cbn; rewrite app_nil_r; tauto.
  - destruct (x_stream w); cbn; rewrite app_nil_r; tauto.
  - destruct (x_stream w); cbn; rewrite app_nil_r; tauto.
  - destruct (snd (h_close h w)); cbn; rewrite app_nil_r; tauto.
Qed.
Lemma run_exact progs sc : no_incident progs -> exact_inv (xrun cap line sc (xstart progs)).
Proof.
  intros Ni. enough (K : one_inv (xrun cap line sc (xstart progs)) /\ exact_inv (xrun cap line sc (xstart progs))) by tauto. apply (xrun_inv (fun w => one_inv w /\ exact_inv w)).
  - intros t w pc todo e pc' todo' new A S [O C]. pose proof (XSt_one _ _ _ _ _ _ _ _ A S O) as O1. split; [destruct O1 as (c & buf & ks & rest & O'); rewrite (one_collect _ _ _ _ _ O'); exists c, buf, ks, rest; exact O'|].
    intros Nc t1 th1 A1. destruct (collect_rest (after w e t pc' todo' new)) as (_ & Et & Er). rewrite Et in A1. rewrite Er in *. cbn [after x_threads x_trace] in *.
    assert (Nc' : not_closed (x_trace w)) by (intros t2 I0; apply (Nc t2); apply in_or_app; left; exact I0).
    rewrite written_app, ended_app, !by_app. destruct (set_cases _ _ _ _ _ A1) as [[-> ->]|[N E]].
    + exact (XSt_exact _ _ _ _ _ _ _ _ A S O Nc' _ _ (C Nc' _ _ A)).
    + destruct (XSt_obs _ _ _ _ _ _ _ _ S) as (_ & _ & O3). destruct (O3 _ N) as (_ & O5 & O6). rewrite O5, O6, !app_nil_r. exact (C Nc' _ _ E).
  - split; [exact (run_one progs [] Ni)|]. intros _ t th A. destruct (xstart_thread progs t th A) as (p & Ep & ->). reflexivity.
Qed.

Definition known (progs : list (list xop)) (w : xstate) : Prop := forall t k, In (t, k) (emits_written (x_trace w)) \/ In (t, k) (emits_called (x_trace w)) -> t < length progs.
Lemma XSt_threads_len progs sc : length (x_threads (xrun cap line sc (xstart progs))) = length progs.
Proof.
  apply (xrun_inv (fun w => length (x_threads w) = length progs)); [|cbn; apply map_length]. intros t w pc todo e pc' todo' new _ _ L. destruct (collect_rest (after w e t pc' todo' new)) as (_ & Et & _). rewrite Et. cbn [after x_threads]. rewrite list_set_length. exact L.
Qed.
Lemma run_known progs sc : known progs (xrun cap line sc (xstart progs)).
Proof.
  enough (K : length (x_threads (xrun cap line sc (xstart progs))) = length progs /\ known progs (xrun cap line sc (xstart progs))) by tauto.
  apply (xrun_inv (fun w => length (x_threads w) = length progs /\ known progs w)).
  - intros t w pc todo e pc' todo' new A S [L K]. destruct (collect_rest (after w e t pc' todo' new)) as (_ & Et & Er). split; [rewrite Et; cbn [after x_threads]; rewrite list_set_length; exact L|].
    assert (Lt : t < length progs) by (rewrite <- L; apply nth_error_Some; congruence).
    intros t1 k1 I0. rewrite Er in I0. cbn [after x_trace] in I0. rewrite written_app, called_app, !in_app_iff in I0. destruct I0 as [[I0|I0]|[I0|I0]]; try (apply (K t1 k1); tauto; fail); destruct S; cbn in I0; intuition congruence.
  - split; [cbn; apply map_length|]. intros t k [[]|[]].
Qed.
Lemma no_by t l n : (forall t' k, In (t', k) l -> t' < n) -> ~ t < n -> by_thread t l = [].
Proof.
  intros H N. unfold by_thread. enough (E : filter (fun p => Nat.eqb (fst p) t) l = []) by (rewrite E; reflexivity). induction l as [|[t' k] l IH]; [reflexivity|]. cbn [filter fst]. destruct (Nat.eqb_spec t' t) as [->|]; [destruct (N (H t k (or_introl eq_refl)))|]. apply IH. intros t1 k1 I0. apply (H t1 k1). right. exact I0.
Qed.
Lemma written_called progs sc t : sub (by_thread t (emits_written (x_trace (xrun cap line sc (xstart progs))))) (by_thread t (emits_called (x_trace (xrun cap line sc (xstart progs))))).
Proof.
  set (w := xrun cap line sc (xstart progs)). destruct (nth_error (x_threads w) t) as [th|] eqn:E.
  - pose proof (run_once progs sc _ _ E) as O. destruct (run_calls progs sc _ _ E) as (p & _ & C & _). fold w in C, O. rewrite C. destruct (before_write (xt_pc th)); [|exact O]. rewrite app_nil_r in O. destruct (in_call (xt_pc th)) as [|k [|k' l]] eqn:Ei; [rewrite app_nil_r; exact O|apply sub_app_r; exact O|destruct (xt_pc th); discriminate].
  - apply nth_error_None in E. unfold w in E. rewrite XSt_threads_len in E. rewrite !(no_by t _ (length progs)); try lia; [constructor| |]; intros t' k I0; apply (run_known progs sc t' k); tauto.
Qed.
Lemma done_threads w t th : all_done cap line w -> nth_error (x_threads w) t = Some th -> th = mkXT EIdle [].
Proof.
  intros Q E. specialize (Q t). unfold xstep, xmove in Q. rewrite E in Q. destruct th as [pc todo]. cbn [xt_pc xt_todo] in Q.
  destruct pc as [|k r|k h r|k r|k h r|k|k h|k|k| | |h| | |h| |]; try discriminate; repeat (match type of Q with context [match ?x with _ => _ end] => destruct x end); try discriminate. reflexivity.
Qed.
(** *** The file only grows *)
Definition grown (d : bytes) (f : fs) : Prop := exists r, fs_data f = d ++ r.
Lemma raw_grown d fh b d0 d' : raw_write fh b d0 = Some d' -> (exists r, d0 = d ++ r) -> exists r, d' = d ++ r.
Proof. unfold raw_write. intros E (r & ->). destruct b as [|x b]; [injection E as <-; exists r; reflexivity|]. destruct (fh_stale fh); [discriminate|]. injection E as <-. rewrite <- app_assoc. eexists. reflexivity. Qed.
Lemma flush_grown d h f : grown d f -> grown d (fst (fs_flush h f)).
Proof.
  intros G. unfold fs_flush. destruct (nth_error (fs_handles f) h) as [fh|]; [|exact G]. destruct (raw_write fh (fh_buf fh) (fs_data f)) as [d'|] eqn:E; [|exact G]. exact (raw_grown _ _ _ _ _ E G).
Qed.
Lemma write_grown d h b f : grown d f -> grown d (fst (fs_write cap h b f)).
Proof.
  intros G. unfold fs_write. destruct (nth_error (fs_handles f) h) as [fh|]; [|exact G]. destruct (_ && _); [exact G|].
  destruct (raw_write fh (fh_buf fh) (fs_data f)) as [d'|] eqn:E; [|exact G]. pose proof (raw_grown _ _ _ _ _ E G) as G'. destruct (_ <=? cap); [exact G'|].
  destruct (raw_write fh b d') as [d''|] eqn:E2; [exact (raw_grown _ _ _ _ _ E2 G')|exact G'].
Qed.
Lemma close_grown d h w : grown d (x_fs w) -> grown d (x_fs (fst (h_close h w))).
Proof. intros G. unfold h_close. destruct (is_closed h w); [exact G|]. pose proof (flush_grown d h _ G) as F. destruct (fs_flush h (x_fs w)). exact F. Qed.
Lemma hflush_grown d h w : grown d (x_fs w) -> grown d (x_fs (h_flush h w)).
Proof. intros G. unfold h_flush. destruct (is_closed h w); [exact G|]. exact (flush_grown d h _ G). Qed.
Lemma run_grown sc w d : grown d (x_fs w) -> grown d (x_fs (xrun cap line sc w)).
Proof.
  apply (xrun_inv (fun w => grown d (x_fs w))). clear. intros t w pc todo e pc' todo' new _ S G. apply (collect_ind (fun w => grown d (x_fs w))); [intros v h Gv _; exact (close_grown _ _ _ Gv)|].
  unfold after. cbn [x_fs]. destruct S; cbn [fst snd env_of]; try exact G.
  - pose proof (write_grown d h (line k) _ G) as F. rewrite H0 in F. exact F.
  - pose proof (write_grown d h (line k) _ G) as F. rewrite H0 in F. exact F.
  - exact (hflush_grown _ _ _ G).
  - exact (hflush_grown _ _ _ G).
  - exact (close_grown _ _ _ G).
Qed.
Lemma xrun_app a b w : xrun cap line (a ++ b) w = xrun cap line b (xrun cap line a w).
Proof. revert w. induction a as [|t a IH]; intros w; [reflexivity|]. cbn [app xrun]. apply IH. Qed.

End Emit.
