(** A FileEmitter used by several threads, one incident: C97. *)
From Coq Require Import Permutation.
From Verif Require Import model.PyBase model.Core model.Emitters model.EmitThreads spec.EmitterSpec spec.EmitThreadsSpec proof.CoreLib proof.HookThreadsProofs proof.EmitterProofs proof.WrapAllProofs proof.EmitThreadsProofs.
Open Scope nat_scope.

(** *** Handles *)
Definition hstale (h : nat) (f : fs) : bool := match nth_error (fs_handles f) h with Some fh => fh_stale fh | None => false end.
Definition hbuf (h : nat) (f : fs) : bytes := match nth_error (fs_handles f) h with Some fh => fh_buf fh | None => [] end.
Definition nh (f : fs) : nat := length (fs_handles f).
(** only handle [h] may differ, and not in being stale *)
Record touched (h : nat) (f f' : fs) : Prop := mkTouched {
  to_n : nh f' = nh f;
  to_stale : forall j, hstale j f' = hstale j f;
  to_buf : forall j, j <> h -> hbuf j f' = hbuf j f }.
Lemma touched_refl h f : touched h f f. Proof. constructor; reflexivity. Qed.
Lemma touched_set h f fh d b : nth_error (fs_handles f) h = Some fh -> touched h f (mkFs d (set_handle (fs_handles f) h (mkFh b (fh_stale fh)))) /\ hbuf h (mkFs d (set_handle (fs_handles f) h (mkFh b (fh_stale fh)))) = b.
Proof.
  intros E. split; [constructor|].
  - unfold nh. cbn [fs_handles]. apply set_handle_length.
  - intros j. unfold hstale. cbn [fs_handles]. rewrite nth_set_handle. destruct (Nat.eqb_spec j h) as [->|N]; cbn [andb]; [|reflexivity]. destruct (h <? length (fs_handles f)); [rewrite E|]; reflexivity.
  - intros j N. unfold hbuf. cbn [fs_handles]. rewrite nth_set_handle. destruct (Nat.eqb_spec j h) as [->|_]; [congruence|reflexivity].
  - unfold hbuf. cbn [fs_handles]. rewrite (nth_set_same _ _ _ _ E). reflexivity.
Qed.
Lemma raw_fresh fh b d : fh_stale fh = false -> raw_write fh b d = Some (d ++ b).
Proof. unfold raw_write. intros ->. destruct b; [rewrite app_nil_r|]; reflexivity. Qed.
Lemma flush_touched h f : touched h f (fst (fs_flush h f)) /\ (hstale h f = false -> hbuf h (fst (fs_flush h f)) = []) /\ length (hbuf h (fst (fs_flush h f))) <= length (hbuf h f).
Proof.
  unfold fs_flush. destruct (nth_error (fs_handles f) h) as [fh|] eqn:E.
  - destruct (raw_write fh (fh_buf fh) (fs_data f)) as [d|] eqn:Er; cbn [fst].
    + destruct (touched_set h f fh d [] E) as [T B]. rewrite B. split; [exact T|]. split; [reflexivity|]. cbn. lia.
    + split; [apply touched_refl|]. split; [|lia]. unfold hstale. rewrite E. intros S. rewrite (raw_fresh _ _ _ S) in Er. discriminate.
  - cbn [fst]. split; [apply touched_refl|]. split; [|lia]. intros _. unfold hbuf. rewrite E. reflexivity.
Qed.
Lemma write_touched cap h b f f' r : h < nh f -> length (hbuf h f) <= cap -> fs_write cap h b f = (f', r) ->
  touched h f f' /\ length (hbuf h f') <= cap /\ (r = None \/ (r = Some (ExOS (Some ESTALE)) /\ hstale h f = true)).
Proof.
  intros L Lb. unfold fs_write, nh, hbuf, hstale in *. destruct (nth_error (fs_handles f) h) as [fh|] eqn:E; [|apply nth_error_None in E; lia].
  assert (St : forall x d, raw_write fh x d = None -> fh_stale fh = true) by (intros x d R; destruct (fh_stale fh) eqn:S; [reflexivity|]; rewrite (raw_fresh _ _ _ S) in R; discriminate).
  destruct ((length (fh_buf fh) + length b <=? cap) && (length b <? cap)) eqn:C.
  - intros [= <- <-]. destruct (touched_set h f fh (fs_data f) (fh_buf fh ++ b) E) as [T B]. unfold hbuf in B. rewrite B. split; [exact T|]. split; [|left; reflexivity]. apply andb_prop in C. destruct C as [C _]. apply Nat.leb_le in C. rewrite app_length. exact C.
  - destruct (raw_write fh (fh_buf fh) (fs_data f)) as [d|] eqn:Er.
    + destruct (length b <=? cap) eqn:Cb.
      * intros [= <- <-]. destruct (touched_set h f fh d b E) as [T B]. unfold hbuf in B. rewrite B. split; [exact T|]. split; [apply Nat.leb_le; exact Cb|left; reflexivity].
      * destruct (raw_write fh b d) as [d'|] eqn:Er2; intros [= <- <-].
        -- destruct (touched_set h f fh d' [] E) as [T B]. unfold hbuf in B. rewrite B. split; [exact T|]. split; [cbn; lia|left; reflexivity].
        -- destruct (touched_set h f fh d [] E) as [T B]. unfold hbuf in B. rewrite B. split; [exact T|]. split; [cbn; lia|]. right. split; [reflexivity|exact (St _ _ Er2)].
    + intros [= <- <-]. split; [apply touched_refl|]. rewrite E. split; [exact Lb|]. right. split; [reflexivity|exact (St _ _ Er)].
Qed.

Lemma referenced_iff h w : referenced h w = true <-> x_stream w = Some h \/ exists t th, nth_error (x_threads w) t = Some th /\ holds (xt_pc th) = Some h.
Proof.
  unfold referenced. rewrite orb_true_iff, existsb_exists. split.
  - intros [E|(th & I0 & E)].
    + left. destruct (x_stream w) as [h'|]; [|discriminate]. apply Nat.eqb_eq in E. congruence.
    + right. apply In_nth_error in I0. destruct I0 as [t I0]. exists t, th. split; [exact I0|]. destruct (holds (xt_pc th)) as [h'|]; [|discriminate]. apply Nat.eqb_eq in E. congruence.
  - intros [E|(t & th & I0 & E)].
    + left. rewrite E. apply Nat.eqb_refl.
    + right. exists th. split; [exact (nth_error_In _ _ I0)|]. rewrite E. apply Nat.eqb_refl.
Qed.
Lemma set_other {X} (l : list X) t x i y : i <> t -> nth_error l i = Some y -> nth_error (list_set l t x) i = Some y.
Proof. intros N E. rewrite nth_list_set. destruct (Nat.eqb_spec i t) as [->|_]; [congruence|exact E]. Qed.
Lemma set_self {X} (l : list X) t x y : nth_error l t = Some y -> nth_error (list_set l t x) t = Some x.
Proof. intros E. rewrite nth_list_set, Nat.eqb_refl. assert (L : t < length l) by (apply nth_error_Some; congruence). apply Nat.ltb_lt in L. rewrite L. reflexivity. Qed.
Lemma closed_set h w j : is_closed j (set_closed h w) = (if Nat.eqb j h then true else is_closed j w).
Proof.
  unfold is_closed, set_closed. cbn [x_closed]. generalize (x_closed w). intros l. revert h j. induction l as [|x l IH]; intros [|h] [|j]; cbn; try reflexivity; [destruct (Nat.eqb j h); reflexivity|]. apply IH.
Qed.

Section Incident.
Variables (cap : nat) (line : nat -> bytes).

Definition will_flush (s : nat) (pc : xpc) : Prop := match pc with EFlushLoad _ _ => True | EFlush _ h _ => h = s | _ => False end.
Definition ipc (w : xstate) (t : nat) (pc : xpc) : Prop :=
  match pc with
  | ELoad _ true => x_stream w <> Some 0
  | EWrite _ h true => h <> 0
  | EOpen _ => incidents (x_trace w) = 1
  | ESet _ h => h <> 0 /\ hbuf h (x_fs w) = [] /\ x_stream w <> Some h /\ forall t' th', t' <> t -> nth_error (x_threads w) t' = Some th' -> holds (xt_pc th') <> Some h
  | ERaise _ | CCheck | CFlushLoad | CFlush _ | CTest | CLoad | CClose _ | CSet | CReturn => False
  | _ => True
  end.
Record inc (w : xstate) : Prop := mkInc {
  ic_len : length (x_closed w) = nh (x_fs w);
  ic_stale : forall h, hstale h (x_fs w) = true -> h = 0 /\ incidents (x_trace w) = 1;
  ic_one : incidents (x_trace w) = 0 -> nh (x_fs w) = 1;
  ic_stream : x_stream w <> None;
  ic_ref : forall h, referenced h w = true -> h < nh (x_fs w) /\ is_closed h w = false;
  ic_empty : forall h, is_closed h w = true -> hstale h (x_fs w) = false -> hbuf h (x_fs w) = [];
  ic_size : forall h, length (hbuf h (x_fs w)) <= cap;
  ic_pc : forall t th, nth_error (x_threads w) t = Some th -> ipc w t (xt_pc th);
  ic_flush : forall s, x_stream w = Some s -> hstale s (x_fs w) = false -> hbuf s (x_fs w) <> [] ->
    exists t th, nth_error (x_threads w) t = Some th /\ will_flush s (xt_pc th);
  ic_raised : forall t k, ~ In (ORaised t k) (x_trace w) }.

(** closing a handle nobody refers to *)
Lemma inc_close h w : inc w -> referenced h w = false -> inc (fst (h_close h w)) /\ (h < nh (x_fs w) -> is_closed h (fst (h_close h w)) = true) /\
  (forall j, is_closed j w = true -> is_closed j (fst (h_close h w)) = true) /\ nh (x_fs (fst (h_close h w))) = nh (x_fs w).
Proof.
  intros I0 R. unfold h_close. destruct (is_closed h w) eqn:Ec; [split; [exact I0|]; split; [intros _; exact Ec|]; split; [intros j K; exact K|reflexivity]|]. destruct (flush_touched h (x_fs w)) as (T & B & Z). destruct (fs_flush h (x_fs w)) as [f r] eqn:Ef. cbn [fst] in *.
  assert (Rj : forall j, referenced j w = true -> j <> h) by (intros j K ->; congruence).
  assert (Ref : forall j, referenced j (set_closed h (set_fs f w)) = referenced j w) by reflexivity.
  split; [|split; [|split]].
  - constructor; cbn [set_closed set_fs x_fs x_closed x_stream x_threads x_trace].
    + rewrite list_set_length, (to_n _ _ _ T). exact (ic_len _ I0).
    + intros j. rewrite (to_stale _ _ _ T). exact (ic_stale _ I0 j).
    + rewrite (to_n _ _ _ T). exact (ic_one _ I0).
    + exact (ic_stream _ I0).
    + intros j K. rewrite Ref in K. rewrite (to_n _ _ _ T), closed_set. destruct (ic_ref _ I0 _ K) as [K1 K2]. split; [exact K1|]. destruct (Nat.eqb_spec j h) as [->|_]; [congruence|exact K2].
    + intros j. rewrite closed_set, (to_stale _ _ _ T). destruct (Nat.eqb_spec j h) as [->|N]; [intros _; exact B|]. intros K S. rewrite (to_buf _ _ _ T j N). exact (ic_empty _ I0 j K S).
    + intros j. destruct (Nat.eq_dec j h) as [->|N]; [pose proof (ic_size _ I0 h); lia|]. rewrite (to_buf _ _ _ T j N). exact (ic_size _ I0 j).
    + intros t th E. pose proof (ic_pc _ I0 _ _ E) as P. destruct (xt_pc th) eqn:Ep; try exact P. cbn [ipc set_closed set_fs x_fs x_stream x_threads] in *. destruct P as (P1 & P2 & P3 & P4). split; [exact P1|]. split; [|split; assumption].
      rewrite (to_buf _ _ _ T); [exact P2|]. apply Rj. apply referenced_iff. right. exists t, th. split; [exact E|]. rewrite Ep. reflexivity.
    + intros s Es S Nb. rewrite (to_stale _ _ _ T) in S. apply (ic_flush _ I0 s Es S). rewrite (to_buf _ _ _ T) in Nb; [exact Nb|]. apply Rj. apply referenced_iff. left. exact Es.
    + exact (ic_raised _ I0).
  - intros _. rewrite closed_set, Nat.eqb_refl. reflexivity.
  - intros j K. rewrite closed_set. destruct (Nat.eqb j h); [reflexivity|exact K].
  - exact (to_n _ _ _ T).
Qed.
Definition tidy (w : xstate) : Prop := forall h, h < nh (x_fs w) -> is_closed h w = true \/ referenced h w = true.
Lemma inc_collect w : inc w -> inc (collect w) /\ tidy (collect w).
Proof.
  intros I0. unfold collect, tidy. rewrite (ic_len _ I0).
  assert (K : forall l v, inc v -> inc (fold_left drop l v) /\ nh (x_fs (fold_left drop l v)) = nh (x_fs v) /\ (forall h, referenced h (fold_left drop l v) = referenced h v) /\
    (forall j, is_closed j v = true -> is_closed j (fold_left drop l v) = true) /\ forall h, In h l -> h < nh (x_fs v) -> is_closed h (fold_left drop l v) = true \/ referenced h (fold_left drop l v) = true).
  { induction l as [|h l IH]; intros v Iv; [split; [exact Iv|]; split; [reflexivity|]; split; [reflexivity|]; split; [auto|intros h []]|]. cbn [fold_left].
    assert (D : inc (drop v h) /\ nh (x_fs (drop v h)) = nh (x_fs v) /\ (forall j, referenced j (drop v h) = referenced j v) /\ (forall j, is_closed j v = true -> is_closed j (drop v h) = true) /\ (h < nh (x_fs v) -> is_closed h (drop v h) = true \/ referenced h (drop v h) = true)).
    { unfold drop. destruct (referenced h v) eqn:R; [split; [exact Iv|]; split; [reflexivity|]; split; [reflexivity|]; split; [auto|intros _; right; exact R]|]. destruct (inc_close h v Iv R) as (A & B & C & D). split; [exact A|]. split; [exact D|]. split; [intros j; rewrite (h_close_parts h v); reflexivity|]. split; [exact C|]. intros L. left. exact (B L). }
    destruct D as (D1 & D2 & D3 & D4 & D5). destruct (IH _ D1) as (H1 & H2 & H3 & H4 & H5). split; [exact H1|]. split; [congruence|]. split; [intros j; rewrite H3; apply D3|]. split; [intros j Kj; apply H4, D4, Kj|].
    intros j [<-|Ij] L; [|apply H5; [exact Ij|lia]]. destruct (D5 L) as [K|K]; [left; apply H4; exact K|right; rewrite H3; exact K]. }
  destruct (K (seq 0 (nh (x_fs w))) w I0) as (H1 & H2 & _ & _ & H5). split; [exact H1|]. intros h L. apply H5; [apply in_seq; lia|lia].
Qed.

Lemma incidents_app a b : incidents (a ++ b) = incidents a + incidents b.
Proof. unfold incidents. rewrite filter_app, app_length. reflexivity. Qed.
Definition mild (tr : list xobs) : Prop := incidents tr <= 1 /\ not_closed tr.
Lemma mild_before tr new : mild (tr ++ new) -> mild tr.
Proof. intros [A B]. rewrite incidents_app in A. split; [lia|]. intros t I0. apply (B t). apply in_or_app. left. exact I0. Qed.

Lemma XSt_inc t w pc todo e pc' todo' new : nth_error (x_threads w) t = Some (mkXT pc todo) -> XSt cap line t w pc todo e pc' todo' new -> mild (x_trace w ++ new) -> inc w -> inc (after w e t pc' todo' new).
Proof.
  intros A S M I0. pose proof (ic_pc _ I0 _ _ A) as Pc. cbn [xt_pc] in Pc. destruct M as [Mi Mc]. rewrite incidents_app in Mi.
  assert (Rt : forall h, holds pc = Some h -> h < nh (x_fs w) /\ is_closed h w = false) by (intros h K; apply (ic_ref _ I0); apply referenced_iff; right; exists t, (mkXT pc todo); split; [exact A|exact K]).
  assert (Rs : forall h, x_stream w = Some h -> h < nh (x_fs w) /\ is_closed h w = false) by (intros h K; apply (ic_ref _ I0); apply referenced_iff; left; exact K).
  (* the general step: one handle is touched, the stream is the same *)
  assert (Go : forall h f, e = (f, x_closed w, x_stream w) -> touched h (x_fs w) f -> length (hbuf h f) <= cap -> incidents new = 0 ->
     (forall j, holds pc' = Some j -> x_stream w = Some j \/ holds pc = Some j) ->
     (is_closed h w = true -> hstale h f = false -> hbuf h f = []) ->
     (forall t1 th1, t1 <> t -> nth_error (x_threads w) t1 = Some th1 -> forall k, xt_pc th1 = ESet k h -> hbuf h f = []) ->
     (forall w', x_stream w' = x_stream w -> x_fs w' = f -> x_trace w' = x_trace w ++ new -> ipc w' t pc') ->
     (forall s, x_stream w = Some s -> hstale s f = false -> hbuf s f <> [] -> will_flush s pc' \/ (hbuf s (x_fs w) <> [] /\ ~ will_flush s pc)) ->
     (forall t1 k1, ~ In (ORaised t1 k1) new) -> (forall j, holds pc' = Some j -> forall k, pc' <> ESet k j) -> inc (after w e t pc' todo' new)).
  { intros h f -> T Z En Hh He Hs Hp Hf Hr Hn. assert (Ei : incidents (x_trace w ++ new) = incidents (x_trace w)) by (rewrite incidents_app, En; lia).
    constructor; cbn [after fst snd x_fs x_closed x_stream x_threads x_trace].
    - rewrite (to_n _ _ _ T). exact (ic_len _ I0).
    - intros j. rewrite (to_stale _ _ _ T), Ei. exact (ic_stale _ I0 j).
    - rewrite (to_n _ _ _ T), Ei. exact (ic_one _ I0).
    - exact (ic_stream _ I0).
    - intros j K. apply referenced_iff in K. cbn [after x_stream x_threads] in K. rewrite (to_n _ _ _ T). apply (ic_ref _ I0). apply referenced_iff. destruct K as [K|(t1 & th1 & K1 & K2)]; [left; exact K|].
      destruct (set_cases _ _ _ _ _ K1) as [[-> ->]|[N E]]; [|right; exists t1, th1; split; assumption]. destruct (Hh _ K2) as [K|K]; [left; exact K|]. right. exists t, (mkXT pc todo). split; assumption.
    - intros j K Sj. change (is_closed j w = true) in K. rewrite (to_stale _ _ _ T) in Sj. destruct (Nat.eq_dec j h) as [->|N]; [apply He; [exact K|rewrite (to_stale _ _ _ T); exact Sj]|]. rewrite (to_buf _ _ _ T j N). exact (ic_empty _ I0 j K Sj).
    - intros j. destruct (Nat.eq_dec j h) as [->|N]; [exact Z|]. rewrite (to_buf _ _ _ T j N). exact (ic_size _ I0 j).
    - intros t1 th1 K. destruct (set_cases _ _ _ _ _ K) as [[-> ->]|[N E]]; [apply Hp; reflexivity|]. pose proof (ic_pc _ I0 _ _ E) as P. destruct (xt_pc th1) eqn:Ep; try exact P; cbn [ipc after fst snd x_fs x_stream x_threads x_trace] in *; [congruence|].
      destruct P as (P1 & P2 & P3 & P4). split; [exact P1|]. split; [|split; [exact P3|]].
      + destruct (Nat.eq_dec h0 h) as [->|N']; [exact (Hs _ _ N E _ Ep)|]. rewrite (to_buf _ _ _ T _ N'). exact P2.
      + intros t2 th2 N2 K2. destruct (set_cases _ _ _ _ _ K2) as [[-> ->]|[N3 E3]]; [|exact (P4 _ _ N2 E3)]. cbn [xt_pc]. intros K3. destruct (Hh _ K3) as [K4|K4]; [exact (P3 K4)|]. exact (P4 _ _ N2 A K4).
    - intros s Es Ss Nb. destruct (Hf s Es Ss Nb) as [K|[K1 K2]].
      + exists t, (mkXT pc' todo'). split; [exact (set_self _ _ _ _ A)|exact K].
      + rewrite (to_stale _ _ _ T) in Ss. destruct (ic_flush _ I0 s Es Ss K1) as (t1 & th1 & E & W). exists t1, th1. split; [|exact W]. apply set_other; [|exact E]. intros ->. rewrite A in E. injection E as <-. exact (K2 W).
    - intros t1 k1 K. apply in_app_or in K. destruct K as [K|K]; [exact (ic_raised _ I0 _ _ K)|exact (Hr _ _ K)]. }
  assert (Quiet : e = env_of w -> incidents new = 0 -> (forall j, holds pc' = Some j -> x_stream w = Some j \/ holds pc = Some j) ->
     (forall w', x_stream w' = x_stream w -> x_fs w' = x_fs w -> x_trace w' = x_trace w ++ new -> ipc w' t pc') -> (forall s, x_stream w = Some s -> will_flush s pc -> will_flush s pc' \/ hbuf s (x_fs w) = []) -> (forall t1 k1, ~ In (ORaised t1 k1) new) -> (forall j, holds pc' = Some j -> forall k, pc' <> ESet k j) -> inc (after w e t pc' todo' new)).
  { intros Ee En Hh Hp Hf Hr Hn. apply (Go (nh (x_fs w)) (x_fs w) Ee); try assumption.
    - apply touched_refl.
    - apply (ic_size _ I0).
    - apply (ic_empty _ I0).
    - intros t1 th1 N E k Ek. pose proof (ic_pc _ I0 _ _ E) as P. rewrite Ek in P. exact (proj1 (proj2 P)).
    - intros s Es _ Nb. destruct pc'; try (right; split; [exact Nb|]; intros W; destruct (Hf s Es W) as [K|K]; [exact K|congruence]; fail); cbn [will_flush] in *; [left; exact I|].
      destruct (Nat.eq_dec h s) as [->|N]; [left; reflexivity|]. right. split; [exact Nb|]. intros W. destruct (Hf s Es W) as [K|K]; congruence. }
  destruct S.
  - apply Quiet; try reflexivity; try (cbn; intros; discriminate); try (cbn; tauto). intros t1 k1 [K|[]]. discriminate.
  - exfalso. apply (Mc t). apply in_or_app. right. left. reflexivity.
  - (* the incident *)
    assert (Ei : incidents (x_trace w) = 0) by (cbn in Mi; lia). pose proof (ic_one _ I0 Ei) as L1.
    assert (Nn : nh (fs_go_stale (x_fs w)) = nh (x_fs w)) by (unfold nh, fs_go_stale; cbn [fs_handles]; apply map_length).
    assert (Bn : forall j, hbuf j (fs_go_stale (x_fs w)) = hbuf j (x_fs w)) by (intros j; unfold hbuf, fs_go_stale; cbn [fs_handles]; rewrite nth_error_map; destruct (nth_error (fs_handles (x_fs w)) j); reflexivity).
    assert (Sn : forall j, j < nh (x_fs w) -> hstale j (fs_go_stale (x_fs w)) = true) by (intros j L; unfold hstale, fs_go_stale; cbn [fs_handles]; rewrite nth_error_map; destruct (nth_error (fs_handles (x_fs w)) j) eqn:E; [reflexivity|apply nth_error_None in E; unfold nh in L; lia]).
    constructor; cbn [after fst snd x_fs x_closed x_stream x_threads x_trace].
    + rewrite Nn. exact (ic_len _ I0).
    + intros j K. rewrite incidents_app, Ei. split; [|reflexivity]. unfold hstale, fs_go_stale in K. cbn [fs_handles] in K. rewrite nth_error_map in K. destruct (nth_error (fs_handles (x_fs w)) j) eqn:E; [|discriminate]. assert (j < nh (x_fs w)) by (apply nth_error_Some; congruence). lia.
    + rewrite incidents_app. cbn. lia.
    + exact (ic_stream _ I0).
    + intros j K. rewrite Nn. apply (ic_ref _ I0). apply referenced_iff in K. apply referenced_iff. cbn [after x_stream x_threads] in K. destruct K as [K|(t1 & th1 & K1 & K2)]; [left; exact K|].
      destruct (set_cases _ _ _ _ _ K1) as [[-> ->]|[N E]]; [discriminate|]. right. exists t1, th1. split; assumption.
    + intros j K Sj. rewrite Bn. change (is_closed j w = true) in K. apply (ic_empty _ I0 j K). destruct (hstale j (x_fs w)) eqn:E; [|reflexivity]. destruct (ic_stale _ I0 _ E). lia.
    + intros j. rewrite Bn. exact (ic_size _ I0 j).
    + intros t1 th1 K. destruct (set_cases _ _ _ _ _ K) as [[-> ->]|[N E]]; [exact I|]. pose proof (ic_pc _ I0 _ _ E) as P. destruct (xt_pc th1) eqn:Ep; try exact P; cbn [ipc after fst snd x_fs x_stream x_threads x_trace] in *; [lia|].
      destruct P as (P1 & P2 & P3 & P4). rewrite Bn. split; [exact P1|]. split; [exact P2|]. split; [exact P3|]. intros t2 th2 N2 K2. destruct (set_cases _ _ _ _ _ K2) as [[-> ->]|[N3 E3]]; [discriminate|]. exact (P4 _ _ N2 E3).
    + intros s Es Ss _. rewrite (Sn s (proj1 (Rs _ Es))) in Ss. discriminate.
    + intros t1 k1 K. apply in_app_or in K. destruct K as [K|[K|[]]]; [exact (ic_raised _ I0 _ _ K)|discriminate].
  - apply Quiet; try reflexivity; try (cbn; intros; discriminate); try (cbn; tauto).
    + cbn. intros j [= <-]. left. exact H.
    + intros w' E1 E2 E3. destruct r; [|exact I]. cbn [ipc] in *. congruence.
  - destruct (ic_stream _ I0 H).
  - (* a write *)
    destruct (Rt h eq_refl) as [L Nc]. destruct (write_touched _ _ _ _ _ _ L (ic_size _ I0 h) H0) as (T & Z & _). apply (Go h f eq_refl T Z); try reflexivity; try (cbn; intros; discriminate); try (cbn; tauto).
    + congruence.
    + intros t1 th1 N E k1 Ek. pose proof (ic_pc _ I0 _ _ E) as P. rewrite Ek in P. destruct P as (_ & _ & _ & P4). exfalso. apply (P4 t (mkXT (EWrite k h r) todo)); [congruence|exact A|reflexivity].
    + intros t1 k1 [K|[]]. discriminate.
  - destruct (Rt h eq_refl) as [L Nc]. destruct (write_touched _ _ _ _ _ _ L (ic_size _ I0 h) H0) as (T & Z & [K|[K1 K2]]); [discriminate|]. injection K1 as ->. destruct (ic_stale _ I0 _ K2) as [-> Ei].
    destruct r; [destruct Pc; reflexivity|]. change (match ESTALE =? ESTALE with true => EOpen k | false => EReturn k end)%Z with (EOpen k) in *. cbn [Z.eqb] in *. 
    apply (Go 0 f eq_refl T Z); try reflexivity; try (cbn; intros; discriminate); try (cbn; tauto).
    + congruence.
    + intros t1 th1 N E k1 Ek. pose proof (ic_pc _ I0 _ _ E) as P. rewrite Ek in P. destruct P as (P1 & _). congruence.
    + intros w' _ _ E3. cbn [ipc]. rewrite E3, app_nil_r. exact Ei.
    + intros s Es Ss Nb. right. cbn. split; [|tauto]. destruct (Nat.eq_dec s 0) as [->|N]; [rewrite (to_stale _ _ _ T) in Ss; congruence|]. rewrite <- (to_buf _ _ _ T s N). exact Nb.
  - destruct (Rt h eq_refl). congruence.
  - apply Quiet; try reflexivity; try (cbn; intros; discriminate); try (cbn; tauto); [cbn; intros j [= <-]; left; exact H|]. cbn. intros s Es _. left. congruence.
  - destruct (ic_stream _ I0 H).
  - (* a flush *)
    unfold h_flush. destruct (Rt h eq_refl) as [L Nc]. rewrite Nc. cbn [set_fs x_fs]. destruct (flush_touched h (x_fs w)) as (T & B & Z). assert (Eh : h_flush h w = set_fs (fst (fs_flush h (x_fs w))) w) by (unfold h_flush; rewrite Nc; reflexivity). rewrite Eh in *. cbn [set_fs x_fs] in *.
    apply (Go h _ eq_refl T); try reflexivity; try (cbn; intros; discriminate); try (cbn; tauto).
    + pose proof (ic_size _ I0 h). lia.
    + congruence.
    + intros t1 th1 N E k1 Ek. pose proof (ic_pc _ I0 _ _ E) as P. rewrite Ek in P. destruct P as (_ & _ & _ & P4). exfalso. apply (P4 t (mkXT (EFlush k h r) todo)); [congruence|exact A|reflexivity].
    + intros s Es Ss Nb. right. cbn [will_flush]. rewrite (to_stale _ _ _ T) in Ss. destruct (Nat.eq_dec s h) as [->|N]; [destruct (Nb (B Ss))|]. split; [|congruence]. rewrite <- (to_buf _ _ _ T s N). exact Nb.
  - (* reopening *)
    cbn [ipc] in Pc. set (n := length (fs_handles (x_fs w))) in *. change n with (nh (x_fs w)) in *. clear n. cbn [h_open fst x_fs].
    set (f := mkFs (fs_data (x_fs w)) (fs_handles (x_fs w) ++ [mkFh [] false])).
    assert (Nf : nh f = S (nh (x_fs w))) by (unfold nh, f; cbn [fs_handles]; rewrite app_length; cbn; lia).
    assert (Hf : forall j, hbuf j f = hbuf j (x_fs w) /\ hstale j f = hstale j (x_fs w)).
    { intros j. unfold hbuf, hstale, f. cbn [fs_handles]. destruct (Nat.lt_ge_cases j (nh (x_fs w))) as [L|L]; [rewrite nth_error_app1 by exact L; split; reflexivity|]. rewrite nth_error_app2 by exact L. unfold nh in L. rewrite (proj2 (nth_error_None _ _) L). destruct (j - length (fs_handles (x_fs w))) as [|[|x]]; split; reflexivity. }
    assert (Cl : forall j, is_closed j (after w (f, x_closed w ++ [false], x_stream w) t (ESet k (nh (x_fs w))) todo []) = if Nat.eqb j (nh (x_fs w)) then false else is_closed j w).
    { intros j. unfold is_closed. cbn [after fst snd x_closed]. destruct (Nat.eqb_spec j (nh (x_fs w))) as [->|N]; [rewrite <- (ic_len _ I0), app_nth2, Nat.sub_diag by lia; reflexivity|]. destruct (Nat.lt_ge_cases j (nh (x_fs w))) as [L|L]; [apply app_nth1; rewrite (ic_len _ I0); exact L|].
      rewrite !nth_overflow; try reflexivity; rewrite ?app_length, (ic_len _ I0); cbn; lia. }
    assert (Rn : forall j, referenced j w = true -> j <> nh (x_fs w)) by (intros j K ->; destruct (ic_ref _ I0 _ K); lia).
    assert (Bn : hbuf (nh (x_fs w)) (x_fs w) = []) by (unfold hbuf, nh; rewrite (proj2 (nth_error_None _ _) (Nat.le_refl _)); reflexivity).
    constructor.
    + cbn [after fst snd x_fs x_closed]. rewrite Nf, app_length, (ic_len _ I0). cbn. lia.
    + intros j. cbn [after fst snd x_fs x_trace]. rewrite app_nil_r, (proj2 (Hf j)). exact (ic_stale _ I0 j).
    + cbn [after x_trace]. rewrite app_nil_r. lia.
    + exact (ic_stream _ I0).
    + intros j K. apply referenced_iff in K. rewrite Cl. cbn [after fst snd x_fs x_stream x_threads] in *. rewrite Nf. destruct (Nat.eqb_spec j (nh (x_fs w))) as [->|N]; [split; [lia|reflexivity]|].
      enough (R : referenced j w = true) by (destruct (ic_ref _ I0 _ R); split; [lia|assumption]). apply referenced_iff. destruct K as [K|(t1 & th1 & K1 & K2)]; [left; exact K|].
      destruct (set_cases _ _ _ _ _ K1) as [[-> ->]|[N' E]]; [cbn in K2; congruence|]. right. exists t1, th1. split; assumption.
    + intros j. rewrite Cl. cbn [after fst snd x_fs]. rewrite (proj1 (Hf j)), (proj2 (Hf j)). destruct (Nat.eqb_spec j (nh (x_fs w))) as [->|N]; [discriminate|]. apply (ic_empty _ I0).
    + intros j. cbn [after fst snd x_fs]. rewrite (proj1 (Hf j)). exact (ic_size _ I0 j).
    + intros t1 th1 K. cbn [after x_threads] in K. destruct (set_cases _ _ _ _ _ K) as [[-> ->]|[N E]].
      * cbn [xt_pc ipc after fst snd x_fs x_stream x_threads]. rewrite (proj1 (Hf _)). split; [|split; [exact Bn|split]].
        -- destruct (x_stream w) as [s|] eqn:Es; [|destruct (ic_stream _ I0 Es)]. pose proof (proj1 (Rs _ eq_refl)). lia.
        -- intros Es. destruct (Rs _ Es). lia.
        -- intros t2 th2 N2 K2 Kh. destruct (set_cases _ _ _ _ _ K2) as [[-> ->]|[N3 E3]]; [congruence|]. apply (Rn (nh (x_fs w))); [|reflexivity]. apply referenced_iff. right. exists t2, th2. split; assumption.
      * pose proof (ic_pc _ I0 _ _ E) as P. destruct (xt_pc th1) eqn:Ep; try exact P; cbn [ipc after fst snd x_fs x_stream x_threads x_trace] in *; [rewrite app_nil_r; exact P|].
        destruct P as (P1 & P2 & P3 & P4). rewrite (proj1 (Hf _)). split; [exact P1|]. split; [exact P2|]. split; [exact P3|]. intros t2 th2 N2 K2. destruct (set_cases _ _ _ _ _ K2) as [[-> ->]|[N3 E3]]; [|exact (P4 _ _ N2 E3)].
        cbn [xt_pc holds]. intros [= Eh]. apply (Rn h); [|congruence]. apply referenced_iff. right. exists t1, th1. split; [exact E|]. rewrite Ep. reflexivity.
    + intros s Es Ss Nb. cbn [after fst snd x_fs x_stream x_threads] in *. rewrite (proj2 (Hf s)) in Ss. rewrite (proj1 (Hf s)) in Nb. destruct (ic_flush _ I0 s Es Ss Nb) as (t1 & th1 & E & W). exists t1, th1. split; [|exact W]. apply set_other; [|exact E]. intros ->. rewrite A in E. injection E as <-. exact W.
    + intros t1 k1 K. cbn [after x_trace] in K. rewrite app_nil_r in K. exact (ic_raised _ I0 _ _ K).
  - (* self.stream = h *)
    cbn [ipc] in Pc. destruct Pc as (P1 & P2 & P3 & P4). destruct (Rt h eq_refl) as [L Nc].
    constructor; cbn [after fst snd x_fs x_closed x_stream x_threads x_trace]; rewrite ?app_nil_r.
    + exact (ic_len _ I0).
    + exact (ic_stale _ I0).
    + exact (ic_one _ I0).
    + discriminate.
    + intros j K. apply referenced_iff in K. cbn [after fst snd x_stream x_threads] in K. change (j < nh (x_fs w) /\ is_closed j w = false). destruct K as [[= <-]|(t1 & th1 & K1 & K2)]; [split; assumption|].
      destruct (set_cases _ _ _ _ _ K1) as [[-> ->]|[N E]]; [discriminate|]. apply (ic_ref _ I0). apply referenced_iff. right. exists t1, th1. split; assumption.
    + exact (ic_empty _ I0).
    + exact (ic_size _ I0).
    + intros t1 th1 K. destruct (set_cases _ _ _ _ _ K) as [[-> ->]|[N E]]; [cbn; congruence|]. pose proof (ic_pc _ I0 _ _ E) as P. destruct (xt_pc th1) as [|k1 r1| | | | |k1 h1| | | | | | | | | |] eqn:Ep; try exact P; cbn [ipc after fst snd x_fs x_stream x_threads x_trace] in *.
      * destruct r1; [congruence|exact I].
      * rewrite app_nil_r. exact P.
      * destruct P as (Q1 & Q2 & Q3 & Q4). split; [exact Q1|]. split; [exact Q2|]. split.
        -- intros [= ->]. apply (P4 t1 th1 N E). rewrite Ep. reflexivity.
        -- intros t2 th2 N2 K2. destruct (set_cases _ _ _ _ _ K2) as [[-> ->]|[N3 E3]]; [discriminate|exact (Q4 _ _ N2 E3)].
    + intros s [= <-] _ Nb. congruence.
    + exact (ic_raised _ I0).
  - apply Quiet; try reflexivity; try (cbn; intros; discriminate); try (cbn; tauto). intros t1 k1 [K|[]]. discriminate.
  - destruct Pc.
  - destruct Pc.
  - destruct Pc.
  - destruct Pc.
  - destruct Pc.
  - destruct Pc.
  - destruct Pc.
  - destruct Pc.
  - destruct Pc.
Qed.
(** every call hands over its line *)
Lemma XSt_all t w pc todo e pc' todo' new : nth_error (x_threads w) t = Some (mkXT pc todo) -> XSt cap line t w pc todo e pc' todo' new -> inc w -> forall wr en,
  wr = en ++ (if before_write pc then [] else in_call pc) -> wr ++ by_thread t (emits_written new) = (en ++ by_thread t (emits_ended new)) ++ (if before_write pc' then [] else in_call pc').
Proof.
  intros A S I0 wr en. pose proof (ic_pc _ I0 _ _ A) as Pc. cbn [xt_pc] in Pc.
  assert (Rt : forall h, holds pc = Some h -> h < nh (x_fs w) /\ is_closed h w = false) by (intros h K; apply (ic_ref _ I0); apply referenced_iff; right; exists t, (mkXT pc todo); split; [exact A|exact K]).
  pose proof (ic_stream _ I0) as Ns.
  destruct S; cbn [emits_called emits_ended emits_written flat_map app before_write in_call ipc] in *; rewrite ?by_self; cbn [app]; unfold by_thread; cbn [filter map]; rewrite ?app_nil_r; try (intros H'; exact H'); try contradiction.
  - intros ->. reflexivity.
  - destruct (Rt h eq_refl) as [L Nc]. destruct (write_touched _ _ _ _ _ _ L (ic_size _ I0 h) H0) as (_ & _ & [K|[K1 K2]]); [discriminate|]. injection K1 as ->. destruct (ic_stale _ I0 _ K2) as [-> _]. destruct r; [destruct Pc; reflexivity|]. cbn. rewrite app_nil_r. tauto.
  - destruct (Rt h eq_refl). congruence.
Qed.
Definition sound (w : xstate) : Prop := mild (x_trace w) -> inc w /\ tidy w /\ forall t th, nth_error (x_threads w) t = Some th ->
  by_thread t (emits_written (x_trace w)) = by_thread t (emits_ended (x_trace w)) ++ (if before_write (xt_pc th) then [] else in_call (xt_pc th)).
Lemma run_sound progs sc : sound (xrun cap line sc (xstart progs)).
Proof.
  apply xrun_inv.
  - intros t w pc todo e pc' todo' new A S So M. destruct (collect_rest cap line (after w e t pc' todo' new)) as (_ & Et & Er). rewrite Er in *. cbn [after x_trace] in M. destruct (So (mild_before _ _ M)) as (I0 & _ & Ex). destruct (inc_collect _ (XSt_inc _ _ _ _ _ _ _ _ A S M I0)) as [I1 Ti]. split; [exact I1|]. split; [exact Ti|].
    intros t1 th1 A1. rewrite Et in A1. cbn [after x_threads x_trace] in *. rewrite written_app, ended_app, !by_app. destruct (set_cases _ _ _ _ _ A1) as [[-> ->]|[N E]].
    + exact (XSt_all _ _ _ _ _ _ _ _ A S I0 _ _ (Ex _ _ A)).
    + destruct (XSt_obs _ _ _ _ _ _ _ _ _ _ S) as (_ & _ & O3). destruct (O3 _ N) as (_ & O5 & O6). rewrite O5, O6, !app_nil_r. exact (Ex _ _ E).
  - intros _. split; [|split].
    + constructor; cbn [xstart x_fs x_closed x_stream x_trace]; try reflexivity; try discriminate.
      * intros [|[|h]] E; discriminate.
      * intros h K. apply referenced_iff in K. cbn [xstart x_stream] in K. destruct K as [[= <-]|(t & th & E & K)]; [split; [cbn; lia|reflexivity]|]. destruct (xstart_thread progs t th E) as (p & _ & ->). discriminate.
      * intros [|[|h]]; reflexivity.
      * intros [|[|h]]; cbn; lia.
      * intros t th E. destruct (xstart_thread progs t th E) as (p & _ & ->). exact I.
      * intros s [= <-] _ N. destruct N. reflexivity.
      * intros t k [].
    + intros [|h] L; [right; apply referenced_iff; left; reflexivity|]. cbn in L. lia.
    + intros t th E. destruct (xstart_thread progs t th E) as (p & _ & ->). reflexivity.
Qed.

(** *** When all threads are done *)
Notation text := (text_of line).
Lemma text_bufs hs bls : Forall2 (fun fh b => fh_buf fh = text b) hs bls -> text (concat bls) = concat (map fh_buf hs).
Proof. induction 1 as [|fh b hs bls E F IH]; [reflexivity|]. cbn [concat map]. unfold text_of in *. rewrite map_app, concat_app, IH, <- E. reflexivity. Qed.
Lemma only_first f : (forall h, h <> 0 -> hbuf h f = []) -> concat (map fh_buf (fs_handles f)) = hbuf 0 f.
Proof.
  unfold hbuf. destruct (fs_handles f) as [|fh hs]; [reflexivity|]. intros H. cbn [map concat nth_error]. enough (E : concat (map fh_buf hs) = []) by (rewrite E; apply app_nil_r).
  assert (H' : forall h, match nth_error hs h with Some x => fh_buf x | None => [] end = []) by (intros h; apply (H (S h)); discriminate). clear H.
  induction hs as [|x hs IH]; [reflexivity|]. cbn [map concat]. rewrite (H' 0 : fh_buf x = []). apply IH. intros h. exact (H' (S h)).
Qed.
Lemma split_threads (W : list (nat * nat)) n : Permutation (concat (map (fun t => by_thread t W) (seq 0 n))) (map snd (filter (fun p => fst p <? n) W)).
Proof.
  induction n as [|n IH]; [cbn; replace (filter _ W) with (@nil (nat * nat)); [constructor|]; induction W; cbn; auto|].
  rewrite seq_S, map_app, concat_app. cbn [map concat Nat.add]. rewrite app_nil_r, IH. unfold by_thread. rewrite <- map_app. apply Permutation_map. clear IH. induction W as [|[t k] W IH]; [constructor|]. cbn [filter fst].
  destruct (Nat.ltb_spec t n), (Nat.ltb_spec t (S n)), (Nat.eqb_spec t n); try lia; [cbn; constructor; exact IH| |exact IH]. rewrite <- Permutation_middle. constructor. exact IH.
Qed.
Lemma map_seq {X Y} (g : X -> Y) f l base : (forall i x, nth_error l i = Some x -> f (base + i) = g x) -> map f (seq base (length l)) = map g l.
Proof.
  revert base. induction l as [|x l IH]; intros base H; [reflexivity|]. cbn [length seq map]. f_equal; [rewrite <- (Nat.add_0_r base); exact (H 0 x eq_refl)|]. apply IH. intros i y E. replace (S base + i) with (base + S i) by lia. exact (H (S i) y E).
Qed.
Lemma filter_all {X} (g : X -> bool) l : (forall x, In x l -> g x = true) -> filter g l = l.
Proof. induction l as [|x l IH]; intros H; [reflexivity|]. cbn. rewrite (H x (or_introl eq_refl)). f_equal. apply IH. intros y I0. apply H. right. exact I0. Qed.
Lemma run_incident progs sc : let w := xrun cap line sc (xstart progs) in incidents (x_trace w) <= 1 -> not_closed (x_trace w) -> all_done cap line w ->
  (exists ks lost, fs_data (x_fs w) = text ks /\ length (text lost) <= cap /\ Permutation (ks ++ lost) (concat (map entries_of progs))) /\ forall t k, ~ In (ORaised t k) (x_trace w).
Proof.
  intros w Mi Mc Q. destruct (run_sound progs sc (conj Mi Mc)) as (I0 & Ti & Ex). fold w in I0, Ti, Ex. split; [|exact (ic_raised _ I0)].
  destruct (run_lines cap line progs sc) as (fl & bls & H & C). fold w in H, C. exists fl, (concat bls). split; [exact (hd_file _ _ _ _ H)|]. split.
  - rewrite (text_bufs _ _ (hd_bufs _ _ _ _ H)), only_first; [apply (ic_size _ I0)|]. intros h N.
    assert (Sh : hstale h (x_fs w) = false) by (destruct (hstale h (x_fs w)) eqn:E; [destruct (ic_stale _ I0 _ E); congruence|reflexivity]).
    destruct (Nat.lt_ge_cases h (nh (x_fs w))) as [L|L]; [|unfold hbuf; rewrite (proj2 (nth_error_None _ _) L); reflexivity].
    destruct (Ti h L) as [K|K]; [exact (ic_empty _ I0 _ K Sh)|]. apply referenced_iff in K. destruct K as [K|(t & th & E & K)]; [|rewrite (done_threads _ _ _ _ _ Q E) in K; discriminate].
    destruct (hbuf h (x_fs w)) eqn:B; [reflexivity|]. destruct (ic_flush _ I0 h K Sh) as (t & th & E & W); [congruence|]. rewrite (done_threads _ _ _ _ _ Q E) in W. destruct W.
  - transitivity (map snd (emits_written (x_trace w))).
    + apply (Permutation_count_occ Nat.eq_dec). intros k. exact (C k).
    + symmetry. replace (map entries_of progs) with (map (fun t => by_thread t (emits_written (x_trace w))) (seq 0 (length progs))).
      * rewrite split_threads, filter_all; [reflexivity|]. intros [t k] K. apply Nat.ltb_lt. apply (run_known cap line progs sc t k). left. exact K.
      * apply map_seq. intros t p Ep. cbn [Nat.add]. assert (E : exists th, nth_error (x_threads w) t = Some th).
        { destruct (nth_error (x_threads w) t) as [th|] eqn:E; [exists th; reflexivity|]. apply nth_error_None in E. unfold w in E. rewrite XSt_threads_len in E. assert (t < length progs) by (apply nth_error_Some; congruence). lia. }
        destruct E as [th E]. rewrite (Ex _ _ E). pose proof (done_threads _ _ _ _ _ Q E) as Et. subst th. destruct (run_calls cap line progs sc _ _ E) as (p' & Ep' & C1 & C2). fold w in C1, C2. cbn in *. rewrite app_nil_r in *. congruence.
Qed.
End Incident.
