(** What a thread has logged in asynchronous mode: queued, or handed over if it is an exception event. *)
From Verif Require Import model.PyBase model.Core model.Concurrent spec.CoreSpec spec.ConcurrentSpec
  proof.CoreLib proof.CoreDispatch proof.ConcurrentProofs proof.ConcurrentCalls.
Open Scope nat_scope.

Definition exc_item (x : item) : bool := match fst x with KExc => true | _ => false end.
Section A.
Variable lis : kind -> list nat.
Definition left_exc (th : thread) : list (nat * item) :=
  match th_pc th with
  | Inline k e hs | InHook k e _ hs => map (fun s => (s, (k, e))) hs
  | _ => []
  end.
Definition mine_inv (g : gstate) : Prop :=
  async_inv g /\
  forall t th, nth_error (g_threads g) t = Some th ->
    (forall k e, In (k, e) (pc_item (th_pc th)) -> k <> KExc) /\
    appended_by t (g_trace g) ++ pc_item (th_pc th) = filter (fun x => negb (exc_item x)) (logged_by t (g_trace g)) /\
    handed_inline_by t (g_trace g) ++ left_exc th = to_all lis (filter exc_item (logged_by t (g_trace g))).
Lemma St_mine t g g' : St lis t false g g' -> mine_inv g -> mine_inv g'.
Proof.
  intros HS (HA & HO). pose proof HA as HA'. apply (St_async lis _ _ _ _ HS) in HA'. split; [exact HA'|].
  assert (Hkeep : forall p todo new g1 th, nth_error (g_threads g) t = Some th -> g_threads g1 = g_threads g -> g_trace g1 = g_trace g ->
    (forall t', t' <> t -> appended_by t' new = [] /\ logged_by t' new = [] /\ handed_inline_by t' new = []) ->
    ((forall k e, In (k, e) (pc_item p) -> k <> KExc) /\
     appended_by t (g_trace g ++ new) ++ pc_item p = filter (fun x => negb (exc_item x)) (logged_by t (g_trace g ++ new)) /\
     handed_inline_by t (g_trace g ++ new) ++ left_exc (mkThread p todo) = to_all lis (filter exc_item (logged_by t (g_trace g ++ new)))) ->
    forall t' th', nth_error (g_threads (at_ t p todo new g1)) t' = Some th' ->
    (forall k e, In (k, e) (pc_item (th_pc th')) -> k <> KExc) /\
    appended_by t' (g_trace (at_ t p todo new g1)) ++ pc_item (th_pc th') = filter (fun x => negb (exc_item x)) (logged_by t' (g_trace (at_ t p todo new g1))) /\
    handed_inline_by t' (g_trace (at_ t p todo new g1)) ++ left_exc th' = to_all lis (filter exc_item (logged_by t' (g_trace (at_ t p todo new g1))))).
  { intros p todo new g1 th HN E1 E2 E3 E4 t' th' HN'. cbn [at_ g_threads g_trace] in *. rewrite E1 in HN'. rewrite E2. destruct (Nat.eq_dec t' t) as [->|Hn].
    - erewrite nth_set_eq in HN' by eauto. injection HN' as <-. exact E4.
    - rewrite nth_set_neq in HN' by auto. destruct (E3 t' Hn) as (A & B & C). rewrite appby_app, lby_app, hinl_app, A, B, C, !app_nil_r. apply HO, HN'. }
  assert (Hn : forall t', t' <> t -> (t =? t') = false) by (intros t' K; apply Nat.eqb_neq; congruence).
  destruct HS; (eapply Hkeep; [eassumption|reflexivity|reflexivity|intros t' K; cbn; rewrite ?(Hn t' K); auto|]);
    rewrite ?app_nil_r; try (destruct (HO _ _ H) as (X0 & X1 & X2)); cbn [th_pc pc_item left_exc] in *;
    rewrite ?appby_app, ?lby_app, ?hinl_app; cbn [appended_by logged_by handed_inline_by flat_map app] in *; rewrite ?Nat.eqb_refl; cbn [app] in *; rewrite ?app_nil_r in *;
    rewrite ?filter_app, ?to_all_app; cbn [filter app negb exc_item fst] in *;
    try (split; [first [assumption|intros ? ? []]|]; split; assumption).
  1: {(* log exc *) split; [intros ? ? []|]. split; [rewrite app_nil_r; exact X1|]. rewrite X2, to_all_one. reflexivity. }
  1: {(* log *) split; [intros k0 e0 [[= <- <-]|[]]; exact H|]. destruct (HO _ _ H0) as (Y0 & Y1 & Y2). cbn in Y1, Y2. rewrite app_nil_r in Y1, Y2.
    rewrite Y1, Y2. destruct k; try congruence; cbn; rewrite ?app_nil_r; auto. }
  1: {(* mode *) destruct HA as (HA & _). congruence. }
  all: try ( split; [intros ? ? []|]; split; [exact X1|]; first [exact X2|rewrite <- X2, <- app_assoc; reflexivity]; fail).
  discriminate.
Qed.
Lemma run_mine progs sc : no_switch progs -> nobody_raises sc -> mine_inv (trun lis sc (start true progs)).
Proof.
  intros HP HN. apply trun_inv_f; [exact St_mine|exact HN|]. split; [apply (run_async lis progs [] HP)|].
  intros t th H. destruct (start_th _ _ _ _ H) as (p & P1 & ->). cbn. split; [intros ? ? []|]. auto.
Qed.
End A.
