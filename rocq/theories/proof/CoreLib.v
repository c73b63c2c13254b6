(** Basic lemmas about the Core model: state updates and hook calls. *)
From Verif Require Import model.PyBase model.Core.

Lemma list_set_length {A} (l : list A) i a : length (list_set l i a) = length l.
Proof. revert i; induction l as [|x l IH]; intros [|i]; simpl; auto. Qed.

Lemma nth_error_list_set_eq {A} (l : list A) i a :
  i < length l -> nth_error (list_set l i a) i = Some a.
Proof.
  revert i; induction l as [|x l IH]; intros [|i] Hi; simpl in *; try lia; auto.
  apply IH; lia.
Qed.

Lemma nth_error_list_set_neq {A} (l : list A) i j a :
  i <> j -> nth_error (list_set l i a) j = nth_error l j.
Proof.
  revert i j; induction l as [|x l IH]; intros [|i] [|j] Hij; simpl; auto; try lia.
Qed.

Lemma nth_error_list_set {A} (l : list A) i j a :
  nth_error (list_set l i a) j =
  if Nat.eqb i j then (match nth_error l j with Some _ => Some a | None => None end)
  else nth_error l j.
Proof.
  destruct (Nat.eqb_spec i j) as [->|Hn].
  - destruct (nth_error l j) eqn:Hj.
    + apply nth_error_list_set_eq. apply nth_error_Some. congruence.
    + apply nth_error_None in Hj. apply nth_error_None. rewrite list_set_length; auto.
  - apply nth_error_list_set_neq; auto.
Qed.

Lemma list_set_list_set {A} (l : list A) i a b :
  list_set (list_set l i a) i b = list_set l i b.
Proof. revert i; induction l as [|x l IH]; intros [|i]; simpl; f_equal; auto. Qed.

Lemma nth_error_lt {A} (l : list A) i a : nth_error l i = Some a -> i < length l.
Proof. intros H; apply nth_error_Some; congruence. Qed.

Lemma nth_error_snoc {A} (l : list A) x i :
  nth_error (l ++ [x]) i =
  if Nat.eqb i (length l) then Some x else nth_error l i.
Proof.
  destruct (Nat.eqb_spec i (length l)) as [->|Hn].
  - rewrite nth_error_app2, Nat.sub_diag; auto.
  - destruct (lt_dec i (length l)) as [Hl|Hl].
    + apply nth_error_app1; auto.
    + rewrite (proj2 (nth_error_None l i)) by lia.
      apply nth_error_None. rewrite app_length; simpl; lia.
Qed.

Lemma upd_eq {A} (f : nat -> A) i a : upd f i a i = a.
Proof. unfold upd. rewrite Nat.eqb_refl; auto. Qed.
Lemma upd_neq {A} (f : nat -> A) i j a : j <> i -> upd f i a j = f j.
Proof. unfold upd. intros H. apply Nat.eqb_neq in H. rewrite H; auto. Qed.

Lemma kind_eqb_eq a b : kind_eqb a b = true <-> a = b.
Proof. destruct a, b; simpl; split; intros; auto; discriminate. Qed.

(** ** Publication *)

(** The common shape of on_begin/on_warn/on_end and of comment's last step. *)
Definition publish (cfg : config) (l : nat) (k : kind) (e : event) : M unit :=
  g <- get_log l ;;
  if lg_async g then enqueue l k e else call_hooks cfg l k e (lg_hooks g k).

Lemma on_begin_publish cfg l e : on_begin cfg l e = publish cfg l KBegin e.
Proof. reflexivity. Qed.
Lemma on_warn_publish cfg l e : on_warn cfg l e = publish cfg l KWarn e.
Proof. reflexivity. Qed.
Lemma on_end_publish cfg l e : on_end cfg l e = publish cfg l KEnd e.
Proof. reflexivity. Qed.

Definition deliveries (l : nat) (k : kind) (e : event) (hs : list nat) : list obs :=
  map (fun s => ODeliver l k s e) hs.

Definition add_trace (t : list obs) (w : world) : world := set_trace (w_trace w ++ t) w.

Lemma add_trace_nil w : add_trace [] w = w.
Proof. unfold add_trace. destruct w; simpl. rewrite app_nil_r. reflexivity. Qed.

Lemma add_trace_app t1 t2 w : add_trace t2 (add_trace t1 w) = add_trace (t1 ++ t2) w.
Proof. unfold add_trace; destruct w; simpl. unfold set_trace; simpl. rewrite app_assoc; auto. Qed.

(** Hooks are called in order until one raises. *)
Lemma call_hooks_spec cfg l k e hs w :
  exists d rest, hs = d ++ rest /\
    fst (call_hooks cfg l k e hs w) = add_trace (deliveries l k e d) w /\
    match snd (call_hooks cfg l k e hs w) with
    | Ok _ => rest = []
    | Raise x => exists d0 s, d = d0 ++ [s] /\
        cf_sink cfg (w_trace w ++ deliveries l k e d0) l k s e = Some x
    end /\
    (forall d1 s d2, d = d1 ++ s :: d2 ->
       cf_sink cfg (w_trace w ++ deliveries l k e d1) l k s e <> None -> d2 = []).
Proof.
  revert w; induction hs as [|s hs IH]; intros w; simpl.
  - exists [], []. simpl. rewrite add_trace_nil.
    repeat split; auto. intros d1 s d2 Hd. destruct d1; discriminate.
  - unfold bind, call_hook.
    destruct (cf_sink cfg (w_trace w) l k s e) as [x|] eqn:Hs.
    + exists [s], hs; simpl. repeat split; auto.
      * exists [], s; simpl. rewrite app_nil_r; auto.
      * intros d1 s' d2 Hd _. destruct d1 as [|a d1]; [inversion Hd; auto|].
        inversion Hd. destruct d1; discriminate.
    + destruct (IH (set_trace (w_trace w ++ [ODeliver l k s e]) w))
        as (d & rest & Hhs & Hf & Hr & Hall).
      exists (s :: d), rest. simpl in *. repeat split.
      * f_equal; auto.
      * rewrite Hf. unfold add_trace. simpl. rewrite <- app_assoc. reflexivity.
      * destruct (snd _) as [u|x]; auto.
        destruct Hr as (d0 & s' & Hd & Hx). exists (s :: d0), s'. split.
        -- simpl; f_equal; auto.
        -- simpl. rewrite <- app_assoc in Hx. exact Hx.
      * intros d1 s' d2 Hd Hne. destruct d1 as [|a d1].
        -- inversion Hd; subst. simpl in Hne. rewrite app_nil_r in Hne. congruence.
        -- inversion Hd; subst. eapply Hall; eauto.
           rewrite <- app_assoc. exact Hne.
Qed.

(** Hooks that never raise. *)
Lemma call_hooks_quiet cfg l k e hs w :
  (forall h s, cf_sink cfg h l k s e = None) ->
  call_hooks cfg l k e hs w = (add_trace (deliveries l k e hs) w, Ok tt).
Proof.
  intros Hq. revert w; induction hs as [|s hs IH]; intros w; simpl.
  - rewrite add_trace_nil. reflexivity.
  - unfold bind, call_hook. rewrite Hq, IH. unfold add_trace; simpl.
    rewrite <- app_assoc. reflexivity.
Qed.

Lemma bind_assoc {A B C} (m : M A) (f : A -> M B) (g : B -> M C) w :
  bind (bind m f) g w = bind m (fun x => bind (f x) g) w.
Proof. unfold bind. destruct (m w) as [w' [a|e]]; reflexivity. Qed.

Lemma bind_ok {A B} (m : M A) (f : A -> M B) w w' a :
  m w = (w', Ok a) -> bind m f w = f a w'.
Proof. unfold bind. intros ->. reflexivity. Qed.

Lemma bind_raise {A B} (m : M A) (f : A -> M B) w w' e :
  m w = (w', Raise e) -> bind m f w = (w', Raise e).
Proof. unfold bind. intros ->. reflexivity. Qed.

(** ** Equations for the action methods *)
Definition act_upd (r : nat) (a : action) (w : world) : world :=
  set_acts (list_set (w_acts w) r a) w.

(** Creating an event of action [r] and storing [a] as the action's new state. *)
Definition with_event (r : nat) (a : action) (e : event) (w : world) : world :=
  act_upd r a (set_hist (w_hist w ++ [HEvent e]) (set_ctr (S (w_ctr w)) w)).

Definition tick (w : world) : world := set_clk (S (w_clk w)) w.

Definition kw_upd (kw : data) (a : action) : action :=
  a_set_data (dupdate String.eqb (a_data a) kw) a.

Lemma begin_eq cfg r m kw w :
  begin cfg r m kw w =
  match nth_error (w_acts w) r with
  | None => (w, Raise exn_name_error)
  | Some a0 =>
    let a := kw_upd kw a0 in
    match a_begin a0 with
    | Some _ => (act_upd r a w, Ok tt)
    | None =>
      let e := mkEvent KBegin r (w_ctr w) (cf_clock cfg (w_clk w))
                 (opt_msg m (a_name a +s " beginning")) None None in
      publish cfg (a_log a0) KBegin e (with_event r (a_set_begin (Some e) a) e (tick w))
    end
  end.
Proof.
  unfold begin, bind, mod_act, get_act.
  destruct (nth_error (w_acts w) r) as [a0|] eqn:Ha; [|reflexivity].
  pose proof (nth_error_lt _ _ _ Ha) as Hlt.
  cbn [w_acts set_acts].
  rewrite (nth_error_list_set_eq _ _ _ Hlt).
  cbn [a_begin a_set_data].
  destruct (a_begin a0) as [b|] eqn:Hb; [reflexivity|].
  unfold now, new_event, bind, next_id, add_hist, ret.
  cbn [w_acts set_acts set_clk set_ctr set_hist w_clk w_ctr w_hist].
  rewrite (nth_error_list_set_eq _ _ _ Hlt).
  rewrite list_set_list_set.
  reflexivity.
Qed.

Lemma warn_eq cfg r m kw w :
  warn cfg r m kw w =
  match nth_error (w_acts w) r with
  | None => (w, Raise exn_name_error)
  | Some a0 =>
    let a := kw_upd kw a0 in
    let e := mkEvent KWarn r (w_ctr w) (cf_clock cfg (w_clk w)) m None None in
    publish cfg (a_log a0) KWarn e (with_event r (a_set_warns (a_warns a0 ++ [e]) a) e (tick w))
  end.
Proof.
  unfold warn, bind, mod_act, get_act.
  destruct (nth_error (w_acts w) r) as [a0|] eqn:Ha; [|reflexivity].
  pose proof (nth_error_lt _ _ _ Ha) as Hlt.
  cbn [w_acts set_acts].
  rewrite (nth_error_list_set_eq _ _ _ Hlt).
  unfold now, new_event, bind, next_id, add_hist, ret.
  cbn [w_acts set_acts set_clk set_ctr set_hist w_clk w_ctr w_hist].
  rewrite (nth_error_list_set_eq _ _ _ Hlt).
  rewrite list_set_list_set.
  reflexivity.
Qed.

(** The part of [_end] after the end time is known. *)
Definition finish_end (cfg : config) (r : nat) (st : status) (msg : string) (x : option exn) (t : Z) : M unit :=
  fun w =>
  match nth_error (w_acts w) r with
  | None => (w, Raise exn_name_error)
  | Some a =>
    let e := mkEvent KEnd r (w_ctr w) t msg (Some st) x in
    let w1 := with_event r (a_set_end (Some e) a) e w in
    if a_defer a then (w1, Ok tt) else publish cfg (a_log a) KEnd e w1
  end.

Lemma act_upd_nth r a w : r < length (w_acts w) ->
  nth_error (w_acts (act_upd r a w)) r = Some a.
Proof. intros. unfold act_upd; simpl. apply nth_error_list_set_eq; auto. Qed.

Lemma end_eq cfg r st msg kw et x w :
  end_ cfg r st msg kw et x w =
  match nth_error (w_acts w) r with
  | None => (w, Raise exn_name_error)
  | Some a0 =>
    let w0 := act_upd r (kw_upd kw a0) w in
    if a_trans a0 then
      match et with
      | Some t0 => if Z.eqb t0 0 then finish_end cfg r st msg x (cf_clock cfg (w_clk w)) (tick w0)
                   else finish_end cfg r st msg x t0 w0
      | None => finish_end cfg r st msg x (cf_clock cfg (w_clk w)) (tick w0)
      end
    else
      match a_begin a0 with
      | Some b => finish_end cfg r st msg x (e_time b) w0
      | None =>
        match begin cfg r None [] w0 with
        | (w1, Raise e) => (w1, Raise e)
        | (w1, Ok _) =>
          match nth_error (w_acts w1) r with
          | Some a1 => match a_begin a1 with
                       | Some b => finish_end cfg r st msg x (e_time b) w1
                       | None => (w1, Raise exn_name_error)
                       end
          | None => (w1, Raise exn_name_error)
          end
        end
      end
  end.
Proof.
  unfold end_.
  assert (Hfin : forall t w1,
    (e <- new_event KEnd r t msg (Some st) x;;
     mod_act r (a_set_end (Some e));;;
     (a <- get_act r;; (if a_defer a then ret tt else on_end cfg (a_log a) e))) w1 =
    match nth_error (w_acts w1) r with
    | None => (set_hist (w_hist w1 ++ [HEvent (mkEvent KEnd r (w_ctr w1) t msg (Some st) x)]) (set_ctr (S (w_ctr w1)) w1), Raise exn_name_error)
    | Some a => finish_end cfg r st msg x t w1
    end).
  { intros t w1. unfold new_event, bind, next_id, add_hist, ret, mod_act, get_act, finish_end.
    cbn [w_acts set_acts set_clk set_ctr set_hist w_clk w_ctr w_hist].
    destruct (nth_error (w_acts w1) r) as [a|] eqn:Ha; [|reflexivity].
    pose proof (nth_error_lt _ _ _ Ha) as Hlt.
    cbn [w_acts set_acts set_clk set_ctr set_hist w_clk w_ctr w_hist].
    rewrite (nth_error_list_set_eq _ _ _ Hlt).
    cbn [a_defer a_set_end a_log]. destruct (a_defer a); reflexivity. }
  unfold bind at 1, mod_act at 1.
  destruct (nth_error (w_acts w) r) as [a0|] eqn:Ha; [|reflexivity].
  pose proof (nth_error_lt _ _ _ Ha) as Hlt.
  assert (Hn : nth_error (w_acts (act_upd r (kw_upd kw a0) w)) r = Some (kw_upd kw a0))
    by (apply act_upd_nth; auto).
  cbv zeta. fold (kw_upd kw a0).
  change (set_acts (list_set (w_acts w) r (kw_upd kw a0)) w) with (act_upd r (kw_upd kw a0) w).
  rewrite (bind_ok _ _ _ (act_upd r (kw_upd kw a0) w) (kw_upd kw a0))
    by (unfold get_act; rewrite Hn; reflexivity).
  change (a_trans (kw_upd kw a0)) with (a_trans a0).
  change (a_begin (kw_upd kw a0)) with (a_begin a0).
  destruct (a_trans a0).
  - assert (Hnow : forall w1 a1, nth_error (w_acts w1) r = Some a1 ->
        bind (now cfg) (fun t => e <- new_event KEnd r t msg (Some st) x;;
          mod_act r (a_set_end (Some e));;;
          (a <- get_act r;; (if a_defer a then ret tt else on_end cfg (a_log a) e))) w1 =
        finish_end cfg r st msg x (cf_clock cfg (w_clk w1)) (tick w1)).
    { intros w1 a1 Hw1. rewrite (bind_ok _ _ _ (tick w1) (cf_clock cfg (w_clk w1))) by reflexivity.
      rewrite Hfin. unfold tick at 1. cbn [w_acts set_clk]. rewrite Hw1. reflexivity. }
    destruct et as [t0|].
    + destruct (Z.eqb t0 0).
      * rewrite (Hnow _ _ Hn). reflexivity.
      * rewrite (bind_ok _ _ _ (act_upd r (kw_upd kw a0) w) t0) by reflexivity.
        rewrite Hfin, Hn. reflexivity.
    + rewrite (Hnow _ _ Hn). reflexivity.
  - destruct (a_begin a0) as [b|] eqn:Hb.
    + rewrite (bind_ok _ _ _ (act_upd r (kw_upd kw a0) w) (e_time b)).
      * rewrite Hfin, Hn. reflexivity.
      * unfold bind, ret, get_act. rewrite Hn.
        change (a_begin (kw_upd kw a0)) with (a_begin a0). rewrite Hb. reflexivity.
    + destruct (begin cfg r None [] (act_upd r (kw_upd kw a0) w)) as [w1 [u|e]] eqn:Hbeg.
      * destruct (nth_error (w_acts w1) r) as [a1|] eqn:Ha1.
        -- destruct (a_begin a1) as [b|] eqn:Hb1.
           ++ rewrite (bind_ok _ _ _ w1 (e_time b)).
              ** rewrite Hfin, Ha1. reflexivity.
              ** unfold bind. rewrite Hbeg. unfold get_act. rewrite Ha1, Hb1. reflexivity.
           ++ rewrite (bind_raise _ _ _ w1 exn_name_error); auto.
              unfold bind. rewrite Hbeg. unfold get_act. rewrite Ha1, Hb1. reflexivity.
        -- rewrite (bind_raise _ _ _ w1 exn_name_error); auto.
           unfold bind. rewrite Hbeg. unfold get_act. rewrite Ha1. reflexivity.
      * rewrite (bind_raise _ _ _ w1 e); auto.
        unfold bind. rewrite Hbeg. reflexivity.
Qed.
