(** Timers that call emit_queued: C94. *)

From Verif Require Import Base Core Spec Frame Fuel Demo Queue PropsQueue Qt.

(** ** Spec *)
(** Nobody passes another thread than their own. *)
Definition own {U} (e : qevent U) : Prop :=
  match e with QStart me _ _ (Some t) | QStop me (Some t) => t = me | _ => True end.
(** The last call of thread [t]: interval and type if it was a start. *)
Definition last_call {U} (t : thr) (l : list (qevent U)) : option (Z * Z) :=
  fold_left (fun a e => match e with
                        | QStart me m ty _ => if Nat.eqb me t then Some (m, ty) else a
                        | QStop me _ => if Nat.eqb me t then None else a
                        | _ => a
                        end) l None.
(** The active timers of thread [t]. *)
Definition active_timer (t : thr) (q : qtst) (i : nat) (tm : timer) : Prop :=
  nth_error (q_objs q) i = Some tm /\ tm_home tm = t /\ tm_on tm = true.
Definition qstart0 {U} (w : world U) : qworld U := Qworld w (Qtst [] []).

(** ** Proof *)
Lemma change_nth_get : forall f n l j, nth_error (change_nth f n l) j = if Nat.eqb n j then option_map f (nth_error l j) else nth_error l j.
Proof.
  intros f n l; revert n; induction l as [|x l IH]; intros n j.
  - cbn. destruct n, j; cbn; try reflexivity. now destruct (Nat.eqb n j).
  - destruct n as [|n], j as [|j]; cbn; try reflexivity. apply IH.
Qed.
Lemma timer_app : forall t d k i, timer_of t (d ++ [(k, i)]) = match timer_of t d with Some j => Some j | None => if Nat.eqb k t then Some i else None end.
Proof. intros t d k i; induction d as [|[a b] d IH]; cbn; [reflexivity|]. destruct (Nat.eqb a t); auto. Qed.
(** Each thread's timer is its own, there is one timer per thread, and it is as the last call says. *)
Definition tidy (last : thr -> option (Z * Z)) (q : qtst) : Prop :=
  (forall t i, timer_of t (q_timers q) = Some i -> exists tm, nth_error (q_objs q) i = Some tm /\ tm_home tm = t)
  /\ (forall i tm, nth_error (q_objs q) i = Some tm -> timer_of (tm_home tm) (q_timers q) = Some i
        /\ match last (tm_home tm) with Some (m, ty) => tm_on tm = true /\ tm_msec tm = m /\ tm_type tm = ty | None => tm_on tm = false end)
  /\ (forall t, timer_of t (q_timers q) = None -> last t = None).
Lemma tidy_of : forall (last : thr -> option (Z * Z)) q,
  (forall t i, timer_of t (q_timers q) = Some i -> exists tm, nth_error (q_objs q) i = Some tm /\ tm_home tm = t) ->
  (forall i tm, nth_error (q_objs q) i = Some tm -> timer_of (tm_home tm) (q_timers q) = Some i) ->
  (forall i tm, nth_error (q_objs q) i = Some tm ->
     match last (tm_home tm) with Some (m, ty) => tm_on tm = true /\ tm_msec tm = m /\ tm_type tm = ty | None => tm_on tm = false end) ->
  (forall t, timer_of t (q_timers q) = None -> last t = None) -> tidy last q.
Proof. intros last q H1 H2 H3 H4. split; [exact H1|]. split; [|exact H4]. intros i tm H. split; [now apply H2|now apply (H3 i)]. Qed.
Lemma tidy_start : forall A me m ty th last q, (th = None \/ th = Some me) -> tidy last q ->
  tidy (fun t => if Nat.eqb me t then Some (m, ty) else last t) (start_emitting A me m ty th q).
Proof.
  intros A me m ty th last q Hth (T1 & T2 & T3).
  replace (start_emitting A me m ty th q) with (start_emitting A me m ty None q) by (destruct Hth as [->| ->]; reflexivity). unfold start_emitting.
  destruct (timer_of me (q_timers q)) as [i|] eqn:Em; cbn [q_timers q_objs].
  - destruct (T1 _ _ Em) as (tm & Hi & Hh). apply tidy_of; cbn [q_timers q_objs].
    + intros t j Hj. rewrite change_nth_get. destruct (T1 _ _ Hj) as (tm' & Hj' & Hh'). rewrite Hj'. destruct (Nat.eqb i j); cbn; eauto.
      eexists. split; [reflexivity|]. unfold use_timer. cbn. destruct (Nat.eqb me (tm_home tm')), (tm_on tm'); exact Hh'.
    + intros i0 tm0 H. rewrite change_nth_get in H. destruct (Nat.eqb i i0) eqn:Ei.
      * apply Nat.eqb_eq in Ei as ->. rewrite Hi in H. cbn in H. injection H as <-. unfold use_timer. cbn. rewrite Hh, Nat.eqb_refl. destruct (tm_on tm); cbn; exact Em.
      * apply (T2 _ _ H).
    + intros i0 tm0 H. rewrite change_nth_get in H. destruct (Nat.eqb i i0) eqn:Ei.
      * apply Nat.eqb_eq in Ei as ->. rewrite Hi in H. cbn in H. injection H as <-. unfold use_timer. cbn. rewrite Hh, Nat.eqb_refl.
        destruct (tm_on tm) eqn:Eo; cbn; rewrite Nat.eqb_refl; auto.
      * destruct (T2 _ _ H) as [H1 H2]. destruct (Nat.eqb me (tm_home tm0)) eqn:Eh; [|exact H2].
        apply Nat.eqb_eq in Eh. rewrite <- Eh, Em in H1. injection H1 as ->. now rewrite Nat.eqb_refl in Ei.
    + intros t Hn. destruct (Nat.eqb me t) eqn:Et; [|now apply T3]. apply Nat.eqb_eq in Et as ->. congruence.
  - set (n := List.length (q_objs q)).
    assert (Hnew : nth_error (q_objs q ++ [Timer me false 0 0]) n = Some (Timer me false 0 0)) by (unfold n; rewrite nth_error_app2, Nat.sub_diag; [reflexivity|lia]).
    assert (Hold : forall j tm, nth_error (q_objs q) j = Some tm -> nth_error (q_objs q ++ [Timer me false 0 0]) j = Some tm /\ Nat.eqb n j = false).
    { intros j tm Hj. assert (j < n) by (apply nth_error_Some; congruence). rewrite nth_error_app1 by exact H. split; [exact Hj|]. apply Nat.eqb_neq. lia. }
    assert (Hinv : forall j tm, nth_error (q_objs q ++ [Timer me false 0 0]) j = Some tm -> n <> j -> nth_error (q_objs q) j = Some tm).
    { intros j tm Hj Hne. assert (j < List.length (q_objs q ++ [Timer me false 0 0])) by (apply nth_error_Some; congruence).
      rewrite app_length in H. cbn in H. rewrite nth_error_app1 in Hj by (unfold n in Hne; lia). exact Hj. }
    apply tidy_of; cbn [q_timers q_objs].
    + intros t j Hj. rewrite change_nth_get. rewrite timer_app in Hj. destruct (timer_of t (q_timers q)) as [k|] eqn:Ek.
      * injection Hj as <-. destruct (T1 _ _ Ek) as (tm' & Hj' & Hh'). destruct (Hold _ _ Hj') as [Ho ->]. eauto.
      * destruct (Nat.eqb me t) eqn:Et; [|discriminate]. injection Hj as <-. rewrite Nat.eqb_refl, Hnew. cbn.
        eexists. split; [reflexivity|]. unfold use_timer. cbn. rewrite Nat.eqb_refl. cbn. now apply Nat.eqb_eq.
    + intros i tm H. rewrite change_nth_get in H. destruct (Nat.eqb n i) eqn:Ei.
      * apply Nat.eqb_eq in Ei as <-. rewrite Hnew in H. cbn in H. injection H as <-. unfold use_timer. cbn. rewrite Nat.eqb_refl. cbn.
        rewrite timer_app, Em, Nat.eqb_refl. reflexivity.
      * apply Nat.eqb_neq in Ei. rewrite timer_app. now rewrite (proj1 (T2 _ _ (Hinv _ _ H Ei))).
    + intros i tm H. rewrite change_nth_get in H. destruct (Nat.eqb n i) eqn:Ei.
      * apply Nat.eqb_eq in Ei as <-. rewrite Hnew in H. cbn in H. injection H as <-. unfold use_timer. cbn. rewrite Nat.eqb_refl. cbn. rewrite Nat.eqb_refl. auto.
      * apply Nat.eqb_neq in Ei. destruct (T2 _ _ (Hinv _ _ H Ei)) as [H1 H2]. destruct (Nat.eqb me (tm_home tm)) eqn:Eh; [|exact H2].
        apply Nat.eqb_eq in Eh. rewrite <- Eh in H1. congruence.
    + intros t Hn. rewrite timer_app in Hn. destruct (timer_of t (q_timers q)) eqn:Ek; [discriminate|]. destruct (Nat.eqb me t); [discriminate|]. now apply T3.
Qed.
Lemma tidy_stop : forall A me th last q, (th = None \/ th = Some me) -> tidy last q ->
  tidy (fun t => if Nat.eqb me t then None else last t) (stop_emitting A me th q).
Proof.
  intros A me th last q Hth (T1 & T2 & T3).
  replace (stop_emitting A me th q) with (stop_emitting A me None q) by (destruct Hth as [->| ->]; reflexivity). unfold stop_emitting.
  destruct (timer_of me (q_timers q)) as [i|] eqn:Em; cbn [q_timers q_objs].
  - destruct (T1 _ _ Em) as (tm & Hi & Hh). apply tidy_of; cbn [q_timers q_objs].
    + intros t j Hj. rewrite change_nth_get. destruct (T1 _ _ Hj) as (tm' & Hj' & Hh'). rewrite Hj'. destruct (Nat.eqb i j); cbn; eauto.
      eexists. split; [reflexivity|]. unfold use_timer. destruct (Nat.eqb me (tm_home tm')); exact Hh'.
    + intros i0 tm0 H. rewrite change_nth_get in H. destruct (Nat.eqb i i0) eqn:Ei.
      * apply Nat.eqb_eq in Ei as ->. rewrite Hi in H. cbn in H. injection H as <-. unfold use_timer. rewrite Hh, Nat.eqb_refl. exact Em.
      * apply (T2 _ _ H).
    + intros i0 tm0 H. rewrite change_nth_get in H. destruct (Nat.eqb i i0) eqn:Ei.
      * apply Nat.eqb_eq in Ei as ->. rewrite Hi in H. cbn in H. injection H as <-. unfold use_timer. rewrite Hh, Nat.eqb_refl. cbn. rewrite Nat.eqb_refl. reflexivity.
      * destruct (T2 _ _ H) as [H1 H2]. destruct (Nat.eqb me (tm_home tm0)) eqn:Eh; [|exact H2].
        apply Nat.eqb_eq in Eh. rewrite <- Eh, Em in H1. injection H1 as ->. now rewrite Nat.eqb_refl in Ei.
    + intros t Hn. destruct (Nat.eqb me t); [reflexivity|now apply T3].
  - apply tidy_of.
    + exact T1.
    + intros i tm H. apply (T2 _ _ H).
    + intros i tm H. destruct (T2 _ _ H) as [H1 H2]. destruct (Nat.eqb me (tm_home tm)) eqn:Eh; [|exact H2]. apply Nat.eqb_eq in Eh. rewrite <- Eh in H1. congruence.
    + intros t Hn. destruct (Nat.eqb me t); [reflexivity|now apply T3].
Qed.
Lemma tidy_ext : forall f g q, (forall t, f t = g t) -> tidy f q -> tidy g q.
Proof.
  intros f g q Hfg (T1 & T2 & T3). split; [exact T1|]. split.
  - intros i tm Hi. rewrite <- Hfg. now apply T2.
  - intros t Ht. rewrite <- Hfg. now apply T3.
Qed.
Lemma last_snoc : forall {U} t (l : list (qevent U)) e, last_call t (l ++ [e]) =
  match e with
  | QStart me m ty _ => if Nat.eqb me t then Some (m, ty) else last_call t l
  | QStop me _ => if Nat.eqb me t then None else last_call t l
  | _ => last_call t l
  end.
Proof. intros U t l e. unfold last_call. rewrite fold_left_app. reflexivity. Qed.
Lemma past_tidy : forall {U} A (E : env U) w0 l w, qpast A E (qstart0 w0) l w -> Forall own l -> tidy (fun t => last_call t l) (qq w).
Proof.
  intros U A E w0 l w HP. remember (qstart0 w0) as s eqn:Es. induction HP as [w|w l w1 e w2 HP IH HS]; intros Ho; subst.
  - apply tidy_of; cbn; try discriminate; try reflexivity; intros i tm H; destruct i; discriminate.
  - apply Forall_app in Ho as [Ho He]. inversion He as [|? ? He1 _ Hx]; subst. specialize (IH eq_refl Ho).
    destruct HS as [me msec ty t w q|me t w q|i tm w q w' r Hi Hon HS Hr|me p w q w' r HR Hr]; cbn [qq] in *.
    + eapply tidy_ext; [|apply (tidy_start A me msec ty t (fun t => last_call t l) q); [|exact IH]].
      * intros x. cbn beta. rewrite last_snoc. reflexivity.
      * destruct t as [t|]; [right; cbn [own] in He1; subst; reflexivity|now left].
    + eapply tidy_ext; [|apply (tidy_stop A me t (fun t => last_call t l) q); [|exact IH]].
      * intros x. cbn beta. rewrite last_snoc. reflexivity.
      * destruct t as [t|]; [right; cbn [own] in He1; subst; reflexivity|now left].
    + eapply tidy_ext; [|exact IH]. intros x. cbn beta. now rewrite last_snoc.
    + eapply tidy_ext; [|exact IH]. intros x. cbn beta. now rewrite last_snoc.
Qed.
(** If nobody passes another thread: a thread whose last call was start_emitting_from_queue(msec, type) has exactly one active
    timer, with this interval and type, all others have none.  (Any number of calls, ticks and other code, in any threads.) *)
Theorem C94_timers_partial : forall U A (E : env U) w0 l w t, qpast A E (qstart0 w0) l w -> Forall own l ->
  match last_call t l with
  | Some (m, ty) => exists i tm, active_timer t (qq w) i tm /\ tm_msec tm = m /\ tm_type tm = ty
                    /\ forall j tm', active_timer t (qq w) j tm' -> j = i
  | None => forall i tm, ~ active_timer t (qq w) i tm
  end.
Proof.
  intros U A E w0 l w t HP Ho. destruct (past_tidy A E w0 l w HP Ho) as (T1 & T2 & T3).
  destruct (last_call t l) as [[m ty]|] eqn:El.
  - destruct (timer_of t (q_timers (qq w))) as [i|] eqn:Ei; [|now rewrite (T3 _ Ei) in El].
    destruct (T1 _ _ Ei) as (tm & Hi & Hh). exists i, tm. destruct (T2 _ _ Hi) as [_ H2]. rewrite Hh, El in H2. destruct H2 as (H3 & H4 & H5).
    split; [now repeat split|]. split; [exact H4|]. split; [exact H5|]. intros j tm' (Hj & Hh' & _). destruct (T2 _ _ Hj) as [H6 _]. rewrite Hh', Ei in H6. congruence.
  - intros i tm (Hi & Hh & Hon). destruct (T2 _ _ Hi) as [_ H2]. rewrite Hh, El in H2. congruence.
Qed.

(** All states are reachable by one program. *)
Lemma past_reaches : forall {U} A (E : env U) w0 l w, qpast A E (qstart0 w0) l w -> exists p r, runs E p w0 (qw w) r /\ done r.
Proof.
  intros U A E w0 l w HP. remember (qstart0 w0) as s eqn:Es. induction HP as [w|w l w1 e w2 HP IH HS]; subst.
  - exists (Ret VNone), (Ok VNone). split; [now apply runs_ret|discriminate].
  - destruct (IH eq_refl) as (p & r & HR & Hr).
    assert (HC : forall q w' r', runs E q (qw w1) w' r' -> done r' -> exists p r, runs E p w0 w' r /\ done r).
    { intros q w' r' Hq Hd. exists (catch p (fun _ => q)), r'. split; [|exact Hd]. apply runs_catch. exists (qw w1), r. split; [exact HR|].
      destruct r; [exact Hq|exact Hq|now destruct Hr]. }
    assert (HT : forall me q w' r', runs E q (set_me me (qw w1)) w' r' -> done r' -> exists p r, runs E p w0 w' r /\ done r).
    { intros me q w' r' Hq Hd. apply (HC (Do (OThread me) (fun _ => q)) w' r'); [|exact Hd]. apply runs_do. exists (set_me me (qw w1)), (Ok VNone).
      split; [exists 1%nat; reflexivity|exact Hq]. }
    destruct HS as [me msec ty t w q|me t w q|i tm w q w' r' Hi Hon HS Hr'|me p' w q w' r' HR' Hr']; cbn [qw] in *; eauto.
    apply (HT (tm_home tm) (call (OEmitQueued None)) w' r'); [now apply runs_call|exact Hr'].
Qed.
(** When a timer fires, its thread [t] has asked for it and not stopped it since; all calls waiting for [t] are made in order, until one
    raises, and nothing else is taken out of the queues but by what these callbacks do. *)
Theorem C94_tick_partial : forall U A (E : env U) cfg u l w i r w',
  (forall s, fresh_sig (cfg s)) -> flat (init_world cfg u) ->
  qpast A E (qstart0 (init_world cfg u)) l w -> Forall own l ->
  qstep A E (QTick i r) w w' ->
  exists t m ty, last_call t l = Some (m, ty) /\ exists h x, w_tr (qw w') = w_tr (qw w) ++ h /\ drains t h x
  /\ (x = None -> r = Ok VNone /\ waiting t (qw w') = [])
  /\ (forall e, x = Some e -> exists e', r = Err e')
  /\ waiting t (qw w) ++ deferred t h = popped t h ++ waiting t (qw w').
Proof.
  intros U A E cfg u l w i r w' Hc Hf HP Ho HS.
  destruct (past_reaches A E _ l w HP) as (p & r0 & HR & Hr0).
  inversion HS as [| |i' tm w1 q w1' r1 Hi Hon HT Hr| ]; subst. cbn [qw qq] in *.
  exists (tm_home tm). pose proof (C94_timers_partial U A E _ l _ (tm_home tm) HP Ho) as HL. cbn [qq] in HL.
  destruct (last_call (tm_home tm) l) as [[m ty]|]; [|now destruct (HL i tm)].
  exists m, ty. split; [reflexivity|].
  assert (HRR : reachable E (set_me (tm_home tm) w1)).
  { exists cfg, u, (catch p (fun _ => call (OThread (tm_home tm)))), (Ok VNone). split; [exact Hc|]. split; [exact Hf|].
    apply runs_catch. exists w1, r0. split; [exact HR|]. assert (HO : steps E (OThread (tm_home tm)) w1 (set_me (tm_home tm) w1) (Ok VNone)) by (exists 1%nat; reflexivity).
    destruct r0; [now apply runs_call|now apply runs_call|now destruct Hr0]. }
  destruct (C29_drain U E E _ _ _ _ HRR HT Hr) as (h & x & H1 & H2 & H3 & H4). exists h, x. cbn [w_me set_me w_tr] in *.
  split; [exact H1|]. split; [exact H2|]. split; [intros ->; exact H3|]. split; [|exact H4].
  intros e ->. destruct e; eauto.
Qed.

(** ** Cases *)
(** Qt refuses to start, change or stop a timer from another thread: it stays as it is. *)
Definition refuses : abroad := Abroad (fun _ tm => tm_on tm) (fun _ tm => tm_msec tm).
(** Calls for threads 1 and 0 are waiting; both threads start timers, 0 stops its own again, thread 1's fires. *)
Definition C94_cfg := all_plain Immediate 1.
Definition C94_setup : prog unit := calls
  [OConnect 0 (fn 1) (Copts (Some (ThIs 1)) None None UFalse None RefWarn 0);
   OConnect 0 (fn 2) (Copts (Some (ThIs 0)) None None UFalse None RefWarn 0);
   OThread 2; emit 0 [VInt 2]; emit 0 [VInt 3]].
Definition C94_w0 := init_world C94_cfg tt.
Definition C94_w1 := after C29_env 50 C94_setup (set_me 0 C94_w0).
Definition C94_events : list (qevent unit) :=
  [QRun 0 C94_setup; QStart 1 100 1 None; QStart 0 5 0 (Some 0%nat); QStart 1 50 0 None; QStop 0 None].
Definition C94_q := Qtst [(1%nat, 0%nat); (0%nat, 1%nat)] [Timer 1 true 50 0; Timer 0 false 5 0].
Definition C94_w2 := after1 C29_env 20 (OEmitQueued None) (set_me 1 C94_w1).
Lemma C94_setup_runs : runs C29_env C94_setup (set_me 0 C94_w0) C94_w1 (Ok VNone).
Proof. apply after_runs. vm_compute. reflexivity. Qed.
Example C94_case :
  (forall s, fresh_sig (C94_cfg s)) /\ flat (init_world C94_cfg tt)
  /\ qpast refuses C29_env (qstart0 C94_w0) C94_events (Qworld C94_w1 C94_q) /\ Forall own C94_events
  /\ last_call 1 C94_events = Some (50, 0)%Z /\ last_call 0 C94_events = None
  /\ List.length (waiting 1 C94_w1) = 2%nat /\ List.length (waiting 0 C94_w1) = 2%nat
  /\ qstep refuses C29_env (QTick 0 (Ok VNone)) (Qworld C94_w1 C94_q) (Qworld C94_w2 C94_q)
  /\ waiting 1 C94_w2 = [] /\ List.length (waiting 0 C94_w2) = 2%nat.
Proof.
  split; [apply all_plain_fresh|]. split; [apply all_plain_flat|]. split; [|split; [repeat constructor|]].
  - unfold C94_events. change C94_q with (stop_emitting refuses 0 None (start_emitting refuses 1 50 0 None
      (start_emitting refuses 0 5 0 (Some 0%nat) (start_emitting refuses 1 100 1 None (Qtst [] []))))).
    eapply (qp_step _ _ _ [_; _; _; _]); [|constructor]. eapply (qp_step _ _ _ [_; _; _]); [|constructor].
    eapply (qp_step _ _ _ [_; _]); [|constructor]. eapply (qp_step _ _ _ [_]); [|constructor].
    eapply (qp_step _ _ _ []); [constructor|]. econstructor; [exact C94_setup_runs|discriminate].
  - split; [reflexivity|]. split; [reflexivity|]. split; [vm_compute; reflexivity|]. split; [vm_compute; reflexivity|].
    split; [|split; vm_compute; reflexivity].
    econstructor; [reflexivity|reflexivity| |discriminate]. cbn [tm_home]. unfold C94_w2. apply after1_steps. vm_compute. reflexivity.
Qed.

(** Timers and the two functions only. *)
Definition timer_event {U} (e : qevent U) : Prop := match e with QRun _ _ => False | _ => own e end.
(** Thread 0 starts a timer "in" thread 1, thread 1 then starts one as well.  The timer belongs to thread 0, and thread 1 does not get
    one: whatever is called and whichever timers fire from then on, the calls waiting for thread 1 are never made. *)
Definition taken_place (q : qtst) : Prop :=
  (exists i, timer_of 1 (q_timers q) = Some i) /\ forall i tm, nth_error (q_objs q) i = Some tm -> tm_home tm <> 1%nat.
Lemma use_home : forall A me x tm, tm_home (use_timer A me x tm) = tm_home tm.
Proof. intros A me x tm. unfold use_timer. destruct (Nat.eqb _ _), x; reflexivity. Qed.
Lemma taken_change : forall f i d l, (forall tm, tm_home (f tm) = tm_home tm) -> taken_place (Qtst d l) -> taken_place (Qtst d (change_nth f i l)).
Proof.
  intros f i d l Hf [H1 H2]. split; [exact H1|]. cbn [q_objs] in *. intros j tm Hj. rewrite change_nth_get in Hj.
  destruct (Nat.eqb i j); [|now apply (H2 j)]. destruct (nth_error l j) as [tm'|] eqn:Ej; [|discriminate]. injection Hj as <-. rewrite Hf. now apply (H2 j).
Qed.
Lemma taken_start : forall A me m ty th q, (th = None \/ th = Some me) -> taken_place q -> taken_place (start_emitting A me m ty th q).
Proof.
  intros A me m ty th q Hth HT.
  replace (start_emitting A me m ty th q) with (start_emitting A me m ty None q) by (destruct Hth as [->| ->]; reflexivity). unfold start_emitting.
  destruct (timer_of me (q_timers q)) as [i|] eqn:Em.
  - apply taken_change; [|destruct q; exact HT]. intros tm. cbv zeta. now rewrite use_home.
  - apply taken_change; [intros tm; cbv zeta; now rewrite use_home|]. cbn [q_timers q_objs]. destruct HT as [[i Hi] H2]. split.
    + exists i. cbn [q_timers]. now rewrite timer_app, Hi.
    + cbn [q_objs]. intros j tm Hj. apply nth_error_In, in_app_or in Hj as [Hj|[<-|[]]].
      * apply In_nth_error in Hj as [k Hk]. now apply (H2 k).
      * cbn. intros ->. congruence.
Qed.
Lemma taken_stop : forall A me th q, taken_place q -> taken_place (stop_emitting A me th q).
Proof.
  intros A me th q HT. unfold stop_emitting. destruct (timer_of _ _); [|exact HT]. apply taken_change; [apply use_home|destruct q; exact HT].
Qed.
Definition only_one {U} (w : world U) : Prop := forall t, t <> 1%nat -> w_tq w t = [].
Lemma past_taken : forall {U} A (E : env U) w1 l w2, qpast A E w1 l w2 -> Forall timer_event l -> taken_place (qq w1) -> only_one (qw w1) ->
  taken_place (qq w2) /\ only_one (qw w2) /\ w_tq (qw w2) 1 = w_tq (qw w1) 1.
Proof.
  intros U A E w1 l w2 HP. induction HP as [w|w l w1 e w2 HP IH HS]; intros Ho HT H1; [auto|].
  apply Forall_app in Ho as [Ho He]. inversion He as [|? ? He1 _ Hx]; subst. destruct (IH Ho HT H1) as (IT & I1 & IW). clear IH.
  destruct HS as [me msec ty t w3 q|me t w3 q|i tm w3 q w' r Hi Hon HS Hr|me p w3 q w' r HR Hr]; cbn [qq qw] in *.
  - split; [|auto]. apply taken_start; [|exact IT]. destruct t as [t|]; [right; cbn [timer_event own] in He1; subst; reflexivity|now left].
  - split; [now apply taken_stop|auto].
  - split; [exact IT|]. destruct HS as [n HS]. cbn [step] in HS. destruct n as [|n]; [discriminate|]. cbn [drain] in HS.
    change (w_tq (set_me (tm_home tm) w3) (w_me (set_me (tm_home tm) w3))) with (w_tq w3 (tm_home tm)) in HS.
    rewrite I1 in HS by (apply (proj2 IT i); exact Hi). injection HS as <- _. auto.
  - destruct He1.
Qed.
Definition C94_one : prog unit := calls
  [OConnect 0 (fn 2) (Copts (Some (ThIs 1)) None None UFalse None RefWarn 0); emit 0 [VInt 2]].
Definition C94_w5 := after C29_env 50 C94_one (set_me 0 C94_w0).
Lemma C94_one_runs : runs C29_env C94_one (set_me 0 C94_w0) C94_w5 (Ok VNone).
Proof. apply after_runs. vm_compute. reflexivity. Qed.
Theorem C94_foreign_refuted : exists (E : env unit) cfg p,
  (forall s, fresh_sig (cfg s)) /\ flat (init_world cfg tt)
  /\ forall A, exists w1, qpast A E (qstart0 (init_world cfg tt)) [QRun 0 p; QStart 0 10 0 (Some 1%nat); QStart 1 10 0 None] w1
     /\ waiting 1 (qw w1) <> []
     /\ forall l w2, qpast A E w1 l w2 -> Forall timer_event l -> waiting 1 (qw w2) = waiting 1 (qw w1).
Proof.
  exists C29_env, C94_cfg, C94_one. split; [apply all_plain_fresh|]. split; [apply all_plain_flat|]. intros A.
  set (q1 := start_emitting A 0 10 0 (Some 1%nat) (Qtst [] [])). set (q2 := start_emitting A 1 10 0 None q1).
  exists (Qworld C94_w5 q2). split; [|split; [intros HX; apply (f_equal (@length _)) in HX; vm_compute in HX; discriminate HX|]].
  - eapply (qp_step _ _ _ [_; _]); [|constructor]. eapply (qp_step _ _ _ [_]); [|constructor]. eapply (qp_step _ _ _ []); [constructor|].
    refine (qs_run A C29_env 0%nat C94_one _ _ C94_w5 (Ok VNone) _ _); [apply C94_one_runs|discriminate].
  - intros l w2 HP Ho. destruct (past_taken A C29_env _ l w2 HP Ho) as (_ & _ & HW).
    + apply taken_start; [now left|]. split; [exists 0%nat; reflexivity|]. intros i tm Hi. destruct i as [|i]; [injection Hi as <-; discriminate|destruct i; discriminate].
    + intros t Ht. cbn [qw]. destruct t as [|[|t]]; [vm_compute; reflexivity|contradiction|vm_compute; reflexivity].
    + unfold waiting. now rewrite HW.
Qed.
Print Assumptions C94_timers_partial.
Print Assumptions C94_tick_partial.
Print Assumptions C94_foreign_refuted.
