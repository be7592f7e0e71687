(** C60: an emission ends. *)

From Verif Require Import Base Core Spec Frame Fuel Conn Keep Trace Quiet Shrink Demo Ends Emission.

(** Every program whose calls and whose callbacks' calls are [tame] (Ends.v) ends: the
    signals it emits are all in [S], nothing is connected to them meanwhile, and group
    relays among their callbacks lead into [S].  They call emit_queued(), nested or not, only for
    their own thread and do not change it ([home]), or do not call it. *)
Theorem C60_partial : forall U (E : env U) (S : list sid) (home : bool) p w,
  env_all (tame (members_of w) S home) E -> prog_all (tame (members_of w) S home) p ->
  w_hook w = None ->
  (forall s c r, In s S -> In c (s_slots (w_sg w s)) -> w_target c = TRelay r -> In r S) ->
  (home = true -> forall e s c a r, In (e, s, c, a) (w_tq w (w_me w)) -> w_target c = TRelay r -> In r S) ->
  exists w' r, runs E p w w' r.
Proof.
  intros U E S home p w HE Hp Hh HC HQ.
  destruct (ends E (members_of w) S home HE (room S home w) p w Hp) as (n & [w' r] & Hn).
  - split; [intros x; reflexivity|]. repeat split; assumption.
  - apply Nat.le_refl.
  - exists w', r, n. exact Hn.
Qed.
Print Assumptions C60_partial.

(** A group of two queued signals; the callbacks emit each other's signals without end,
    disconnect, pause, resume with a reducer and connect to another signal. *)
Definition C60_env : env unit := demo (fun f _ =>
  match f with
  | 1 => calls [emit 2 []; OPause 2; emit 2 []; OResume 2 (ROne (fun _ => inl [])); conn 7 9 0]
  | 2 => calls [emit 1 []; ODisconnect 1 None true; OEmitFast 0 []]
  | 3 => Do (emit 1 []) (fun _ => Ret VNone)
  | _ => Ret VNone
  end).
Definition C60_world := world_of C60_env (group_of_two Queued 0) tt 50 [conn 1 1 0; conn 2 2 0; conn 0 3 0].
Example C60_case :
  reachable C60_env C60_world
  /\ env_all (tame (members_of C60_world) [0; 1; 2] false) C60_env
  /\ prog_all (tame (members_of C60_world) [0; 1; 2] false) (calls (U := unit) [emit 1 []])
  /\ w_hook C60_world = None
  /\ (forall s c r, In s [0; 1; 2] -> In c (s_slots (w_sg C60_world s)) ->
        w_target c = TRelay r -> In r [0; 1; 2])
  /\ map (fun s => List.length (s_slots (w_sg C60_world s))) [0; 1; 2] = [1; 2; 2].
Proof.
  split; [reach|]. split.
  { assert (HM : members_of C60_world 7 = []) by (vm_compute; reflexivity).
    generalize dependent (members_of C60_world). intros M HM.
    assert (H7 : forall s, In s [0; 1; 2] -> 7 <> s /\ ~ In s (M 7)).
    { intros s Hs. rewrite HM. cbn in Hs. split; [lia|intros []]. }
    apply demo_all. intros f a. destruct f as [|[|[|[|f]]]]; try exact I; cbn [bind finish calls call];
      repeat (split; [first [exact H7 | split; [cbn; tauto|discriminate] | cbn; tauto | exact I]
                     |intros [?|?]; try exact I; cbn [bind finish calls call]]). }
  split; [split; [now right; left|intros [x|x]; exact I]|].
  split; [vm_compute; reflexivity|]. split; [|vm_compute; reflexivity].
  intros s c r Hs Hc Ht. assert (HW : forall s, In s [0; 1; 2] ->
    forallb (fun c => match w_target c with TRelay r => Nat.leb r 2 | _ => true end)
      (s_slots (w_sg C60_world s)) = true).
  { intros x [<-|[<-|[<-|[]]]]; vm_compute; reflexivity. }
  specialize (HW s Hs). rewrite forallb_forall in HW. specialize (HW c Hc). rewrite Ht in HW.
  apply Nat.leb_le in HW. cbn. lia.
Qed.

(** Calls queued for thread 0; one of them emits the signal and calls emit_queued(). *)
Definition C60_home_env : env unit := demo (fun f _ =>
  match f with 1 => calls [emit 0 []; OEmitQueued None] | _ => Ret VNone end).
Definition C60_home_world := world_of C60_home_env (all_plain Immediate 0) tt 50
  [OConnect 0 (fn 1) (Copts (Some (ThIs 0)) None None UFalse None RefWarn 0);
   OThread 1; emit 0 []; emit 0 []; OThread 0].
Example C60_home_case :
  reachable C60_home_env C60_home_world
  /\ env_all (tame (members_of C60_home_world) [0] true) C60_home_env
  /\ prog_all (tame (members_of C60_home_world) [0] true) (calls (U := unit) [OEmitQueued None])
  /\ w_hook C60_home_world = None
  /\ (forall s c r, In s [0] -> In c (s_slots (w_sg C60_home_world s)) -> w_target c = TRelay r -> In r [0])
  /\ (forall e s c a r, In (e, s, c, a) (w_tq C60_home_world (w_me C60_home_world)) -> w_target c = TRelay r -> In r [0])
  /\ w_me C60_home_world = 0 /\ List.length (w_tq C60_home_world 0) = 2.
Proof.
  split; [reach|]. split.
  { generalize (members_of C60_home_world). intros M. apply demo_all.
    intros f a. destruct f as [|[|f]]; try exact I. cbn [bind finish calls call].
    split; [now left|]. intros [v|e]; [|exact I]. cbn [bind finish calls call].
    split; [now split|]. intros [v1|e]; exact I. }
  split; [split; [now split|intros [x|x]; exact I]|]. split; [vm_compute; reflexivity|].
  split; [|split; [|split; vm_compute; reflexivity]].
  - intros s c r [<-|[]] Hc Ht.
    assert (HS : s_slots (w_sg C60_home_world 0) = [Wcb 0 (KFunc 1) (TFun 1 [] []) None 0 None (Some 0)])
      by (vm_compute; reflexivity). rewrite HS in Hc. destruct Hc as [<-|[]]. discriminate.
  - intros e s c a r Hin Ht.
    assert (HS : forallb (fun x => match w_target (snd (fst x)) with TRelay _ => false | _ => true end)
      (w_tq C60_home_world (w_me C60_home_world)) = true) by (vm_compute; reflexivity).
    rewrite forallb_forall in HS. specialize (HS _ Hin). cbn [fst snd] in HS. rewrite Ht in HS. discriminate.
Qed.

(** ** Programs that do not end *)

(** [p] started in [w] runs for ever. *)
Definition diverges {U} (E : env U) (p : prog U) (w : world U) : Prop := forall n, exec E n p w = None.

Lemma diverges_not_runs : forall {U} (E : env U) p w, diverges E p w -> forall w' r, ~ runs E p w w' r.
Proof. intros U E p w H w' r [n Hn]. rewrite H in Hn. discriminate. Qed.

(** Function 1 connects itself to the signal again. *)
Definition C60_more_env : env unit := demo (fun f _ =>
  match f with 1 => calls [conn 0 1 0] | _ => Ret VNone end).
Definition C60_more_world := world_of C60_more_env (all_plain Immediate 0) tt 50 [conn 0 1 0].

Definition itself (c : wcb) : Prop := exists u m, c = Wcb u (KFunc 1) (TFun 1 [] []) m 0 None None.
Definition growing (st : sigst) (i : nat) (w : world unit) : Prop :=
  exists l, w_sg w 0 = set_slots l st /\ Forall itself l /\ i < List.length l.

Lemma more_body : forall n st i w w' r, s_prio st = false -> s_members st = None ->
  s_params st = [] -> s_chkn st = true -> s_chkt st = false ->
  growing st i w -> exec C60_more_env n (calls [conn 0 1 0]) w = Some (w', r) ->
  r = Ok VNone /\ growing st (S i) w'.
Proof.
  intros n st i w w' r Hp Hm Hps Hn Ht (l & HS & HF & HL) H.
  destruct n as [|n]; [discriminate|]. cbn [calls call bind finish exec step conn lift] in H.
  unfold lift, connect in H. cbn [callable_dead callable_base fn prio c_check_nargs c_check_types c_unique c_max c_onref c_prio c_thread] in H.
  rewrite HS in H. cbn [s_chkn s_chkt s_params set_slots] in H. rewrite Hn, Ht, Hps in H.
  cbn in H. unfold add_wcb, append_slot in H. cbn [w_ref set_thread] in H.
  rewrite !upd_same in H. cbn [w_sg set_nxt] in H. rewrite HS in H.
  rewrite append_members in H. cbn [s_members set_slots] in H. rewrite Hm in H.
  destruct n as [|n]; [discriminate|]. cbn [exec] in H. injection H as <- <-. split; [reflexivity|].
  eexists. rewrite upd_same. cbn [w_sg set_nxt]. rewrite HS. unfold append_slot_base.
  cbn [s_prio set_slots]. rewrite Hp. cbn [negb w_prio Z.eqb s_slots]. split; [reflexivity|]. cbn [s_slots set_slots].
  split; [|rewrite app_length; cbn [List.length]; lia].
  apply Forall_app. split; [exact HF|]. repeat constructor. eexists _, _; reflexivity.
Qed.

Lemma more_loop : forall st, s_prio st = false -> s_members st = None ->
  s_params st = [] -> s_chkn st = true -> s_chkt st = false ->
  forall f m eid i args w, growing st i w ->
    loop_slots (exec C60_more_env m) C60_more_env f eid 0 i args w = None.
Proof.
  intros st Hp Hm Hps Hn Ht. induction f as [|f IH]; intros m eid i args w HG; [reflexivity|].
  cbn [loop_slots]. pose proof HG as (l & HS & HF & HL). rewrite HS. cbn [s_slots set_slots].
  destruct (nth_error l i) as [c|] eqn:HN; [|apply nth_error_None in HN; lia].
  apply nth_error_In in HN. rewrite Forall_forall in HF. destruct (HF c HN) as (u & mx & ->).
  unfold call_slot, invoke. cbn [w_thread w_ref w_uid w_target w_maxargs].
  set (w1 := log _ w). assert (HG1 : growing st i w1) by exact HG.
  change (body_of C60_more_env (TFun 1 [] []) (cb_args (Wcb u (KFunc 1) (TFun 1 [] []) mx 0 None None) args) w1)
    with (calls (U := unit) [conn 0 1 0]).
  destruct (exec C60_more_env m (calls [conn 0 1 0]) w1) as [[w2 r2]|] eqn:HX; [|reflexivity].
  destruct (more_body m st i w1 w2 r2 Hp Hm Hps Hn Ht HG1 HX) as [-> HG2].
  apply IH. exact HG2.
Qed.

(** The first emission of a signal whose callback connects itself never ends, although
    the callback by itself does. *)
Theorem C60_refuted : exists (E : env unit) s w,
  reachable E w /\ goes_through E s [] true false w /\ w_hook w = None
  /\ (forall s', in_progress s' (w_tr w) = 0%Z)
  /\ (forall t a w1 w2, exists w3 r, runs E (e_body E t a w1) w2 w3 r)
  /\ diverges E (call (OEmit s [] true false)) w.
Proof.
  exists C60_more_env, 0, C60_more_world. split; [reach|].
  split; [vm_compute; repeat split; auto; discriminate|]. split; [vm_compute; reflexivity|]. split; [vm_compute; reflexivity|]. split.
  { intros t a w1 w2. destruct (C60_partial unit C60_more_env [] false (e_body C60_more_env t a w1)
      (set_hook None w2)) as (w3 & r & HR).
    - apply demo_all. intros f b. destruct f as [|[|f]]; try exact I.
      split; [intros s []|intros [v|e]; exact I].
    - apply (demo_all (tame (members_of (set_hook None w2)) [] false)). intros f b. destruct f as [|[|f]]; try exact I.
      split; [intros s []|intros [v|e]; exact I].
    - reflexivity.
    - intros s c r [].
    - discriminate.
    - clear HR w3 r.
      assert (HB : e_body C60_more_env t a w1 = Ret VNone \/ e_body C60_more_env t a w1 = calls [conn 0 1 0]).
      { destruct t as [f pre kw|f pre kw|o f pre kw| | | |]; cbn; auto; destruct f as [|[|f]]; auto. }
      destruct HB as [-> | ->]; [exists w2, (Ok VNone); now apply runs_ret|].
      destruct (connect C60_more_env 0 (fn 1) (prio 0) w2) as [w4 r4] eqn:HC.
      assert (HS : steps C60_more_env (conn 0 1 0) w2 w4 r4)
        by (exists 0; cbn [step conn]; unfold lift; now rewrite HC).
      destruct r4 as [v|e|].
      + exists w4, (Ok VNone). apply runs_do. exists w4, (Ok v). split; [exact HS|]. now apply runs_ret.
      + exists w4, (Err e). apply runs_do. exists w4, (Err e). split; [exact HS|]. now apply runs_throw.
      + exists w4, Halted. apply runs_do. exists w4, Halted. split; [exact HS|]. auto. }
  intros n. destruct n as [|n]; [reflexivity|]. cbn [call exec step].
  set (w := C60_more_world). unfold do_emit.
  set (w0 := log _ w).
  assert (HB : s_blocked (w_sg w0 0) = false) by (vm_compute; reflexivity). rewrite HB.
  assert (HP : bind_ok (s_params (w_sg w0 0)) (List.length (@nil val)) = true) by (vm_compute; reflexivity). rewrite HP.
  cbn [negb andb]. assert (HU : s_paused (w_sg w0 0) = false) by (vm_compute; reflexivity). rewrite HU.
  assert (HH : w_hook w0 = None) by (vm_compute; reflexivity). rewrite HH.
  assert (HR : forall f m args, run_emit_loop (exec C60_more_env m) C60_more_env f 0 args w0 = None).
  { intros f m args. unfold run_emit_loop.
    assert (HD : Nat.leb RECURSION_LIMIT (s_depth (w_sg w0 0)) = false) by (vm_compute; reflexivity). rewrite HD.
    assert (HQ : s_eq (w_sg w0 0) = []) by (vm_compute; reflexivity).
    rewrite upd_same. cbn [s_eq set_eq]. rewrite HQ. cbn [app List.length Nat.ltb Nat.leb].
    unfold inner_loop.
    assert (HE : forall x, s_mode (w_sg (log x (enter 0 (set_nxt (S (w_nxt (upd 0 (fun st => set_eq (s_eq st ++ [args]) st) w0)))
      (upd 0 (fun st => set_eq (s_eq st ++ [args]) st) w0)))) 0) = Immediate) by (intros; vm_compute; reflexivity).
    rewrite HE. clear HE.
    assert (HE : forall x, s_eq (w_sg (log x (enter 0 (set_nxt (S (w_nxt (upd 0 (fun st => set_eq (s_eq st ++ [args]) st) w0)))
      (upd 0 (fun st => set_eq (s_eq st ++ [args]) st) w0)))) 0) = [args]) by (intros; vm_compute; reflexivity).
    rewrite HE. clear HE.
    match goal with |- context [loop_slots _ _ _ _ _ _ _ ?x] => set (w1 := x) end.
    assert (HG : growing (w_sg w1 0) 0 w1).
    { exists (s_slots (w_sg w1 0)). split; [vm_compute; reflexivity|]. split; [|vm_compute; lia].
      vm_compute. repeat constructor. eexists _, _; reflexivity. }
    rewrite (more_loop (w_sg w1 0)); try reflexivity. exact HG. }
  rewrite HR. reflexivity.
Qed.
Print Assumptions C60_refuted.

(** Function 1 pauses the signal and emits it. *)
Definition C60_pause_env : env unit := demo (fun f _ =>
  match f with 1 => calls [OPause 0; emit 0 []] | _ => Ret VNone end).
Definition C60_pause_world := world_of C60_pause_env (all_plain Immediate 0) tt 50
  [conn 0 1 0; OPause 0; emit 0 []].
(** The state of the signal at the loop of resume(): [i] values were sent again, there
    are more. *)
Definition replaying (st : sigst) (i : nat) (w : world unit) : Prop :=
  exists q b, w_sg w 0 = set_args q (set_paused b st) /\ i < List.length q.

Lemma pause_body : forall n st w w' r q b, w_sg w 0 = set_args q (set_paused b st) ->
  s_blocked st = false -> s_params st = [] ->
  exec C60_pause_env n (calls [OPause 0; emit 0 []]) w = Some (w', r) ->
  r = Ok VNone /\ w_sg w' 0 = set_args (q ++ [[]]) (set_paused true st).
Proof.
  intros n st w w' r q b HS Hb Hps H.
  destruct n as [|n]; [discriminate|]. cbn [calls call bind finish exec step] in H.
  set (w1 := upd 0 (set_paused true) w) in H.
  assert (H1 : w_sg w1 0 = set_args q (set_paused true st)) by (unfold w1; rewrite upd_same, HS; reflexivity).
  clearbody w1. destruct n as [|n]; [discriminate|].
  cbn [calls call bind finish exec step emit] in H. unfold do_emit in H. cbn [w_sg log set_tr] in H.
  rewrite H1 in H. cbn [s_blocked s_params s_paused set_args set_paused] in H. rewrite Hb, Hps in H.
  change (true && negb (bind_ok [] (List.length (@nil val)))) with false in H.
  cbn [set_args set_paused s_paused] in H.
  destruct n as [|n]; [discriminate|]. cbn [calls bind finish exec] in H. injection H as <- <-.
  split; [reflexivity|]. rewrite upd_same. cbn [w_sg log set_tr]. now rewrite H1.
Qed.
Lemma pause_loop : forall st mx u, s_blocked st = false -> s_params st = [] -> s_mode st = Immediate ->
  s_depth st = 0 -> s_max st = 0 -> s_eq st = [] ->
  s_slots st = [Wcb u (KFunc 1) (TFun 1 [] []) mx 0 None None] ->
  forall f m i args w w' r, replaying st i w ->
    run_emit_loop (exec C60_pause_env m) C60_pause_env f 0 args w = Some (w', r) ->
    r = Ok VNone /\ replaying st (S i) w'.
Proof.
  intros st mx u Hb Hps Hm Hd Hx Hq Hsl f m i args w w' r (q & b & HS & HL) H.
  apply emit_loop_inv in H as (w3 & r3 & HI & HR);
    [|rewrite HS; cbn; rewrite Hd; unfold RECURSION_LIMIT; lia|rewrite HS; exact Hq].
  assert (H1 : w_sg (started 0 args w) 0 =
    set_args q (set_paused b (set_eq [] (set_max 1 (set_depth 1 st))))).
  { assert (HE : w_sg (entered 0 args w) 0 =
      let t := w_sg w 0 in set_max (Nat.max (s_max t) (S (s_depth t)))
        (set_depth (S (s_depth t)) (set_eq (s_eq t ++ [args]) t))).
    { unfold entered, enter, log. cbn -[upd]. rewrite upd_same. cbn -[upd]. now rewrite upd_same. }
    unfold started. rewrite HS. cbn [s_mode set_args set_paused]. rewrite Hm, upd_same, HE, HS.
    cbn [s_max s_depth set_args set_paused]. rewrite Hx, Hd. reflexivity. }
  rewrite HS in HI. cbn [s_mode set_args set_paused] in HI. rewrite Hm in HI. unfold loop_of in HI.
  revert HI H1. generalize (started 0 args w). intros w1 HI H1.
  destruct f as [|f]; [discriminate|]. cbn [loop_slots] in HI. rewrite H1 in HI.
  cbn [s_slots set_args set_paused set_eq set_max set_depth] in HI. rewrite Hsl in HI.
  cbn [nth_error] in HI. unfold call_slot, invoke in HI. cbn [w_thread w_ref w_uid w_target w_maxargs] in HI.
  set (w2 := log _ w1) in HI.
  change (body_of C60_pause_env (TFun 1 [] []) (cb_args (Wcb u (KFunc 1) (TFun 1 [] []) mx 0 None None) args) w2)
    with (calls (U := unit) [OPause 0; emit 0 []]) in HI.
  destruct (exec C60_pause_env m (calls [OPause 0; emit 0 []]) w2) as [[w4 r4]|] eqn:HX; [|discriminate].
  destruct (pause_body m _ w2 w4 r4 q b H1 Hb Hps HX) as [-> H4].
  set (w5 := log _ w4) in HI. destruct f as [|f]; [discriminate|]. cbn [loop_slots] in HI.
  assert (H5 : w_sg w5 0 = w_sg w4 0) by reflexivity. rewrite H5, H4 in HI.
  cbn [s_slots set_args set_paused set_eq set_max set_depth] in HI. rewrite Hsl in HI. cbn [nth_error] in HI.
  injection HI as <- <-. destruct HR as [(HR & _)|(_ & -> & ->)]; [discriminate|].
  split; [reflexivity|]. exists (q ++ [[]]), true. split; [|rewrite app_length; cbn [List.length]; lia].
  unfold leave. rewrite upd_same. cbn [w_sg set_cur log set_tr]. rewrite H5, H4.
  destruct st. cbn in *. subst. reflexivity.
Qed.
Lemma pause_replay : forall st mx u, s_blocked st = false -> s_params st = [] -> s_mode st = Immediate ->
  s_depth st = 0 -> s_max st = 0 -> s_eq st = [] ->
  s_slots st = [Wcb u (KFunc 1) (TFun 1 [] []) mx 0 None None] ->
  forall f m i w, replaying st i w -> replay (exec C60_pause_env m) C60_pause_env f 0 i w = None.
Proof.
  intros st mx u Hb Hps Hm Hd Hx Hq Hsl. induction f as [|f IH]; intros m i w HG; [reflexivity|].
  cbn [replay]. pose proof HG as (q & b & HS & HL). rewrite HS. cbn [s_args set_args].
  destruct (nth_error q i) as [a|] eqn:HN; [|apply nth_error_None in HN; lia].
  destruct (run_emit_loop (exec C60_pause_env m) C60_pause_env f 0 a w) as [[w1 r1]|] eqn:HR; [|reflexivity].
  destruct (pause_loop st mx u Hb Hps Hm Hd Hx Hq Hsl f m i a w w1 r1 HG HR) as [-> HG1].
  now apply IH.
Qed.

(** resume() without a reducer never ends when a callback pauses the signal and emits it. *)
Theorem C60_resume_refuted : exists (E : env unit) s w,
  reachable E w /\ s_paused (w_sg w s) = true /\ List.length (s_args (w_sg w s)) = 1
  /\ (forall s', in_progress s' (w_tr w) = 0%Z)
  /\ diverges E (call (OResume s RNone)) w.
Proof.
  exists C60_pause_env, 0, C60_pause_world. split; [reach|].
  split; [vm_compute; reflexivity|]. split; [vm_compute; reflexivity|]. split; [vm_compute; reflexivity|].
  intros n. destruct n as [|n]; [reflexivity|]. cbn [call exec step]. unfold do_resume.
  set (w1 := upd 0 (set_paused false) C60_pause_world).
  assert (HA : s_args (w_sg w1 0) = [[]]) by (vm_compute; reflexivity). rewrite HA.
  assert (HS : s_slots (w_sg w1 0) = [Wcb 0 (KFunc 1) (TFun 1 [] []) None 0 None None])
    by (vm_compute; reflexivity). rewrite HS.
  assert (HR : replay (exec C60_pause_env n) C60_pause_env n 0 0 w1 = None); [|now rewrite HR].
  apply (pause_replay (w_sg w1 0) None 0); try (vm_compute; reflexivity).
  exists [[]], false. split; [vm_compute; reflexivity|]. cbn; lia.
Qed.
Print Assumptions C60_resume_refuted.

(** Function 1, connected for thread 1, emits the signal. *)
Definition C60_queue_env : env unit := demo (fun f _ =>
  match f with 1 => calls [emit 0 []] | _ => Ret VNone end).
Definition C60_queue_world := world_of C60_queue_env (all_plain Immediate 0) tt 50
  [OConnect 0 (fn 1) (Copts (Some (ThIs 1)) None None UFalse None RefWarn 0); emit 0 []].
(** Calls of function 1 wait for thread 1, another thread is running. *)
Definition filling (st : sigst) (w : world unit) : Prop :=
  w_sg w 0 = st /\ w_me w = 0 /\ w_hook w = None /\ w_tq w 1 <> []
  /\ Forall (fun x => w_ref (snd (fst x)) = None /\ w_target (snd (fst x)) = TFun 1 [] []) (w_tq w 1).
Definition quiet_state (st : sigst) : Prop :=
  s_blocked st = false /\ s_params st = [] /\ s_paused st = false /\ s_mode st = Immediate
  /\ s_depth st = 0 /\ s_max st = 0 /\ s_eq st = []
  /\ exists u mx, s_slots st = [Wcb u (KFunc 1) (TFun 1 [] []) mx 0 None (Some 1)].

Lemma queue_emit : forall st, quiet_state st -> forall f m w w' r,
  w_sg w 0 = st -> w_me w = 0 -> w_hook w = None ->
  Forall (fun x => w_ref (snd (fst x)) = None /\ w_target (snd (fst x)) = TFun 1 [] []) (w_tq w 1) ->
  do_emit (exec C60_queue_env m) C60_queue_env f 0 [] true false w = Some (w', r) ->
  r = Ok VNone /\ filling st w'.
Proof.
  intros st (Hb & Hps & Hp & Hm & Hd & Hx & Hq & u & mx & Hsl) f m w w' r HS HM HH HQ H.
  unfold do_emit in H. set (w0 := log _ w) in H. assert (H0 : w_sg w0 0 = st) by exact HS.
  rewrite H0, Hb, Hps, Hp in H. change (w_hook w0) with (w_hook w) in H. rewrite HH in H.
  change (true && negb (bind_ok [] (List.length (@nil val)))) with false in H. cbn iota in H.
  apply emit_loop_inv in H as (w3 & r3 & HI & HR);
    [|rewrite H0, Hd; unfold RECURSION_LIMIT; lia|rewrite H0; exact Hq].
  destruct (started_w 0 [] w0) as (_ & _ & _ & _ & S5 & _ & S7 & _ & S9).
  assert (H1 : w_sg (started 0 [] w0) 0 = set_eq [] (set_max 1 (set_depth 1 st))).
  { assert (HE : w_sg (entered 0 [] w0) 0 =
      let t := w_sg w0 0 in set_max (Nat.max (s_max t) (S (s_depth t)))
        (set_depth (S (s_depth t)) (set_eq (s_eq t ++ [[]]) t))).
    { unfold entered, enter, log. cbn -[upd]. rewrite upd_same. cbn -[upd]. now rewrite upd_same. }
    unfold started. rewrite H0, Hm, upd_same, HE, H0. cbn zeta. rewrite Hx, Hd. reflexivity. }
  rewrite H0, Hm in HI. unfold loop_of in HI.
  change (w_me w0) with (w_me w) in S5. change (w_tq w0) with (w_tq w) in S7. change (w_hook w0) with (w_hook w) in S9.
  revert HI H1 S5 S7 S9. generalize (started 0 [] w0). intros w1 HI H1 S5 S7 S9.
  destruct f as [|f]; [discriminate|]. cbn [loop_slots] in HI. rewrite H1 in HI.
  cbn [s_slots set_eq set_max set_depth] in HI. rewrite Hsl in HI. cbn [nth_error] in HI.
  unfold call_slot in HI. cbn [w_thread] in HI. rewrite S5, HM in HI. cbn [Nat.eqb] in HI.
  destruct f as [|f]; [discriminate|]. cbn [loop_slots] in HI.
  match type of HI with context [log ?e ?x] => set (w2 := log e x) in HI end.
  assert (H2 : w_sg w2 0 = w_sg w1 0) by reflexivity. rewrite H2, H1 in HI.
  cbn [s_slots set_eq set_max set_depth] in HI. rewrite Hsl in HI. cbn [nth_error] in HI.
  injection HI as <- <-. destruct HR as [(HR & _)|(_ & -> & ->)]; [discriminate|].
  split; [reflexivity|]. split.
  { unfold leave. rewrite upd_same. cbn [w_sg set_cur log set_tr]. rewrite H2, H1.
    destruct st. cbn in *. subst. reflexivity. }
  split; [cbn; now rewrite S5|]. split; [cbn; now rewrite S9|].
  assert (HT : forall e (x : world unit), w_tq (leave 0 (w_cur w0) (log e x)) 1 = w_tq x 1) by reflexivity. rewrite HT.
  unfold w2. cbn [w_tq log set_tr set_tq Nat.eqb]. rewrite S7. split; [intros HF; now apply app_eq_nil in HF|].
  apply Forall_app. split; [exact HQ|]. repeat constructor.
Qed.
Lemma queue_drain : forall st, quiet_state st -> forall f m w, filling st w ->
  drain (exec C60_queue_env m) C60_queue_env f 1 w = None.
Proof.
  intros st HS. induction f as [|f IH]; intros m w (H1 & H2 & H3 & H4 & H5); [reflexivity|]. cbn [drain].
  destruct (w_tq w 1) as [|[[[eid s] c] args] q] eqn:Hq; [congruence|].
  inversion H5 as [|x0 l0 [HR HT] HF]; subst x0 l0. cbn [fst snd] in HR, HT.
  set (w1 := log _ _). unfold invoke. rewrite HR, HT. set (w2 := log _ w1).
  change (body_of C60_queue_env (TFun 1 [] []) (cb_args c args) w2) with (calls (U := unit) [emit 0 []]).
  destruct (exec C60_queue_env m (calls [emit 0 []]) w2) as [[w3 r3]|] eqn:HX; [|reflexivity].
  destruct m as [|m]; [discriminate|]. cbn [calls call bind finish exec step emit] in HX.
  destruct (do_emit (exec C60_queue_env m) C60_queue_env m 0 [] true false w2) as [[w4 r4]|] eqn:HD; [|discriminate].
  destruct (queue_emit st HS m m w2 w4 r4) as [-> HF4]; auto.
  destruct m as [|m]; [discriminate|]. cbn [exec calls bind finish] in HX. injection HX as <- <-.
  apply IH. exact HF4.
Qed.

(** emit_queued(thread=t) in another thread never ends when a queued callback emits its signal. *)
Theorem C60_queue_refuted : exists (E : env unit) t w,
  reachable E w /\ w_hook w = None /\ w_me w <> t /\ List.length (w_tq w t) = 1
  /\ (forall s', in_progress s' (w_tr w) = 0%Z)
  /\ diverges E (call (OEmitQueued (Some t))) w.
Proof.
  exists C60_queue_env, 1, C60_queue_world. split; [reach|].
  split; [vm_compute; reflexivity|]. split; [vm_compute; discriminate|]. split; [vm_compute; reflexivity|].
  split; [intros [|s']; vm_compute; reflexivity|].
  intros n. destruct n as [|n]; [reflexivity|]. cbn [call exec step].
  rewrite (queue_drain (w_sg C60_queue_world 0)); [reflexivity| |].
  - vm_compute. repeat split. eexists _, _; reflexivity.
  - split; [reflexivity|]. split; [vm_compute; reflexivity|]. split; [vm_compute; reflexivity|].
    split; [vm_compute; discriminate|]. vm_compute. repeat constructor.
Qed.
Print Assumptions C60_queue_refuted.
