(** Emission: C01, C02, C03, C05-C11, C21, C22.  Each theorem is followed by a concrete
    case that meets its hypotheses, and by its assumptions. *)

From Coq Require Import Sorted.
From Verif Require Import Base Core Frame Fuel Conn Keep Spec Trace Inv Dead Rest Quiet Deliver
  Emission Raise Gone Top Demo.
Open Scope Z_scope.
Open Scope string_scope.
Open Scope nat_scope.
Open Scope list_scope.

(** * C01 *)

Theorem C01_order : forall U (E : env U) w, reachable E w ->
  forall s, StronglySorted before (s_slots (w_sg w s)).
Proof. intros U E w HR s. exact (proj1 (reachable_ordered E w HR s)). Qed.

(** Function 1, when called, connects function 2 with priority 5 and disconnects
    function 3; the state is looked at inside function 4. *)
Definition C01_env : env unit := demo (fun f _ =>
  match f with
  | 1 => calls [conn 0 2 5; ODisconnect 0 (Some (RCallable (fn 3))) true]
  | 4 => Halt
  | _ => Ret VNone
  end).
Definition C01_world := world_of C01_env (all_plain Immediate 0) tt 50
  [conn 0 3 2; conn 0 1 0; conn 0 4 (-1); conn 0 2 2; emit 0 []].
Example C01_case : reachable C01_env C01_world
  /\ map (fun c => (w_prio c, w_uid c)) (s_slots (w_sg C01_world 0))
     = [(5%Z, 5); (2%Z, 3); (0%Z, 1); ((-1)%Z, 2)]
  /\ in_progress 0 (w_tr C01_world) = 1%Z.
Proof. split; [reach|]. vm_compute. auto. Qed.
Print Assumptions C01_order.

(** * C02 *)

Theorem C02_exactly_once : forall U (E0 E : env U) s w args cn ct w' r,
  reachable E0 w -> same_objects E0 E -> env_all (leaves_alone (members_of w) s) E ->
  steps E (OEmit s args cn ct) w w' r -> done r ->
  goes_through E s args cn ct w -> w_hook w = None ->
  s_mode (w_sg w s) = Immediate -> (in_progress s (w_tr w) < 300)%Z ->
  exists eid t called uncalled,
    w_tr w' = w_tr w ++ EEmit s args (w_usr w) :: EStart eid s args :: t ++ [EEnd eid s]
    /\ s_slots (w_sg w s) = called ++ uncalled
    /\ s_slots (w_sg w' s) = s_slots (w_sg w s)
    /\ notices eid t = map (due (w_me w) args) called
    /\ match r with
       | Err e' => called <> [] /\ exists e, raised eid t = [e] /\ surfaces s e e'
       | _ => uncalled = [] /\ raised eid t = []
       end.
Proof.
  intros U E0 E s w args cn ct w' r HR HO HE HS Hd Hg Hh Hm Hl.
  assert (HE' : env_all (allows (members_of w) s None) E).
  { destruct HE as [A B]. split; intros; (eapply prog_all_impl; [|eauto]); intros o Ho; now left. }
  destruct (reachable_depth_ok E0 w HR s) as [Hlim Hpr].
  assert (HD : s_depth (w_sg w s) < RECURSION_LIMIT).
  { unfold RECURSION_LIMIT. rewrite Hpr in Hl. lia. }
  destruct (emit_delivers E0 E None s w HR HO HE' (fun p (Hp : None = Some p) => ltac:(discriminate Hp))
              args cn ct w' r HS Hd Hg Hh Hm HD) as (eid & t & cl & un & T & S & N & G & K).
  apply grows_none in G. exists eid, t, cl, un. repeat (split; [congruence|]). exact K.
Qed.

(** Three callbacks of different priorities and argument limits; function 1 re-emits the
    signal with 0 once and another signal. *)
Definition C02_env : env unit := demo (fun f a =>
  match f, a with
  | 1, [VInt 0] => Ret VNone
  | 1, _ => calls [emit 0 [VInt 0; VInt 0]; emit 5 [VInt 9; VInt 9]]
  | _, _ => Ret VNone
  end).
Definition only (m : Z) : copts := Copts None None None UFalse (Some m) RefWarn 0%Z.
Definition C02_world := world_of C02_env (all_plain Immediate 2) tt 50
  [OConnect 0 (fn 1) (only 1); OConnect 0 (fn 2) default_opts; OConnect 0 (fn 3) (prio 4)].
Example C02_case :
  let o := emit 0 [VInt 7; VInt 8] in
  let w' := after1 C02_env 50 o C02_world in
  reachable C02_env C02_world
  /\ env_all (leaves_alone (members_of C02_world) 0) C02_env
  /\ steps C02_env o C02_world w' (Ok VNone)
  /\ goes_through C02_env 0 [VInt 7; VInt 8] true false C02_world
  /\ s_mode (w_sg C02_world 0) = Immediate /\ w_hook C02_world = None
  /\ notices 3 (w_tr w') = [Called 2 [VInt 7; VInt 8]; Called 0 [VInt 7]; Called 1 [VInt 7; VInt 8]]
  /\ notices 4 (w_tr w') = [Called 2 [VInt 0; VInt 0]; Called 0 [VInt 0]; Called 1 [VInt 0; VInt 0]].
Proof.
  split; [reach|]. split.
  { apply demo_all; intros f a. allp. }
  split; [ran|]. vm_compute. repeat split; auto; discriminate.
Qed.
Print Assumptions C02_exactly_once.

(** * C03 *)

(** Callbacks that only connect further callbacks, with the lowest priority: all
    callbacks, old and new, are called once. *)
Theorem C03_appending_partial : forall U (E0 E : env U) p s w args cn ct w' r,
  reachable E0 w -> same_objects E0 E ->
  env_all (fun o => leaves_alone (members_of w) s o \/ connects_at s p o) E ->
  Forall (fun c => (p <= w_prio c)%Z) (s_slots (w_sg w s)) ->
  steps E (OEmit s args cn ct) w w' r -> done r ->
  goes_through E s args cn ct w -> w_hook w = None ->
  s_mode (w_sg w s) = Immediate -> (in_progress s (w_tr w) < 300)%Z ->
  exists eid t called uncalled new,
    w_tr w' = w_tr w ++ EEmit s args (w_usr w) :: EStart eid s args :: t ++ [EEnd eid s]
    /\ s_slots (w_sg w' s) = s_slots (w_sg w s) ++ new
    /\ Forall (fun c => w_prio c = p) new
    /\ s_slots (w_sg w' s) = called ++ uncalled
    /\ notices eid t = map (due (w_me w) args) called
    /\ match r with
       | Err e' => called <> [] /\ exists e, raised eid t = [e] /\ surfaces s e e'
       | _ => uncalled = [] /\ raised eid t = []
       end.
Proof.
  intros U E0 E p s w args cn ct w' r HR HO HE HL HS Hd Hg Hh Hm Hl.
  assert (HE' : env_all (allows (members_of w) s (Some p)) E).
  { destruct HE as [A B]. split; intros; (eapply prog_all_impl; [|eauto]); intros o Ho; exact Ho. }
  destruct (reachable_depth_ok E0 w HR s) as [Hlim Hpr].
  assert (HD : s_depth (w_sg w s) < RECURSION_LIMIT).
  { unfold RECURSION_LIMIT. rewrite Hpr in Hl. lia. }
  destruct (emit_delivers E0 E (Some p) s w HR HO HE' (fun p0 Hp => ltac:(now injection Hp as <-))
              args cn ct w' r HS Hd Hg Hh Hm HD) as (eid & t & cl & un & T & S & N & (l & G & G') & K).
  exists eid, t, cl, un, l. split; [exact T|]. split; [exact G|].
  split; [eapply Forall_impl; [|exact G']; cbn; congruence|]. auto.
Qed.
Print Assumptions C03_appending_partial.

(** Function 1 connects function 2; it is called in the same emission. *)
Definition C03_env : env unit := demo (fun f _ =>
  match f with 1 => calls [OConnect 0 (fn 2) (prio (-1))] | _ => Ret VNone end).
Definition C03_world := world_of C03_env (all_plain Immediate 0) tt 50 [conn 0 1 0; conn 0 3 0].
Example C03_case :
  let w' := after1 C03_env 50 (emit 0 []) C03_world in
  reachable C03_env C03_world
  /\ env_all (fun o => leaves_alone (members_of C03_world) 0 o \/ connects_at 0 (-1) o) C03_env
  /\ steps C03_env (emit 0 []) C03_world w' (Ok VNone)
  /\ notices 2 (w_tr w') = [Called 0 []; Called 1 []; Called 3 []].
Proof.
  split; [reach|]. split.
  { apply demo_all; intros f a. allp. }
  split; [ran|]. vm_compute. reflexivity.
Qed.

(** A callback that disconnects itself makes the emission skip the next one. *)
Definition C03_skip_env : env unit := demo (fun f _ =>
  match f with 1 => calls [ODisconnect 0 (Some (RCallable (fn 1))) true] | _ => Ret VNone end).
Theorem C03_refuted_skipped : exists (E : env unit) s w w' c eid t,
  reachable E w /\ steps E (OEmit s [] true false) w w' (Ok VNone)
  /\ goes_through E s [] true false w /\ w_hook w = None /\ s_mode (w_sg w s) = Immediate
  /\ w_tr w' = w_tr w ++ EEmit s [] (w_usr w) :: EStart eid s [] :: t ++ [EEnd eid s]
  /\ In c (s_slots (w_sg w s)) /\ In c (s_slots (w_sg w' s))
  /\ times (w_uid c) (notices eid t) = 0.
Proof.
  set (w := world_of C03_skip_env (all_plain Immediate 0) tt 50 [conn 0 1 0; conn 0 2 0]).
  exists C03_skip_env, 0, w, (after1 C03_skip_env 50 (emit 0 []) w),
    (Wcb 1 (KFunc 2) (TFun 2 [] []) None 0 None None), 2, [ECall 2 0 0 []; ERet 2 0 0 None].
  split; [reach|]. split; [ran|]. vm_compute. repeat split; auto; discriminate.
Qed.
Print Assumptions C03_refuted_skipped.

(** A callback that connects one of higher priority is called twice. *)
Definition C03_twice_env : env unit := demo (fun f _ =>
  match f with
  | 1 => calls [OConnect 0 (fn 2) (Copts None None None UTrue None RefWarn 5%Z)]
  | _ => Ret VNone
  end).
Theorem C03_refuted_twice : exists (E : env unit) s w w' c eid t,
  reachable E w /\ steps E (OEmit s [] true false) w w' (Ok VNone)
  /\ goes_through E s [] true false w /\ w_hook w = None /\ s_mode (w_sg w s) = Immediate
  /\ w_tr w' = w_tr w ++ EEmit s [] (w_usr w) :: EStart eid s [] :: t ++ [EEnd eid s]
  /\ In c (s_slots (w_sg w s)) /\ In c (s_slots (w_sg w' s))
  /\ times (w_uid c) (notices eid t) = 2.
Proof.
  set (w := world_of C03_twice_env (all_plain Immediate 0) tt 50 [conn 0 1 0]).
  exists C03_twice_env, 0, w, (after1 C03_twice_env 50 (emit 0 []) w),
    (Wcb 0 (KFunc 1) (TFun 1 [] []) None 0 None None), 1,
    [ECall 1 0 0 []; ERet 1 0 0 None; ECall 1 0 0 []; ERet 1 0 0 None].
  split; [reach|]. split; [ran|]. vm_compute. repeat split; auto; discriminate.
Qed.
Print Assumptions C03_refuted_twice.

(** * C05 *)

Theorem C05_surfaces : forall U (E0 E : env U) s w args cn ct w' r,
  reachable E0 w -> same_objects E0 E ->
  steps E (OEmit s args cn ct) w w' r -> done r ->
  goes_through E s args cn ct w -> w_hook w = None ->
  (in_progress s (w_tr w) < 300)%Z -> s_eq (w_sg w s) = [] ->
  exists eid t,
    w_tr w' = w_tr w ++ EEmit s args (w_usr w) :: EStart eid s args :: t ++ [EEnd eid s]
    /\ match r with
       | Err e' => (exists e, raised eid t = [e] /\ surfaces s e e')
                   \/ (raised eid t = [] /\ e' = ERecursion /\ s_mode (w_sg w s) = Queued)
       | _ => raised eid t = []
       end.
Proof.
  intros U E0 E s w args cn ct w' r HR HO HS Hd Hg Hh Hl Hq.
  eapply emit_raises; eauto. destruct (reachable_depth_ok E0 w HR s) as [_ Hpr].
  unfold RECURSION_LIMIT. rewrite Hpr in Hl. lia.
Qed.
Theorem C05_surfaces_fast : forall U (E0 E : env U) s w args w' r,
  reachable E0 w -> same_objects E0 E ->
  steps E (OEmitFast s args) w w' r -> done r ->
  s_blocked (w_sg w s) = false -> s_paused (w_sg w s) = false ->
  (in_progress s (w_tr w) < 300)%Z ->
  exists eid t,
    w_tr w' = w_tr w ++ EEmit s args (w_usr w) :: EStart eid s args :: t ++ [EEnd eid s]
    /\ match r with
       | Err e' => exists e, raised eid t = [e] /\ surfaces s e e'
       | _ => raised eid t = []
       end.
Proof.
  intros U E0 E s w args w' r HR HO HS Hd Hb Hp Hl.
  eapply emit_fast_raises; eauto. destruct (reachable_depth_ok E0 w HR s) as [_ Hpr].
  unfold RECURSION_LIMIT. rewrite Hpr in Hl. lia.
Qed.
(** Function 1 emits signal 1, whose callback raises user exception 3; function 2
    raises ValueError. *)
Definition C05_env : env unit := demo (fun f _ =>
  match f with
  | 1 => calls [emit 1 []]
  | 2 => Throw EValue
  | 3 => Throw (EUser 3)
  | 4 => Throw (EBase 0)
  | _ => Ret VNone
  end).
Definition C05_world := world_of C05_env (all_plain Queued 0) tt 50
  [conn 0 1 0; conn 1 3 0; conn 2 2 0; conn 3 4 0].
Example C05_case :
  reachable C05_env C05_world
  /\ outcome1 C05_env 50 (emit 0 []) C05_world = Some (Err (EEmitLoop (Some 1) 0 (EUser 3)))
  /\ outcome1 C05_env 50 (emit 2 []) C05_world = Some (Err (EEmitLoop (Some 2) 0 EValue))
  /\ outcome1 C05_env 50 (emit 3 []) C05_world = Some (Err (EBase 0))
  /\ outcome1 C05_env 50 (OEmitFast 0 []) C05_world = Some (Err (EEmitLoop (Some 1) 0 (EUser 3)))
  /\ goes_through C05_env 0 [] true false C05_world.
Proof. split; [reach|]. vm_compute. repeat split; auto; discriminate. Qed.
Print Assumptions C05_surfaces.
Print Assumptions C05_surfaces_fast.

(** * C06 *)

(** Any API call, made at any moment, leaves depths and current emitter as they were. *)
Theorem C06_restored : forall U (E : env U) o w w' r,
  steps E o w w' r -> done r ->
  (forall s, s_depth (w_sg w' s) = s_depth (w_sg w s))
  /\ (forall s, in_progress s (w_tr w') = in_progress s (w_tr w))
  /\ w_cur w' = w_cur w.
Proof.
  intros U E o w w' r H Hd. destruct (steps_based _ _ _ _ _ H) as [_ _ (t & T & _ & D)].
  specialize (D Hd). split; [apply D|]. split; [|apply D].
  intros s. rewrite T, in_progress_app, (nested_in_progress t); [lia|apply D].
Qed.
(** Outside emissions nothing is left behind. *)
Theorem C06_usable : forall U (E0 E : env U) o w w' r,
  reachable E0 w -> (forall s, in_progress s (w_tr w) = 0%Z) ->
  steps E o w w' r -> done r ->
  forall s, s_depth (w_sg w' s) = 0 /\ s_eq (w_sg w' s) = [] /\ in_progress s (w_tr w') = 0%Z.
Proof.
  intros U E0 E o w w' r HR H0 H Hd s. destruct (C06_restored _ _ _ _ _ _ H Hd) as (K1 & K2 & _).
  assert (HD : s_depth (w_sg w s) = 0).
  { destruct (reachable_depth_ok E0 w HR s) as [_ Hp]. rewrite (H0 s) in Hp. lia. }
  rewrite K1, K2, H0. split; [exact HD|]. split; [|reflexivity].
  destruct (steps_based _ _ _ _ _ H) as [_ _ (t & T & _ & D)]. specialize (D Hd).
  rewrite (be_eq _ _ _ D), (reachable_eq_ok E0 w HR s) by now right. reflexivity.
Qed.
(** A callback that emits again and raises, in queued mode, within another emission. *)
Definition C06_env : env unit := demo (fun f _ =>
  match f with
  | 1 => calls [emit 1 []]
  | 2 => calls [emit 1 []; OConnect 1 (fn 5) default_opts; emit 0 []]
  | 5 => Throw (EBase 2)
  | _ => Ret VNone
  end).
Definition C06_world := world_of C06_env (all_plain Queued 0) tt 50 [conn 0 1 0; conn 1 2 0].
Example C06_case :
  reachable C06_env C06_world /\ (forall s, in_progress s (w_tr C06_world) = 0%Z)
  /\ outcome1 C06_env 50 (emit 0 []) C06_world = Some (Err (EBase 2))
  /\ List.length (queued_on 1 (w_tr (after1 C06_env 50 (emit 0 []) C06_world))) = 1
  /\ List.length (queued_on 0 (w_tr (after1 C06_env 50 (emit 0 []) C06_world))) = 1.
Proof. split; [reach|]. vm_compute. auto. Qed.
Print Assumptions C06_restored.
Print Assumptions C06_usable.

(** * C07 *)

Theorem C07_limit : forall U (E : env U) w s, reachable E w -> (in_progress s (w_tr w) <= 300)%Z.
Proof.
  intros U E w s HR. destruct (reachable_depth_ok E w HR s) as [H1 ->]. unfold RECURSION_LIMIT in H1. lia.
Qed.
Theorem C07_refuses : forall U (E0 E : env U) w w' s args cn ct r,
  reachable E0 w -> in_progress s (w_tr w) = 300%Z ->
  goes_through E s args cn ct w -> w_hook w = None ->
  steps E (OEmit s args cn ct) w w' r \/ steps E (OEmitFast s args) w w' r ->
  r = Err ERecursion /\ w' = log (EEmit s args (w_usr w)) w.
Proof.
  intros U E0 E w w' s args cn ct r HR H3 Hg Hh HS.
  assert (HD : Nat.leb RECURSION_LIMIT (s_depth (w_sg w s)) = true).
  { destruct (reachable_depth_ok E0 w HR s) as [_ Hp]. rewrite H3 in Hp. apply Nat.leb_le.
    unfold RECURSION_LIMIT. lia. }
  destruct HS as [HS|HS].
  - destruct (emit_inv _ _ _ _ _ _ _ _ HS Hg Hh) as (n & HX). unfold run_emit_loop in HX.
    cbn [w_sg log set_tr] in HX. rewrite HD in HX. injection HX as <- <-. auto.
  - destruct Hg as (Hb & Hp & _). destruct HS as (n & HS). cbn [step] in HS. unfold do_emit_fast in HS.
    cbn [w_sg log set_tr] in HS. rewrite Hb, Hp, HD in HS. injection HS as <- <-. auto.
Qed.
(** Function 1 emits the signal again and swallows exceptions; look inside level 300. *)
Definition C07_env : env unit := demo (fun f _ =>
  match f with
  | 1 => Do (emit 0 []) (fun x => match x with inr ERecursion => Halt | _ => Ret VNone end)
  | _ => Ret VNone
  end).
Definition C07_world := after C07_env 1000 (calls [conn 0 1 0; emit 0 []]) (init_world (all_plain Immediate 0) tt).
Example C07_case :
  reachable C07_env C07_world /\ in_progress 0 (w_tr C07_world) = 300%Z
  /\ goes_through C07_env 0 [] true false C07_world /\ w_hook C07_world = None
  /\ outcome1 C07_env 50 (emit 0 []) C07_world = Some (Err ERecursion).
Proof. split; [reach|]. vm_compute. repeat split; auto; discriminate. Qed.
Print Assumptions C07_limit.
Print Assumptions C07_refuses.

(** * C08 *)

Theorem C08_breadth_first : forall U (E0 E : env U) s w args cn ct w' r,
  reachable E0 w -> same_objects E0 E -> env_all (leaves_alone (members_of w) s) E ->
  steps E (OEmit s args cn ct) w w' r -> done r ->
  goes_through E s args cn ct w -> w_hook w = None ->
  s_mode (w_sg w s) = Queued -> in_progress s (w_tr w) = 0%Z ->
  exists eid t,
    w_tr w' = w_tr w ++ EEmit s args (w_usr w) :: EStart eid s args :: t ++ [EEnd eid s]
    /\ s_slots (w_sg w' s) = s_slots (w_sg w s)
    /\ match r with
       | Err e' => exists full a more pre rest,
           args :: queued_on s t = full ++ a :: more
           /\ List.length full < 300
           /\ s_slots (w_sg w s) = pre ++ rest /\ pre <> []
           /\ notices eid t = to_all (w_me w) (s_slots (w_sg w s)) full ++ map (due (w_me w) a) pre
           /\ ((exists e, raised eid t = [e] /\ surfaces s e e')
               \/ (raised eid t = [] /\ e' = ERecursion
                   /\ 300 < List.length (args :: queued_on s t)))
       | _ => notices eid t = to_all (w_me w) (s_slots (w_sg w s)) (args :: queued_on s t)
              /\ raised eid t = []
              /\ List.length (args :: queued_on s t) <= 300
       end.
Proof.
  intros U E0 E s w args cn ct w' r HR HO HE HS Hd Hg Hh Hm Hl.
  assert (HE' : env_all (allows (members_of w) s None) E).
  { destruct HE as [A B]. split; intros; (eapply prog_all_impl; [|eauto]); intros o Ho; now left. }
  assert (HD : s_depth (w_sg w s) = 0).
  { destruct (reachable_depth_ok E0 w HR s) as [_ Hp]. rewrite Hl in Hp. lia. }
  exact (emit_queued_delivers E0 E s w HR HO HE' args cn ct w' r HS Hd Hg Hh Hm HD).
Qed.
(** An emission made by a callback is put at the end of the queue and returns. *)
Theorem C08_queued : forall U (E0 E : env U) s w args cn ct w' r,
  reachable_by (no_fast s) E0 w ->
  steps E (OEmit s args cn ct) w w' r -> done r ->
  goes_through E s args cn ct w -> w_hook w = None ->
  s_mode (w_sg w s) = Queued -> (0 < in_progress s (w_tr w) < 300)%Z ->
  r = Ok VNone /\ w_tr w' = w_tr w ++ [EEmit s args (w_usr w); EQueued s args]
  /\ (forall x, s_slots (w_sg w' x) = s_slots (w_sg w x)).
Proof.
  intros U E0 E s w args cn ct w' r HR HS Hd Hg Hh Hm Hl.
  destruct (emit_inv _ _ _ _ _ _ _ _ HS Hg Hh) as (n & HX).
  pose proof (reachable_weaken E0 _ w HR) as HR'.
  destruct (reachable_depth_ok E0 w HR' s) as [_ Hp].
  assert (Hq : s_eq (w_sg w s) <> []).
  { apply (reachable_filled E0 s w HR Hm). lia. }
  unfold run_emit_loop in HX. cbn [w_sg log set_tr] in HX.
  replace (Nat.leb RECURSION_LIMIT (s_depth (w_sg w s))) with false in HX.
  2:{ symmetry. apply Nat.leb_gt. unfold RECURSION_LIMIT. lia. }
  rewrite upd_same in HX. cbn [s_eq set_eq w_sg log set_tr] in HX. rewrite app_length in HX.
  replace (Nat.ltb 1 _) with true in HX.
  2:{ symmetry. apply Nat.ltb_lt. destruct (s_eq (w_sg w s)); [congruence|cbn; lia]. }
  injection HX as <- <-. split; [reflexivity|]. split.
  - cbn. now rewrite <- app_assoc.
  - intros x. destruct (Nat.eq_dec x s) as [->|Hx]; cbn [w_sg log set_tr].
    + now rewrite upd_same.
    + now rewrite upd_other.
Qed.
(** Functions 1 and 2 each emit twice for a positive value. *)
Definition C08_env : env unit := demo (fun f a =>
  match f, a with
  | 1, [VInt 1] => calls [emit 0 [VInt 2]; emit 0 [VInt 3]]
  | 2, [VInt 2] => calls [emit 0 [VInt 4]]
  | _, _ => Ret VNone
  end).
Definition C08_world := world_of C08_env (all_plain Queued 1) tt 50 [conn 0 1 0; conn 0 2 0].
Example C08_case :
  let o := emit 0 [VInt 1] in
  let w' := after1 C08_env 50 o C08_world in
  reachable C08_env C08_world /\ env_all (leaves_alone (members_of C08_world) 0) C08_env
  /\ steps C08_env o C08_world w' (Ok VNone)
  /\ goes_through C08_env 0 [VInt 1] true false C08_world
  /\ queued_on 0 (w_tr w') = [[VInt 2]; [VInt 3]; [VInt 4]]
  /\ notices 2 (w_tr w') = [Called 0 [VInt 1]; Called 1 [VInt 1]; Called 0 [VInt 2]; Called 1 [VInt 2];
                            Called 0 [VInt 3]; Called 1 [VInt 3]; Called 0 [VInt 4]; Called 1 [VInt 4]].
Proof.
  split; [reach|]. split. { apply demo_all; intros f a. allp. }
  split; [ran|]. vm_compute. repeat split; auto; discriminate.
Qed.
(** Inside a callback: *)
Definition C08_halt : env unit := demo (fun f _ => match f with 1 => Halt | _ => Ret VNone end).
Definition C08_inside := world_of C08_halt (all_plain Queued 1) tt 50 [conn 0 1 0; emit 0 [VInt 5]].
Example C08_case_queued :
  reachable_by (no_fast 0) C08_halt C08_inside
  /\ steps C08_env (emit 0 [VInt 6]) C08_inside (after1 C08_env 9 (emit 0 [VInt 6]) C08_inside) (Ok VNone)
  /\ goes_through C08_env 0 [VInt 6] true false C08_inside
  /\ in_progress 0 (w_tr C08_inside) = 1%Z.
Proof.
  split.
  - split; [apply demo_all; intros f a; allp|].
    exists (all_plain Queued 1), tt, (calls [conn 0 1 0; emit 0 [VInt 5]]), Halted.
    split; [auto with demo|]. split; [auto with demo|]. split; [allp|].
    apply after_runs. vm_compute. reflexivity.
  - split; [ran|]. vm_compute. repeat split; auto; discriminate.
Qed.
Print Assumptions C08_breadth_first.
Print Assumptions C08_queued.

(** * C09, C10 *)

(** The hypothesis about [deepest]: no emission nested deeper than this one has taken place
    within the outermost running emission. *)
Theorem C09_abandons : forall U (E0 E : env U) s w args cn ct w' r,
  reachable_by (no_fast s) E0 w -> same_objects E0 E ->
  env_all (leaves_alone (members_of w) s) E -> env_all (no_fast s) E ->
  steps E (OEmit s args cn ct) w w' r -> done r ->
  goes_through E s args cn ct w -> w_hook w = None ->
  s_mode (w_sg w s) = LatestOnly -> (in_progress s (w_tr w) < 300)%Z ->
  (Z.of_nat (deepest s (w_tr w)) <= in_progress s (w_tr w) + 1)%Z ->
  exists eid t called uncalled,
    w_tr w' = w_tr w ++ EEmit s args (w_usr w) :: EStart eid s args :: t ++ [EEnd eid s]
    /\ s_slots (w_sg w s) = called ++ uncalled
    /\ notices eid t = map (due (w_me w) args) called
    /\ match r with
       | Err e' => called <> [] /\ exists e, raised eid t = [e] /\ surfaces s e e'
       | _ => raised eid t = [] /\ (uncalled = [] \/ emitted_in s t)
       end
    /\ (forall ta j a tb, t = ta ++ EStart j s a :: tb -> notices eid tb = []).
Proof.
  intros U E0 E s w args cn ct w' r HR HO HE HE1 HS Hd Hg Hh Hm Hl Hlv.
  pose proof (reachable_weaken E0 _ w HR) as HR'.
  assert (HE' : env_all (allows (members_of w) s None) E).
  { destruct HE as [A B]. split; intros; (eapply prog_all_impl; [|eauto]); intros o Ho; now left. }
  destruct (reachable_depth_ok E0 w HR' s) as [Hlim Hpr].
  assert (HD : s_depth (w_sg w s) < RECURSION_LIMIT).
  { unfold RECURSION_LIMIT. rewrite Hpr in Hl. lia. }
  destruct (emit_latest_delivers E0 E s w HR' HO HE' HE1 args cn ct w' r HS Hd Hg Hh Hm HD)
    as (eid & t & cl & un & T & S & N & K & F).
  exists eid, t, cl, un. split; [exact T|]. split; [exact S|]. split; [exact N|]. split; [|exact F].
  pose proof (reachable_leveled E0 s w HR) as HLv. unfold leveled in HLv.
  unfold deepest in Hlv. rewrite <- HLv in Hlv. cbn in Hlv.
  destruct r as [v|e|]; [| |congruence].
  - destruct K as (K1 & [K2|[K2|K2]]); auto. lia.
  - exact K.
Qed.
(** Function 1 emits again; function 2 does not get the old value. *)
Definition C09_env : env unit := demo (fun f a =>
  match f, a with 1, [VInt 1] => calls [emit 0 [VInt 2]] | _, _ => Ret VNone end).
Definition C09_world := world_of C09_env (all_plain LatestOnly 1) tt 50 [conn 0 1 0; conn 0 2 0].
Example C09_case :
  let o := emit 0 [VInt 1] in
  let w' := after1 C09_env 50 o C09_world in
  reachable_by (no_fast 0) C09_env C09_world
  /\ env_all (leaves_alone (members_of C09_world) 0) C09_env
  /\ steps C09_env o C09_world w' (Ok VNone)
  /\ goes_through C09_env 0 [VInt 1] true false C09_world
  /\ deepest 0 (w_tr C09_world) = 0
  /\ notices 2 (w_tr w') = [Called 0 [VInt 1]]
  /\ notices 3 (w_tr w') = [Called 0 [VInt 2]; Called 1 [VInt 2]].
Proof.
  split.
  - split; [apply demo_all; intros f a; allp|].
    exists (all_plain LatestOnly 1), tt, (calls [conn 0 1 0; conn 0 2 0]), (Ok VNone).
    split; [auto with demo|]. split; [auto with demo|]. split; [allp|].
    apply after_runs. vm_compute. reflexivity.
  - split. { apply demo_all; intros f a. allp. }
    split; [ran|]. vm_compute. repeat split; auto; discriminate.
Qed.
Print Assumptions C09_abandons.

(** Function 1 emits 2, during which it emits 3, and then emits 4: nobody gets 4, the
    last value. *)
Definition C10_env : env unit := demo (fun f a =>
  match f, a with
  | 1, [VInt 1] => calls [emit 0 [VInt 2]; emit 0 [VInt 4]]
  | 1, [VInt 2] => calls [emit 0 [VInt 3]]
  | _, _ => Ret VNone
  end).
Theorem C10_refuted : exists (E : env unit) s w w' eid t1 t2,
  reachable E w /\ env_all (leaves_alone (members_of w) s) E /\ s_mode (w_sg w s) = LatestOnly
  /\ List.length (s_slots (w_sg w s)) = 2
  /\ steps E (OEmit s [VInt 1] true false) w w' (Ok VNone)
  /\ w_tr w' = t1 ++ EEmit s [VInt 4] tt :: EStart eid s [VInt 4] :: t2
  /\ (forall a u, ~ In (EEmit s a u) t2)
  /\ notices eid (w_tr w') = [].
Proof.
  set (w := world_of C10_env (all_plain LatestOnly 1) tt 50 [conn 0 1 0; conn 0 2 0]).
  set (w' := after1 C10_env 50 (emit 0 [VInt 1]) w).
  exists C10_env, 0, w, w', 5, (firstn 15 (w_tr w')), (skipn 17 (w_tr w')).
  split; [reach|]. split. { apply demo_all; intros f a. allp. }
  split; [reflexivity|]. split; [reflexivity|]. split; [ran|].
  split; [vm_compute; reflexivity|]. split.
  { intros a u. vm_compute. intuition discriminate. }
  vm_compute. auto.
Qed.
Print Assumptions C10_refuted.

(** * C11 *)

Theorem C11_nested : forall U (E : env U) o w w' r, steps E o w w' r -> done r ->
  exists t, w_tr w' = w_tr w ++ t /\ nested t.
Proof.
  intros U E o w w' r H Hd. destruct (steps_based _ _ _ _ _ H) as [_ _ (t & T & _ & D)].
  exists t. split; [exact T|]. apply (D Hd).
Qed.
Example C11_case :
  let w' := after1 C02_env 50 (emit 0 [VInt 7; VInt 8]) C02_world in
  steps C02_env (emit 0 [VInt 7; VInt 8]) C02_world w' (Ok VNone)
  /\ List.length (w_tr w') = 21.
Proof. split; [ran|]. vm_compute. reflexivity. Qed.
Print Assumptions C11_nested.

(** * C22 *)

Theorem C22_current : forall U (E0 E : env U) w w' r, reachable_by never_fast E0 w ->
  steps E OCurrent w w' r ->
  w' = w /\ r = Ok (match emitters (w_tr w) [] with s :: _ => VSig s | [] => VNone end).
Proof.
  intros U E0 E w w' r (HE & cfg & u & p & x & Hc & _ & Hp & HR) HS.
  apply steps_pure in HS; [|reflexivity]. injection HS as <- <-. split; [reflexivity|].
  assert (HC : cur_ok w).
  { eapply (runs_cur_ok E0); eauto. reflexivity. }
  rewrite HC. destruct (emitters (w_tr w) []); reflexivity.
Qed.
(** In a callback of an emission of [s] (and of none nested in it), the innermost
    emission is the one of [s]. *)
Theorem C22_innermost : forall U (E : env U) w t1 i s u a t2, reachable E w ->
  w_tr w = t1 ++ ECall i s u a :: t2 -> nested t2 ->
  exists l, emitters (w_tr w) [] = s :: l.
Proof.
  intros U E w t1 i s u a t2 HR T HN. pose proof (reachable_by_innermost E w HR) as HB.
  rewrite T in HB. apply by_innermost_app in HB as [_ HB]. cbn in HB. destruct HB as [HB _].
  rewrite T, emitters_app. cbn. rewrite nested_emitters by exact HN.
  destruct (emitters t1 []) as [|x l]; [discriminate|]. injection HB as <-. eauto.
Qed.
(** Function 1 emits signal 1, whose callback raises, then looks. *)
Definition C22_env : env unit := demo (fun f _ =>
  match f with
  | 1 => Do (emit 1 []) (fun _ => Halt)
  | 2 => Throw EValue
  | _ => Ret VNone
  end).
Definition C22_world := world_of C22_env (all_plain Immediate 0) tt 50 [conn 0 1 0; conn 1 2 0; emit 0 []].
Example C22_case :
  reachable_by never_fast C22_env C22_world
  /\ (exists t1 t2, w_tr C22_world = t1 ++ ECall 2 0 0 [] :: t2 /\ nested t2 /\ List.length t2 = 5)
  /\ outcome1 C22_env 1 OCurrent C22_world = Some (Ok (VSig 0)).
Proof.
  split.
  - split; [apply demo_all; intros f a; allp|].
    exists (all_plain Immediate 0), tt, (calls [conn 0 1 0; conn 1 2 0; emit 0 []]), Halted.
    split; [auto with demo|]. split; [auto with demo|]. split; [allp|].
    apply after_runs. vm_compute. reflexivity.
  - split; [|vm_compute; reflexivity].
    exists (firstn 2 (w_tr C22_world)), (skipn 3 (w_tr C22_world)).
    split; [vm_compute; reflexivity|]. split; [|vm_compute; reflexivity].
    vm_compute. apply ne_emit. 
    apply (ne_loop 3 1 [] [ECall 3 1 1 []; ERet 3 1 1 (Some EValue)] []); [|constructor].
    apply (ne_call 3 1 1 [] (Some EValue) [] []); constructor.
Qed.
Print Assumptions C22_current.
Print Assumptions C22_innermost.
