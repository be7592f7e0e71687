(** What the documentation (docs/usage.md) says about exceptions of callbacks and about the
    sender of a signal: C114, C115. *)

From Verif Require Import Base Core Frame Fuel Conn Keep Spec Trace Inv Dead Rest Quiet Deliver
  Emission Raise Gone Top Demo PropsEmit.
Open Scope Z_scope.
Open Scope string_scope.
Open Scope nat_scope.
Open Scope list_scope.

(** * C114 *)

(** [with suppress(EmitLoopError): ...] around the call [o] (docs/usage.md:415-421). *)
Definition suppressed {U} (o : op U) : prog U :=
  Do o (fun r => match r with
                 | inl _ => Ret VNone
                 | inr (EEmitLoop _ _ _) => Ret VNone
                 | inr e => Throw e
                 end).

Lemma suppressed_runs : forall U (E : env U) o w w' r, runs E (suppressed o) w w' r ->
  exists r0, steps E o w w' r0
    /\ r = match r0 with Ok _ => Ok VNone | Err (EEmitLoop _ _ _) => Ok VNone | _ => r0 end.
Proof.
  intros U E o w w' r [n H]. destruct n as [|n]; [discriminate|]. cbn in H.
  destruct (step (exec E n) E n o w) as [[w1 r1]|] eqn:S; [|discriminate].
  exists r1. destruct r1 as [v|e|].
  - destruct n; [discriminate|]. cbn in H. injection H as <- <-. split; [now exists (Datatypes.S n)|reflexivity].
  - destruct n; [discriminate|]. destruct e; cbn in H; injection H as <- <-; (split; [now exists (Datatypes.S n)|reflexivity]).
  - injection H as <- <-. split; [now exists n|reflexivity].
Qed.

(** Function 1 raises; function 2 is never called, though the program goes on. *)
Definition C114_env : env unit := demo (fun f _ => match f with 1 => Throw EValue | _ => Ret VNone end).
Lemma C114_quiet : forall A, env_all A C114_env.
Proof. intros A. apply demo_all; intros f a. destruct f as [|[|f]]; exact I. Qed.
Definition C114_world_of (m : mode) :=
  world_of C114_env (all_plain m 1) tt 50 [conn 0 3 0; conn 0 1 0; conn 0 2 0].
Definition C114_world := C114_world_of Immediate.
Theorem C114_refuted : forall m, exists (E : env unit) w w' c,
  reachable E w /\ env_all (leaves_alone (members_of w) 0) E /\ s_mode (w_sg w 0) = m
  /\ goes_through E 0 [VInt 7] true false w
  /\ runs E (suppressed (emit 0 [VInt 7])) w w' (Ok VNone)
  /\ In c (s_slots (w_sg w 0)) /\ In c (s_slots (w_sg w' 0))
  /\ (forall i a, ~ In (ECall i 0 (w_uid c) a) (w_tr w'))
  /\ (forall i t a, ~ In (EDefer i 0 (w_uid c) t a) (w_tr w')).
Proof.
  intros m. exists C114_env, (C114_world_of m), (after C114_env 50 (suppressed (emit 0 [VInt 7])) (C114_world_of m)).
  destruct m.
  all: match goal with |- context [C114_world_of ?m] =>
         match eval vm_compute in (s_slots (w_sg (C114_world_of m) 0)) with [_; _; ?c] => exists c end end.
  all: split; [reach|].
  all: split; [apply C114_quiet|].
  all: split; [vm_compute; reflexivity|].
  all: split; [vm_compute; repeat split; auto; discriminate|].
  all: split; [apply after_runs; vm_compute; reflexivity|].
  all: split; [vm_compute; auto|].
  all: split; [vm_compute; auto|].
  all: split; intros; vm_compute; intuition discriminate.
Qed.
Print Assumptions C114_refuted.

(** What does happen: the callbacks are called in order up to the first that raises, and no
    other. *)
Theorem C114_up_to : forall U (E0 E : env U) s w args cn ct w' r,
  reachable E0 w -> same_objects E0 E -> env_all (leaves_alone (members_of w) s) E ->
  runs E (suppressed (OEmit s args cn ct)) w w' r -> done r ->
  goes_through E s args cn ct w -> w_hook w = None ->
  s_mode (w_sg w s) = Immediate -> (in_progress s (w_tr w) < 300)%Z ->
  exists eid t called uncalled,
    w_tr w' = w_tr w ++ EEmit s args (w_usr w) :: EStart eid s args :: t ++ [EEnd eid s]
    /\ s_slots (w_sg w s) = called ++ uncalled
    /\ s_slots (w_sg w' s) = s_slots (w_sg w s)
    /\ notices eid t = map (due (w_me w) args) called
    /\ ((r = Ok VNone /\ uncalled = [] /\ raised eid t = [])
        \/ (called <> [] /\ exists e, raised eid t = [e]
             /\ r = match e with ERecursion | EBase _ => Err e | _ => Ok VNone end)).
Proof.
  intros U E0 E s w args cn ct w' r HR HO HE HS Hd Hg Hh Hm Hl.
  apply suppressed_runs in HS as (r0 & HS & ->).
  assert (Hd0 : done r0) by (intros ->; now apply Hd).
  destruct (C02_exactly_once U E0 E s w args cn ct w' r0 HR HO HE HS Hd0 Hg Hh Hm Hl)
    as (eid & t & cl & un & T & S & S' & N & K).
  exists eid, t, cl, un. repeat (split; [assumption|]).
  destruct r0 as [v|e'|]; [left; tauto| |now destruct Hd0].
  right. destruct K as (K & e & R & F). split; [exact K|]. exists e. split; [exact R|].
  destruct e; cbn in F; subst; try reflexivity; destruct F as [d ->]; reflexivity.
Qed.
Example C114_case :
  let p := suppressed (emit 0 [VInt 7]) in
  let w' := after C114_env 50 p C114_world in
  reachable C114_env C114_world
  /\ env_all (leaves_alone (members_of C114_world) 0) C114_env
  /\ runs C114_env p C114_world w' (Ok VNone)
  /\ goes_through C114_env 0 [VInt 7] true false C114_world
  /\ s_mode (w_sg C114_world 0) = Immediate /\ w_hook C114_world = None
  /\ map w_uid (s_slots (w_sg C114_world 0)) = [0; 1; 2]
  /\ notices 3 (w_tr w') = [Called 0 [VInt 7]; Called 1 [VInt 7]]
  /\ raised 3 (w_tr w') = [EValue].
Proof.
  split; [reach|]. split; [apply C114_quiet|].
  split; [apply after_runs; vm_compute; reflexivity|]. vm_compute. repeat split; auto; discriminate.
Qed.
Print Assumptions C114_up_to.

(** * C115 *)

(** SignalInstance.instance (_signal.py:546, 569-578, 585-588): the object a signal was
    made for.  [own s] is the [instance] argument of SignalInstance.__init__, None if it is
    not given; the reference is weak for objects that can be referred to weakly. *)
Definition instance_of {U} (E : env U) (own : sid -> option oid) (w : world U) (s : sid) : val :=
  match own s with
  | None => VNone
  | Some o => if e_weakref E o && w_dead w o then VNone else VObj o
  end.
(** Signal.sender (_signal.py:436-442). *)
Definition sender {U} (E : env U) (own : sid -> option oid) (w : world U) : val :=
  match w_cur w with Some s => instance_of E own w s | None => VNone end.

(** In a callback of an emission of [s] (and of none nested in it), as long as the object of
    [s] exists, it is the sender. *)
Theorem C115_sender : forall U (E : env U) own w t1 i s u a t2 o, reachable_by never_fast E w ->
  w_tr w = t1 ++ ECall i s u a :: t2 -> nested t2 ->
  own s = Some o -> w_dead w o = false -> sender E own w = VObj o.
Proof.
  intros U E own w t1 i s u a t2 o HR T N Ho Hd.
  assert (HR' : reachable E w).
  { destruct HR as (_ & cfg & u0 & p & x & A & B & _ & C). now exists cfg, u0, p, x. }
  destruct (C22_innermost U E w t1 i s u a t2 HR' T N) as [l L].
  assert (HS : steps E OCurrent w w (Ok (match w_cur w with Some s => VSig s | None => VNone end))) by (exists 1; reflexivity).
  destruct (C22_current U E E w _ _ HR HS) as [_ K]. rewrite L in K.
  unfold sender. destruct (w_cur w) as [s'|]; [|discriminate]. injection K as ->.
  unfold instance_of. rewrite Ho, Hd. now rewrite andb_false_r.
Qed.
Definition C115_own (s : sid) : option oid := Some (100 + s).
Example C115_case :
  reachable_by never_fast C22_env C22_world
  /\ (exists t1 t2, w_tr C22_world = t1 ++ ECall 2 0 0 [] :: t2 /\ nested t2)
  /\ sender C22_env C115_own C22_world = VObj 100 /\ w_dead C22_world 100 = false.
Proof.
  destruct C22_case as (A & (t1 & t2 & B & C & _) & _). split; [exact A|]. split; [now exists t1, t2|].
  vm_compute. auto.
Qed.
Print Assumptions C115_sender.

(** Outside all emissions there is no sender. *)
Theorem C115_none : forall U (E : env U) own w, reachable_by never_fast E w ->
  emitters (w_tr w) [] = [] -> sender E own w = VNone.
Proof.
  intros U E own w HR L.
  assert (HS : steps E OCurrent w w (Ok (match w_cur w with Some s => VSig s | None => VNone end))) by (exists 1; reflexivity).
  destruct (C22_current U E E w _ _ HR HS) as [_ K]. rewrite L in K.
  unfold sender. destruct (w_cur w); [discriminate|reflexivity].
Qed.
(** After an emission that ended with an exception. *)
Definition C115_after := after1 C114_env 50 (emit 0 [VInt 7]) C114_world.
Example C115_none_case :
  reachable_by never_fast C114_env C115_after
  /\ emitters (w_tr C115_after) [] = [] /\ raised 3 (w_tr C115_after) = [EValue].
Proof.
  split; [|vm_compute; auto]. split; [apply C114_quiet|].
  exists (all_plain Immediate 1), tt, (calls [conn 0 3 0; conn 0 1 0; conn 0 2 0; emit 0 [VInt 7]]), (Err (EEmitLoop (Some 0) 0 EValue)).
  split; [auto with demo|]. split; [auto with demo|]. split; [allp|].
  exists 51. vm_compute. reflexivity.
Qed.
Print Assumptions C115_none.

(** At every moment, so also in callbacks called by emit_queued: the object of the signal
    whose emission started last and has not ended. *)
Theorem C115_innermost : forall U (E : env U) own w s l o, reachable_by never_fast E w ->
  emitters (w_tr w) [] = s :: l -> own s = Some o -> w_dead w o = false -> sender E own w = VObj o.
Proof.
  intros U E own w s l o HR L Ho Hd.
  assert (HS : steps E OCurrent w w (Ok (match w_cur w with Some s => VSig s | None => VNone end))) by (exists 1; reflexivity).
  destruct (C22_current U E E w _ _ HR HS) as [_ K]. rewrite L in K.
  unfold sender. destruct (w_cur w) as [s'|]; [|discriminate]. injection K as ->.
  unfold instance_of. rewrite Ho, Hd. now rewrite andb_false_r.
Qed.
Example C115_innermost_case :
  reachable_by never_fast C22_env C22_world /\ emitters (w_tr C22_world) [] = [0]
  /\ C115_own 0 = Some 100 /\ w_dead C22_world 100 = false.
Proof. split; [apply C22_case|]. vm_compute. auto. Qed.
Print Assumptions C115_innermost.

(** A callback connected with thread=1: when it is called by emit_queued in thread 1 it sees
    no sender; and if emit_queued is called in a callback of another signal, it sees the
    object of that signal. *)
Definition C115_env : env unit := demo (fun f _ =>
  match f with 1 => Halt | 2 => calls [OEmitQueued None] | _ => Ret VNone end).
Definition C115_before : list (op unit) :=
  [OConnect 0 (fn 1) (Copts (Some (ThIs 1)) None None UFalse None RefWarn 0); conn 1 2 0; emit 0 []; OThread 1].
Theorem C115_thread_refuted : exists (E : env unit) own w w' i u o o',
  reachable E w /\ reachable E w'
  /\ own 0 = Some o /\ w_dead w o = false /\ w_dead w' o = false /\ o <> o'
  /\ (exists t, w_tr w = t ++ [EDCall i 0 u []]) /\ sender E own w = VNone
  /\ (exists t, w_tr w' = t ++ [EDCall i 0 u []]) /\ sender E own w' = VObj o'.
Proof.
  exists C115_env, C115_own, (world_of C115_env (all_plain Immediate 0) tt 50 (C115_before ++ [OEmitQueued None])),
    (world_of C115_env (all_plain Immediate 0) tt 50 (C115_before ++ [emit 1 []])), 2, 0, 100, 101.
  split; [reach|]. split; [reach|]. split; [reflexivity|]. split; [vm_compute; reflexivity|].
  split; [vm_compute; reflexivity|]. split; [discriminate|].
  split; [match goal with |- exists t, ?x = _ => exists (removelast x) end; vm_compute; reflexivity|]. split; [vm_compute; reflexivity|].
  split; [match goal with |- exists t, ?x = _ => exists (removelast x) end; vm_compute; reflexivity|]. vm_compute; reflexivity.
Qed.
Print Assumptions C115_thread_refuted.
