(** Vocabulary of the theorem statements about signals: how to read a recorded history.
    Nothing here refers to how the model computes; only to events and connections. *)

From Verif Require Import Base Core.

(** A run that was observed to its end. *)
Notation done r := (r <> Halted) (only parsing).

(** Callback [a] comes before callback [b]: higher priority first, then connection
    order ([w_uid] grows with every connection ever made). *)
Definition before (a b : wcb) : Prop :=
  (w_prio b < w_prio a)%Z \/ (w_prio a = w_prio b /\ w_uid a < w_uid b).

(** What one emission did to one callback: called it with these arguments, or queued
    the call for another thread. *)
Inductive notice :=
| Called (uid : nat) (args : list val)
| Deferred (uid : nat) (t : thr) (args : list val).

(** What callback [c] must get from an emission of [args] made in thread [me]:
    a plain callback is called with the first [max_args] arguments; attribute and item
    setters get one value (a tuple unless exactly one argument is left). *)
Definition due (me : thr) (args : list val) (c : wcb) : notice :=
  let cut := match w_maxargs c with None => args | Some m => py_take m args end in
  let passed :=
    match w_target c with
    | TSetattr _ _ | TSetitem _ _ =>
        if Nat.eqb (List.length cut) 1 then cut else [VTuple cut]
    | _ => cut
    end in
  match w_thread c with
  | Some t => if Nat.eqb t me then Called (w_uid c) passed else Deferred (w_uid c) t args
  | None => Called (w_uid c) passed
  end.

(** How often a callback occurs in a list of notices. *)
Definition about (uid : nat) (n : notice) : bool :=
  match n with Called u _ | Deferred u _ _ => Nat.eqb u uid end.
Definition times (uid : nat) (l : list notice) : nat := List.length (filter (about uid) l).

Section History.
  Context {U : Type}.

  (** Everything emission [eid] did, in order. *)
  Fixpoint notices (eid : nat) (tr : list (event U)) : list notice :=
    match tr with
    | [] => []
    | ECall i _ u a :: r => if Nat.eqb i eid then Called u a :: notices eid r else notices eid r
    | EDefer i _ u t a :: r =>
        if Nat.eqb i eid then Deferred u t a :: notices eid r else notices eid r
    | _ :: r => notices eid r
    end.

  (** Exceptions raised by callbacks called by emission [eid]. *)
  Fixpoint raised (eid : nat) (tr : list (event U)) : list exn :=
    match tr with
    | [] => []
    | ERet i _ _ (Some e) :: r => if Nat.eqb i eid then e :: raised eid r else raised eid r
    | _ :: r => raised eid r
    end.

  (** Values emitted on [s] while an emission of the queued signal [s] was running. *)
  Fixpoint queued_on (s : sid) (tr : list (event U)) : list (list val) :=
    match tr with
    | [] => []
    | EQueued x a :: r => if Nat.eqb x s then a :: queued_on s r else queued_on s r
    | _ :: r => queued_on s r
    end.

  (** Number of emissions of [s] in progress at the end of a history. *)
  Fixpoint in_progress (s : sid) (tr : list (event U)) : Z :=
    match tr with
    | [] => 0%Z
    | EStart _ x _ :: r => ((if Nat.eqb x s then 1 else 0) + in_progress s r)%Z
    | EEnd _ x :: r => ((if Nat.eqb x s then -1 else 0) + in_progress s r)%Z
    | _ :: r => in_progress s r
    end.

  (** Properly nested histories: emissions and callback calls open and close like
    parentheses. *)
  Inductive nested : list (event U) -> Prop :=
  | ne_nil : nested []
  | ne_emit : forall s a u t, nested t -> nested (EEmit s a u :: t)
  | ne_queued : forall s a t, nested t -> nested (EQueued s a :: t)
  | ne_defer : forall i s u h a t, nested t -> nested (EDefer i s u h a :: t)
  | ne_hook : forall h s a t, nested t -> nested (EHook h s a :: t)
  | ne_pop : forall h i s u a t, nested t -> nested (EPop h i s u a :: t)
  | ne_loop : forall i s a t t', nested t -> nested t' ->
      nested (EStart i s a :: t ++ EEnd i s :: t')
  | ne_call : forall i s u a x t t', nested t -> nested t' ->
      nested (ECall i s u a :: t ++ ERet i s u x :: t')
  | ne_dcall : forall i s u a x t t', nested t -> nested t' ->
      nested (EDCall i s u a :: t ++ EDRet i s u x :: t').

  (** The emission an event belongs to. *)
  Definition emission_of (e : event U) : option nat :=
    match e with
    | EStart i _ _ | EEnd i _ | ECall i _ _ _ | ERet i _ _ _ | EDefer i _ _ _ _ => Some i
    | _ => None
    end.
End History.

(** How the exception [e] of a callback surfaces from emitting [s]. *)
Definition surfaces (s : sid) (e e' : exn) : Prop :=
  match e with
  | ERecursion => e' = ERecursion
  | EEmitLoop _ _ _ => e' = e
  | EBase _ => e' = e
  | _ => exists d, e' = EEmitLoop (Some s) d e
  end.

(** Member signals of a group. *)
Definition members_of {U} (w : world U) (s : sid) : list sid :=
  match s_members (w_sg w s) with Some ms => map snd ms | None => [] end.

(** API calls that cannot change the connections of [s] ([M r]: members of group [r]),
    drop no receiver and stay in their thread. *)
Definition leaves_alone {U} (M : sid -> list sid) (s : sid) (o : op U) : Prop :=
  match o with
  | OConnect x _ _ | OConnectSetattr x _ _ _ _ _ | OConnectSetitem x _ _ _ _ _
  | ODisconnect x _ _ | ODisconnectSetattr x _ _ _ | ODisconnectSetitem x _ _ _ =>
      x <> s /\ ~ In s (M x)
  | OConnectDirect x _ _ => ~ In s (M x)
  | OKill _ => False
  | OThread _ => False
  | _ => True
  end.

(** The event is an emission calling the callback with identity [u], or queueing its call. *)
Definition delivers_to {U} (u : nat) (e : event U) : Prop :=
  match e with ECall _ _ v _ | EDefer _ _ v _ _ => v = u | _ => False end.
(** Whatever program runs from [w] on, no emission calls that callback. *)
Definition never_called {U} (u : nat) (w : world U) : Prop :=
  forall (E : env U) p w' r, runs E p w w' r ->
    exists t, w_tr w' = w_tr w ++ t /\ forall e, In e t -> ~ delivers_to u e.

(** The call is not emit_fast of [s]. *)
Definition no_fast {U} (s : sid) (o : op U) : Prop :=
  match o with OEmitFast x _ => x <> s | _ => True end.

(** An emission of [s] started during [t]. *)
Definition emitted_in {U} (s : sid) (t : list (event U)) : Prop :=
  exists eid args, In (EStart eid s args) t.

(** Every value of [vs] goes to every callback of [sl], one value after the other. *)
Definition to_all (me : thr) (sl : list wcb) (vs : list (list val)) : list notice :=
  flat_map (fun a => map (due me a) sl) vs.

(** emit(args, check_nargs=cn, check_types=ct) on [s] passes its checks in state [w]. *)
Definition goes_through {U} (E : env U) (s : sid) (args : list val) (cn ct : bool) (w : world U) : Prop :=
  s_blocked (w_sg w s) = false /\ s_paused (w_sg w s) = false
  /\ (cn = true -> bind_ok (s_params (w_sg w s)) (List.length args) = true)
  /\ (ct = true -> types_match E (map (fun a => Param PosOnly false (AClass (e_type E a))) args)
                     (s_params (w_sg w s)) = inl true).

(** Two programs with the same objects (callbacks may behave differently). *)
Definition same_objects {U} (E E' : env U) : Prop := forall o, e_weakref E o = e_weakref E' o.

(** emit_fast is not used. *)
Definition never_fast {U} (o : op U) : Prop :=
  match o with OEmitFast _ _ => False | _ => True end.

(** Signals whose emissions are in progress at the end of a history, innermost first
    ([l]: those in progress before it). *)
Fixpoint emitters {U} (tr : list (event U)) (l : list sid) : list sid :=
  match tr with
  | [] => l
  | EStart _ s _ :: r => emitters r (s :: l)
  | EEnd _ _ :: r => emitters r (tl l)
  | _ :: r => emitters r l
  end.

(** Every call of a callback (or its queueing for another thread) is made by the innermost
    emission in progress. *)
Fixpoint by_innermost {U} (tr : list (event U)) (l : list sid) : Prop :=
  match tr with
  | [] => True
  | EStart _ s _ :: r => by_innermost r (s :: l)
  | EEnd _ _ :: r => by_innermost r (tl l)
  | ECall _ s _ _ :: r | EDefer _ s _ _ _ :: r => hd_error l = Some s /\ by_innermost r l
  | _ :: r => by_innermost r l
  end.

(** How many emissions of [s] are nested at the end of a history, and how many were at
    most since the outermost of them started. *)
Fixpoint levels {U} (s : sid) (tr : list (event U)) (x : nat * nat) : nat * nat :=
  match tr with
  | [] => x
  | EStart _ i _ :: r =>
      levels s r (if Nat.eqb i s then (S (fst x), Nat.max (snd x) (S (fst x))) else x)
  | EEnd _ i :: r =>
      levels s r (if Nat.eqb i s
                  then (fst x - 1, if Nat.leb (fst x - 1) 0 then 0 else snd x) else x)
  | _ :: r => levels s r x
  end.

(** Highest number of nested emissions of [s] since the outermost running one started. *)
Definition deepest {U} (s : sid) (tr : list (event U)) : nat := snd (levels s tr (0, 0)).

(** All API calls a program may make satisfy [A]. *)
Fixpoint prog_all {U} (A : op U -> Prop) (p : prog U) : Prop :=
  match p with
  | Ret _ | Throw _ | Halt => True
  | Look k => forall u, prog_all A (k u)
  | Do o k => A o /\ forall x, prog_all A (k x)
  end.

(** Every callback and library method makes only calls satisfying [A]. *)
Definition env_all {U} (A : op U -> Prop) (E : env U) : Prop :=
  (forall t a w, prog_all A (e_body E t a w)) /\ (forall m a, prog_all A (e_lib E m a)).

(** Signals as created: no connections, nothing in progress (any mode and options). *)
Definition fresh_sig (st : sigst) : Prop :=
  s_slots st = [] /\ s_prio st = false /\ s_blocked st = false /\ s_paused st = false /\
  s_args st = [] /\ s_eq st = [] /\ s_depth st = 0 /\ s_max st = 0 /\ s_wasb st = [].

(** Groups contain plain signals (GR:265-550: the members come from class attributes
    that are Signal descriptors), not other groups. *)
Definition flat {U} (w : world U) : Prop :=
  forall r ms n m, s_members (w_sg w r) = Some ms -> In (n, m) ms -> s_members (w_sg w m) = None.

(** States a Python program can be in, at any point, also in the middle of callbacks
    (a program may [Halt] anywhere). *)
Definition reachable {U} (E : env U) (w : world U) : Prop :=
  exists cfg u p r, (forall s, fresh_sig (cfg s)) /\ flat (init_world cfg u) /\
    runs E p (init_world cfg u) w r.

(** States that can be reached with calls satisfying [A] only. *)
Definition reachable_by {U} (A : op U -> Prop) (E : env U) (w : world U) : Prop :=
  env_all A E /\ exists cfg u p r,
    (forall s, fresh_sig (cfg s)) /\ flat (init_world cfg u) /\ prog_all A p
    /\ runs E p (init_world cfg u) w r.

(** ** Python calling convention *)

(** A call with [n] positional arguments (and no keywords) is accepted by a function
    with these parameters. *)
Inductive accepts : list param -> nat -> Prop :=
| acc_nil : accepts [] 0
| acc_pos : forall p ps n, p_kind p = PosOnly \/ p_kind p = PosOrKw -> accepts ps n -> accepts (p :: ps) (S n)
| acc_skip : forall p ps, p_kind p = PosOnly \/ p_kind p = PosOrKw -> p_default p = true ->
    accepts ps 0 -> accepts (p :: ps) 0
| acc_star : forall p ps n, p_kind p = VarPos -> accepts ps 0 -> accepts (p :: ps) n
| acc_kw : forall p ps, p_kind p = KwOnly -> p_default p = true -> accepts ps 0 -> accepts (p :: ps) 0
| acc_kws : forall p ps, p_kind p = VarKw -> accepts ps 0 -> accepts (p :: ps) 0.

(** Parameter lists Python allows: positional parameters, those without default first,
    then at most one *args, then keyword-only parameters, then at most one **kwargs. *)
Definition well_formed (ps : list param) : Prop :=
  exists req opt star kws kwargs, ps = req ++ opt ++ star ++ kws ++ kwargs
  /\ Forall (fun p => (p_kind p = PosOnly \/ p_kind p = PosOrKw) /\ p_default p = false) req
  /\ Forall (fun p => (p_kind p = PosOnly \/ p_kind p = PosOrKw) /\ p_default p = true) opt
  /\ List.length star <= 1 /\ Forall (fun p => p_kind p = VarPos) star
  /\ Forall (fun p => p_kind p = KwOnly) kws
  /\ List.length kwargs <= 1 /\ Forall (fun p => p_kind p = VarKw) kwargs.

(** Every connection made to [s] is asked to be unique. *)
Definition only_unique {U} (s : sid) (o : op U) : Prop :=
  match o with
  | OConnect x _ op => x = s -> c_unique op <> UFalse
  | OConnectDirect _ _ op => c_unique op <> UFalse
  | OConnectSetattr x _ _ _ _ _ | OConnectSetitem x _ _ _ _ _ => x <> s
  | _ => True
  end.

(** The same function, or a method of the same name of the same object, or an assignment
    to the same attribute; bound arguments are not compared. *)
Definition same_receiver {U} (E : env U) (c d : callable) : Prop :=
  match callable_base c, callable_base d with
  | BFunc f, BFunc g => f = g
  | BObj o, BObj p => o = p
  | BRelay r, BRelay q => r = q
  | BMethod o f, BMethod p g => o = p /\ e_fname E f = e_fname E g
  | BMethod o f, BBuiltin p n | BBuiltin p n, BMethod o f => o = p /\ e_fname E f = n
  | BBuiltin o n, BBuiltin p m => o = p /\ n = m
  | BSetattr, BSetattr => firstn 2 (callable_args c) = firstn 2 (callable_args d)
  | _, _ => False
  end.
(** The object a callable is bound to. *)
Definition receiver (c : callable) : option oid :=
  match callable_base c with BMethod o _ | BBuiltin o _ | BObj o => Some o | _ => None end.
(** The callback holds a weak reference to [o]. *)
Definition weak_on (o : oid) (c : wcb) : bool :=
  match w_ref c with Some x => Nat.eqb x o | None => false end.
(** The internal connection of a group to its members. *)
Definition internal (c : wcb) : bool := match w_key c with KRelay _ => true | _ => false end.
(** The callback sets an attribute or an item. *)
Definition setter (c : wcb) : bool :=
  match w_target c with TSetattr _ _ | TSetitem _ _ => true | _ => false end.

(** The call does not change whether [s] is blocked ([M r]: members of group [r]). *)
Definition leaves_flag {U} (M : sid -> list sid) (s : sid) (o : op U) : Prop :=
  match o with OBlock x _ | OUnblock x => x <> s /\ ~ In s (M x) | _ => True end.
(** Code that changes whether [s] is blocked only by [with s.blocked(): ...] statements. *)
Inductive scoped {U} (M : sid -> list sid) (s : sid) : prog U -> Prop :=
| sc_ret : forall v, scoped M s (Ret v)
| sc_throw : forall e, scoped M s (Throw e)
| sc_halt : scoped M s Halt
| sc_look : forall k, (forall u, scoped M s (k u)) -> scoped M s (Look k)
| sc_do : forall o k, leaves_flag M s o -> (forall x, scoped M s (k x)) -> scoped M s (Do o k)
| sc_with : forall excl p k, scoped M s p -> (forall x, scoped M s (k x)) ->
    scoped M s (catch (with_blocked s excl p) k).
Definition env_scoped {U} (M : sid -> list sid) (s : sid) (E : env U) : Prop :=
  (forall t a w, scoped M s (e_body E t a w)) /\ (forall m a, scoped M s (e_lib E m a)).

(** The call does not emit [s]. *)
Definition not_emits {U} (s : sid) (o : op U) : Prop :=
  match o with OEmit x _ _ _ | OEmitFast x _ | OResume x _ => x <> s | _ => True end.
(** The call neither pauses nor resumes [s]. *)
Definition leaves_pause {U} (s : sid) (o : op U) : Prop :=
  match o with OPause x | OResume x _ => x <> s | _ => True end.
(** The call does nothing with [s] that other callbacks could notice. *)
Definition untouched {U} (M : sid -> list sid) (s : sid) (o : op U) : Prop :=
  leaves_alone M s o /\ not_emits s o /\ leaves_pause s o.

(** One complete emission of [args] by [s]: everyone in [sl] is told once, in order. *)
Definition emission {U} (s : sid) (me : thr) (sl : list wcb) (args : list val) (t : list (event U)) : Prop :=
  exists eid t', t = EStart eid s args :: t' ++ [EEnd eid s]
    /\ notices eid t' = map (due me args) sl /\ raised eid t' = [].
(** The emissions of the argument tuples [l], one after the other. *)
Inductive emissions {U} (s : sid) (me : thr) (sl : list wcb) : list (list val) -> list (event U) -> Prop :=
| es_nil : emissions s me sl [] []
| es_cons : forall a l t t', emission s me sl a t -> emissions s me sl l t' ->
    emissions s me sl (a :: l) (t ++ t').
(** functools.reduce(f, l, acc) is [a]. *)
Inductive reduces (f : list val -> list val -> list val + exn) : list val -> list (list val) -> list val -> Prop :=
| red_nil : forall a, reduces f a [] a
| red_cons : forall a x b l c, f a x = inl b -> reduces f b l c -> reduces f a (x :: l) c.
(** The reducer given to resume() turns the collected tuples [l] into [a]. *)
Definition reduced (rd : reducer) (l : list (list val)) (a : list val) : Prop :=
  match rd with
  | RNone => False
  | ROne f => f l = inl a
  | RTwo f (Some x) => reduces f x l a
  | RTwo f None => match l with [] => False | x :: l' => reduces f x l' a end
  end.

(** Calls put on the queue of thread [t], in order, and calls taken from it, in order. *)
Fixpoint deferred {U} (t : thr) (tr : list (event U)) : list (nat * sid * nat * list val) :=
  match tr with
  | [] => []
  | EDefer i s u h a :: r => if Nat.eqb h t then (i, s, u, a) :: deferred t r else deferred t r
  | _ :: r => deferred t r
  end.
Fixpoint popped {U} (t : thr) (tr : list (event U)) : list (nat * sid * nat * list val) :=
  match tr with
  | [] => []
  | EPop h i s u a :: r => if Nat.eqb h t then (i, s, u, a) :: popped t r else popped t r
  | _ :: r => popped t r
  end.
(** Calls waiting in the queue of thread [t]. *)
Definition waiting {U} (t : thr) (w : world U) : list (nat * sid * nat * list val) :=
  map (fun x => match x with (i, s, c, a) => (i, s, w_uid c, a) end) (w_tq w t).

(** History of emit_queued for thread [t]: calls are taken from the queue one by one and made
    at once, with what the callback is due in thread [t]; the first exception (also that of a
    callback whose receiver is gone) ends it. *)
Inductive drains {U} (t : thr) : list (event U) -> option exn -> Prop :=
| dr_nil : drains t [] None
| dr_ok : forall i s c args a b h x, due t args c = Called (w_uid c) a -> nested b -> drains t h x ->
    drains t (EPop t i s (w_uid c) args :: EDCall i s (w_uid c) a :: b ++ EDRet i s (w_uid c) None :: h) x
| dr_err : forall i s c args a b e, due t args c = Called (w_uid c) a -> nested b ->
    drains t (EPop t i s (w_uid c) args :: EDCall i s (w_uid c) a :: b ++ [EDRet i s (w_uid c) (Some e)]) (Some e)
| dr_dead : forall i s c args o, w_ref c = Some o ->
    drains t [EPop t i s (w_uid c) args] (Some EReference).

(** What was emitted on the signals [C], with the state of their owner at that time. *)
Fixpoint heard {U} (C : sid -> bool) (tr : list (event U)) : list (sid * list val * U) :=
  match tr with
  | [] => []
  | EEmit s a u :: r => if C s then (s, a, u) :: heard C r else heard C r
  | _ :: r => heard C r
  end.
(** The call neither changes the state nor emits one of the signals [C]. *)
Definition aloof {U} (C : sid -> bool) (o : op U) : Prop :=
  match o with
  | OEmit s _ _ _ | OEmitFast s _ | OResume s _ => C s = false
  | OUsr f => forall u, fst (f u) = u
  | _ => True
  end.
(** The reducer does not raise. *)
Definition reduces_ok (rd : reducer) : Prop :=
  match rd with
  | RNone => True
  | ROne f => forall q e, f q <> inr e
  | RTwo f _ => forall a b e, f a b <> inr e
  end.
(** [e] came out of an emission of one of the signals [C], by emit() without checks or resume(). *)
Definition listener_raised {U} (E : env U) (C : sid -> bool) (e : exn) : Prop :=
  exists s o w w', C s = true /\ steps E o w w' (Err e)
    /\ ((exists args, o = OEmit s args false false) \/ (exists rd, o = OResume s rd /\ reduces_ok rd)).
