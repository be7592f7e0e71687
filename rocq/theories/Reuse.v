(** Connecting WeakCallbacks: src/psygnal/_signal.py ("S") and _weak_callback.py ("WC").

    connect_setattr and connect_setitem return a WeakCallback, and weak_callback() makes
    one; such an object is callable and can be connected (again) to any signal.  [Core] has
    signals whose slots were all made by connecting ordinary callables; here slots are
    objects with an identity, which can be in the list of several signals.

    Simplified: every slot is a method of one object, called with positional arguments; no
    groups, threads, blocking, queues or duplicates of connections; callbacks do nothing. *)

From Verif Require Import Base.

(** A WeakCallback: the object it refers to (weakly), the function's smallest and largest
    number of positional arguments (None: any number), _max_args, priority, the signal
    whose _try_discard is its finalizer (None: made without finalizer), and its key (equal
    keys: the same method of the same object). *)
Record wobj := Wobj {
  o_ref : oid;
  o_min : nat;
  o_max : option nat;
  o_maxargs : option nat;
  o_prio : Z;
  o_final : option sid;
  o_key : nat
}.
(** [r_next]: number of the next new WeakCallback; [r_slots]: _slots; [r_arity]: number of
    arguments of the signal; [r_alive]: which objects exist. *)
Record state := State {
  r_objs : nat -> wobj;
  r_next : nat;
  r_slots : sid -> list nat;
  r_arity : sid -> nat;
  r_alive : oid -> bool
}.
Definition set_slots (st : state) (s : sid) (l : list nat) : state :=
  State (r_objs st) (r_next st) (fun x => if Nat.eqb x s then l else r_slots st x) (r_arity st) (r_alive st).
(** [_append_slot] (S:770-792): behind the slots of the same or a higher priority. *)
Fixpoint insert (objs : nat -> wobj) (w : nat) (l : list nat) : list nat :=
  match l with
  | [] => [w]
  | x :: r => if (o_prio (objs x) <? o_prio (objs w))%Z then w :: l else x :: insert objs w r
  end.
(** What is connected: a method of an object, or an existing WeakCallback. *)
Inductive slot := Method (o : oid) (lo : nat) (hi : option nat) (key : nat) | Old (w : nat).
(** [connect(slot, max_args=m, priority=p)] (S:730-768).  Unless max_args is given, a
    method is checked against the signature of the signal: it must not need more arguments
    than the signal emits, and max_args becomes the largest number it takes (S:745-750).  The
    signature of a WeakCallback is that of its __call__ (WC:236-242), which takes any arguments
    and so fits every signal; weak_callback returns it as it is (WC:118-119), so that max_args
    and priority are not used.  None: ValueError. *)
Definition connect (s : sid) (x : slot) (m : option nat) (p : Z) (st : state) : option state :=
  match x with
  | Method o lo hi key =>
      if match m with None => r_arity st s <? lo | Some _ => false end then None
      else
        let w := r_next st in
        let objs := fun i => if Nat.eqb i w
                             then Wobj o lo hi (match m with Some m => Some m | None => hi end) p (Some s) key
                             else r_objs st i in
        Some (set_slots (State objs (S w) (r_slots st) (r_arity st) (r_alive st)) s
                (insert objs w (r_slots st s)))
  | Old w => Some (set_slots st s (insert (r_objs st) w (r_slots st s)))
  end.
(** [_try_discard] / [_remove_slot] of one WeakCallback (S:794-818): the first slot that is
    equal (has the same key). *)
Fixpoint discard (objs : nat -> wobj) (w : nat) (l : list nat) : list nat :=
  match l with
  | [] => []
  | x :: r => if Nat.eqb (o_key (objs x)) (o_key (objs w)) then r else x :: discard objs w r
  end.
(** The object [o] dies: the finalizers of the WeakCallbacks made for it run (WC:323-330). *)
Fixpoint finalize (o : oid) (n : nat) (st : state) : state :=
  match n with
  | 0 => st
  | S n =>
      let st := finalize o n st in
      if Nat.eqb (o_ref (r_objs st n)) o then
        match o_final (r_objs st n) with
        | Some s => set_slots st s (discard (r_objs st) n (r_slots st s))
        | None => st
        end
      else st
  end.
(** Finalizers of equal slots remove them in the order of the list, in whatever order they
    run, so that the order does not matter.  (A WeakCallback nobody refers to any more does
    not run its finalizer; here it does, and removes at most another slot of [o].) *)
Definition die (o : oid) (st : state) : state :=
  if negb (r_alive st o) then st
  else
  let st := State (r_objs st) (r_next st) (r_slots st) (r_arity st) (fun x => negb (Nat.eqb x o) && r_alive st x) in
  finalize o (r_next st) st.
(** [cb(args)] of a slot (WC:446-454): ReferenceError if the object is gone, TypeError if
    the function does not take as many arguments. *)
Definition cb (st : state) (nargs : nat) (w : nat) : option exn :=
  let x := r_objs st w in
  if negb (r_alive st (o_ref x)) then Some EReference
  else
    let n := match o_maxargs x with Some m => Nat.min m nargs | None => nargs end in
    if n <? o_min x then Some EType
    else match o_max x with Some h => if h <? n then Some EType else None | None => None end.
(** [emit(args...)] with as many arguments as the signal declares: the slots that are
    called, and the exception of the last one (S:1305-1308). *)
Fixpoint emit_slots (st : state) (nargs : nat) (l : list nat) : list nat * option exn :=
  match l with
  | [] => ([], None)
  | w :: l =>
      match cb st nargs w with
      | Some e => ([w], Some e)
      | None => let (called, e) := emit_slots st nargs l in (w :: called, e)
      end
  end.
Definition emit (s : sid) (st : state) : list nat * option exn :=
  emit_slots st (r_arity st s) (r_slots st s).

(** Histories of a program. *)
Inductive event :=
| Connect (s : sid) (x : slot) (m : option nat) (p : Z)
| Disconnect (s : sid) (w : nat)
| Die (o : oid).
Definition step (st : state) (e : event) : state :=
  match e with
  | Connect s x m p => match connect s x m p st with Some st' => st' | None => st end
  (* [disconnect(w)] (S:1097-1132): the first slot that is equal; none: nothing happens. *)
  | Disconnect s w => set_slots st s (discard (r_objs st) w (r_slots st s))
  | Die o => die o st
  end.
Definition run (l : list event) (st : state) : state := fold_left step l st.
Definition start (arity : sid -> nat) : state :=
  State (fun _ => Wobj 0 0 None None 0 None 0) 0 (fun _ => []) arity (fun _ => true).
