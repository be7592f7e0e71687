(** Access to signals and signal groups as attributes of objects: Signal.__get__ in
    src/psygnal/_signal.py ("SI") and SignalGroupDescriptor.__get__ in
    src/psygnal/_group_descriptor.py ("GD"), with the caches they keep and with the lifetime of
    the objects.  Objects are numbered by creation; id(obj) is [o_addr], which is unique only among
    live objects.  SignalInstances and SignalGroups ("things") are numbered by creation, too.

    Not modelled: access on the class, which gives the descriptor; assigning to or deleting
    the attribute by hand. *)

From Coq Require Import List Arith Bool Lia.
Import ListNotations.

(** What setattr(obj, name, thing) does for the objects of a class: store it in __dict__;
    raise AttributeError, as for slotted and frozen classes; raise something else. *)
Inductive setting := Stores | Refuses | Fails.
(** A class attribute: a Signal or a SignalGroupDescriptor.  [d]: its identity; [n]: its _name,
    given with Signal(name=…) or else set by __set_name__ (SI:328-331, GD:555-560); [on]: cache_on_instance. *)
Inductive desc := DSig (d n : nat) | DGrp (d n : nat) (on : bool).
Definition d_id (x : desc) : nat := match x with DSig d _ | DGrp d _ _ => d end.
Definition d_name (x : desc) : nat := match x with DSig _ n | DGrp _ n _ => n end.
(** [c_weak]: its objects can be weakly referenced. *)
Record class := Class { c_attr : nat -> option desc; c_set : setting; c_weak : bool }.

(** The dictionary of the caches: _signal_instance_cache of one Signal (SI:310), or the
    _instance_map that all SignalGroupDescriptors share (GD:513). *)
Definition key := option nat.
Definition key_eqb (a b : key) : bool :=
  match a, b with Some a, Some b => Nat.eqb a b | None, None => true | _, _ => false end.
Definition key_of (x : desc) : key := match x with DSig d _ => Some d | DGrp _ _ _ => None end.

(** [o_dict]: the entries of __dict__ that concern us.  [o_fin]: the caches from which
    weakref.finalize(obj, cache.pop, id(obj), None) will remove the entry when the object dies. *)
Record obj := Obj { o_class : nat; o_addr : nat; o_alive : bool; o_dict : list (nat * nat); o_fin : list key }.
Inductive event := Got (o a i : nat).
(** [st_made]: for each thing the object and the descriptor it was made for. *)
Record state := State {
  st_objs : list obj; st_cache : list ((key * nat) * nat); st_made : list (nat * nat); st_log : list event }.

Fixpoint find (a : nat) (l : list (nat * nat)) : option nat :=
  match l with [] => None | (b, i) :: l => if Nat.eqb b a then Some i else find a l end.
Definition is_key (k : key) (x : nat) (e : (key * nat) * nat) : bool := key_eqb (fst (fst e)) k && Nat.eqb (snd (fst e)) x.
Fixpoint cached (k : key) (x : nat) (l : list ((key * nat) * nat)) : option nat :=
  match l with [] => None | e :: l => if is_key k x e then Some (snd e) else cached k x l end.

Fixpoint upd {A} (n : nat) (f : A -> A) (l : list A) : list A :=
  match l, n with
  | [], _ => []
  | x :: l, 0 => f x :: l
  | x :: l, S n => x :: upd n f l
  end.
Definition set_dict (a i : nat) (x : obj) : obj := Obj (o_class x) (o_addr x) (o_alive x) ((a, i) :: o_dict x) (o_fin x).
Definition add_fin (k : key) (x : obj) : obj := Obj (o_class x) (o_addr x) (o_alive x) (o_dict x) (k :: o_fin x).
Definition kill (x : obj) : obj := Obj (o_class x) (o_addr x) false (o_dict x) (o_fin x).

Definition say (e : event) (s : state) : state := State (st_objs s) (st_cache s) (st_made s) (st_log s ++ [e]).
Definition make (o d : nat) (s : state) : state := State (st_objs s) (st_cache s) (st_made s ++ [(o, d)]) (st_log s).
(** setattr that succeeds. *)
Definition store (o n i : nat) (s : state) : state :=
  State (upd o (set_dict n i) (st_objs s)) (st_cache s) (st_made s) (st_log s).
(** cache[id(obj)] = thing; with suppress(TypeError): weakref.finalize(obj, cache.pop, id(obj), None)
    (SI:390-393, GD:607-621). *)
Definition remember (k : key) (o x i : nat) (weak : bool) (s : state) : state :=
  State (if weak then upd o (add_fin k) (st_objs s) else st_objs s) (((k, x), i) :: st_cache s) (st_made s) (st_log s).

Section Descr.
Variable K : nat -> class.

(** getattr(obj, a).  Both descriptors have no __set__, so __dict__ comes first. *)
Definition get (o a : nat) (s : state) : option state :=
  match nth_error (st_objs s) o with
  | Some x =>
      if o_alive x then
        match find a (o_dict x) with
        | Some i => Some (say (Got o a i) s)
        | None =>
            let c := K (o_class x) in
            match c_attr c a with
            | None => Some s                                              (* AttributeError *)
            | Some (DSig d n) =>                                          (* Signal.__get__, SI:363-380 *)
                match cached (Some d) (o_addr x) (st_cache s) with
                | Some i => Some (say (Got o a i) s)
                | None =>
                    let i := length (st_made s) in
                    let s := make o d s in
                    match c_set c with
                    | Stores => Some (say (Got o a i) (store o n i s))
                    | Refuses => Some (say (Got o a i) (remember (Some d) o (o_addr x) i (c_weak c) s))
                    | Fails => Some s                                     (* the exception propagates *)
                    end
                end
            | Some (DGrp d n on) =>                                       (* SignalGroupDescriptor.__get__, GD:595-621 *)
                match cached None (o_addr x) (st_cache s) with
                | Some i => Some (say (Got o a i) s)
                | None =>
                    let i := length (st_made s) in
                    let s := remember None o (o_addr x) i (c_weak c) (make o d s) in
                    match on, c_set c with
                    | true, Stores => Some (say (Got o a i) (store o n i s))
                    | _, _ => Some (say (Got o a i) s)
                    end
                end
            end
        end
      else None
  | None => None
  end.

(** Does a thing in one of the caches refer to the object strongly?  A SignalInstance refers to its
    object weakly if possible, else strongly (SI:570-580); a SignalGroup through its relay. *)
Definition strong (s : state) (o : nat) (i : nat) : bool :=
  match nth_error (st_made s) i, nth_error (st_objs s) o with
  | Some (o', _), Some x => Nat.eqb o' o && negb (c_weak (K (o_class x)))
  | _, _ => false
  end.
Definition held (s : state) (o : nat) : bool := existsb (fun e => strong s o (snd e)) (st_cache s).
(** The object dies and its finalizers run.  It can die only if the caches do not hold it; whether
    the program holds it is not modelled, so it may die earlier than in reality. *)
Definition pop (k : key) (x : nat) (l : list ((key * nat) * nat)) := filter (fun e => negb (is_key k x e)) l.
Definition die (o : nat) (s : state) : option state :=
  match nth_error (st_objs s) o with
  | Some x =>
      if o_alive x && negb (held s o)
      then Some (State (upd o kill (st_objs s)) (fold_left (fun l k => pop k (o_addr x) l) (o_fin x) (st_cache s))
                       (st_made s) (st_log s))
      else None
  | None => None
  end.
(** An address is free if no live object is there. *)
Definition free (x : nat) (s : state) : bool := forallb (fun y => negb (o_alive y && Nat.eqb (o_addr y) x)) (st_objs s).
Definition create (c x : nat) (d : list (nat * nat)) (s : state) : option state :=
  if free x s then Some (State (st_objs s ++ [Obj c x true d []]) (st_cache s) (st_made s) (st_log s)) else None.
(** copy.copy(obj): the same __dict__. *)
Definition copy (o x : nat) (s : state) : option state :=
  match nth_error (st_objs s) o with
  | Some y => if o_alive y then create (o_class y) x (o_dict y) s else None
  | None => None
  end.
(** copy.deepcopy(obj): the SignalInstances and SignalGroups in __dict__ are copied, too
    (SI:1465-1507, SignalGroup.__deepcopy__).  Each is in one entry of __dict__ only. *)
Definition deepcopy (o x : nat) (s : state) : option state :=
  match nth_error (st_objs s) o with
  | Some y =>
      if o_alive y then
        let o' := length (st_objs s) in
        let new := map (fun e => (o', match nth_error (st_made s) (snd e) with Some (_, d) => d | None => 0 end)) (o_dict y) in
        match create (o_class y) x (combine (map fst (o_dict y)) (seq (length (st_made s)) (length (o_dict y)))) s with
        | Some s => Some (State (st_objs s) (st_cache s) (st_made s ++ new) (st_log s))
        | None => None
        end
      else None
  | None => None
  end.

(** What a program does. *)
Inductive op := New (c x : nat) | Get (o a : nat) | Die (o : nat) | Copy (o x : nat) | Deepcopy (o x : nat).
Definition do (p : op) (s : state) : option state :=
  match p with
  | New c x => create c x [] s
  | Get o a => get o a s
  | Die o => die o s
  | Copy o x => copy o x s
  | Deepcopy o x => deepcopy o x s
  end.
Fixpoint run (l : list op) (s : state) : option state :=
  match l with [] => Some s | p :: l => match do p s with Some s => run l s | None => None end end.
Definition init : state := State [] [] [] [].
End Descr.
