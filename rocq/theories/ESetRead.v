(** Model of the methods of psygnal/containers/_evented_set.py (ES below) that do not change the
    set, and of the operators and comparisons inherited from collections.abc.Set (CPython,
    _collections_abc.py:571-700, CA below).

    They are client programs of the signal model that only look at the data; a new set is
    returned as the tuple of its elements in order.  (Its constructor, and the update() of
    union(), emit events of the new set, to which nobody can be connected: ES:269-271, 199-204.)
    [order]: the order in which the elements of a builtin set are iterated over.  Arguments are
    iterables of hashable values without side effects. *)

From Verif Require Import Base Core Prog PySet ESet.

(** An argument: an iterable that can be iterated over again (not a Set), one that cannot (an
    iterator or generator), a Set, or the set itself. *)
Inductive iarg := IList (l : list val) | IIter (l : list val) | ISet (l : list val) | ISelf.

Section Reading.
Variable same : val -> val -> bool.
Variable order : list val -> list val.

(** for x in a, the first time. *)
Definition first_pass (a : iarg) (u : list val) : list val :=
  match a with IList l | IIter l | ISet l => l | ISelf => order u end.
(** x in a, after [a] has been iterated over: an iterator has no elements any more. *)
Definition later_in (x : val) (a : iarg) (u : list val) : bool :=
  match a with IList l | ISet l => mem same x l | IIter _ => false | ISelf => mem same x u end.
(** self.__class__(iterable) (ES:34-36, 204-206) *)
Definition new_set (l : list val) : val := VTuple (dedup same l).
Definition reading (f : list val -> val + exn) : prog sdata :=
  Look (fun u => match f u with inl v => Ret v | inr e => Throw e end).

(** ES:113-117 *)
Definition rd_copy : prog sdata := reading (fun u => inl (new_set (order u))).
(** ES:119-125 *)
Definition rd_difference (s : list iarg) : prog sdata := reading (fun u =>
  let other := dedup same (flat_map (fun a => first_pass a u) s) in
  inl (new_set (filter (fun i => negb (mem same i other)) (order u)))).
(** ES:132-138; set.intersection() without argument raises TypeError. *)
Definition rd_intersection (s : list iarg) : prog sdata := reading (fun u =>
  match s with
  | [] => inr EType
  | _ => let other i := forallb (fun a => mem same i (dedup same (first_pass a u))) s in
         inl (new_set (filter other (order u)))
  end).
(** ES:147-153 *)
Definition rd_issubset (a : iarg) : prog sdata := reading (fun u =>
  inl (VBool (forallb (fun i => mem same i (dedup same (first_pass a u))) u))).
Definition rd_issuperset (a : iarg) : prog sdata := reading (fun u =>
  inl (VBool (forallb (fun i => mem same i u) (first_pass a u)))).
(** ES:155-161; the two generators are chained: the second one looks into the argument after the
    first one has gone through it. *)
Definition rd_symmetric_difference (a : iarg) : prog sdata := reading (fun u =>
  inl (new_set (filter (fun i => negb (mem same i u)) (first_pass a u)
                ++ filter (fun i => negb (later_in i a u)) (order u)))).
(** ES:172-180 *)
Definition rd_union (s : list iarg) : prog sdata := reading (fun u =>
  inl (VTuple (fold_left (fun x i => sadd same i x) (flat_map (fun a => first_pass a u) s) (dedup same (order u))))).

(** CA:630-634, 644-649 *)
Definition rd_and (a : iarg) : prog sdata := reading (fun u =>
  inl (new_set (filter (fun i => mem same i u) (first_pass a u)))).
Definition rd_or (a : iarg) : prog sdata := reading (fun u => inl (new_set (order u ++ first_pass a u))).
(** CA:653-668: an argument that is not a Set is made one first. *)
Definition as_set (a : iarg) (u : list val) : list val :=
  match a with IList l | IIter l => dedup same l | ISet l => l | ISelf => u end.
Definition minus (l m : list val) : list val := dedup same (filter (fun i => negb (mem same i m)) l).
Definition rd_sub (a : iarg) : prog sdata := reading (fun u => inl (VTuple (minus (order u) (as_set a u)))).
Definition rd_rsub (a : iarg) : prog sdata := reading (fun u => inl (VTuple (minus (as_set a u) u))).
(** CA:670-675: (self - other) | (other - self) *)
Definition rd_xor (a : iarg) : prog sdata := reading (fun u =>
  inl (new_set (order (minus (order u) (as_set a u)) ++ order (minus (as_set a u) u)))).

(** CA:582-619.  Anything but a Set: NotImplemented by both operands, hence TypeError (False for
    ==). *)
Definition set_of (a : iarg) (u : list val) : option (list val) :=
  match a with ISet l => Some l | ISelf => Some u | _ => None end.
Definition le (u l : list val) : bool := Nat.leb (List.length u) (List.length l) && forallb (fun i => mem same i l) u.
Definition ge (u l : list val) : bool := Nat.leb (List.length l) (List.length u) && forallb (fun i => mem same i u) l.
Definition compare_with (f : list val -> list val -> bool) (a : iarg) : prog sdata := reading (fun u =>
  match set_of a u with Some l => inl (VBool (f u l)) | None => inr EType end).
Definition rd_le := compare_with le.
Definition rd_lt := compare_with (fun u l => Nat.ltb (List.length u) (List.length l) && le u l).
Definition rd_ge := compare_with ge.
Definition rd_gt := compare_with (fun u l => Nat.ltb (List.length l) (List.length u) && ge u l).
Definition rd_eq (a : iarg) : prog sdata := reading (fun u =>
  match set_of a u with
  | Some l => inl (VBool (Nat.eqb (List.length u) (List.length l) && le u l))
  | None => inl (VBool false)
  end).
(** CA:636-641 *)
Definition rd_isdisjoint (a : iarg) : prog sdata := reading (fun u =>
  inl (VBool (forallb (fun i => negb (mem same i u)) (first_pass a u)))).
(** ES:69-78 *)
Definition rd_contains (x : val) : prog sdata := reading (fun u => inl (VBool (mem same x u))).
Definition rd_len : prog sdata := reading (fun u => inl (VInt (Z.of_nat (List.length u)))).
End Reading.
