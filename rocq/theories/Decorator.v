(** The decorator evented and the queries is_evented, get_evented_namespace: src/psygnal/_evented_decorator.py ("DE") 41-140,
    src/psygnal/_group_descriptor.py ("GD") SignalGroupDescriptor.__set_name__ (555-560), is_evented (252-257), get_evented_namespace (260-281).

    Classes and their attributes as Python has them; [mro k]: k and its bases, in the order of attribute lookup.  Simplified:
    class attributes can be assigned (no metaclass refuses it); the __annotations__ of a class are its own (Python 3.10 and later; before that, a class without annotations shows those of its base); the options given to evented, which are passed on to the descriptor (Evented.v, EqOps.v, Descr.v); the instance
    attributes of objects (an object has the attributes of its class, and none called _psygnal_group_ itself). *)

From Verif Require Import Base Core Evented Uniform.

(** PSYGNAL_GROUP_NAME (GD:45) *)
Definition flag : string := "_psygnal_group_".
(** An attribute of a class: a SignalGroupDescriptor, the name stored under [flag], or anything else. *)
Inductive attr := ADescr (d : nat) | AFlag (n : string) | AAny (v : val).
(** A class: its own attributes, the names in its own __annotations__, and whether it is frozen. *)
Record pycls := Pycls { pc_own : list (string * attr); pc_anns : list string; pc_frozen : bool }.
(** All classes, and the attribute _name of the descriptors. *)
Record pystate := Pystate { py_cls : nat -> pycls; py_name : nat -> option string }.
Definition own (s : pystate) (c : nat) : list (string * attr) := pc_own (py_cls s c).
Definition set_cls (c : nat) (x : pycls) (s : pystate) : pystate :=
  Pystate (fun k => if Nat.eqb k c then x else py_cls s k) (py_name s).
(** setattr(c, n, v) *)
Definition set_attr (c : nat) (n : string) (v : attr) (s : pystate) : pystate :=
  set_cls c (Pycls (sset n v (own s c)) (pc_anns (py_cls s c)) (pc_frozen (py_cls s c))) s.
(** descriptor.__set_name__(owner, name) (GD:555-560) *)
Definition set_name (d c : nat) (n : string) (s : pystate) : pystate :=
  set_attr c flag (AFlag n) (Pystate (py_cls s) (fun e => if Nat.eqb e d then Some n else py_name s e)).

Inductive stmt :=
| SClass (c : nat) (own : list (string * attr)) (anns : list string) (frozen : bool)   (* class statement *)
| SEvented (c d : nat) (ns : string)                                                  (* evented(events_namespace=ns)(c); d: the new descriptor *)
| SAssign (c : nat) (n : string) (v : attr).                                          (* c.n = v *)

(** type.__new__ calls __set_name__ of the attributes in order. *)
Fixpoint name_all (c : nat) (l : list (string * attr)) (s : pystate) : pystate :=
  match l with
  | [] => s
  | (n, ADescr d) :: l => name_all c l (set_name d c n s)
  | _ :: l => name_all c l s
  end.
(** _decorate (DE:123-138) *)
Definition decorate (c d : nat) (ns : string) (s : pystate) : pystate + exn :=
  if existsb (starts "_psygnal") (pc_anns (py_cls s c)) then inr EType
  else inl (set_attr c ns (ADescr d) (set_name d c ns s)).
Definition stmt_step (a : stmt) (s : pystate) : pystate + exn :=
  match a with
  | SClass c o an fr => inl (name_all c o (set_cls c (Pycls o an fr) s))
  | SEvented c d ns => decorate c d ns s
  | SAssign c n v => inl (set_attr c n v s)
  end.
(** The statements of a program; those that raise (and are caught) change nothing. *)
Fixpoint stmts (l : list stmt) (s : pystate) : pystate :=
  match l with
  | [] => s
  | a :: l => stmts l (match stmt_step a s with inl s => s | inr _ => s end)
  end.

Section Mro.
Variable mro : nat -> list nat.
(** getattr(k, n) for a class k *)
Fixpoint find_in (l : list nat) (n : string) (s : pystate) : option attr :=
  match l with
  | [] => None
  | c :: l => match sget n (own s c) with Some v => Some v | None => find_in l n s end
  end.
Definition get (k : nat) (n : string) (s : pystate) : option attr := find_in (mro k) n s.
(** GD:252-257 for a class (the other attribute is one of functions), GD:260-281 *)
Definition is_evented (k : nat) (s : pystate) : bool := match get k flag s with Some _ => true | None => false end.
Definition get_evented_namespace (k : nat) (s : pystate) : option attr := get k flag s.
End Mro.
