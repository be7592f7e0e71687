(** Fields of evented dataclasses bound to each other by connect_setattr: src/psygnal/_group_descriptor.py ("GD") 134-146
    (_DataclassFieldSignalInstance.connect_setattr), 306-319 (_changes_emitted), 387-404 (_setattr_and_emit_), 60-104
    (_check_field_equality), src/psygnal/_signal.py 892-905 (connect_setattr), src/psygnal/_weak_callback.py 533-539 (WeakSetattr.cb).

    A field is one attribute of one object; the objects are alive, have the attributes and store what is assigned to them.
    Simplified: the equality operators do not fail; the signals are neither blocked nor paused; connections have the same priority; other
    listeners do not assign to the bound fields and do not raise; the recursion limits are not modelled (an assignment that does not end is one that needs more
    than any number of nested calls). *)

From Coq Require Import List Bool Arith.
Import ListNotations.

Section Bind.
Context {V : Type}.
Variable vtuple : list V -> V.                     (* a tuple as a value *)
Variable equal : nat -> V -> V -> bool.            (* the equality operator of each field: are_equal(after, before) *)
Variable watched : nat -> bool.                    (* the field's signal has other listeners *)

(** The bindings of each field's signal: the field to be set, and maxargs. *)
Definition graph := nat -> list (nat * option nat).
(** The default of maxargs for signals of fields (GD:139) *)
Definition default_maxargs : option nat := Some 1.
(** signal of [f] .connect_setattr(obj, attr), [g]: the attribute (_signal.py:892-905; the slot is appended) *)
Definition bind (f g : nat) (b : graph) : graph :=
  fun x => if Nat.eqb x f then b x ++ [(g, default_maxargs)] else b x.
Fixpoint bind_all (l : list (nat * nat)) (b : graph) : graph :=
  match l with [] => b | (f, g) :: l => bind_all l (bind f g b) end.

(** What is stored, and what the signals emitted: field, new and old value. *)
Record bstate := Bstate { stored : nat -> V; emitted : list (nat * V * V) }.
Definition store (f : nat) (v : V) (s : bstate) : bstate := Bstate (fun x => if Nat.eqb x f then v else stored s x) (emitted s).
Definition log (f : nat) (new old : V) (s : bstate) : bstate := Bstate (stored s) (emitted s ++ [(f, new, old)]).

(** WeakSetattr.cb (_weak_callback.py:537-539): what it assigns *)
Definition assigned (m : option nat) (args : list V) : V :=
  match match m with Some k => firstn k args | None => args end with [x] => x | l => vtuple l end.
(** The slots of an emission are called in order. *)
Fixpoint each (k : nat * option nat -> bstate -> option bstate) (l : list (nat * option nat)) (s : bstate) : option bstate :=
  match l with
  | [] => Some s
  | t :: l => match k t s with Some s => each k l s | None => None end
  end.
(** field = v (GD:387-404, 312-319); [n]: how many assignments may be nested *)
Fixpoint assign (b : graph) (n f : nat) (v : V) (s : bstate) : option bstate :=
  match n with
  | 0 => None
  | S n =>
      let prev := stored s f in
      let s := store f v s in
      if (match b f with [] => false | _ => true end || watched f) && negb (equal f (stored s f) prev) then
        let new := stored s f in
        each (fun t => assign b n (fst t) (assigned (snd t) [new; prev])) (b f) (log f new prev s)
      else Some s
  end.
End Bind.
Arguments bstate : clear implicits.
