(** [==] of EventedModels: src/psygnal/_evented_model.py ("EM"), __eq__ 498-516, with the tables __eq_operators__ of the
    classes (EM:223, 246-247) and [_check_field_equality] (Evented.v).

    Simplified: getattr gives a value or AttributeError (fields are no properties); == of the values
    (fields that are models included) is [p_eval] of [values], which does not change the tables. *)

From Verif Require Import Base Core Evented.

(** An EventedModel: its class and its attributes. *)
Record mobj := Mobj { mo_class : nat; mo_attr : string -> option val }.
(** The tables of all classes; the keys are the names of the fields. *)
Definition tables : Type := nat -> list (string * eqop).
Definition set_table (c : nat) (t : list (string * eqop)) (T : tables) : tables :=
  fun d => if Nat.eqb d c then t else T d.
(** The other operand: a model, a dict with string keys, or something else. *)
Inductive moper := PModel (m : mobj) | PDict (d : list (string * val)) | POther (v : val).

Section Eq.
Variable P : values.
(** issubclass(c, d) and c is not d *)
Variable below : nat -> nat -> bool.
(** model_dump() *)
Variable dump : mobj -> list (string * val).
(** [dict == other] for other objects: their reflected __eq__, as bool *)
Variable foreign : list (string * val) -> val -> bool + exn.

(** Lines 509-516 *)
Fixpoint eq_fields (names : list string) (a b : mobj) (ops : list (string * eqop)) : list (string * eqop) * (bool + exn) :=
  match names with
  | [] => (ops, inl true)
  | n :: names =>
      match mo_attr a n, mo_attr b n with
      | Some x, Some y =>
          match check_equal P n (Some x) (Some y) ops with
          | (ops, inl true) => eq_fields names a b ops
          | (ops, r) => (ops, r)
          end
      | _, _ => (ops, inl false)
      end
  end.
(** dict == dict *)
Fixpoint values_eq (d e : list (string * val)) : bool + exn :=
  match d with
  | [] => inl true
  | (k, x) :: d =>
      match sget k e with
      | None => inl false
      | Some y =>
          if p_is P (Some x) (Some y) then values_eq d e
          else match p_eval P OpEq (Some x) (Some y) with
               | inl true => values_eq d e
               | r => r
               end
      end
  end.
Definition dicts_eq (d e : list (string * val)) : bool + exn :=
  if Nat.eqb (List.length d) (List.length e) then values_eq d e else inl false.
(** [__eq__] *)
Definition model_eq (self : mobj) (other : moper) (T : tables) : tables * (bool + exn) :=
  match other with
  | PDict d => (T, dicts_eq (dump self) d)
  | POther v => (T, foreign (dump self) v)
  | PModel b =>
      let c := mo_class self in
      let (ops, r) := eq_fields (map fst (T c)) self b (T c) in
      (set_table c ops T, r)
  end.
(** [a == b] of two models: Python asks b first if its class is derived from that of a. *)
Definition equal_models (a b : mobj) (T : tables) : tables * (bool + exn) :=
  if below (mo_class b) (mo_class a) then model_eq b (PModel a) T else model_eq a (PModel b) T.
End Eq.
