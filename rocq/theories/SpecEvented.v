(** What evented dataclasses are meant to do, independently of the model's helpers. *)

From Verif Require Import Base Core Evented.

(** The signal name of field [f]: the alias given to the descriptor (by a mapping or a
    function), otherwise the one of the group class, otherwise the name of the field.
    None: the field has no signal. *)
Definition class_alias (base : gclass) (f : string) : option string :=
  match sget f (g_aliases base) with Some n => n | None => Some f end.
Definition sig_for (a : option alias_arg) (base : gclass) (f : string) : option string :=
  match a with
  | Some (AFun t) => t f
  | Some (AMap m) => match sget f m with Some n => n | None => class_alias base f end
  | None => class_alias base f
  end.
(** The keys of a dict are different. *)
Definition is_dict {A} (d : list (string * A)) : Prop := NoDup (map fst d).

(** [answers P op x y b]: the operator says whether x and y are equal. *)
Inductive answers (P : values) : eqop -> option val -> option val -> bool + exn -> Prop :=
| an_is : forall x y, answers P OpIs x y (inl (p_is P x y))
| an_op : forall op x y, op <> OpIs -> answers P op x y (p_eval P op x y).
Definition ordinary (e : exn) : Prop := forall n, e <> EBase n.

(** [equals P op after before b]: the values are equal (b) by the operator of the field; if
    that raises, arrays are compared by np.array_equal, and if that raises or they are not
    arrays, by identity.  (BaseExceptions such as KeyboardInterrupt are raised.) *)
Inductive equals (P : values) (op : eqop) (after before : option val) : bool + exn -> Prop :=
| eq_plain : forall b, answers P op after before (inl b) -> equals P op after before (inl b)
| eq_base : forall n, answers P op after before (inr (EBase n)) ->
    equals P op after before (inr (EBase n))
| eq_array : forall e b, answers P op after before (inr e) -> ordinary e ->
    p_array P after = true -> p_numpy P = true -> op <> OpArray ->
    answers P OpArray after before (inl b) -> equals P op after before (inl b)
| eq_array_base : forall e n, answers P op after before (inr e) -> ordinary e ->
    p_array P after = true -> p_numpy P = true -> op <> OpArray ->
    answers P OpArray after before (inr (EBase n)) -> equals P op after before (inr (EBase n))
| eq_identity : forall e, answers P op after before (inr e) -> ordinary e ->
    (p_array P after = true -> p_numpy P = true -> op <> OpArray ->
     exists e', ordinary e' /\ answers P OpArray after before (inr e')) ->
    equals P op after before (inl (p_is P after before)).

(** The field's value changed: it appeared, or it is not equal to what it was. *)
Definition changed (P : values) (op : eqop) (before after : option val) : Prop :=
  match before with
  | None => after <> None
  | Some _ => equals P op after before (inl false)
  end.
Definition unchanged (P : values) (op : eqop) (before after : option val) : Prop :=
  match before with
  | None => after = None
  | Some _ => equals P op after before (inl true)
  end.
(** The operator of a field. *)
Definition op_of (ops : list (string * eqop)) (name : string) : eqop :=
  match sget name ops with Some op => op | None => OpEq end.
