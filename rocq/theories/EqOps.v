(** The equality operators of the fields of evented classes: src/psygnal/_group_descriptor.py
    ("GD").  [Evented] has the comparison with one table of operators; here are the tables
    of all classes, and who writes to them. *)

From Verif Require Import Base Core Evented.

(** Classes and dicts are numbers.  [mro c]: c.__mro__ (without object), starting with c. *)
Definition cls := nat.
Record heap := Heap {
  h_attr : cls -> option nat;                       (* the class's own __eq_operators__: a dict *)
  h_dict : nat -> list (string * eqop);             (* contents of those dicts *)
  h_global : cls -> list (string * eqop)            (* _EQ_OPERATORS (GD:43); [] if not there *)
}.
Section Tables.
Variable mro : cls -> list cls.

(** getattr(cls, "__eq_operators__"). *)
Fixpoint lookup (h : heap) (l : list cls) : option nat :=
  match l with
  | [] => None
  | c :: l => match h_attr h c with Some d => Some d | None => lookup h l end
  end.
(** [_get_eq_operator_map] (GD:50-57): the table of a class, ... *)
Definition table (h : heap) (c : cls) : list (string * eqop) :=
  match lookup h (mro c) with Some d => h_dict h d | None => h_global h c end.
(** ... and the state after that dict was changed. *)
Definition set_table (h : heap) (c : cls) (t : list (string * eqop)) : heap :=
  match lookup h (mro c) with
  | Some d => Heap (h_attr h) (fun x => if Nat.eqb x d then t else h_dict h x) (h_global h)
  | None => Heap (h_attr h) (h_dict h) (fun x => if Nat.eqb x c then t else h_global h x)
  end.
(** The part of [_build_dataclass_signal_group] about operators (GD:180-181, 198-204):
    [given]: the operators given to the descriptor; [fields]: names of the fields with what
    _pick_equality_operator (GD:122-131) says about their types.  Simplified: the operators
    are callable. *)
Fixpoint fill (given : list (string * eqop)) (fields : list (string * eqop)) (t : list (string * eqop))
  : list (string * eqop) :=
  match fields with
  | [] => t
  | (name, default) :: rest =>
      fill given rest
        (sset name (match sget name given with Some op => op | None => default end) t)
  end.
(** What happens: the group of a class is built; two values of a field are compared
    (_check_field_equality, GD:60-119); a class statement sets __eq_operators__ to a new
    dict (also in the metaclass of EventedModel, _evented_model.py:223, 247). *)
Inductive action :=
| Build (c : cls) (given fields : list (string * eqop))
| Compare (c : cls) (name : string) (before after : option val)
| Declare (c : cls) (d : nat) (t : list (string * eqop)).
Definition act (P : values) (a : action) (h : heap) : heap * (bool + exn) :=
  match a with
  | Build c given fields => (set_table h c (fill given fields (table h c)), inl true)
  | Compare c name before after =>
      let (t, r) := check_equal P name before after (table h c) in (set_table h c t, r)
  | Declare c d t =>
      (Heap (fun x => if Nat.eqb x c then Some d else h_attr h x)
            (fun x => if Nat.eqb x d then t else h_dict h x) (h_global h), inl true)
  end.
Fixpoint history (P : values) (l : list action) (h : heap) : heap :=
  match l with [] => h | a :: l => history P l (fst (act P a h)) end.
End Tables.
Definition start : heap := Heap (fun _ => None) (fun _ => []) (fun _ => []).
