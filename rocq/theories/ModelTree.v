(** EventedModel.update and EventedModel.reset on models whose fields are models: src/psygnal/_evented_model.py
    ("EM": _defaults 489-491, update 518-545, reset 547-555) with _get_defaults of the pydantic 2 branch (109-123).

    The content of a model is a tree: simplified, no model is in two places.  Assignments store
    the value (no validation: validate_assignment is False by default); the events they emit are
    in EModel.v.  All models are EventedModels; no property setters. *)

From Verif Require Import Base Core Evented.
Open Scope string_scope.
Open Scope list_scope.

(** A value: a value without models in it, pydantic's PydanticUndefined, a list, a dict, a model (its class and the
    values of its fields). *)
Inductive tv :=
| TV (v : val) | TUndef | TL (l : list tv) | TD (d : list (string * tv)) | TM (c : nat) (fs : list (string * tv)).
(** FieldInfo: default, default_factory or neither; frozen; the class, if the annotation is a class of models. *)
Inductive dflt := DVal (t : tv) | DFactory (t : tv) | DRequired.
Record fdesc := Fdesc { fd_default : dflt; fd_frozen : bool; fd_model : option nat }.
Definition is_model (t : tv) : bool := match t with TM _ _ => true | _ => false end.

(** model_dump(): pydantic makes dicts of all models in the value. *)
Fixpoint dump (t : tv) : tv :=
  match t with
  | TM _ fs => TD ((fix go l := match l with [] => [] | (k, x) :: l => (k, dump x) :: go l end) fs)
  | TD d => TD ((fix go l := match l with [] => [] | (k, x) :: l => (k, dump x) :: go l end) d)
  | TL l => TL ((fix go l := match l with [] => [] | x :: l => dump x :: go l end) l)
  | t => t
  end.

Section Tree.
(** model_fields and model_config["frozen"] of each class. *)
Variable C : nat -> list (string * fdesc).
Variable Cf : nat -> bool.

(** FieldInfo.get_default(): a default_factory is not called, the result is then None. *)
Definition get_default (f : fdesc) : tv :=
  match fd_default f with DVal t => t | DFactory _ => TV VNone | DRequired => TUndef end.
(** [_get_defaults] (EM:109-123); None: it does not end. *)
Fixpoint defaults_loop (rec : nat -> option (list (string * tv))) (l : list (string * fdesc)) : option (list (string * tv)) :=
  match l with
  | [] => Some []
  | (k, f) :: l =>
      match match get_default f, fd_model f with
            | TV VNone, Some c' => option_map TD (rec c')
            | d, _ => Some d
            end, defaults_loop rec l with
      | Some d, Some r => Some ((k, d) :: r)
      | _, _ => None
      end
  end.
Fixpoint defaults (n : nat) (c : nat) : option (list (string * tv)) :=
  match n with 0 => None | S n => defaults_loop (defaults n) (C c) end.
(** self.name = value: frozen models and fields raise ValidationError, a ValueError. *)
Definition assign (c : nat) (k : string) (x : tv) (fs : list (string * tv)) : list (string * tv) + exn :=
  match sget k (C c) with
  | None => inr EValue
  | Some f => if Cf c || fd_frozen f then inr EValue else inl (sset k x fs)
  end.
(** [reset] (EM:547-555).  Result: the model afterwards and the exception, if any. *)
Fixpoint reset_loop (rec : tv -> option (tv * option exn)) (c : nat) (l : list (string * tv)) (fs : list (string * tv))
  : option (tv * option exn) :=
  match l with
  | [] => Some (TM c fs, None)
  | (k, d) :: l =>
      if is_model d then
        match sget k fs with
        | Some (TM c' fs') =>
            match rec (TM c' fs') with
            | None => None
            | Some (x, None) => reset_loop rec c l (sset k x fs)
            | Some (x, Some e) => Some (TM c (sset k x fs), Some e)
            end
        | _ => Some (TM c fs, Some EAttribute)               (* no such field, or no method reset *)
        end
      else if negb (Cf c) && negb match sget k (C c) with Some f => fd_frozen f | None => false end
      then match assign c k d fs with
           | inl fs => reset_loop rec c l fs
           | inr e => Some (TM c fs, Some e)
           end
      else reset_loop rec c l fs
  end.
Fixpoint reset (n : nat) (t : tv) : option (tv * option exn) :=
  match n with
  | 0 => None
  | S n =>
      match t with
      | TM c fs => match defaults n c with None => None | Some ds => reset_loop (reset n) c ds fs end
      | t => Some (t, Some EAttribute)
      end
  end.
(** [update] (EM:518-545) *)
Fixpoint update_loop (rec : tv -> tv -> option (tv * option exn)) (recurse : bool) (c : nat) (l : list (string * tv))
  (fs : list (string * tv)) : option (tv * option exn) :=
  match l with
  | [] => Some (TM c fs, None)
  | (k, v) :: l =>
      match sget k fs with
      | None => Some (TM c fs, Some EAttribute)
      | Some cur =>
          if is_model cur && recurse then
            match rec cur v with
            | None => None
            | Some (x, None) => update_loop rec recurse c l (sset k x fs)
            | Some (x, Some e) => Some (TM c (sset k x fs), Some e)
            end
          else match assign c k v fs with
               | inl fs => update_loop rec recurse c l fs
               | inr e => Some (TM c fs, Some e)
               end
      end
  end.
Fixpoint update (n : nat) (recurse : bool) (t values : tv) : option (tv * option exn) :=
  match n with
  | 0 => None
  | S n =>
      match t with
      | TM c fs =>
          match (match values with TM _ _ => dump values | v => v end) with
          | TD vs => update_loop (update n recurse) recurse c vs fs
          | _ => Some (t, Some EType)
          end
      | t => Some (t, Some EAttribute)
      end
  end.
End Tree.
