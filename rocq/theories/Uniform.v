(** Creation of SignalGroup classes: src/psygnal/_group.py ("GR"), __init_subclass__
    (284-345) and _is_uniform (542-550). *)

From Verif Require Import Base Core Evented.
Open Scope string_scope.

(** A signature as _is_uniform sees it: str(p.annotation) of each parameter (GR:546). *)
Definition sigstr := list string.
Definition sigstr_dec : forall a b : sigstr, {a = b} + {a <> b} := list_eq_dec string_dec.

(** [_is_uniform] (GR:542-550); [seen]: the set of signatures seen. *)
Fixpoint uniform_loop (sigs : list sigstr) (seen : list sigstr) : bool :=
  match sigs with
  | [] => true
  | v :: sigs =>
      if match seen with [] => false | _ :: _ => if in_dec sigstr_dec v seen then false else true end
      then false else uniform_loop sigs (v :: seen)
  end.
Definition is_uniform (sigs : list sigstr) : bool := uniform_loop sigs [].

(** A Signal: its identity, its _name (given, or that of the first attribute it was assigned to)
    and its signature. *)
Record csig := Csig { cs_id : nat; cs_name : string; cs_str : sigstr }.
(** What getattr(cls, k) gives: a Signal, a property without setter, anything else (simplified:
    no other data descriptors). *)
Inductive attr := ASig (s : csig) | AProp | AOther.
(** A SignalGroup class.  [c_attrs]: its attributes, for the names in dir(cls). *)
Record sgclass := Sgclass {
  c_signals : list (string * csig);
  c_aliases : list (string * option string);
  c_uniform : bool;
  c_attrs : list (string * attr)
}.
(** {**a, **b} *)
Definition merge {A} (a b : list (string * A)) : list (string * A) :=
  fold_left (fun d kv => sset (fst kv) (snd kv) d) b a.
(** Lines 300-304: the Signals among the attributes, in the order of dir(cls). *)
Fixpoint signals_in (attrs : list (string * attr)) (names : list string) : list (string * csig) :=
  match names with
  | [] => []
  | k :: names =>
      match sget k attrs with
      | Some (ASig sg) => (k, sg) :: signals_in attrs names
      | _ => signals_in attrs names
      end
  end.
(** Lines 316-320. *)
Definition conflicting (reserved : list string) (k : string) : bool :=
  mem k reserved || starts "_psygnal" k || starts "psygnal" k.
(** Lines 321-324: delattr for the reserved names that are Signals; AttributeError if the
    Signal is not in the class's own __dict__, or if there is no such attribute.  The attribute of the base reappears. *)
Fixpoint drop_conflicts (base : list (string * attr)) (own : list string)
  (names : list string) (attrs : list (string * attr)) : list (string * attr) + exn :=
  match names with
  | [] => inl attrs
  | k :: names =>
      match sget k attrs with
      | Some (ASig _) =>
          if mem k own then
            drop_conflicts base own names
              (match sget k base with
               | Some a => sset k a attrs
               | None => filter (fun kv => negb (String.eqb k (fst kv))) attrs
               end)
          else inr EAttribute
      | Some _ => drop_conflicts base own names attrs
      | None => inr EAttribute
      end
  end.
(** [__init_subclass__]: class statement with the base [base], the attributes [own] and the
    given keywords; [reserved]: dir(SignalGroup).  The warning is not modelled. *)
Definition create (reserved : list string) (base : sgclass) (own : list (string * attr))
  (strict : bool) (aliases : list (string * option string)) : sgclass + exn :=
  if existsb (starts "_psygnal") (map fst own) then inr EType
  else
    let attrs := merge (c_attrs base) own in
    let signals := merge (c_signals base) (signals_in attrs (ssort (map fst attrs))) in
    match drop_conflicts (c_attrs base) (map fst own)
            (filter (conflicting reserved) (map fst signals)) attrs with
    | inr e => inr e
    | inl attrs =>
        let u := is_uniform (map (fun kv => cs_str (snd kv)) signals) in
        if strict && negb u then inr EType
        else inl (Sgclass signals (merge (c_aliases base) aliases) u attrs)
    end.
(** SignalGroup itself; its attributes are the reserved names; [all] and [signals] are properties
    (GR:343-376). *)
Definition root (reserved : list string) : sgclass :=
  Sgclass [] [] true (map (fun k => (k, if mem k ["all"; "signals"] then AProp else AOther)) reserved).
