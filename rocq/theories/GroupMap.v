(** SignalGroup objects as mappings and their attributes: src/psygnal/_group.py ("GR"),
    __init__ (259-282), __len__, __getitem__, __iter__, __contains__ (386-418), and
    Signal.__get__ in src/psygnal/_signal.py ("SI") on a group.  Classes: Uniform.v.

    Not modelled: assignment to attributes of a group by hand, properties with setters. *)

From Verif Require Import Base Core Evented Uniform.
Open Scope string_scope.

(** [gr_inst]: _psygnal_instances; SignalInstances are numbered by creation ([gr_made]: for each
    of them the Signal it was made from).  [gr_dict]: the entries of the group's __dict__ (except
    _psygnal_instances and _psygnal_relay); [gr_cache]: for each Signal,
    sig._signal_instance_cache.get(id(group)). *)
Record group := Group {
  gr_inst : list (string * nat); gr_dict : list (string * nat); gr_cache : list (nat * nat); gr_made : list nat }.
Fixpoint find (d : nat) (l : list (nat * nat)) : option nat :=
  match l with [] => None | (e, i) :: l => if Nat.eqb e d then Some i else find d l end.

(** sig._create_signal_instance(group) (SI:395-406) *)
Definition create_instance (s : csig) (g : group) : group * nat :=
  (Group (gr_inst g) (gr_dict g) (gr_cache g) (gr_made g ++ [cs_id s]), length (gr_made g)).
(** setattr(group, name, signal_instance): AttributeError (None) if the class attribute is a
    property without setter. *)
Definition set_attr (c : sgclass) (n : string) (i : nat) (g : group) : option group :=
  match sget n (c_attrs c) with
  | Some AProp => None
  | _ => Some (Group (gr_inst g) (sset n i (gr_dict g)) (gr_cache g) (gr_made g))
  end.
(** Signal.__get__(group, cls) (SI:363-393) *)
Definition get_signal (c : sgclass) (s : csig) (g : group) : group * nat :=
  match find (cs_id s) (gr_cache g) with
  | Some i => (g, i)
  | None =>
      let (g, i) := create_instance s g in
      match set_attr c (cs_name s) i g with
      | Some g => (g, i)
      | None => (Group (gr_inst g) (gr_dict g) ((cs_id s, i) :: gr_cache g) (gr_made g), i)
      end
  end.
(** The comprehension in __init__ (GR:272-279). *)
Fixpoint instances (reserved : list string) (c : sgclass) (l : list (string * csig)) (g : group) : group * list (string * nat) :=
  match l with
  | [] => (g, [])
  | (name, s) :: l =>
      let (g, i) := if conflicting reserved name then create_instance s g else get_signal c s g in
      let (g, r) := instances reserved c l g in
      (g, (name, i) :: r)
  end.
(** [__init__] (GR:265-280); the entries _psygnal_instances and _psygnal_relay replace what a
    Signal with such a name has stored. *)
Definition own_names : list string := ["_psygnal_instances"; "_psygnal_relay"].
Definition new_group (reserved : list string) (c : sgclass) : group :=
  let (g, r) := instances reserved c (c_signals c) (Group [] [] [] []) in
  Group r (filter (fun e => negb (mem (fst e) own_names)) (gr_dict g)) (gr_cache g) (gr_made g).

(** list(group), len(group), name in group, group[name] *)
Definition gr_iter (g : group) : list string := map fst (gr_inst g).
Definition gr_len (g : group) : nat := length (gr_inst g).
Definition gr_contains (k : string) (g : group) : bool := has k (gr_inst g).
Definition gr_getitem (k : string) (g : group) : nat + exn :=
  match sget k (gr_inst g) with Some i => inl i | None => inr EKey end.
(** getattr(group, name): properties come before the __dict__ of the group, Signals and other
    class attributes after it; then __getattr__ raises (GR:390-394). *)
Inductive found := FInst (i : nat) | FOther | FNone.
Definition gr_getattr (c : sgclass) (k : string) (g : group) : group * found :=
  match sget k (c_attrs c) with
  | Some AProp => (g, FOther)
  | a =>
      if mem k own_names then (g, FOther)
      else
        match sget k (gr_dict g) with
        | Some i => (g, FInst i)
        | None =>
            match a with
            | Some (ASig s) => let (g, i) := get_signal c s g in (g, FInst i)
            | Some _ => (g, FOther)
            | None => (g, FNone)
            end
        end
  end.
(** A group that is used: attributes are read. *)
Definition touch (c : sgclass) (ks : list string) (g : group) : group :=
  fold_left (fun g k => fst (gr_getattr c k g)) ks g.
