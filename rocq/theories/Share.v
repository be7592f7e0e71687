(** SignalGroupDescriptors that use the same SignalGroup class: _get_signal_group and
    _create_group in src/psygnal/_group_descriptor.py ("GD"), lines 622-655. *)

From Verif Require Import Base Core Evented.

(** A descriptor: its signal_group_class, as index into the group classes; collect_fields;
    signal_aliases, a dict (callables are rejected without collect_fields, GD:538-542, and other
    mappings are ignored, GD:635). *)
Record gdesc := GDesc { gd_class : nat; gd_collect : bool; gd_aliases : list (string * option string) }.
(** A class with a descriptor.  [w_group]: the entry for it in _signal_groups of the descriptor; [w_with]: the
    with_aliases with which its __setattr__ was patched. *)
Record owner := Owner { w_desc : nat; w_fields : list string; w_group : option nat; w_with : bool }.
(** The group classes are objects that can change. *)
Record state := State { st_groups : list gclass; st_owners : list owner }.

Fixpoint upd {A} (n : nat) (f : A -> A) (l : list A) : list A :=
  match l, n with
  | [], _ => []
  | x :: l, 0 => f x :: l
  | x :: l, S n => x :: upd n f l
  end.
(** dict.update *)
Definition supdate {A} (d m : list (string * A)) : list (string * A) := fold_left (fun d kv => sset (fst kv) (snd kv) d) m d.
Definition add_aliases (m : list (string * option string)) (g : gclass) : gclass := Gclass (g_signals g) (supdate (g_aliases g) m).
Definition nonempty {A} (l : list A) : bool := match l with [] => false | _ => true end.
Definition set_group (i : nat) (b : bool) (w : owner) : owner := Owner (w_desc w) (w_fields w) (Some i) b.

Section Share.
Variable D : nat -> gdesc.
(** First access on an instance of the class [o]: [_get_signal_group] (GD:623-627) and
    [_create_group] (GD:629-655); copy.deepcopy of a class is the class itself.  None: the class statement
    for the group raises. *)
Definition use (o : nat) (s : state) : option state :=
  match nth_error (st_owners s) o with
  | None => None
  | Some w =>
      match w_group w with
      | Some _ => Some s
      | None =>
          let d := D (w_desc w) in
          match nth_error (st_groups s) (gd_class d) with
          | None => None
          | Some g =>
              if gd_collect d then
                match build_group (w_fields w) g (Some (AMap (gd_aliases d))) with
                | inl g' => Some (State (st_groups s ++ [g'])
                                        (upd o (set_group (length (st_groups s)) (nonempty (g_aliases g'))) (st_owners s)))
                | inr _ => None
                end
              else
                let g' := add_aliases (gd_aliases d) g in
                Some (State (upd (gd_class d) (fun _ => g') (st_groups s))
                            (upd o (set_group (gd_class d) (nonempty (g_aliases g'))) (st_owners s)))
          end
      end
  end.
(** The classes are used in some order. *)
Fixpoint uses (l : list nat) (s : state) : option state :=
  match l with [] => Some s | o :: l => match use o s with Some s => uses l s | None => None end end.
(** The signal that an assignment to field [f] of an instance of [o] emits (evented_setattr, GD:377-402). *)
Definition emits (s : state) (o : nat) (f : string) : option string :=
  match nth_error (st_owners s) o with
  | Some w =>
      match w_group w with
      | Some i =>
          match nth_error (st_groups s) i with
          | Some g => if w_with w then field_signal_name g f else if mem f (g_signals g) then Some f else None
          | None => None
          end
      | None => None
      end
  | None => None
  end.
End Share.
