(** Which __setattr__ an evented class has: [SignalGroupDescriptor._do_patch_setattr] and [evented_setattr] of
    src/psygnal/_group_descriptor.py ("GD") in hierarchies of classes.

    Simplified: values are compared by identity ([C45] is about the operators); nothing raises; all signals
    asked for have listeners; getattr of a namespace that is no descriptor does not occur. *)

From Verif Require Import Base Core Evented.

(** What a __setattr__ written by the user does: calls super().__setattr__ with the same arguments, calls
    object.__setattr__, or nothing. *)
Inductive ukind := USuper | UStore | UIgnore.
(** A __setattr__ function: that of object, the one written in class [c], or _setattr_and_emit_ (GD:387-402) for a namespace, with
    or without aliases, around another function. *)
Inductive sfun := FObject | FOwn (c : nat) | FPatch (ns : string) (aliases : bool) (super_setattr : sfun).
(** Classes: their __mro__ (without object), the __setattr__ in the body of the class, whether the group that the class has under a
    namespace has aliases, and a signal for a name (with or without regard to aliases); objects: their class. *)
Record hier := Hier {
  h_mro : nat -> list nat;
  h_own : nat -> option ukind;
  h_aliases : nat -> string -> bool;
  h_signal : bool -> nat -> string -> string -> bool;
  h_class : nat -> nat
}.
(** State: __setattr__ put into the __dict__ of classes by psygnal; the groups made, by owner and descriptor (GD:623-627);
    attributes of objects. *)
Record pstate := PState {
  ps_dict : nat -> option sfun;
  ps_made : list (nat * string);
  ps_attr : nat -> string -> option val
}.
(** An emission: object, namespace, field, new and old value. *)
Definition event : Type := nat * string * string * option val * option val.

Section Patch.
Variable H : hier.
(** Attribute lookup of __setattr__ in some classes of an __mro__. *)
Fixpoint find (d : nat -> option sfun) (l : list nat) : sfun :=
  match l with
  | [] => FObject
  | c :: l =>
      match d c with
      | Some f => f
      | None => match h_own H c with Some _ => FOwn c | None => find d l end
      end
  end.
(** getattr(f, PATCHED_BY_PSYGNAL, False) *)
Definition patched (f : sfun) : bool := match f with FPatch _ _ _ => true | _ => false end.
(** The classes after c: where super() looks. *)
Fixpoint beyond (c : nat) (l : list nat) : list nat :=
  match l with [] => [] | x :: l => if Nat.eqb x c then l else beyond c l end.
Definition upd (o : nat) (n : string) (v : option val) (a : nat -> string -> option val) : nat -> string -> option val :=
  fun o' n' => if Nat.eqb o' o && String.eqb n' n then v else a o' n'.
Definition oval_eqb (a b : option val) : bool :=
  match a, b with Some x, Some y => val_eqb x y | None, None => true | _, _ => false end.
(** getattr(o, ns): [__get__], [_get_signal_group], [_create_group], [_do_patch_setattr] (GD:562-588, 595-655), with
    patch_setattr=True.  (Storing the group on the object emits nothing.) *)
Definition set_dict (c : nat) (f : sfun) (d : nat -> option sfun) : nat -> option sfun :=
  fun x => if Nat.eqb x c then Some f else d x.
Definition access (o : nat) (ns : string) (s : pstate) : pstate :=
  let c := h_class H o in
  if existsb (fun x => Nat.eqb (fst x) c && String.eqb (snd x) ns) (ps_made s) then s
  else
    let f := find (ps_dict s) (h_mro H c) in
    PState (if patched f then ps_dict s else set_dict c (FPatch ns (h_aliases H c ns) f) (ps_dict s))
           ((c, ns) :: ps_made s) (ps_attr s).
(** object.__setattr__ *)
Definition store (o : nat) (n : string) (v : val) (s : pstate) : pstate :=
  PState (ps_dict s) (ps_made s) (upd o n (Some v) (ps_attr s)).
(** Calling a __setattr__ function; [k] bounds the calls of super().  _setattr_and_emit_ (GD:387-402) reads the group
    of the object, which makes it if need be. *)
Fixpoint call (k : nat) (f : sfun) (o : nat) (n : string) (v : val) (s : pstate) : option (pstate * list event) :=
  match k with
  | O => None
  | S k =>
      match f with
      | FObject => Some (store o n v s, [])
      | FOwn c =>
          match h_own H c with
          | Some USuper => call k (find (ps_dict s) (beyond c (h_mro H (h_class H o)))) o n v s
          | Some UStore => Some (store o n v s, [])
          | _ => Some (s, [])
          end
      | FPatch ns al g =>
          if String.eqb n ns then call k g o n v s
          else
            let s := access o ns s in
            if h_signal H al (h_class H o) ns n then
              match call k g o n v s with
              | None => None
              | Some (s', ev) =>
                  Some (s', if oval_eqb (ps_attr s o n) (ps_attr s' o n) then ev
                            else ev ++ [(o, ns, n, ps_attr s' o n, ps_attr s o n)])
              end
            else call k g o n v s
      end
  end.
(** o.name = v *)
Definition assign (k : nat) (o : nat) (n : string) (v : val) (s : pstate) : option (pstate * list event) :=
  call k (find (ps_dict s) (h_mro H (h_class H o))) o n v s.
(** A program: accesses and assignments. *)
Inductive pact := PAccess (o : nat) (ns : string) | PAssign (o : nat) (n : string) (v : val).
Fixpoint perform (k : nat) (l : list pact) (s : pstate) : option (pstate * list event) :=
  match l with
  | [] => Some (s, [])
  | PAccess o ns :: l => perform k l (access o ns s)
  | PAssign o n v :: l =>
      match assign k o n v s with
      | None => None
      | Some (s, ev) => match perform k l s with Some (s, ev') => Some (s, ev ++ ev') | None => None end
      end
  end.
End Patch.
