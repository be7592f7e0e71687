(** Model of psygnal/containers/_evented_set.py (ES below) and of the mixin methods of
    collections.abc.MutableSet it inherits (CPython, _collections_abc.py:702-790).

    The methods are client programs of the signal model (Core).  [items]/[set_items] are
    self._data.  [order]: the order in which the elements of a builtin set are iterated over (any
    permutation; OrderedSet: the insertion order).  Simplified: iterables given by the caller are
    lists of values, except the set itself (which is iterated over live); hooks return the item
    they are given or BAIL; update operators return nothing instead of self. *)

From Verif Require Import Base Core Prog PySet.

(** SetEvents (ES:220-232) and its relay (and, for Selection, SelectionEvents, SL:17-35). *)
Definition set_events : sid := 0.
Definition items_changed : sid := 1.
Definition set_cfg : sid -> sigst := fun s =>
  match s with
  | 0 => new_relay [("items_changed"%string, 1)]
  | 1 => new_signal Queued (repeat (Param PosOnly false AEmpty) 2)
  | _ => new_signal Immediate [Param PosOnly false AEmpty]
  end.
Definition set_signals (s : sid) : bool := Nat.leb s 1.

(** An argument: some iterable, or the set itself. *)
Inductive arg := Items (l : list val) | Itself.

(** [_reduce_events] (ES:348-357).  Simplified: other arguments than two tuples, which only code other than
    the set's could have emitted while it was paused, are ignored (TypeError or ValueError in Python). *)
Fixpoint reduce_events (q : list (list val)) : list val * list val :=
  match q with
  | [] => ([], [])
  | a :: q =>
      match a with
      | [VTuple x; VTuple y] =>
          let (xs, ys) := reduce_events q in (x ++ xs, y ++ ys)
      | _ => reduce_events q
      end
  end.
Definition set_reducer : reducer := ROne (fun q =>
  let (a, b) := reduce_events q in inl [VTuple a; VTuple b]).

Section Sets.
Context {U : Type}.
Variable same : val -> val -> bool.
Variable order : list val -> list val.
Variable items : U -> list val.
Variable set_items : list val -> U -> U.
Definition modify (f : list val -> list val) (u : U) : U * (val + exn) := (set_items (f (items u)) u, inl VNone).

(** The hooks: _pre_add_hook, _pre_discard_hook, _pre_clear_hook (result [VBool true]: BAIL), and
    what _post_*_hook call (_emit_change). *)
Record hooks := Hooks {
  pre_add : val -> prog U;
  pre_discard : val -> prog U;
  pre_clear : prog U;
  emit_change : list val -> list val -> prog U
}.
Variable H : hooks.
Definition bails (v : val) : bool := match v with VBool true => true | _ => false end.

(** ES:38-46 *)
Definition bs_add (x : val) : prog U :=
  bind (pre_add H x) (fun b => if bails b then Ret VNone
    else act (modify (sadd same x));; emit_change H [x] [];; Ret VNone).
(** ES:53-61 *)
Definition bs_discard (x : val) : prog U :=
  bind (pre_discard H x) (fun b => if bails b then Ret VNone
    else act (modify (sdel same x));; emit_change H [] [x];; Ret VNone).
(** ES:63-67; the hook has taken tuple(self). *)
Definition bs_clear : prog U :=
  Look (fun u => bind (pre_clear H) (fun b => if bails b then Ret VNone
    else act (modify (fun _ => []));; emit_change H [] (order (items u));; Ret VNone)).
(** for i in self: ..., an iterator that notices that the size changed. *)
Fixpoint live (n : nat) (f : val -> prog U) (l : list val) : prog U :=
  match l with
  | [] => Ret VNone
  | x :: l => f x;; Look (fun u => if Nat.eqb (List.length (items u)) n then live n f l else Throw ERuntime)
  end.
Definition over (a : arg) (f : val -> prog U) : prog U :=
  match a with
  | Items l => each f l
  | Itself => Look (fun u => live (List.length (items u)) f (order (items u)))
  end.
(** The elements of an argument that is only read. *)
Definition elems (a : arg) (u : U) : list val := match a with Items l => l | Itself => items u end.
(** ES:48-51 *)
Definition bs_update (others : list arg) : prog U := each (fun a => over a bs_add) others.
(** ES:127-130 *)
Definition bs_difference_update (s : list arg) : prog U := each (fun a => over a bs_discard) s.
(** ES:140-145 *)
Definition bs_intersection_update (s : list arg) : prog U :=
  match s with
  | [] => Throw EType
  | _ => Look (fun u =>
      let other x := forallb (fun a => mem same x (elems a u)) s in
      each (fun i => if other i then Ret VNone else bs_discard i) (order (items u)))
  end.
(** ES:163-170 *)
Definition toggle_item (i : val) : prog U :=
  Look (fun u => if mem same i (items u) then bs_discard i else bs_add i).
Definition bs_symmetric_difference_update (a : arg) : prog U := over a toggle_item.

(** MutableSet.remove, pop, |=, &=, -=, ^=; [clr] is self.clear. *)
Definition bs_remove (x : val) : prog U :=
  Look (fun u => if mem same x (items u) then bs_discard x else Throw EKey).
Definition bs_pop : prog U :=
  Look (fun u => match order (items u) with [] => Throw EKey | x :: _ => bs_discard x;; Ret x end).
Definition bs_ior (a : arg) : prog U := over a bs_add.
Definition bs_iand (a : arg) : prog U :=
  Look (fun u => each bs_discard (order (filter (fun x => negb (mem same x (elems a u))) (order (items u))))).
Definition bs_isub (clr : prog U) (a : arg) : prog U :=
  match a with Itself => clr | Items l => each bs_discard l end.
Definition bs_ixor (clr : prog U) (a : arg) : prog U :=
  match a with Itself => clr | Items l => each toggle_item (order (dedup same l)) end.
End Sets.

(** OrderedSet without events (ES:199-217): the hooks do nothing. *)
Definition plain_hooks {U} : hooks := Hooks (U := U) (fun _ => Ret VNone) (fun _ => Ret VNone) (Ret VNone) (fun _ _ => Ret VNone).

Section EventedSet.
Variable same : val -> val -> bool.
Variable order : list val -> list val.
Definition sdata := list val.
Definition sitems (u : sdata) : list val := u.
Definition set_sitems (l : list val) (u : sdata) : sdata := l.
(** ES:302-322 *)
Definition set_hooks : hooks := Hooks
  (fun x => Look (fun u : sdata => Ret (VBool (mem same x u))))
  (fun x => Look (fun u : sdata => Ret (VBool (negb (mem same x u)))))
  (Look (fun u : sdata => Ret (VBool (match u with [] => true | _ => false end))))
  (fun a r => say items_changed [VTuple a; VTuple r]).
Definition es_add := bs_add same sitems set_sitems set_hooks.
Definition es_discard := bs_discard same sitems set_sitems set_hooks.
Definition es_remove := bs_remove same sitems set_sitems set_hooks.
Definition es_pop := bs_pop same order sitems set_sitems set_hooks.
(** ES:273-296 *)
Definition es_update (s : list arg) := with_paused items_changed set_reducer (bs_update same order sitems set_sitems set_hooks s).
Definition es_clear := with_paused items_changed set_reducer (bs_clear order sitems set_sitems set_hooks).
Definition es_difference_update (s : list arg) :=
  with_paused items_changed set_reducer (bs_difference_update same order sitems set_sitems set_hooks s).
Definition es_intersection_update (s : list arg) :=
  with_paused items_changed set_reducer (bs_intersection_update same order sitems set_sitems set_hooks s).
Definition es_symmetric_difference_update (a : arg) :=
  with_paused items_changed set_reducer (bs_symmetric_difference_update same order sitems set_sitems set_hooks a).
Definition es_ior := bs_ior same order sitems set_sitems set_hooks.
Definition es_iand := bs_iand same order sitems set_sitems set_hooks.
Definition es_isub := bs_isub same sitems set_sitems set_hooks es_clear.
Definition es_ixor := bs_ixor same order sitems set_sitems set_hooks es_clear.
End EventedSet.
