(** Model of psygnal/containers/_evented_list.py (EL below) and of the mixin methods of
    collections.abc.MutableSequence it inherits (CPython, _collections_abc.py).

    The methods are client programs of the signal model (Core): the state is [self._data], the
    emissions are real emissions, so listeners are arbitrary programs.  Items are values, [is] is
    equality of values.  Simplified: iterables given by the caller are lists of values (running
    the caller's iterator has no effects); the subclass hooks _pre_insert, _post_insert,
    _pre_remove, __newlike__ are those of EventedList; child_events=False (see EChild for
    child_events=True). *)

From Verif Require Import Base Core Prog PyList.
Open Scope Z_scope.

(** ListEvents (EL:76-88) and its relay. *)
Definition s_events : sid := 0%nat.
Definition inserting : sid := 1%nat.
Definition inserted : sid := 2%nat.
Definition removing : sid := 3%nat.
Definition removed : sid := 4%nat.
Definition moving : sid := 5%nat.
Definition moved : sid := 6%nat.
Definition changed : sid := 7%nat.
Definition reordered : sid := 8%nat.
Definition child_event : sid := 9%nat.
(** The group, freshly created; all other signals belong to someone else. *)
Definition list_cfg : sid -> sigst := fun s =>
  let sig n := new_signal Immediate (repeat (Param PosOnly false AEmpty) n) in
  match s with
  | 0%nat => new_relay [("inserting"%string, 1%nat); ("inserted"%string, 2%nat); ("removing"%string, 3%nat);
      ("removed"%string, 4%nat); ("moving"%string, 5%nat); ("moved"%string, 6%nat); ("changed"%string, 7%nat);
      ("reordered"%string, 8%nat); ("child_event"%string, 9%nat)]
  | 1%nat | 3%nat => sig 1%nat
  | 2%nat | 4%nat | 5%nat => sig 2%nat
  | 6%nat | 7%nat => sig 3%nat
  | 8%nat => sig 0%nat
  | 9%nat => sig 4%nat
  | _ => sig 1%nat
  end.
(** The signals of the list. *)
Definition list_signals (s : sid) : bool := Nat.leb s 9.

Section EventedList.
(** [==] of items; which items are (builtin) lists, and the EventedList that __getitem__ wraps
    around such an item (EL:153-156). *)
Variable eqv : val -> val -> bool.
Variable islist : val -> bool.
Variable wrap : val -> val.
Definition data := list val.

(** [self._data.insert(i, v)], [self._data.pop(i)], [self._data[i] = v], [self._data[s] = vs]. *)
Definition do_insert (i : Z) (v : val) (l : data) : data * (val + exn) := (list_insert l i v, inl VNone).
Definition do_pop (i : Z) (l : data) : data * (val + exn) :=
  match list_pop l i with Some (x, l') => (l', inl x) | None => (l, inr EIndex) end.
Definition do_set (i : Z) (v : val) (l : data) : data * (val + exn) :=
  match list_set l i v with Some l' => (l', inl VNone) | None => (l, inr EIndex) end.
Definition do_set_slice (s : slice) (vs : list val) (l : data) : data * (val + exn) :=
  match set_slice l s vs with Some l' => (l', inl VNone) | None => (l, inr EValue) end.

(** EL:137-143 *)
Definition el_insert (i : Z) (v : val) : prog data :=
  say inserting [VInt i];; act (do_insert i v);; say inserted [VInt i; v];; Ret VNone.

(** __getitem__ with an integer (EL:153-156). *)
Definition seen (v : val) : val := if islist v then wrap v else v.
Definition el_get (i : Z) : prog data :=
  Look (fun l => match at_ l i with Some x => Ret (seen x) | None => Throw EIndex end).

(** __setitem__ (EL:162-178); [None] as value of a slice: not iterable. *)
Definition el_set (i : Z) (v : val) : prog data :=
  Look (fun l =>
    match at_ l i with
    | None => Throw EIndex
    | Some old =>
        if val_eqb v old then Ret VNone
        else act (do_set i v);; say changed [VInt i; old; v];; Ret VNone
    end).
Definition val_of_slice (s : slice) : val := let '(a, b, c) := s in VSlice a b c.
Definition el_set_slice (s : slice) (vs : option (list val)) : prog data :=
  Look (fun l =>
    match get_slice l s with
    | None => Throw EValue
    | Some old =>
        match vs with
        | None => Throw EType
        | Some vs =>
            act (do_set_slice s vs);;
            say changed [val_of_slice s; VTuple old; VTuple vs];; Ret VNone
        end
    end).

(** __delitem__ and _delitem_indices (EL:180-197): the positions are collected first, then
    deleted from the end. *)
Definition del_one (i : Z) : prog data :=
  say removing [VInt i];; bind (act (do_pop i)) (fun item => say removed [VInt i; item]).
Definition el_del (i : Z) : prog data :=
  Look (fun l => each del_one (sort_desc [if i <? 0 then i + size l else i])).
Definition el_del_slice (s : slice) : prog data :=
  Look (fun l =>
    match slice_range (size l) s with
    | None => Throw EValue
    | Some r => each del_one (sort_desc r)
    end).

(** MutableSequence.append, extend, pop, remove (with Sequence.index), clear, reverse, __iadd__.
    clear: the loop is unrolled once more than there are items at the beginning (it never needs
    more; RecursionError would show that). *)
Definition el_append (v : val) : prog data := Look (fun l => el_insert (size l) v).
Definition el_extend (vs : list val) : prog data := each el_append vs.
Definition el_extend_self : prog data := Look (fun l => el_extend (map seen l)).
Definition el_pop (i : Z) : prog data := bind (el_get i) (fun v => el_del i;; Ret v).
Fixpoint find_index (v : val) (i : Z) (l : list val) : option Z :=
  match l with
  | [] => None
  | x :: l => if val_eqb (seen x) v || eqv (seen x) v then Some i else find_index v (i + 1) l
  end.
Definition el_remove (v : val) : prog data :=
  Look (fun l => match find_index v 0 l with Some i => el_del i | None => Throw EValue end).
Fixpoint clear_loop (n : nat) : prog data :=
  match n with
  | O => Throw ERecursion
  | S n => catch (el_pop (-1)) (fun x =>
             match x with
             | inl _ => clear_loop n
             | inr EIndex => Ret VNone
             | inr e => Throw e
             end)
  end.
Definition el_clear : prog data := Look (fun l => clear_loop (S (List.length l))).
Definition el_iadd (vs : list val) : prog data := el_extend vs.

(** reverse (EL:263-269); with emit_individual_events the mixin: items are swapped pairwise. *)
Definition swap_one (n i : Z) : prog data :=
  bind (el_get (n - i - 1)) (fun a => bind (el_get i) (fun b =>
  el_set i a;; el_set (n - i - 1) b)).
Definition el_reverse (individual : bool) : prog data :=
  (if individual
   then Look (fun l => each (swap_one (size l)) (range 0 (size l / 2) 1))
   else act (fun l => (rev l, inl VNone)));;
  say reordered [];; Ret VNone.

(** move (EL:271-290) *)
Definition el_move (src dest : Z) : prog data :=
  Look (fun l =>
    let dest := if dest <? 0 then dest + size l + 1 else dest in
    if (dest =? src) || (dest =? src + 1) then Ret (VBool false)
    else
      say moving [VInt src; VInt dest];;
      bind (act (do_pop src)) (fun item =>
      let dest := if src <? dest then dest - 1 else dest in
      act (do_insert dest item);;
      say moved [VInt src; VInt dest; item];; say reordered [];; Ret (VBool true))).

(** _move_plan (EL:339-395); the sources are integers or slices. *)
Fixpoint nodup_first (l : list Z) (seen : list Z) : list Z :=
  match l with
  | [] => []
  | i :: l => if existsb (Z.eqb i) seen then nodup_first l seen else i :: nodup_first l (i :: seen)
  end.
Fixpoint sources_of (n : Z) (l : list (Z + slice)) : option (list Z) :=
  match l with
  | [] => Some []
  | inl i :: l => match sources_of n l with Some r => Some (i :: r) | None => None end
  | inr s :: l => match slice_range n s, sources_of n l with
                  | Some a, Some r => Some (a ++ r)
                  | _, _ => None
                  end
  end.
Fixpoint plan_loop (dest : Z) (i : Z) (d_inc : Z) (popped : list Z) (to_move : list Z) : list (Z * Z) :=
  match to_move with
  | [] => []
  | src :: rest =>
      let src' :=
        if src =? dest then src
        else let s1 := src - Z.of_nat (List.length (filter (fun x => x <=? src) popped)) in
             if dest <=? s1 then s1 + i else s1 in
      (if src =? dest then [] else [(src', dest + d_inc)])
      ++ plan_loop dest (i + 1) (if dest <=? src' then d_inc + 1 else d_inc) (popped ++ [src']) rest
  end.
Definition move_plan (n : Z) (sources : list (Z + slice)) (dest : Z) : option (list (Z * Z)) :=
  match sources_of n sources with
  | None => None
  | Some l => Some (plan_loop (if dest <? 0 then dest + n + 1 else dest) 0 0 [] (nodup_first l []))
  end.
(** move_multiple (EL:292-337) *)
Definition el_move_multiple (sources : list (Z + slice)) (dest : Z) : prog data :=
  Look (fun l =>
    match move_plan (size l) sources dest with
    | None => Throw EValue
    | Some plan =>
        with_blocked reordered [] (each (fun m => el_move (fst m) (snd m)) plan);;
        say reordered [];; Ret (VInt (Z.of_nat (List.length plan)))
    end).
End EventedList.
