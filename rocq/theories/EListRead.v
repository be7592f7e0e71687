(** The methods of psygnal/containers/_evented_list.py ("EL") that do not change the list, with the mixin methods
    of collections.abc.Sequence (CPython, _collections_abc.py:1020-1075, "CA"), and of
    psygnal/containers/_evented_dict.py ("ED") with those of collections.abc.Mapping (CA:775-935).

    They call no signal of the container and run no code of the program except == of the items, so they are functions of the
    content here.  (The signals of a new container are those of an object nobody has seen yet.) *)

From Verif Require Import Base PyList PyDict.
Open Scope Z_scope.

(** An EventedList: self._data, self._hashable, self._child_events. *)
Record lobj := Lobj { lo_data : list val; lo_hashable : bool; lo_child : bool }.
(** What an operation gives: an object, a new EventedList, a new builtin list, or an exception. *)
Inductive lres := LVal (v : val) | LEvented (o : lobj) | LBuiltin (l : list val) | LErr (e : exn).
(** The other operand of + and ==: a builtin list, an EventedList, another iterable, something else. *)
Inductive larg := ALst (l : list val) | AEvented (o : lobj) | AIter (l : list val) | ANone.

Section Lists.
(** [==] of items; which items are builtin lists; the new EventedList that __getitem__ makes of such an item. *)
Variable eqv : val -> val -> bool.
Variable islist : val -> bool.
Variable wrap : val -> val.

Definition seen (x : val) : val := if islist x then wrap x else x.
(** self[i] is value or self[i] == value, for the item x; a new EventedList is no object the program knows. *)
Definition hit (value x : val) : bool := (negb (islist x) && val_eqb x value) || eqv (seen x) value.
(** self.__class__(iterable) (EL:116-128, 213-215) *)
Definition newlike (l : list val) : lobj := Lobj l true false.
(** __getitem__ (EL:151-154) *)
Definition lr_get (i : Z) (o : lobj) : lres :=
  match at_ (lo_data o) i with Some x => LVal (seen x) | None => LErr EIndex end.
Definition lr_slice (s : slice) (o : lobj) : lres :=
  match get_slice (lo_data o) s with Some l => LEvented (newlike l) | None => LErr EValue end.
(** Sequence.__iter__ (CA:1034-1042): self[0], self[1], ... until IndexError *)
Fixpoint iterate (n : nat) (i : Z) (l : list val) : list val :=
  match n with
  | O => []
  | S n => match at_ l i with Some x => seen x :: iterate n (i + 1) l | None => [] end
  end.
Definition lr_iter (o : lobj) : list val := iterate (S (List.length (lo_data o))) 0 (lo_data o).
(** Sequence.__reversed__ (CA:1050-1052) *)
Fixpoint backwards (n : nat) (l : list val) : list val :=
  match n with
  | O => []
  | S n => match at_ l (Z.of_nat n) with Some x => seen x :: backwards n l | None => [] end
  end.
Definition lr_reversed (o : lobj) : list val := backwards (List.length (lo_data o)) (lo_data o).
(** EL:239-241 *)
Definition lr_len (o : lobj) : Z := size (lo_data o).
(** Sequence.__contains__, index, count (CA:1044-1048, 1054-1079) *)
Fixpoint look (value : val) (n : nat) (i : Z) (stop : option Z) (l : list val) : option Z :=
  match n with
  | O => None
  | S n =>
      if match stop with Some s => i <? s | None => true end then
        match at_ l i with
        | None => None
        | Some x => if hit value x then Some i else look value n (i + 1) stop l
        end
      else None
  end.
Definition lr_contains (value : val) (o : lobj) : bool :=
  match look value (S (List.length (lo_data o))) 0 None (lo_data o) with Some _ => true | None => false end.
Definition lr_index (value : val) (start : Z) (stop : option Z) (o : lobj) : lres :=
  let n := size (lo_data o) in
  let start := if start <? 0 then Z.max (n + start) 0 else start in
  let stop := match stop with Some s => Some (if s <? 0 then s + n else s) | None => None end in
  match look value (S (List.length (lo_data o))) start stop (lo_data o) with Some i => LVal (VInt i) | None => LErr EValue end.
Fixpoint tally (value : val) (l : list val) : Z :=
  match l with [] => 0 | x :: l => (if hit value x then 1 else 0) + tally value l end.
Definition lr_count (value : val) (o : lobj) : Z := tally value (lo_data o).
(** copy, __copy__ (EL:217-222): the constructor iterates over self *)
Definition lr_copy (o : lobj) : lobj := newlike (lr_iter o).
(** What iterating over an operand gives; None: TypeError. *)
Definition items_of (a : larg) : option (list val) :=
  match a with ALst l | AIter l => Some l | AEvented o => Some (lr_iter o) | ANone => None end.
(** __add__ (EL:224-228), __radd__ (EL:235-237) *)
Definition lr_add (a : larg) (o : lobj) : lres :=
  match items_of a with
  | Some l => LEvented (Lobj (lo_data (lr_copy o) ++ l) (lo_hashable (lr_copy o)) (lo_child (lr_copy o)))
  | None => LErr EType
  end.
Definition lr_radd (a : larg) (o : lobj) : lres :=
  match a with ALst l => LBuiltin (l ++ lr_iter o) | _ => LErr EType end.
(** == of builtin lists: identical or equal items *)
Fixpoint list_eq (a b : list val) : bool :=
  match a, b with
  | [], [] => true
  | x :: a, y :: b => (val_eqb x y || eqv x y) && list_eq a b
  | _, _ => false
  end.
(** __eq__ (EL:247-249): with another EventedList, list.__eq__ gives NotImplemented and the other one's __eq__ is
    called with self._data. *)
Definition lr_eq (a : larg) (o : lobj) : bool :=
  match a with
  | ALst l => list_eq (lo_data o) l
  | AEvented o' => list_eq (lo_data o') (lo_data o)
  | _ => false
  end.
(** __hash__ (EL:251-261); [self]: id(self) *)
Definition lr_hash (self : Z) (o : lobj) : lres := if lo_hashable o then LVal (VInt self) else LErr EType.
End Lists.

(** An EventedDict: self._dict and self._basetypes. *)
Record dobj := Dobj { do_data : list (val * val); do_types : list oid }.
Section Dicts.
Variable same : val -> val -> bool.
Variable eqv : val -> val -> bool.
(** isinstance(value, t) *)
Variable isinst : val -> oid -> bool.

(** _type_check (ED:71-78) *)
Definition type_ok (ts : list oid) (v : val) : bool :=
  match ts with [] => true | _ => existsb (isinst v) ts end.
(** __getitem__, __len__, __iter__ (ED:59-66) *)
Definition dr_get (k : val) (o : dobj) : val + exn := match dget same k (do_data o) with Some v => inl v | None => inr EKey end.
Definition dr_len (o : dobj) : nat := List.length (do_data o).
Definition dr_iter (o : dobj) : list val := map fst (do_data o).
(** Mapping.get, __contains__ (CA:795-808) *)
Definition dr_get_default (k d : val) (o : dobj) : val + exn :=
  match dr_get k o with inl v => inl v | inr EKey => inl d | inr e => inr e end.
Definition dr_contains (k : val) (o : dobj) : bool + exn :=
  match dr_get k o with inl _ => inl true | inr EKey => inl false | inr e => inr e end.
(** The views: ItemsView.__iter__ (CA:905-907), ValuesView.__iter__ (CA:931-933): for key in mapping: mapping[key] *)
Fixpoint gather (ks : list val) (o : dobj) : list (val * val) + exn :=
  match ks with
  | [] => inl []
  | k :: ks => match dr_get k o, gather ks o with
               | inl v, inl r => inl ((k, v) :: r)
               | inr e, _ => inr e
               | _, inr e => inr e
               end
  end.
Definition dr_items (o : dobj) : list (val * val) + exn := gather (dr_iter o) o.
Definition dr_values (o : dobj) : list val + exn := match dr_items o with inl l => inl (map snd l) | inr e => inr e end.
(** ItemsView.__contains__, ValuesView.__contains__ (CA:896-903, 924-929) *)
Definition dr_in_items (k v : val) (o : dobj) : bool + exn :=
  match dr_get k o with inl x => inl (val_eqb x v || eqv x v) | inr EKey => inl false | inr e => inr e end.
Definition dr_in_values (v : val) (o : dobj) : bool + exn :=
  match dr_values o with inl l => inl (existsb (fun x => val_eqb x v || eqv x v) l) | inr e => inr e end.
(** MutableMapping.update with a Mapping (CA:985-988) on a new dict with the types [ts]; the signals have no listeners *)
Fixpoint fill (ts : list oid) (src : dobj) (ks : list val) (d : list (val * val)) : list (val * val) + exn :=
  match ks with
  | [] => inl d
  | k :: ks =>
      match dr_get k src with
      | inr e => inr e
      | inl v =>
          match dget same k d with
          | Some old => if val_eqb v old then fill ts src ks d
                        else if type_ok ts v then fill ts src ks (dset same k v d) else inr EType
          | None => if type_ok ts v then fill ts src ks (dset same k v d) else inr EType
          end
      end
  end.
(** __newlike__, copy (ED:80-92) *)
Definition dr_copy (o : dobj) : dobj + exn :=
  match fill (do_types o) o (dr_iter o) [] with inl d => inl (Dobj d (do_types o)) | inr e => inr e end.
(** == of builtin dicts: as many keys, and each key of the one has an identical or equal value in the other *)
Definition dict_eq (a b : list (val * val)) : bool :=
  Nat.eqb (List.length a) (List.length b)
  && forallb (fun kv => match dget same (fst kv) b with Some y => val_eqb (snd kv) y || eqv (snd kv) y | None => false end) a.
(** dict(pairs) *)
Definition to_dict (l : list (val * val)) : list (val * val) := fold_left (fun d kv => dset same (fst kv) (snd kv) d) l [].
(** Mapping.__eq__ (CA:822-825); the other operand: the items of a Mapping (a builtin dict or an EventedDict), or something else *)
Definition dr_eq (other : option (list (val * val))) (o : dobj) : bool + exn :=
  match other, dr_items o with
  | Some l, inl m => inl (dict_eq (to_dict m) (to_dict l))
  | None, _ => inl false
  | _, inr e => inr e
  end.
End Dicts.
