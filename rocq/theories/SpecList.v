(** What the properties of EventedList are about, independent of its code: the operations of the
    builtin list, and how events describe a change. *)

From Verif Require Import Base Core PyList EList.
Open Scope Z_scope.

(** The mutations both kinds of list have. *)
Inductive lop :=
| LInsert (i : Z) (v : val)
| LAppend (v : val)
| LExtend (vs : list val)
| LSet (i : Z) (v : val)
| LSetSlice (s : slice) (vs : option (list val))
| LDel (i : Z)
| LDelSlice (s : slice)
| LPop (i : Z)
| LRemove (v : val)
| LClear
| LReverse
| LIadd (vs : list val).

(** First position of an item equal to [v]. *)
Inductive first_at (eqv : val -> val -> bool) (v : val) : list val -> list val -> list val -> Prop :=
| first_split : forall a x b, val_eqb x v || eqv x v = true ->
    Forall (fun y => val_eqb y v || eqv y v = false) a -> first_at eqv v (a ++ x :: b) a b.

(** builtin list: [on_list eqv o l l' r]. *)
Inductive on_list (eqv : val -> val -> bool) : lop -> list val -> list val -> val + exn -> Prop :=
| ol_insert : forall i v l, on_list eqv (LInsert i v) l (list_insert l i v) (inl VNone)
| ol_append : forall v l, on_list eqv (LAppend v) l (l ++ [v]) (inl VNone)
| ol_extend : forall vs l, on_list eqv (LExtend vs) l (l ++ vs) (inl VNone)
| ol_iadd : forall vs l, on_list eqv (LIadd vs) l (l ++ vs) (inl VNone)
| ol_set : forall i v l l', list_set l i v = Some l' -> on_list eqv (LSet i v) l l' (inl VNone)
| ol_set_err : forall i v l, list_set l i v = None -> on_list eqv (LSet i v) l l (inr EIndex)
| ol_slice : forall s vs l l', set_slice l s vs = Some l' -> on_list eqv (LSetSlice s (Some vs)) l l' (inl VNone)
| ol_slice_err : forall s vs l, set_slice l s vs = None -> on_list eqv (LSetSlice s (Some vs)) l l (inr EValue)
| ol_slice_type : forall s l, slice_indices (size l) s <> None -> on_list eqv (LSetSlice s None) l l (inr EType)
| ol_slice_zero : forall s l, slice_indices (size l) s = None -> on_list eqv (LSetSlice s None) l l (inr EValue)
| ol_del : forall i x l l', list_pop l i = Some (x, l') -> on_list eqv (LDel i) l l' (inl VNone)
| ol_del_err : forall i l, list_pop l i = None -> on_list eqv (LDel i) l l (inr EIndex)
| ol_dslice : forall s l l', del_slice l s = Some l' -> on_list eqv (LDelSlice s) l l' (inl VNone)
| ol_dslice_err : forall s l, del_slice l s = None -> on_list eqv (LDelSlice s) l l (inr EValue)
| ol_pop : forall i x l l', list_pop l i = Some (x, l') -> on_list eqv (LPop i) l l' (inl x)
| ol_pop_err : forall i l, list_pop l i = None -> on_list eqv (LPop i) l l (inr EIndex)
| ol_remove : forall v l a b, first_at eqv v l a b -> on_list eqv (LRemove v) l (a ++ b) (inl VNone)
| ol_remove_err : forall v l, Forall (fun y => val_eqb y v || eqv y v = false) l ->
    on_list eqv (LRemove v) l l (inr EValue)
| ol_clear : forall l, on_list eqv LClear l [] (inl VNone)
| ol_reverse : forall l, on_list eqv LReverse l (rev l) (inl VNone).

(** The same operation on an EventedList. *)
Definition evented (eqv : val -> val -> bool) (islist : val -> bool) (wrap : val -> val) (ind : bool) (o : lop) : prog (list val) :=
  match o with
  | LInsert i v => el_insert i v
  | LAppend v => el_append v
  | LExtend vs => el_extend vs
  | LSet i v => el_set i v
  | LSetSlice s vs => el_set_slice s vs
  | LDel i => el_del i
  | LDelSlice s => el_del_slice s
  | LPop i => el_pop islist wrap i
  | LRemove v => el_remove eqv islist wrap v
  | LClear => el_clear islist wrap
  | LReverse => el_reverse islist wrap ind
  | LIadd vs => el_iadd vs
  end.

(** [follows l h l']: the events [h], with the contents of the list when they were emitted, tell
    how to get from [l] to [l']: every change is announced by an event emitted before it (except
    item assignment, which has none), and followed by one emitted after it. *)
Inductive follows : list val -> list (sid * list val * list val) -> list val -> Prop :=
| fo_nil : forall l, follows l [] l
| fo_insert : forall l i v h l', follows (list_insert l i v) h l' ->
    follows l ((inserting, [VInt i], l) :: (inserted, [VInt i; v], list_insert l i v) :: h) l'
| fo_remove : forall l i v l1 h l', list_pop l i = Some (v, l1) -> follows l1 h l' ->
    follows l ((removing, [VInt i], l) :: (removed, [VInt i; v], l1) :: h) l'
| fo_change : forall l i old v l1 h l', at_ l i = Some old -> list_set l i v = Some l1 -> follows l1 h l' ->
    follows l ((changed, [VInt i; old; v], l1) :: h) l'
| fo_change_slice : forall l a b c old vs l1 h l',
    get_slice l (a, b, c) = Some old -> set_slice l (a, b, c) vs = Some l1 -> follows l1 h l' ->
    follows l ((changed, [VSlice a b c; VTuple old; VTuple vs], l1) :: h) l'
| fo_move : forall l i j k v l0 h l', list_pop l i = Some (v, l0) ->
    follows (list_insert l0 k v) h l' ->
    follows l ((moving, [VInt i; VInt j], l) :: (moved, [VInt i; VInt k; v], list_insert l0 k v) :: h) l'
| fo_reordered : forall l h l', follows l h l' -> follows l ((reordered, [], l) :: h) l'.

(** The items at the positions [r], in that order, stand together in front of the item that was at
    position [d]; the others keep their order. *)
Definition gathered {X} (r : list Z) (d : Z) (l : list X) : list X :=
  keep (fun i => (i <? d) && negb (existsb (Z.eqb i) r)) 0 l
  ++ pick l r
  ++ keep (fun i => (d <=? i) && negb (existsb (Z.eqb i) r)) 0 l.
