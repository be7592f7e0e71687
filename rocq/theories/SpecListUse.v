(** What the property of EventedLists whose listeners use the list is about: each single event tells what changed since the one
    before it. *)

From Coq Require Import Permutation.
From Verif Require Import Base Core PyList EList SpecList.

(** [tells l s args l']: an event emitted when the list is [l'], which was [l] when the previous event was emitted (ListEvents,
    EL:52-88; reordered tells only that the order may have changed). *)
Inductive tells : list val -> sid -> list val -> list val -> Prop :=
| te_inserting : forall l i, tells l inserting [VInt i] l
| te_inserted : forall l i v, tells l inserted [VInt i; v] (list_insert l i v)
| te_removing : forall l i, tells l removing [VInt i] l
| te_removed : forall l i v l', list_pop l i = Some (v, l') -> tells l removed [VInt i; v] l'
| te_changed : forall l i old v l', at_ l i = Some old -> v <> old -> list_set l i v = Some l' -> tells l changed [VInt i; old; v] l'
| te_changed_slice : forall l a b c old vs l', get_slice l (a, b, c) = Some old -> set_slice l (a, b, c) vs = Some l' ->
    tells l changed [VSlice a b c; VTuple old; VTuple vs] l'
| te_moving : forall l i j, tells l moving [VInt i; VInt j] l
| te_moved : forall l i j v l1, list_pop l i = Some (v, l1) -> tells l moved [VInt i; VInt j; v] (list_insert l1 j v)
| te_reordered : forall l l', Permutation l l' -> tells l reordered [] l'.
(** From [u], with the events [h] one after the other, to [u']. *)
Inductive chain {U} (R : U -> sid -> list val -> U -> Prop) : U -> list (sid * list val * U) -> U -> Prop :=
| ch_nil : forall u, chain R u [] u
| ch_cons : forall u s a v h u', R u s a v -> chain R v h u' -> chain R u ((s, a, v) :: h) u'.

(** The methods of EventedList; the loop of clear() with any number of rounds. *)
Inductive used_l (eqv : val -> val -> bool) (islist : val -> bool) (wrap : val -> val) : prog (list val) -> Prop :=
| ul_op : forall ind o, o <> LClear -> used_l eqv islist wrap (evented eqv islist wrap ind o)
| ul_clear : forall n, used_l eqv islist wrap (clear_loop islist wrap n)
| ul_extend_self : used_l eqv islist wrap (el_extend_self islist wrap)
| ul_move : forall i j, used_l eqv islist wrap (el_move i j)
| ul_move_multiple : forall s j, used_l eqv islist wrap (el_move_multiple s j).
