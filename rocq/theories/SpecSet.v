(** What the properties of EventedSet are about, independent of its code: the operations of the
    builtin set in terms of membership, and exact differences. *)

From Verif Require Import Base Core Spec PySet ESet.

Inductive sop :=
| SAdd (x : val)
| SDiscard (x : val)
| SRemove (x : val)
| SPop
| SClear
| SUpdate (s : list arg)
| SDifference (s : list arg)
| SIntersection (s : list arg)
| SSymmetric (a : arg)
| SIor (a : arg)
| SIand (a : arg)
| SIsub (a : arg)
| SIxor (a : arg).

Section Spec.
Variable same : val -> val -> bool.
Definition inside (x : val) (l : list val) : Prop := exists y, In y l /\ same x y = true.
Definition inside_arg (x : val) (l : list val) (a : arg) : Prop :=
  match a with Items m => inside x m | Itself => inside x l end.
(** Membership of [x] after the operation, on a builtin set with the elements [l] ([v]: the
    result of pop). *)
Definition wanted (o : sop) (l : list val) (v x : val) : Prop :=
  match o with
  | SAdd y => same x y = true \/ inside x l
  | SDiscard y | SRemove y => inside x l /\ same x y = false
  | SPop => inside x l /\ same x v = false
  | SClear => False
  | SUpdate s => inside x l \/ Exists (inside_arg x l) s
  | SDifference s => inside x l /\ ~ Exists (inside_arg x l) s
  | SIntersection s => inside x l /\ Forall (inside_arg x l) s
  | SSymmetric a | SIxor a => (inside x l /\ ~ inside_arg x l a) \/ (~ inside x l /\ inside_arg x l a)
  | SIor a => inside x l \/ inside_arg x l a
  | SIand a => inside x l /\ inside_arg x l a
  | SIsub a => inside x l /\ ~ inside_arg x l a
  end.
(** builtin set: [on_set o l l' r]. *)
Inductive on_set : sop -> list val -> list val -> val + exn -> Prop :=
| os_pop : forall l l' v, In v l -> (forall x, inside x l' <-> wanted SPop l v x) -> on_set SPop l l' (inl v)
| os_pop_err : on_set SPop [] [] (inr EKey)
| os_remove_err : forall y l, ~ inside y l -> on_set (SRemove y) l l (inr EKey)
| os_op : forall o l l', o <> SPop -> (forall y, o = SRemove y -> inside y l) ->
    (forall x, inside x l' <-> wanted o l VNone x) -> on_set o l l' (inl VNone).

(** (added, removed) is the exact difference between [l] and [l'], without repetition. *)
Definition difference (l l' added removed : list val) : Prop :=
  distinct same added /\ distinct same removed
  /\ (forall x, inside x added <-> inside x l' /\ ~ inside x l)
  /\ (forall x, inside x removed <-> inside x l /\ ~ inside x l').
(** The events [t]: the change from [l] to [l'] is announced in one emission to everyone
    connected ([sl]) in order; nothing is emitted when nothing changed.  ([requested]: emit was
    called while the signal was paused.) *)
Definition announced {U} (me : thr) (sl : list wcb) (l l' : list val) (t : list (event U)) : Prop :=
  exists requested t', t = requested ++ t'
    /\ Forall (fun e => exists a u, e = EEmit items_changed a u) requested
    /\ ((l' = l /\ t' = [])
        \/ exists added removed, added ++ removed <> [] /\ difference l l' added removed
             /\ emission items_changed me sl [VTuple added; VTuple removed] t').
(** The elements of [m] that are not in [seen], in order of first occurrence. *)
Fixpoint newly (seen m : list val) : list val :=
  match m with
  | [] => []
  | x :: m => if mem same x seen then newly seen m else x :: newly (x :: seen) m
  end.
(** What an operation is given to add, in order. *)
Definition own (a : arg) : list val := match a with Items m => m | Itself => [] end.
Definition given (o : sop) : list val :=
  match o with
  | SAdd x => [x]
  | SUpdate s => flat_map own s
  | SIor a | SSymmetric a | SIxor a => own a
  | _ => []
  end.
(** [x] comes before [y]. *)
Definition before (x y : val) (l : list val) : Prop :=
  exists a x' b y' c, l = a ++ x' :: b ++ y' :: c /\ same x x' = true /\ same y y' = true.
End Spec.

(** The same operation on an EventedSet. *)
Definition evented_s (same : val -> val -> bool) (order : list val -> list val) (o : sop) : prog sdata :=
  match o with
  | SAdd x => es_add same x
  | SDiscard x => es_discard same x
  | SRemove x => es_remove same x
  | SPop => es_pop same order
  | SClear => es_clear same order
  | SUpdate s => es_update same order s
  | SDifference s => es_difference_update same order s
  | SIntersection s => es_intersection_update same order s
  | SSymmetric a => es_symmetric_difference_update same order a
  | SIor a => es_ior same order a
  | SIand a => es_iand same order a
  | SIsub a => es_isub same order a
  | SIxor a => es_ixor same order a
  end.
(** Operations that the code announces in one go. *)
Definition in_one_go (o : sop) : bool :=
  match o with SIor _ | SIand _ | SIsub (Items _) | SIxor (Items _) => false | _ => true end.
(** ... on an OrderedSet without events (and so on the builtin dict it consists of). *)
Definition plain_s (same : val -> val -> bool) (order : list val -> list val) (o : sop) : prog sdata :=
  let clr := bs_clear order sitems set_sitems plain_hooks in
  match o with
  | SAdd x => bs_add same sitems set_sitems plain_hooks x
  | SDiscard x => bs_discard same sitems set_sitems plain_hooks x
  | SRemove x => bs_remove same sitems set_sitems plain_hooks x
  | SPop => bs_pop same order sitems set_sitems plain_hooks
  | SClear => clr
  | SUpdate s => bs_update same order sitems set_sitems plain_hooks s
  | SDifference s => bs_difference_update same order sitems set_sitems plain_hooks s
  | SIntersection s => bs_intersection_update same order sitems set_sitems plain_hooks s
  | SSymmetric a => bs_symmetric_difference_update same order sitems set_sitems plain_hooks a
  | SIor a => bs_ior same order sitems set_sitems plain_hooks a
  | SIand a => bs_iand same order sitems set_sitems plain_hooks a
  | SIsub a => bs_isub same sitems set_sitems plain_hooks clr a
  | SIxor a => bs_ixor same order sitems set_sitems plain_hooks clr a
  end.
(** A history of a set: operations ([run]), whatever their outcome, and calls that have nothing to
    do with it in between; [ls]: its contents after each operation. *)
Inductive history (E : env sdata) (run : sop -> prog sdata) (fits : sop -> list val -> Prop)
    : world sdata -> world sdata -> list (list val) -> Prop :=
| h_nil : forall w, history E run fits w w []
| h_op : forall o w w1 r w' ls, fits o (w_usr w) -> runs E (run o) w w1 r -> done r ->
    history E run fits w1 w' ls -> history E run fits w w' (w_usr w1 :: ls)
| h_other : forall o w w1 r w' ls, aloof set_signals o -> steps E o w w1 r ->
    history E run fits w1 w' ls -> history E run fits w w' ls.
