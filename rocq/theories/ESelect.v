(** Model of psygnal/containers/_selection.py (SL below) and of
    psygnal/containers/_selectable_evented_list.py (SE below).

    As for EventedSet (ESet), the methods are client programs; [get]/[put] are the selection's part
    of the state, [allowed u x] is [item in self._parent].  Simplified: [==] of items and the
    equality of keys are the same [same]; the active setter and _update_active call each other, the
    model unrolls this [DEPTH] times (RecursionError beyond that; it is not reached, see C43). *)

From Verif Require Import Base Core Prog PyList EList PySet ESet SpecSet.
Open Scope nat_scope.

Record sel := Sel { sel_items : list val; sel_active : val; sel_current : val }.
Definition is_none (v : val) : bool := match v with VNone => true | _ => false end.

Section Selection.
Context {U : Type}.
Variable same : val -> val -> bool.
(** events.items_changed, events.active, events._current *)
Variable sg_items sg_active sg_current : sid.
Variable get : U -> sel.
Variable put : sel -> U -> U.
Variable allowed : U -> val -> bool.
Notation id := (fun l : list val => l).
Definition p_items (u : U) : list val := sel_items (get u).
Definition p_set_items (l : list val) (u : U) : U := put (Sel l (sel_active (get u)) (sel_current (get u))) u.
Definition p_set_active (v : val) (u : U) : U * (val + exn) :=
  (put (Sel (sel_items (get u)) v (sel_current (get u))) u, inl VNone).
Definition p_set_current (v : val) (u : U) : U * (val + exn) :=
  (put (Sel (sel_items (get u)) (sel_active (get u)) v) u, inl VNone).

(** _current = value (SL:90-96) *)
Definition set_current (v : val) : prog U :=
  Look (fun u => if same v (sel_current (get u)) then Ret VNone
                 else act (p_set_current v);; say sg_current [v];; Ret VNone).

Section Hooks.
(** _update_active *)
Variable upd : prog U.
(** _pre_add_hook (SL:157-162), the hooks of EventedSet (ES:302-322), _emit_change (SL:152-155) *)
Definition sel_hooks : hooks := Hooks
  (fun x => Look (fun u => if allowed u x then Ret (VBool (mem same x (p_items u))) else Throw EValue))
  (fun x => Look (fun u => Ret (VBool (negb (mem same x (p_items u))))))
  (Look (fun u => Ret (VBool (match p_items u with [] => true | _ => false end))))
  (fun a r => say sg_items [VTuple a; VTuple r];; upd).
Definition bulk (p : prog U) : prog U := with_paused sg_items set_reducer p.
Definition sl_add := bs_add same p_items p_set_items sel_hooks.
Definition sl_discard := bs_discard same p_items p_set_items sel_hooks.
Definition sl_intersection (s : list arg) := bulk (bs_intersection_update same id p_items p_set_items sel_hooks s).
Definition sl_update (s : list arg) := bulk (bs_update same id p_items p_set_items sel_hooks s).
Definition sl_symmetric (a : arg) := bulk (bs_symmetric_difference_update same id p_items p_set_items sel_hooks a).
(** clear (SL:116-126) *)
Definition sl_clear (keep_current : bool) : prog U :=
  (if keep_current then Ret VNone else set_current VNone);;
  bulk (bs_clear id p_items p_set_items sel_hooks).
(** select_only (SL:132-135) *)
Definition sl_select_only (x : val) : prog U := sl_intersection [Items [x]];; sl_add x.
End Hooks.

(** _update_active (SL:137-146), with the active setter [setter] *)
Definition update_with (setter : val -> prog U) : prog U :=
  Look (fun u =>
    match p_items u with
    | [x] => setter x
    | _ => if is_none (sel_active (get u)) then Ret VNone
           else act (p_set_active VNone);; say sg_active [VNone];; Ret VNone
    end).
(** active = value (SL:103-114) *)
Fixpoint set_active (n : nat) (v : val) : prog U :=
  match n with
  | O => Throw ERecursion
  | S n => Look (fun u =>
      if same v (sel_active (get u)) then Ret VNone
      else
        act (p_set_active v);;
        (if is_none v then sl_clear (update_with (set_active n)) false
         else sl_select_only (update_with (set_active n)) v);;
        set_current v;; say sg_active [v];; Ret VNone)
  end.
Definition DEPTH : nat := 2.
Definition update_active : prog U := update_with (set_active DEPTH).
Notation H := (sel_hooks update_active).

(** The operations of a selection: those of the set, clear(keep_current=True), toggle, select_only,
    active = v, _current = v, and [parent.selection = iterable]. *)
Inductive selop :=
| LSet_ (o : sop)
| LKeepClear
| LToggle (x : val)
| LOnly (x : val)
| LActive (v : val)
| LCurrent (v : val)
| LAssign (vs : list val).
Definition sel_set (o : sop) : prog U :=
  match o with
  | SAdd x => sl_add update_active x
  | SDiscard x => sl_discard update_active x
  | SRemove x => bs_remove same p_items p_set_items H x
  | SPop => bs_pop same id p_items p_set_items H
  | SClear => sl_clear update_active false
  | SUpdate s => sl_update update_active s
  | SDifference s => bulk (bs_difference_update same id p_items p_set_items H s)
  | SIntersection s => sl_intersection update_active s
  | SSymmetric a => sl_symmetric update_active a
  | SIor a => bs_ior same id p_items p_set_items H a
  | SIand a => bs_iand same id p_items p_set_items H a
  | SIsub a => bs_isub same p_items p_set_items H (sl_clear update_active false) a
  | SIxor a => bs_ixor same id p_items p_set_items H (sl_clear update_active false) a
  end.
Definition sel_do (o : selop) : prog U :=
  match o with
  | LSet_ o => sel_set o
  | LKeepClear => sl_clear update_active true
  | LToggle x => sl_symmetric update_active (Items [x])
  | LOnly x => sl_select_only update_active x
  | LActive v => set_active (S DEPTH) v
  | LCurrent v => set_current v
  | LAssign vs => sl_intersection update_active [Items vs];; sl_update update_active [Items vs]
  end.
End Selection.

(** A Selection on its own: [parent] is its container, which does not change. *)
Definition selection_cfg : sid -> sigst := fun s =>
  match s with
  | 0 => new_relay [("items_changed"%string, 1); ("active"%string, 2); ("_current"%string, 3)]
  | 1 => new_signal Queued (repeat (Param PosOnly false AEmpty) 2)
  | _ => new_signal Immediate [Param PosOnly false AEmpty]
  end.
Definition selection_signals (s : sid) : bool := Nat.leb s 3.
Definition selection (same : val -> val -> bool) (parent : val -> bool) (o : selop) : prog sel :=
  sel_do same 1 2 3 (fun u => u) (fun x _ => x) (fun _ => parent) o.

(** SelectableEventedList: its list (EList), with the signals 0-9, and its selection, with the
    signals 10-13.  Its own listener of [removed] (SE:51-52), which was connected first, discards
    the item; in the model it runs before all other listeners of [removed], and is not affected by
    blocking the events of the list. *)
Record both := Both { b_list : list val; b_sel : sel }.
Section Selectable.
Variable same : val -> val -> bool.
Notation get := b_sel.
Notation put := (fun s u => Both (b_list u) s).
Notation allowed := (fun u x => mem same x (b_list u)).
Definition pick (o : selop) : prog both := sel_do same 11 12 13 get put allowed o.
Definition on_item_removed (x : val) : prog both := pick (LSet_ (SDiscard x)).
(** The methods of EventedList on such an object. *)
Definition lift_op (o : op data) : op both :=
  match o with
  | OEmit s a cn ct => OEmit s a cn ct
  | OEmitFast s a => OEmitFast s a
  | OConnect s c o => OConnect s c o
  | OConnectDirect r c o => OConnectDirect r c o
  | OConnectSetattr s ob a m r p => OConnectSetattr s ob a m r p
  | OConnectSetitem s ob k m r p => OConnectSetitem s ob k m r p
  | ODisconnect s r mo => ODisconnect s r mo
  | ODisconnectSetattr s ob a mo => ODisconnectSetattr s ob a mo
  | ODisconnectSetitem s ob k mo => ODisconnectSetitem s ob k mo
  | OBlock s e => OBlock s e
  | OUnblock s => OUnblock s
  | OPause s => OPause s
  | OResume s r => OResume s r
  | OIsBlocked s => OIsBlocked s
  | OIsPaused s => OIsPaused s
  | OLen s => OLen s
  | OContains s c => OContains s c
  | OCurrent => OCurrent
  | ORelay r a => ORelay r a
  | OKill o => OKill o
  | OThread t => OThread t
  | OEmitQueued t => OEmitQueued t
  | OSetHook h => OSetHook h
  | OGetHook => OGetHook
  | OCall m a => OCall m a
  | OUsr f => OUsr (fun u => (Both (fst (f (b_list u))) (b_sel u), snd (f (b_list u))))
  end.
Definition removed_item (o : op data) : option val :=
  match o with OEmit 4 [i; x] _ _ => Some x | _ => None end.
Fixpoint lift (p : prog data) : prog both :=
  match p with
  | Ret v => Ret v
  | Throw e => Throw e
  | Halt => Halt
  | Look k => Look (fun u => lift (k (b_list u)))
  | Do o k =>
      match removed_item o with
      | Some x =>
          catch (on_item_removed x) (fun r =>
            match r with
            | inl _ => Do (lift_op o) (fun y => lift (k y))
            | inr e => lift (k (inr (EEmitLoop (Some removed) 0 e)))
            end)
      | None => Do (lift_op o) (fun y => lift (k y))
      end
  end.
Notation eqv := same.
Variable islist : val -> bool.
Variable wrap : val -> val.
(** insert (SE:54-58); append, extend, += call it. *)
Variable activate_on_insert : bool.
Definition se_insert (i : Z) (v : val) : prog both :=
  lift (el_insert i v);; if activate_on_insert then pick (LActive v);; Ret VNone else Ret VNone.
Definition se_append (v : val) : prog both := Look (fun u => se_insert (size (b_list u)) v).
Definition se_extend (vs : list val) : prog both := each se_append vs.
(** select_next, select_previous (SE:68-108) *)
Definition se_get (i : Z) (k : val -> prog both) : prog both :=
  Look (fun u => match at_ (b_list u) i with Some x => k (seen islist wrap x) | None => Throw EIndex end).
Definition se_next (step : Z) (expand wrap_around : bool) : prog both :=
  Look (fun u =>
    let n := size (b_list u) in
    if (n =? 0)%Z then Ret VNone
    else
      let go idx :=
        let inside := ((idx <? n) && (0 <=? idx))%Z in
        let idx := if wrap_around then (idx mod n)%Z
                   else if negb inside then (if (0 <? step)%Z then -1 else 0)%Z else idx in
        se_get idx (fun x =>
          if expand then pick (LSet_ (SAdd x));; pick (LCurrent x);; Ret VNone
          else pick (LActive x);; Ret VNone) in
      match sel_items (b_sel u) with
      | [] => go (if (0 <? step)%Z then -1 else 0)%Z
      | _ => match find_index eqv islist wrap (sel_current (b_sel u)) 0 (b_list u) with
             | Some i => go (i + step)%Z
             | None => Throw EValue
             end
      end).
(** remove_selected (SE:110-128) *)
Definition se_remove_selected : prog both :=
  Look (fun u =>
    let selected := sel_items (b_sel u) in
    let finish_at idx :=
      Look (fun u => let i := Z.max 0 (idx - 1) in
        (if (i <? size (b_list u))%Z then se_get i (fun x => pick (LSet_ (SAdd x))) else Ret VNone);;
        Ret (VTuple selected)) in
    (fix loop (idx : Z) (l : list val) : prog both :=
       match l with
       | [] => finish_at idx
       | x :: l => Look (fun u => match find_index eqv islist wrap x 0 (b_list u) with
                                  | None => Throw EValue
                                  | Some i => lift (el_remove eqv islist wrap x);; loop i l
                                  end)
       end) 0%Z selected).

(** The operations. *)
Inductive seop :=
| EInsert (i : Z) (v : val)
| EAppend (v : val)
| EExtend (vs : list val)
| ESet_ (i : Z) (v : val)
| ESetSlice (s : slice) (vs : option (list val))
| EDel (i : Z)
| EDelSlice (s : slice)
| EPop (i : Z)
| ERemove (v : val)
| EClear
| EReverse (individual : bool)
| EMove (src dest : Z)
| EMoveMultiple (sources : list (Z + slice)) (dest : Z)
| ESelect (o : selop)
| ESelectAll
| EDeselectAll
| ENext (step : Z) (expand wrap_around : bool)
| ERemoveSelected.
Definition selectable (o : seop) : prog both :=
  match o with
  | EInsert i v => se_insert i v
  | EAppend v => se_append v
  | EExtend vs => se_extend vs
  | ESet_ i v => lift (el_set i v)
  | ESetSlice s vs => lift (el_set_slice s vs)
  | EDel i => lift (el_del i)
  | EDelSlice s => lift (el_del_slice s)
  | EPop i => lift (el_pop islist wrap i)
  | ERemove v => lift (el_remove eqv islist wrap v)
  | EClear => lift (el_clear islist wrap)
  | EReverse ind => lift (el_reverse islist wrap ind)
  | EMove a b => lift (el_move a b)
  | EMoveMultiple a b => lift (el_move_multiple a b)
  | ESelect o => pick o
  | ESelectAll => Look (fun u => pick (LSet_ (SUpdate [Items (map (seen islist wrap) (b_list u))])))
  | EDeselectAll => pick (LSet_ SClear)
  | ENext st e wr => se_next st e wr
  | ERemoveSelected => se_remove_selected
  end.
End Selectable.
(** Its signals: ListEvents (0-9) and SelectionEvents (10-13). *)
Definition selectable_cfg : sid -> sigst := fun s =>
  match s with
  | 10 => new_relay [("items_changed"%string, 11); ("active"%string, 12); ("_current"%string, 13)]
  | 11 => new_signal Queued (repeat (Param PosOnly false AEmpty) 2)
  | 12 | 13 => new_signal Immediate [Param PosOnly false AEmpty]
  | _ => list_cfg s
  end.
Definition selectable_signals (s : sid) : bool := Nat.leb s 13.
