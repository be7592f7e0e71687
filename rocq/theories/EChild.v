(** Model of EventedList(child_events=True) (psygnal/containers/_evented_list.py, EL below).

    The methods of EList, with the hooks _post_insert and _pre_remove connecting and
    disconnecting the signals of the items.  What is kept of the signals of the items is how
    often [self._reemit_child_event] is connected to each of them: connect() without [unique]
    adds a slot every time, disconnect() removes one if there is one (see C12, C13 for these).
    All signals of one item are connected and disconnected together (the loops EL:397-405), so
    one number per item is enough.  Simplified: the set of signals found by
    iter_signal_instances(item) (utils.py:87-120) does not change while the list holds the item;
    connecting does not fail; other slots of these signals are not modelled. *)

From Verif Require Import Base Core Prog PyList EList SpecList.
Open Scope Z_scope.

(** self._data, and one entry for every connection of an item. *)
Record cdata := CData { c_l : list val; c_conn : list val }.
Definition set_l (l : list val) (u : cdata) : cdata := CData l (c_conn u).
Definition set_conn (c : list val) (u : cdata) : cdata := CData (c_l u) c.
(** Work on [self._data] alone. *)
Definition on_l (f : data -> data * (val + exn)) (u : cdata) : cdata * (val + exn) :=
  let (l, x) := f (c_l u) in (set_l l u, x).
Fixpoint drop_first (v : val) (l : list val) : list val :=
  match l with [] => [] | x :: l => if val_eqb x v then l else x :: drop_first v l end.
Definition countv (v : val) (l : list val) : nat := List.length (filter (fun x => val_eqb x v) l).

(** A method of EList without the hooks, working on the larger state. *)
Definition zoom_op (o : op data) : op cdata :=
  match o with
  | OEmit s args cn ct => OEmit s args cn ct
  | OEmitFast s args => OEmitFast s args
  | OConnect s c o => OConnect s c o
  | OConnectDirect r c o => OConnectDirect r c o
  | OConnectSetattr s ob a m r p => OConnectSetattr s ob a m r p
  | OConnectSetitem s ob k m r p => OConnectSetitem s ob k m r p
  | ODisconnect s r m => ODisconnect s r m
  | ODisconnectSetattr s ob a m => ODisconnectSetattr s ob a m
  | ODisconnectSetitem s ob k m => ODisconnectSetitem s ob k m
  | OBlock s ex => OBlock s ex
  | OUnblock s => OUnblock s
  | OPause s => OPause s
  | OResume s r => OResume s r
  | OIsBlocked s => OIsBlocked s
  | OIsPaused s => OIsPaused s
  | OLen s => OLen s
  | OContains s c => OContains s c
  | OCurrent => OCurrent
  | ORelay r args => ORelay r args
  | OKill o => OKill o
  | OThread t => OThread t
  | OEmitQueued t => OEmitQueued t
  | OSetHook h => OSetHook h
  | OGetHook => OGetHook
  | OCall m args => OCall m args
  | OUsr f => OUsr (on_l f)
  end.
Fixpoint zoom (p : prog data) : prog cdata :=
  match p with
  | Ret v => Ret v
  | Throw e => Throw e
  | Halt => Halt
  | Look k => Look (fun u => zoom (k (c_l u)))
  | Do o k => Do (zoom_op o) (fun x => zoom (k x))
  end.

Section Children.
Variable eqv : val -> val -> bool.
Variable islist : val -> bool.
Variable wrap : val -> val.
(** iter_signal_instances(v) is not empty. *)
Variable emits : val -> bool.

(** _connect_child_emitters, _disconnect_child_emitters (EL:397-405) *)
Definition connect_child (v : val) : prog cdata :=
  act (fun u => (if emits v then set_conn (v :: c_conn u) u else u, inl VNone)).
Definition disconnect_child (v : val) : prog cdata :=
  act (fun u => (if emits v then set_conn (drop_first v (c_conn u)) u else u, inl VNone)).

(** insert (EL:137-143) with _post_insert (EL:203-206): connected after the event. *)
Definition ec_insert (i : Z) (v : val) : prog cdata :=
  say inserting [VInt i];; act (on_l (do_insert i v));; say inserted [VInt i; v];; connect_child v;; Ret VNone.
(** self[i] (EL:153-156) *)
Definition ec_get (i : Z) : prog cdata := zoom (el_get islist wrap i).
(** One round of __delitem__ (EL:183-187) with _pre_remove (EL:208-211): disconnected between
    the event and the removal. *)
Definition ec_del_one (i : Z) : prog cdata :=
  say removing [VInt i];;
  bind (ec_get i) (fun v => disconnect_child v;;
  bind (act (on_l (do_pop i))) (fun item => say removed [VInt i; item])).
Definition ec_del (i : Z) : prog cdata :=
  Look (fun u => each ec_del_one (sort_desc [if i <? 0 then i + size (c_l u) else i])).
Definition ec_del_slice (s : slice) : prog cdata :=
  Look (fun u =>
    match slice_range (size (c_l u)) s with
    | None => Throw EValue
    | Some r => each ec_del_one (sort_desc r)
    end).
(** The mixin methods, as in EList. *)
Definition ec_append (v : val) : prog cdata := Look (fun u => ec_insert (size (c_l u)) v).
Definition ec_extend (vs : list val) : prog cdata := each ec_append vs.
Definition ec_pop (i : Z) : prog cdata := bind (ec_get i) (fun v => ec_del i;; Ret v).
Definition ec_remove (v : val) : prog cdata :=
  Look (fun u => match find_index eqv islist wrap v 0 (c_l u) with Some i => ec_del i | None => Throw EValue end).
Fixpoint ec_clear_loop (n : nat) : prog cdata :=
  match n with
  | O => Throw ERecursion
  | S n => catch (ec_pop (-1)) (fun x =>
             match x with
             | inl _ => ec_clear_loop n
             | inr EIndex => Ret VNone
             | inr e => Throw e
             end)
  end.
Definition ec_clear : prog cdata := Look (fun u => ec_clear_loop (S (List.length (c_l u)))).

(** The operations; item assignment, reverse, move, move_multiple have no hooks
    (EL:162-178, 263-337). *)
Inductive cop :=
| CList (o : lop) (individually : bool)
| CMove (src dest : Z)
| CMoveMultiple (sources : list (Z + slice)) (dest : Z).
Definition perform (c : cop) : prog cdata :=
  match c with
  | CList o ind =>
      match o with
      | LInsert i v => ec_insert i v
      | LAppend v => ec_append v
      | LExtend vs | LIadd vs => ec_extend vs
      | LDel i => ec_del i
      | LDelSlice s => ec_del_slice s
      | LPop i => ec_pop i
      | LRemove v => ec_remove v
      | LClear => ec_clear
      | LSet i v => zoom (el_set i v)
      | LSetSlice s vs => zoom (el_set_slice s vs)
      | LReverse => zoom (el_reverse islist wrap ind)
      end
  | CMove i d => zoom (el_move i d)
  | CMoveMultiple ss d => zoom (el_move_multiple ss d)
  end.

(** _reemit_child_event (EL:407-425): [g] is what Signal.current_emitter() gives (C53 says when
    this is the signal that calls), [relay] whether it is a SignalRelay, [inst] its .instance. *)
Definition reemit (g : sid) (relay : bool) (inst : val) (args : list val) : prog cdata :=
  Look (fun u =>
    match find_index eqv islist wrap inst 0 (c_l u) with
    | None => Ret VNone
    | Some idx =>
        match args with
        | VInfo s a :: _ => if relay then say child_event [VInt idx; inst; VSig s; VTuple a]
                            else say child_event [VInt idx; inst; VSig g; VTuple args]
        | _ => say child_event [VInt idx; inst; VSig g; VTuple args]
        end
    end).
(** The item [v] emits its signal [g]: what this does to the list. *)
Definition child_emits (v : val) (g : sid) (relay : bool) (inst : val) (args : list val) : prog cdata :=
  Look (fun u => each (fun _ => reemit g relay inst args) (List.seq 0 (countv v (c_conn u)))).
End Children.
