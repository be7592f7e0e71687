(** What the property of SelectableEventedLists whose listeners use the list and its selection is about. *)

From Verif Require Import Base Core Prog PyList EList PySet ESet SpecSet ESelect SpecSelect SpecSelUse.
Open Scope nat_scope.

(** The methods of SelectableEventedList, as in ESelect, but the active setter and _update_active may call each other [n] times. *)
Section Used.
Variable same : val -> val -> bool.
Variable n : nat.
Variable islist : val -> bool.
Variable wrap : val -> val.
Variable activate_on_insert : bool.
Definition pick_n (o : selop) : prog both :=
  sel_n same 11 12 13 b_sel (fun s u => Both (b_list u) s) (fun u x => mem same x (b_list u)) n o.
Fixpoint lift_n (p : prog data) : prog both :=
  match p with
  | Ret v => Ret v
  | Throw e => Throw e
  | Halt => Halt
  | Look k => Look (fun u => lift_n (k (b_list u)))
  | Do o k =>
      match removed_item o with
      | Some x =>
          catch (pick_n (LSet_ (SDiscard x))) (fun r =>
            match r with
            | inl _ => Do (lift_op o) (fun y => lift_n (k y))
            | inr e => lift_n (k (inr (EEmitLoop (Some removed) 0 e)))
            end)
      | None => Do (lift_op o) (fun y => lift_n (k y))
      end
  end.
Definition se_insert_n (i : Z) (v : val) : prog both :=
  lift_n (el_insert i v);; if activate_on_insert then pick_n (LActive v);; Ret VNone else Ret VNone.
Definition se_append_n (v : val) : prog both := Look (fun u => se_insert_n (size (b_list u)) v).
Definition se_extend_n (vs : list val) : prog both := each se_append_n vs.
Definition se_next_n (step : Z) (expand wrap_around : bool) : prog both :=
  Look (fun u =>
    let n := size (b_list u) in
    if (n =? 0)%Z then Ret VNone
    else
      let go idx :=
        let inside := ((idx <? n) && (0 <=? idx))%Z in
        let idx := if wrap_around then (idx mod n)%Z
                   else if negb inside then (if (0 <? step)%Z then -1 else 0)%Z else idx in
        se_get islist wrap idx (fun x =>
          if expand then pick_n (LSet_ (SAdd x));; pick_n (LCurrent x);; Ret VNone
          else pick_n (LActive x);; Ret VNone) in
      match sel_items (b_sel u) with
      | [] => go (if (0 <? step)%Z then -1 else 0)%Z
      | _ => match find_index same islist wrap (sel_current (b_sel u)) 0 (b_list u) with
             | Some i => go (i + step)%Z
             | None => Throw EValue
             end
      end).
Definition se_remove_selected_n : prog both :=
  Look (fun u =>
    let selected := sel_items (b_sel u) in
    let finish_at idx :=
      Look (fun u => let i := Z.max 0 (idx - 1) in
        (if (i <? size (b_list u))%Z then se_get islist wrap i (fun x => pick_n (LSet_ (SAdd x))) else Ret VNone);;
        Ret (VTuple selected)) in
    (fix loop (idx : Z) (l : list val) : prog both :=
       match l with
       | [] => finish_at idx
       | x :: l => Look (fun u => match find_index same islist wrap x 0 (b_list u) with
                                  | None => Throw EValue
                                  | Some i => lift_n (el_remove same islist wrap x);; loop i l
                                  end)
       end) 0%Z selected).
Definition selectable_n (o : seop) : prog both :=
  match o with
  | EInsert i v => se_insert_n i v
  | EAppend v => se_append_n v
  | EExtend vs => se_extend_n vs
  | ESet_ i v => lift_n (el_set i v)
  | ESetSlice s vs => lift_n (el_set_slice s vs)
  | EDel i => lift_n (el_del i)
  | EDelSlice s => lift_n (el_del_slice s)
  | EPop i => lift_n (el_pop islist wrap i)
  | ERemove v => lift_n (el_remove same islist wrap v)
  | EClear => lift_n (el_clear islist wrap)
  | EReverse ind => lift_n (el_reverse islist wrap ind)
  | EMove a b => lift_n (el_move a b)
  | EMoveMultiple a b => lift_n (el_move_multiple a b)
  | ESelect o => pick_n o
  | ESelectAll => Look (fun u => pick_n (LSet_ (SUpdate [Items (map (seen islist wrap) (b_list u))])))
  | EDeselectAll => pick_n (LSet_ SClear)
  | ENext st e wr => se_next_n st e wr
  | ERemoveSelected => se_remove_selected_n
  end.
End Used.
(** With [DEPTH] it is the model. *)
Lemma selectable_depth : forall same islist wrap activate o,
  selectable_n same DEPTH islist wrap activate o = selectable same islist wrap activate o.
Proof. intros. destruct o; reflexivity. Qed.

(** The methods used: all but the ones that replace items (C44) and clear(), which catches IndexError. *)
Definition used_list same islist wrap activate (p : prog both) : Prop :=
  exists n o, replaces o = false /\ o <> EClear /\ p = selectable_n same n islist wrap activate o.
(** Calls that do not get in the way of the list's own listener of [removed]. *)
Definition in_order {U} (o : op U) : Prop :=
  match o with
  | OUsr _ => False
  | OEmit s _ _ _ | OEmitFast s _ | OBlock s _ | OPause s | OResume s _ | ODisconnect s _ _ | ODisconnectSetattr s _ _ _ | ODisconnectSetitem s _ _ _ =>
      s <> s_events /\ s <> removed
  | _ => True
  end.
(** Programs that use the list by these methods and do not catch exceptions. *)
Inductive list_user {U} (used : prog U -> Prop) : prog U -> Prop :=
| lu_ret : forall v, list_user used (Ret v)
| lu_throw : forall e, list_user used (Throw e)
| lu_halt : list_user used Halt
| lu_look : forall k, (forall u, list_user used (k u)) -> list_user used (Look k)
| lu_call : forall o, in_order o -> list_user used (call o)
| lu_bind : forall p k, list_user used p -> (forall v, list_user used (k v)) -> list_user used (bind p k)
| lu_used : forall p, used p -> list_user used p.
Definition list_users {U} (used : prog U -> Prop) (E : env U) : Prop :=
  (forall t a w, list_user used (e_body E t a w)) /\ (forall m a, list_user used (e_lib E m a)).
