(** What the properties of Selection and SelectableEventedList are about. *)

From Verif Require Import Base Core Spec PySet ESet SpecSet PyList EList ESelect.

(** A history of an object: operations [run o] that meet [ok] (before, result), and calls that have
    nothing to do with its class of signals in between. *)
Inductive past {U O} (E : env U) (C : sid -> bool) (run : O -> prog U) (ok : O -> U -> out -> Prop)
    : world U -> world U -> Prop :=
| past_nil : forall w, past E C run ok w w
| past_op : forall o w w1 r w', runs E (run o) w w1 r -> done r -> ok o (w_usr w) r ->
    past E C run ok w1 w' -> past E C run ok w w'
| past_other : forall o w w1 r w', aloof C o -> steps E o w w1 r ->
    past E C run ok w1 w' -> past E C run ok w w'.

(** Active is the selected item if there is exactly one, and None otherwise. *)
Definition right_active (same : val -> val -> bool) (u : sel) : Prop :=
  (exists x, sel_items u = [x] /\ same x (sel_active u) = true)
  \/ ((forall x, sel_items u <> [x]) /\ sel_active u = VNone).

(** The lists's items are never replaced. *)
Definition replaces (o : seop) : bool :=
  match o with ESet_ _ _ | ESetSlice _ _ | EReverse true => true | _ => false end.
(** What a listener of a signal with one argument takes the value to be: the last one emitted. *)
Definition replay {U} (s : sid) (start : val) (h : list (sid * list val * U)) : val :=
  fold_left (fun a x => match snd (fst x) with [v] => if Nat.eqb (fst (fst x)) s then v else a | _ => a end) h start.
(** Each emission carries the value at that time. *)
Definition truthful {U} (same : val -> val -> bool) (s : sid) (f : U -> val) (h : list (sid * list val * U)) : Prop :=
  forall t a u, In (t, a, u) h -> t = s -> exists v, a = [v] /\ same v (f u) = true.

(** The selection of a SelectableEventedList: its elements are in the list, none twice, and active is right. *)
Definition consistent (same : val -> val -> bool) (u : both) : Prop :=
  distinct same (sel_items (b_sel u)) /\ (forall x, In x (sel_items (b_sel u)) -> inside same x (b_list u)) /\ right_active same (b_sel u).
(** The first item equal to [v] is at [i]. *)
Definition first_at (same : val -> val -> bool) (v : val) (l : list val) (i : nat) : Prop :=
  (exists x, nth_error l i = Some x /\ same x v = true) /\ forall j x, (j < i)%nat -> nth_error l j = Some x -> same x v = false.
(** Where [step] positions from position [i] of [n] leads: if that is outside, to the end in this direction, or around. *)
Definition leads (n i step : Z) (around : bool) (t : Z) : Prop :=
  (0 <= t < n)%Z
  /\ if around then exists k, (i + step = t + k * n)%Z
     else (0 <= i + step < n /\ t = i + step)%Z \/ (~ (0 <= i + step < n) /\ t = if (0 <? step)%Z then n - 1 else 0)%Z.
(** The position that select_next(step) is to select: from the current item, or, if nothing is selected, an end. *)
Definition next_at (same : val -> val -> bool) (u : both) (step : Z) (around : bool) (t : nat) : Prop :=
  let n := Z.of_nat (List.length (b_list u)) in
  match sel_items (b_sel u) with
  | [] => (Z.of_nat t = if (0 <? step)%Z then n - 1 else 0)%Z
  | _ => exists i, first_at same (sel_current (b_sel u)) (b_list u) i /\ leads n (Z.of_nat i) step around (Z.of_nat t)
  end.

(** Taking the items [xs] out of a list, one by one, each time the first one that is equal; [at_] is where the last one was. *)
Inductive taken (same : val -> val -> bool) : list val -> list val -> nat -> list val -> nat -> Prop :=
| taken_nil : forall l i, taken same [] l i l i
| taken_cons : forall x xs a y b l' i j, same y x = true -> (forall z, In z a -> same z x = false) ->
    taken same xs (a ++ b) (List.length a) l' j -> taken same (x :: xs) (a ++ y :: b) i l' j.

(** Exceptions that come from listeners: of an emission of the object's signals, possibly within its own listener of [removed]. *)
Definition blamed (E : env both) (e : exn) : Prop :=
  listener_raised E selectable_signals e
  \/ exists e', e = EEmitLoop (Some removed) 0 e' /\ listener_raised E selectable_signals e'.
