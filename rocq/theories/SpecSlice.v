(** Python's slices: which positions of a list of [n] items a slice means (Language Reference 3.3.7, Library Reference "Common Sequence
    Operations", notes 3-5), and what assigning to and deleting them does. *)

From Verif Require Import Base PyList.
Open Scope Z_scope.

Definition from_end (n x : Z) : Z := if x <? 0 then x + n else x.
Definition step_of (s : slice) : Z := match s with (_, _, Some c) => c | (_, _, None) => 1 end.
(** The first position; steps are counted from here. *)
Definition origin (n : Z) (s : slice) : Z :=
  let '(a, _, _) := s in
  if 0 <? step_of s then match a with None => 0 | Some x => Z.max 0 (from_end n x) end
  else match a with None => n - 1 | Some x => Z.min (n - 1) (from_end n x) end.
Definition before_stop (n : Z) (s : slice) (i : Z) : Prop :=
  match s with
  | (_, None, _) => True
  | (_, Some b, _) => if 0 <? step_of s then i < from_end n b else from_end n b < i
  end.
Definition at_slice (n : Z) (s : slice) (i : Z) : Prop :=
  0 <= i < n /\ before_stop n s i /\ exists k, 0 <= k /\ i = origin n s + k * step_of s.
(** These positions, in the order of the slice. *)
Fixpoint ordered (step : Z) (r : list Z) : Prop :=
  match r with
  | [] => True
  | i :: r => (forall j, In j r -> if 0 <? step then i < j else j < i) /\ ordered step r
  end.
Definition positions (n : Z) (s : slice) (r : list Z) : Prop := ordered (step_of s) r /\ forall i, In i r <-> at_slice n s i.
Section OnLists.
Context {X : Type}.
Implicit Types l : list X.
Definition item l (i : Z) : option X := if i <? 0 then None else nth_error l (Z.to_nat i).
(** The items at these positions. *)
Definition items_at l (r : list Z) (xs : list X) : Prop := Forall2 (fun i x => item l i = Some x) r xs.
Definition got l (s : slice) (xs : list X) : Prop := exists r, positions (size l) s r /\ items_at l r xs.
(** l[s] = xs: a section is replaced, or, for other steps, item by item. *)
Definition assigned l (s : slice) (xs : list X) (l' : list X) : Prop :=
  if step_of s =? 1
  then exists pre mid post, l = pre ++ mid ++ post /\ l' = pre ++ xs ++ post /\ size pre = Z.min (size l) (origin (size l) s) /\ got l s mid
  else exists r, positions (size l) s r /\ items_at l' r xs /\ size l' = size l /\ forall i, ~ In i r -> item l' i = item l i.
(** del l[s]: the items at all other positions stay. *)
Definition deleted l (s : slice) (l' : list X) : Prop :=
  exists r, ordered 1 r /\ (forall i, In i r <-> 0 <= i < size l /\ ~ at_slice (size l) s i) /\ items_at l r l'.
End OnLists.
