(** The builtin set and dict (as used by OrderedSet) of Python: distinct elements, in insertion
    order.  [same x y]: x finds y (identical, or equal and hence of equal hash).  Part of the
    trusted description of the environment. *)

From Verif Require Import Base.

Section Sets.
Variable same : val -> val -> bool.
Definition mem (x : val) (l : list val) : bool := existsb (same x) l.
(** s.add(x), d[x] = None: an element that is there stays. *)
Definition sadd (x : val) (l : list val) : list val := if mem x l then l else l ++ [x].
(** s.discard(x), d.pop(x, None) *)
Fixpoint sdel (x : val) (l : list val) : list val :=
  match l with [] => [] | y :: l => if same x y then l else y :: sdel x l end.
(** set(l) *)
Definition dedup (l : list val) : list val := fold_left (fun a x => sadd x a) l [].
(** No two elements are equal. *)
Fixpoint distinct (l : list val) : Prop :=
  match l with [] => True | x :: l => mem x l = false /\ distinct l end.
End Sets.
