(** The builtin dict of Python (CPython semantics, part of the trusted description of the
    environment): entries in insertion order.  [same k x]: the key k finds the entry with key x
    (identical, or equal and hence of equal hash). *)

From Verif Require Import Base.

Section Dicts.
Variable same : val -> val -> bool.
Definition dict : Type := list (val * val).
(** d[k]; None: KeyError. *)
Fixpoint dget (k : val) (d : dict) : option val :=
  match d with
  | [] => None
  | (x, v) :: d => if same k x then Some v else dget k d
  end.
(** d[k] = v: an entry keeps its key and its place. *)
Fixpoint dset (k v : val) (d : dict) : dict :=
  match d with
  | [] => [(k, v)]
  | (x, y) :: d => if same k x then (x, v) :: d else (x, y) :: dset k v d
  end.
(** del d[k], for a key that is there. *)
Fixpoint ddel (k : val) (d : dict) : dict :=
  match d with
  | [] => []
  | (x, y) :: d => if same k x then d else (x, y) :: ddel k d
  end.
End Dicts.
