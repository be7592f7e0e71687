(** What the property of the constructors is about. *)

From Verif Require Import Base Core PyDict PySet.

(** The signals [C] of an object have just been made as [cfg] says; there is no debug hook. *)
Definition just_made {U} (C : sid -> bool) (cfg : sid -> sigst) (w : world U) : Prop :=
  w_hook w = None /\ forall s, C s = true -> w_sg w s = cfg s.
(** No callback is called or queued between [w] and [w'], and other objects' signals stay as they are. *)
Definition unnoticed {U} (C : sid -> bool) (w w' : world U) : Prop :=
  (forall s, C s = false -> w_sg w' s = w_sg w s)
  /\ exists t, w_tr w' = w_tr w ++ t
     /\ forall e, In e t -> match e with ECall _ _ _ _ | EDCall _ _ _ _ | EDefer _ _ _ _ _ | EHook _ _ _ => False | _ => True end.
(** dict(pairs): the keys are those of the pairs, each where it comes first, with the value of the last pair with this key. *)
Fixpoint last_value (same : val -> val -> bool) (k : val) (l : list (val * val)) : option val :=
  match l with
  | [] => None
  | (x, v) :: l => match last_value same k l with Some y => Some y | None => if same k x then Some v else None end
  end.
Definition made_of (same : val -> val -> bool) (l : list (val * val)) (d : dict) : Prop :=
  map fst d = dedup same (map fst l) /\ forall k, dget same k d = last_value same k l.
(** The only one of [l]; None if there is not exactly one. *)
Definition only (l : list val) : val := match l with [x] => x | _ => VNone end.
