(** Vocabulary for theorems about SignalGroup (C23).  Refers only to connections and
    events. *)

From Verif Require Import Base Core Spec.

(** The internal connection of group [r] to a member: unthreaded, not limited in its
    arguments, not weak. *)
Definition link (r : sid) (c : wcb) : Prop :=
  w_key c = KRelay r /\ w_target c = TRelay r /\ w_maxargs c = None
  /\ w_thread c = None /\ w_ref c = None.

(** Member [m] holds exactly one internal connection of group [r]. *)
Definition linked {U} (r m : sid) (w : world U) : Prop :=
  exists l1 c l2, s_slots (w_sg w m) = l1 ++ c :: l2 /\ link r c
    /\ forall x, In x (l1 ++ l2) -> w_key x <> KRelay r.
(** Member [m] holds none. *)
Definition unlinked {U} (r m : sid) (w : world U) : Prop :=
  forall x, In x (s_slots (w_sg w m)) -> w_key x <> KRelay r.

(** The call leaves group [r] to manage its own connections to its members
    ([M x]: members of group [x]): it does not mention the group's private callback and does
    not clear all connections of a member at once (clearing those of the group itself is fine). *)
Definition manages {U} (M : sid -> list sid) (r : sid) (o : op U) : Prop :=
  match o with
  | OConnect _ c _ | OConnectDirect _ c _ => callable_base c <> BRelay r
  | ODisconnect x None _ =>
      x = r \/ (~ In x (M r) /\ forall m, In m (M x) -> ~ In m (M r))
  | ODisconnect _ (Some (RCallable c)) _ => callable_base c <> BRelay r
  | ODisconnect _ (Some (RHandle k)) _ => k <> KRelay r
  | _ => True
  end.
