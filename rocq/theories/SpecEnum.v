(** What a temporary setting is (C109).  Independent of how enums_as_values does it: only the steps of the program count. *)

From Verif Require Import Base Core Evented EnumConf.

(** The uses of configuration [c] that run after the steps [l], the innermost first; None: one of them ended before one
    that started after it. *)
Section Stack.
Variable at_ : nat -> nat.
Fixpoint pile (c : nat) (l : list step) (st : list (nat * bool)) : option (list (nat * bool)) :=
  match l with
  | [] => Some st
  | Enter u m b :: l => pile c l (if Nat.eqb (at_ m) c then (u, b) :: st else st)
  | Exit u :: l =>
      match st with
      | (x, _) :: st' =>
          if Nat.eqb u x then pile c l st' else if existsb (fun p => Nat.eqb u (fst p)) st then None else pile c l st
      | [] => pile c l st
      end
  | Put _ _ _ :: l => pile c l st
  end.
Definition running (c : nat) (l : list step) : option (list (nat * bool)) := pile c l [].
Definition nested (l : list step) : Prop := forall c, running c l <> None.

(** The program without its uses of enums_as_values. *)
Fixpoint plain (l : list step) (f : confs) : confs :=
  match l with
  | [] => f
  | Put m k v :: l => plain l (fun c => if Nat.eqb c (at_ m) then sset k v (f c) else f c)
  | _ :: l => plain l f
  end.
End Stack.
(** The program does not assign the entry itself. *)
Definition elsewhere (a : step) : Prop := match a with Put _ k _ => k <> key | _ => True end.
Definition leaves_it (l : list step) : Prop := Forall elsewhere l.

(** pydantic 1: the Config classes of the models that are used inherit the entry from nowhere, and not from each other. *)
Definition apart (cfg : nat -> nat) (mro : nat -> list nat) (l : list step) (f : confs) : Prop :=
  forall u m b, In (Enter u m b) l -> exists r, mro (cfg m) = cfg m :: r /\
    forall d, In d r -> (forall u' m' b', In (Enter u' m' b') l -> cfg m' <> d) /\ sget key (f d) = None.
(** The configuration [now], when the program alone would have made it [without] and the uses [st] run. *)
Definition overridden (st : option (list (nat * bool))) (without now : list (string * val)) : Prop :=
  match st with
  | None => False
  | Some [] => now = without
  | Some ((_, b) :: _) => sget key now = Some (VBool b) /\ forall k, k <> key -> sget k now = sget k without
  end.
