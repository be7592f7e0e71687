(** How the reemission argument of a Signal is read (C110). *)

From Coq Require Import Ascii.
From Verif Require Import Base Core.

(** The same letter, in upper or lower case *)
Definition alike (c d : ascii) : Prop :=
  c = d \/ exists n, n < 26 /\ nat_of_ascii c = 65 + n /\ nat_of_ascii d = 97 + n.
Fixpoint reads (s t : string) : Prop :=
  match s, t with
  | EmptyString, EmptyString => True
  | String c s, String d t => alike c d /\ reads s t
  | _, _ => False
  end.
Definition word (m : mode) : string :=
  match m with Immediate => "immediate" | Queued => "queued" | LatestOnly => "latest-only" end.
(** A signal that nothing has been done with *)
Definition untouched (st : sigst) : Prop :=
  s_slots st = [] /\ s_blocked st = false /\ s_paused st = false /\ s_args st = [] /\ s_eq st = [] /\ s_depth st = 0 /\ s_members st = None.
