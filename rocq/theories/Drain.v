(** Model of QueuedCallback.cb and emit_queued (psygnal/_queue.py, "QU") with several threads that are interrupted at
    any time.  (Core.v has them with switches between API calls only.)

    The state: QueuedCallback._GLOBAL_QUEUE (QU:29-31) and, per thread, the calls of emit_queued it is in, innermost
    first.  Each operation of queue.Queue holds the lock of the queue and is one step; so is everything else a thread does
    between two of them.  Not modelled: the arguments of callbacks (a queued call is a number); threads that end. *)

From Verif Require Import Base.

(** Where a call of emit_queued for thread [t] is: before queue.empty() (QU:89), before queue.get() (QU:90), or in the
    callback [x] (QU:91-92). *)
Inductive place := Testing (t : nat) | Taking (t : nat) | Inside (t x : nat).
(** What happened: [x] was put into the queue of [t]; [x] was called at once; [x] was taken from the queue of [t] and its
    call begins; emit_queued for [t] returned, or raised. *)
Inductive happening := HPut (me t x : nat) | HNow (me x : nat) | HTook (me t x : nat) | HBack (me t : nat) | HRaised (me t : nat).
Record state := State { st_queue : nat -> list nat; st_at : nat -> list place; st_log : list happening }.
Definition at_start : state := State (fun _ => []) (fun _ => []) [].

(** What a thread does next.  The first two are calls by the program: [cb(args)] of a callback connected for thread [t],
    by an emission; emit_queued(t), or emit_queued() with t the calling thread (QU:86). *)
Inductive action := AEmit (t x : nat) | ADrain (t : nat) | AStep | AReturn | ARaise.

Definition put (f : nat -> list nat) (t : nat) (l : list nat) : nat -> list nat := fun y => if Nat.eqb y t then l else f y.
Definition move (me : nat) (l : list place) (s : state) (q : nat -> list nat) (h : list happening) : state :=
  State q (fun y => if Nat.eqb y me then l else st_at s y) (st_log s ++ h).
(** Is the thread running code of the program: outside emit_queued or in a callback. *)
Definition in_program (l : list place) : bool := match l with [] | Inside _ _ :: _ => true | _ => false end.

(** One step of thread [me]; None: it cannot do this now. *)
Definition act (me : nat) (a : action) (s : state) : option state :=
  match a, st_at s me with
  (** QU:59-63 *)
  | AEmit t x, l =>
      if in_program l then
        if Nat.eqb me t then Some (move me l s (st_queue s) [HNow me x])
        else Some (move me l s (put (st_queue s) t (st_queue s t ++ [x])) [HPut me t x])
      else None
  (** QU:86-87 *)
  | ADrain t, l => if in_program l then Some (move me (Testing t :: l) s (st_queue s) []) else None
  (** QU:89; the loop ends when the queue is empty *)
  | AStep, Testing t :: l =>
      match st_queue s t with
      | [] => Some (move me l s (st_queue s) [HBack me t])
      | _ => Some (move me (Taking t :: l) s (st_queue s) [])
      end
  (** QU:90; get() waits while the queue is empty *)
  | AStep, Taking t :: l =>
      match st_queue s t with
      | [] => None
      | x :: q => Some (move me (Inside t x :: l) s (put (st_queue s) t q) [HTook me t x])
      end
  (** QU:91-92; the callback returns *)
  | AReturn, Inside t x :: l => Some (move me (Testing t :: l) s (st_queue s) [])
  (** QU:93-94; it raises *)
  | ARaise, Inside t x :: l => Some (move me l s (st_queue s) [HRaised me t])
  | _, _ => None
  end.

(** A schedule: which thread does what, one after the other. *)
Fixpoint schedule (l : list (nat * action)) (s : state) : option state :=
  match l with
  | [] => Some s
  | (me, a) :: l => match act me a s with Some s => schedule l s | None => None end
  end.
