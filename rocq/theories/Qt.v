(** Model of psygnal/qt.py.

    A QTimer belongs to the thread that creates it ([tm_home]); while it is active, the event loop of
    that thread calls emit_queued() from time to time (qt.py:58).  [abroad]: what Qt does when a timer
    is started, changed or stopped from another thread (it complains that this is not possible; the
    outcome is left open here).  Simplified: callbacks do not call these functions themselves; every
    thread has an event loop; timers live as long as the process (they are kept in _TIMERS). *)

From Verif Require Import Base Core Spec.

Record timer := Timer { tm_home : thr; tm_on : bool; tm_msec : Z; tm_type : Z }.
Inductive use := UStart (msec : Z) | USetInterval (msec : Z) | UStop.
Record abroad := Abroad { ab_on : use -> timer -> bool; ab_msec : use -> timer -> Z }.
(** [q_timers]: _TIMERS (qt.py:22), from threads to timers; [q_objs]: the timers made so far. *)
Record qtst := Qtst { q_timers : list (thr * nat); q_objs : list timer }.

Section Qt.
Variable A : abroad.
(** Using a timer in thread [me]. *)
Definition use_timer (me : thr) (x : use) (tm : timer) : timer :=
  if Nat.eqb me (tm_home tm) then
    match x with
    | UStart m => Timer (tm_home tm) true m (tm_type tm)
    | USetInterval m => Timer (tm_home tm) (tm_on tm) m (tm_type tm)
    | UStop => Timer (tm_home tm) false (tm_msec tm) (tm_type tm)
    end
  else Timer (tm_home tm) (ab_on A x tm) (ab_msec A x tm) (tm_type tm).
Fixpoint change_nth (f : timer -> timer) (n : nat) (l : list timer) : list timer :=
  match l, n with
  | [], _ => []
  | x :: l, O => f x :: l
  | x :: l, S n => x :: change_nth f n l
  end.
Fixpoint timer_of (t : thr) (d : list (thr * nat)) : option nat :=
  match d with [] => None | (k, i) :: d => if Nat.eqb k t then Some i else timer_of t d end.
(** start_emitting_from_queue (qt.py:25-64), called in thread [me] *)
Definition start_emitting (me : thr) (msec ty : Z) (thread : option thr) (q : qtst) : qtst :=
  let t := match thread with None => me | Some t => t end in
  let (i, q) :=
    match timer_of t (q_timers q) with
    | Some i => (i, q)
    | None => let i := List.length (q_objs q) in
              (i, Qtst (q_timers q ++ [(t, i)]) (q_objs q ++ [Timer me false 0 0]))
    end in
  Qtst (q_timers q)
    (change_nth (fun tm =>
       let tm := Timer (tm_home tm) (tm_on tm) (tm_msec tm) ty in
       use_timer me (if tm_on tm then USetInterval msec else UStart msec) tm) i (q_objs q)).
(** stop_emitting_from_queue (qt.py:67-76) *)
Definition stop_emitting (me : thr) (thread : option thr) (q : qtst) : qtst :=
  let t := match thread with None => me | Some t => t end in
  match timer_of t (q_timers q) with
  | Some i => Qtst (q_timers q) (change_nth (use_timer me UStop) i (q_objs q))
  | None => q
  end.
End Qt.

(** A program with several threads: in each step some thread calls one of the two functions, a timer
    fires in its thread, or a thread runs some code. *)
Record qworld U := Qworld { qw : world U; qq : qtst }.
Arguments Qworld {U}. Arguments qw {U}. Arguments qq {U}.
Inductive qevent U :=
| QStart (me : thr) (msec ty : Z) (thread : option thr)
| QStop (me : thr) (thread : option thr)
| QTick (i : nat) (r : out)
| QRun (me : thr) (p : prog U).
Arguments QStart {U}. Arguments QStop {U}. Arguments QTick {U}. Arguments QRun {U}.
Inductive qstep {U} (A : abroad) (E : env U) : qevent U -> qworld U -> qworld U -> Prop :=
| qs_start : forall me msec ty t w q, qstep A E (QStart me msec ty t) (Qworld w q) (Qworld w (start_emitting A me msec ty t q))
| qs_stop : forall me t w q, qstep A E (QStop me t) (Qworld w q) (Qworld w (stop_emitting A me t q))
| qs_tick : forall i tm w q w' r, nth_error (q_objs q) i = Some tm -> tm_on tm = true ->
    steps E (OEmitQueued None) (set_me (tm_home tm) w) w' r -> done r ->
    qstep A E (QTick i r) (Qworld w q) (Qworld w' q)
| qs_run : forall me p w q w' r, runs E p (set_me me w) w' r -> done r -> qstep A E (QRun me p) (Qworld w q) (Qworld w' q).
Inductive qpast {U} (A : abroad) (E : env U) : qworld U -> list (qevent U) -> qworld U -> Prop :=
| qp_nil : forall w, qpast A E w [] w
| qp_step : forall w l w1 e w2, qpast A E w l w1 -> qstep A E e w1 w2 -> qpast A E w (l ++ [e]) w2.
