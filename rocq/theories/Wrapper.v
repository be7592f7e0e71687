(** Who keeps a throttled or debounced function alive: src/psygnal/_throttler.py ("TH") 24-78, 106-116, 144-152, 201-205, 257-261,
    connected to signals: connect (_signal.py:731-768), weak_callback (_weak_callback.py:188-191: a Throttler or Debouncer is an
    object that is neither function nor method, so that it becomes a WeakFunction, 374-409), and _kill_and_finalize (323-331).

    CPython frees an object when the last reference to it is gone, and unreachable cycles when the garbage collector runs.  The
    wrapper is referred to by variables of the program, and by its timer's function (the bound method _call_if_has_pending, TH:59), which the
    timer keeps; self._timer makes this a cycle, which is reachable while the thread of the timer runs.  The timer of __init__ (TH:36)
    does not refer to the wrapper.  The signals refer to it weakly.  _throttler.py is not compiled by mypyc (pyproject.toml:112), so that weak references to
    the wrapper can always be made.

    Simplified: one thread beside the timer's, which fires at any time after it was started; the timer of __init__, which does nothing, has
    ended before the wrapper is used; threads of cancelled timers end at once (for both see Throttle.v); the wrapped function takes all arguments, returns, and
    does not use the wrapper or the signals; signals are neither blocked nor paused. *)

From Coq Require Import List Bool.
Import ListNotations.

Section Wrapper.
Context {A : Type}.   (* the arguments *)
Inductive kind := Throttled | Debounced.
(** The arguments of throttled and debounced but the timeout (TH:155-159, 208-212) *)
Record options := Options { o_kind : kind; o_leading : bool }.
Variable o : options.

Record wstate := Wstate {
  held : bool;          (* a variable of the program refers to the wrapper *)
  dead : bool;          (* freed *)
  cycle : bool;         (* self._timer refers to the wrapper *)
  ticking : bool;       (* self._timer.is_alive() *)
  pending : option A;   (* _has_pending, and _args *)
  links : nat;          (* connections of signals to the wrapper *)
  told : list A         (* the calls of the wrapped function, last one first *)
}.
(** throttled(f) (TH:201-205, 24-37) *)
Definition fresh : wstate := Wstate true false false false None 0 [].
(** _start_timer (TH:57-60) *)
Definition start (s : wstate) : wstate := Wstate (held s) (dead s) true true (pending s) (links s) (told s).
(** _actually_call (TH:48-51) *)
Definition actually (a : A) (s : wstate) : wstate :=
  start (Wstate (held s) (dead s) (cycle s) (ticking s) None (links s) (a :: told s)).
(** __call__ (TH:106-116, 144-152) *)
Definition request (a : A) (s : wstate) : wstate :=
  let s := Wstate (held s) (dead s) (cycle s) (ticking s) (Some a) (links s) (told s) in
  match o_kind o with
  | Throttled => if ticking s then s else if o_leading o then actually a s else start s
  | Debounced => start (if negb (ticking s) && o_leading o then actually a s else s)
  end.
(** The wrapper is freed; the finalizers take the slots out of the signals (_weak_callback.py:323-331). *)
Definition free (s : wstate) : wstate := Wstate (held s) true (cycle s) (ticking s) (pending s) 0 (told s).

Inductive input :=
| IConnect          (* signal.connect(wrapper), for any signal; needs the variable *)
| IEmit (a : A)     (* all these signals are emitted, one after the other *)
| IDrop             (* the last variable goes *)
| IFire             (* the timer's time has come *)
| IGc.              (* the garbage collector runs *)
Fixpoint times (n : nat) (f : wstate -> wstate) (s : wstate) : wstate :=
  match n with 0 => s | S n => times n f (f s) end.
Definition input_step (i : input) (s : wstate) : wstate :=
  match i with
  | IConnect => if held s then Wstate (held s) (dead s) (cycle s) (ticking s) (pending s) (S (links s)) (told s) else s
  | IEmit a => times (links s) (request a) s
  | IDrop =>
      let s := Wstate false (dead s) (cycle s) (ticking s) (pending s) (links s) (told s) in
      if cycle s then s else free s
  | IFire =>   (* Timer.run: _call_if_has_pending (TH:53-55), then the thread ends *)
      if ticking s then
        let s := Wstate (held s) (dead s) (cycle s) false (pending s) (links s) (told s) in
        match pending s with Some a => actually a s | None => s end
      else s
  | IGc => if negb (held s) && negb (ticking s) then free s else s
  end.
Fixpoint inputs (l : list input) (s : wstate) : wstate :=
  match l with [] => s | i :: l => inputs l (input_step i s) end.
End Wrapper.
Arguments wstate : clear implicits.
Arguments input : clear implicits.
