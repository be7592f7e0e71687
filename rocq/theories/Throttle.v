(** Throttler and Debouncer: src/psygnal/_throttler.py ("TH"), with the threads of
    threading.Timer, any number of calling threads, and time. *)

From Coq Require Import List ZArith Bool Lia.
Import ListNotations.
Open Scope Z_scope.

Section Throttle.
Context {A : Type}.   (* the arguments of a call *)

Inductive kind := Throttler | Debouncer.
(** [c_interval]: in the unit of the clock. *)
Record config := Config { c_kind : kind; c_interval : Z; c_leading : bool }.

(** A threading.Timer.  [Fresh]: not started; [FreshCancelled]: cancelled before it was started;
    [Waiting due]; [Cancelled]: its event is set, but the thread has not ended yet; [Firing]: the
    thread runs its function; [Over]: the thread has ended. *)
Inductive status := Fresh | FreshCancelled | Waiting (due : Z) | Cancelled | Firing | Over.
(** Thread.is_alive. *)
Definition alive (s : status) : bool :=
  match s with Waiting _ | Cancelled | Firing => true | Fresh | FreshCancelled | Over => false end.

(** Steps of the methods; threads can be switched between any two of them. *)
Inductive instr :=
| IPend                    (* self._has_pending = True            (TH:108, 146) *)
| IArgs (a : A)            (* self._args = args; self._kwargs = … (TH:109-110, 147-148); one step here *)
| IIdle                    (* if not self._timer.is_alive() …     (TH:112-116, 150-151) *)
| IClear                   (* self._has_pending = False           (TH:49, 64) *)
| IRun (flush : bool)      (* the call of self.__wrapped__ starts (TH:50) *)
| IBody                    (* … and is running *)
| ICancel                  (* self._timer.cancel()                (TH:58, 65) *)
| INew                     (* self._timer = Timer(…)              (TH:59) *)
| IStart                   (* self._timer.start()                 (TH:60) *)
| IIfPending (flush : bool). (* if self._has_pending: …           (TH:54-55) *)

(** [_start_timer] (TH:57-60). *)
Definition start_timer : list instr := [ICancel; INew; IStart].
(** [_actually_call] (TH:48-51). *)
Definition actually_call (flush : bool) : list instr := IClear :: IRun flush :: IBody :: start_timer.
Inductive method := Request (a : A) | Flush | Cancel.
(** [__call__] (TH:106-116, 144-152), [flush] (TH:67-69), [cancel] (TH:62-65). *)
Definition code (c : config) (m : method) : list instr :=
  match m with
  | Request a => [IPend; IArgs a; IIdle] ++ match c_kind c with Throttler => [] | Debouncer => start_timer end
  | Flush => [IIfPending true]
  | Cancel => [IClear; ICancel]
  end.

Inductive who := Client (n : nat) | TimerThread (j : nat).
Definition who_eqb (x y : who) : bool :=
  match x, y with
  | Client a, Client b | TimerThread a, TimerThread b => Nat.eqb a b
  | _, _ => false
  end.
(** What can be observed, with the time. *)
Inductive event :=
| Requested (a : A) (t : Z)
| Started (a : A) (t : Z) (flush : bool)   (* a call of the wrapped function *)
| Returned (t : Z)
| Raised (t : Z)
| Cancelling (t : Z).

(** [t_stk]: what each thread still has to do in methods, innermost call first: a frame that
    starts with [IBody] below another one is a wrapped function that calls such a method. *)
Record state := State {
  t_pend : bool;
  t_args : A;
  t_cur : nat;                (* self._timer *)
  t_stat : nat -> status;
  t_nxt : nat;                (* number of timers created *)
  t_now : Z;
  t_stk : who -> list (list instr);
  t_log : list event
}.
Definition set_pend b s := State b (t_args s) (t_cur s) (t_stat s) (t_nxt s) (t_now s) (t_stk s) (t_log s).
Definition set_args a s := State (t_pend s) a (t_cur s) (t_stat s) (t_nxt s) (t_now s) (t_stk s) (t_log s).
Definition set_cur j n s := State (t_pend s) (t_args s) j (t_stat s) n (t_now s) (t_stk s) (t_log s).
Definition set_stat j x s :=
  State (t_pend s) (t_args s) (t_cur s) (fun i => if Nat.eqb i j then x else t_stat s i) (t_nxt s) (t_now s) (t_stk s) (t_log s).
Definition set_now t s := State (t_pend s) (t_args s) (t_cur s) (t_stat s) (t_nxt s) t (t_stk s) (t_log s).
Definition set_stk me fs s :=
  State (t_pend s) (t_args s) (t_cur s) (t_stat s) (t_nxt s) (t_now s) (fun x => if who_eqb x me then fs else t_stk s x) (t_log s).
Definition add_log e s := State (t_pend s) (t_args s) (t_cur s) (t_stat s) (t_nxt s) (t_now s) (t_stk s) (t_log s ++ [e]).

(** __init__ (TH:24-37), [a0]: the empty arguments; the first timer is started with no delay and does nothing: its thread
    is alive for a moment, like that of a cancelled one. *)
Definition init (a0 : A) (t : Z) : state :=
  State false a0 0 (fun j => match j with O => Cancelled | S _ => Fresh end) 1 t (fun _ => []) [].

(** The innermost method of thread [me] ends, normally or by an exception; the thread of a timer
    is over when it has nothing else to do. *)
Definition pop (me : who) (s : state) : state :=
  let fs := tl (t_stk s me) in
  let s := set_stk me fs s in
  match me, fs with
  | TimerThread j, [] => set_stat j Over s
  | _, _ => s
  end.
(** Timer.cancel sets the event. *)
Definition cancelled (x : status) : status :=
  match x with Fresh => FreshCancelled | Waiting _ => Cancelled | _ => x end.

(** One step of thread [me], whose innermost frame is [i :: is]; [put]: what is left of it. *)
Definition run (c : config) (me : who) (i : instr) (rest : list instr) (fs : list (list instr)) (s : state) : state :=
  let put is s := set_stk me (is :: fs) s in
  let cur := t_stat s (t_cur s) in
  match i with
  | IPend => put rest (set_pend true s)
  | IArgs a => put rest (set_args a s)
  | IIdle =>
      if alive cur then put rest s
      else if c_leading c then put (actually_call false ++ rest) s
      else match c_kind c with
           | Throttler => put (start_timer ++ rest) s
           | Debouncer => put rest s
           end
  | IClear => put rest (set_pend false s)
  | IRun fl => put rest (add_log (Started (t_args s) (t_now s) fl) s)
  | IBody => put rest (add_log (Returned (t_now s)) s)
  | ICancel => put rest (set_stat (t_cur s) (cancelled cur) s)
  | INew => put rest (set_stat (t_nxt s) Fresh (set_cur (t_nxt s) (S (t_nxt s)) s))
  | IStart =>
      match cur with
      | Fresh => put rest (set_stat (t_cur s) (Waiting (t_now s + c_interval c)) s)
      | FreshCancelled => put rest (set_stat (t_cur s) Cancelled s)
      | _ => pop me s       (* RuntimeError: threads can only be started once *)
      end
  | IIfPending fl => if t_pend s then put (actually_call fl ++ rest) s else put rest s
  end.

Definition note (m : method) (s : state) : state :=
  match m with
  | Request a => add_log (Requested a (t_now s)) s
  | Flush => s
  | Cancel => add_log (Cancelling (t_now s)) s
  end.
(** Nobody is inside a method, and the thread of self._timer is not just ending. *)
Definition quiet (s : state) : Prop :=
  (forall x, t_stk s x = []) /\ match t_stat s (t_cur s) with Waiting _ | Over => True | _ => False end.

(** The steps of a program.  [serial]: methods are called one at a time, by a function that
    does not use its own throttler, and the thread of a timer that was cancelled, or has done its
    work, has ended before the next one is called. *)
Inductive step (c : config) (serial : bool) : state -> state -> Prop :=
| s_tick : forall s d, 0 <= d -> step c serial s (set_now (t_now s + d) s)
| s_call : forall s n m, t_stk s (Client n) = [] -> (serial = true -> quiet s) ->
    step c serial s (set_stk (Client n) [code c m] (note m s))
| s_fire : forall s j due, t_stat s j = Waiting due -> due <= t_now s -> (serial = true -> quiet s) ->
    step c serial s (set_stk (TimerThread j) [[IIfPending false]] (set_stat j Firing s))
| s_run : forall s me i rest fs, t_stk s me = (i :: rest) :: fs -> step c serial s (run c me i rest fs s)
| s_return : forall s me fs, t_stk s me = [] :: fs -> step c serial s (pop me s)
| s_raise : forall s me rest fs, t_stk s me = (IBody :: rest) :: fs ->
    step c serial s (pop me (add_log (Raised (t_now s)) s))
| s_again : forall s me rest fs m, serial = false -> t_stk s me = (IBody :: rest) :: fs ->
    step c serial s (set_stk me (code c m :: (IBody :: rest) :: fs) (note m s))
| s_die : forall s j, t_stat s j = Cancelled -> step c serial s (set_stat j Over s).
Inductive steps (c : config) (serial : bool) : state -> state -> Prop :=
| ss_refl : forall s, steps c serial s s
| ss_step : forall s s1 s2, steps c serial s s1 -> step c serial s1 s2 -> steps c serial s s2.

(** ** What is claimed, about the log *)

(** The last request, if it was neither cancelled nor followed by a call. *)
Definition open_request (l : list event) : option A :=
  fold_left (fun x e => match e with
                        | Requested a _ => Some a
                        | Started _ _ _ | Cancelling _ => None
                        | _ => x
                        end) l None.
(** When the last call started, or returned; unless it raised, or cancel was called since. *)
Definition last_end (l : list event) : option Z :=
  fold_left (fun x e => match e with
                        | Started _ t _ | Returned t => Some t
                        | Raised _ | Cancelling _ => None
                        | Requested _ _ => x
                        end) l None.
(** The time of the last request. *)
Definition last_request (l : list event) : option Z :=
  fold_left (fun x e => match e with Requested _ t => Some t | _ => x end) l None.
End Throttle.
Arguments state : clear implicits.
Arguments event : clear implicits.
