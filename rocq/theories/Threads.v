(** Signals used from several threads: the lock, the queue of emissions, the list of slots and the
    current emitter, step by step.  src/psygnal/_signal.py ("SI").

    Core.v describes what one thread does; here every method is cut into the steps between which
    the interpreter can switch threads, and what callbacks and threads do is left open: any
    client code can emit, connect, disconnect, ask for the emitter, return or raise at any time.
    Signals are neither blocked nor paused; argument checks and the debug hook are left out. *)

From Coq Require Import List ZArith Bool Lia.
Import ListNotations.
Open Scope Z_scope.

Section Threads.
Context {A : Type}.   (* the arguments of an emission *)

Inductive mode := Immediate | Queued | Latest.
(** [m_mode]: how each signal re-emits (SI:558-564); [m_limit]: RECURSION_LIMIT (SI:191). *)
Record setting := Setting { m_mode : nat -> mode; m_limit : Z }.

(** A connected slot: which one, and its priority. *)
Definition slot : Type := (nat * Z)%type.
(** SI:551-557.  [g_lock]: the thread that owns the RLock, and how often it has acquired it. *)
Record signal := Sig {
  g_lock : option (nat * nat);
  g_slots : list slot;
  g_queue : list A;
  g_depth : Z;
  g_max : Z
}.

(** Where a thread is in _run_emit_loop. *)
Inductive pc :=
| Check                                              (* SI:1265-1266, before the lock *)
| Acquire                                            (* with self._lock, SI:1268 *)
| Append                                             (* SI:1269-1271 *)
| Depth                                              (* SI:1274-1277 *)
| Save                                               (* previous = cls._current_emitter, SI:412 *)
| Enter (prev : option nat)                          (* cls._current_emitter = emitter, SI:412 *)
| Loop (prev : option nat) (i : nat)                 (* SI:1306, 1311, 1322-1323: the next arguments *)
| For (prev : option nat) (i : nat) (a : A) (k : nat) (* for caller in self._slots, SI:1307, 1312, 1324: at index k *)
| Back (prev : option nat) (i : nat) (a : A) (k : nat) (* the callback runs, or has returned *)
| Restore (prev : option nat)                        (* cls._current_emitter = previous, SI:416 *)
| Finish                                             (* SI:1298-1303 *)
| Release.                                           (* the end of with self._lock *)
(** Connecting and disconnecting. *)
Inductive edit := Connect (x : slot) | Disconnect (x : nat) | DisconnectAll.
(** A method of a signal that a thread is in, or a callback that it runs. *)
Inductive frame :=
| InEmit (g : nat) (a : A) (p : pc)
| InFast (g : nat) (a : A) (k : nat) (called : bool) (* emit_fast, SI:1238-1256: at index k of the slots *)
| InEdit (g : nat) (e : edit) (held : bool)          (* connect, disconnect, SI:736-766, 1122-1132 *)
| InCallback (x : slot).

(** What happens, in the order in which it happens, by thread. *)
Inductive event :=
| Began (th g : nat) (a : A)          (* an emission gets going *)
| Ended (th g : nat)                  (* … and is over *)
| Joined (th g : nat)                 (* emit returns at once: an emission is running that will do it *)
| Refused (th g : nat)                (* emit raises: recursion limit *)
| Failed (th g : nat)                 (* … is ended by a callback that raised *)
| Called (th g : nat) (x : slot) (a : A)      (* a callback is called by emit *)
| CalledFast (th g : nat) (x : slot) (a : A)  (* … by emit_fast *)
| Changed (th g : nat) (l : list slot)        (* the slots after connect or disconnect *)
| Gone (g : nat) (l : list slot)              (* … after an object died *)
| Asked (th : nat) (r : option nat).          (* current_emitter returned r, SI:434 *)

Record state := State {
  st_sig : nat -> signal;
  st_cur : option nat;               (* Signal._current_emitter, SI:293 *)
  st_stk : nat -> list frame;        (* innermost first *)
  st_log : list event
}.
Definition set_sig g x s :=
  State (fun h => if Nat.eqb h g then x else st_sig s h) (st_cur s) (st_stk s) (st_log s).
Definition set_cur x s := State (st_sig s) x (st_stk s) (st_log s).
Definition set_stk th fs s :=
  State (st_sig s) (st_cur s) (fun t => if Nat.eqb t th then fs else st_stk s t) (st_log s).
Definition say e s := State (st_sig s) (st_cur s) (st_stk s) (st_log s ++ [e]).

Definition set_lock l x := Sig l (g_slots x) (g_queue x) (g_depth x) (g_max x).
Definition set_slots l x := Sig (g_lock x) l (g_queue x) (g_depth x) (g_max x).
Definition set_queue q x := Sig (g_lock x) (g_slots x) q (g_depth x) (g_max x).
Definition set_depth d m x := Sig (g_lock x) (g_slots x) (g_queue x) d m.

(** threading.RLock: [acquire] waits ([None]) while another thread owns it. *)
Definition acquire (th : nat) (l : option (nat * nat)) : option (option (nat * nat)) :=
  match l with
  | None => Some (Some (th, 1%nat))
  | Some (o, n) => if Nat.eqb o th then Some (Some (th, S n)) else None
  end.
Definition release (l : option (nat * nat)) : option (nat * nat) :=
  match l with
  | Some (o, S (S n)) => Some (o, S n)
  | _ => None
  end.

(** _append_slot (SI:770-792); the quick way for slots without priority gives the same list. *)
Fixpoint insert (x : slot) (l : list slot) : list slot :=
  match l with
  | [] => [x]
  | y :: l => if snd y <? snd x then x :: y :: l else y :: insert x l
  end.
(** _slot_index and _remove_slot (SI:794-802, 1097-1103): the first one. *)
Fixpoint remove (x : nat) (l : list slot) : list slot :=
  match l with
  | [] => []
  | y :: l => if Nat.eqb (fst y) x then l else y :: remove x l
  end.
Definition edited (e : edit) (l : list slot) : list slot :=
  match e with
  | Connect x => insert x l
  | Disconnect x => remove x l
  | DisconnectAll => []
  end.

(** One step of emit on [g] in thread [th], at [p]; [r]: the frames below.  An exception from a
    callback goes to [Restore], see [s_raise]; emit then raises, and the client code below can
    go on in any way. *)
Definition emit_step (c : setting) (th g : nat) (a : A) (p : pc) (r : list frame) (s : state) : option state :=
  let x := st_sig s g in
  let at_ p s := set_stk th (InEmit g a p :: r) s in
  match p with
  | Check => Some (if g_depth x >=? m_limit c then set_stk th r (say (Refused th g) s) else at_ Acquire s)
  | Acquire => match acquire th (g_lock x) with
               | Some l => Some (at_ Append (set_sig g (set_lock l x) s))
               | None => None
               end
  | Append => let s := set_sig g (set_queue (g_queue x ++ [a]) x) s in
              Some (match g_queue x with
                    | [] => at_ Depth (say (Began th g a) s)
                    | _ => at_ Release (say (Joined th g) s)
                    end)
  | Depth => let d := g_depth x + 1 in Some (at_ Save (set_sig g (set_depth d (Z.max (g_max x) d) x) s))
  | Save => Some (at_ (Enter (st_cur s)) s)
  | Enter prev => Some (at_ (Loop prev 0) (set_cur (Some g) s))
  | Loop prev i =>
      match m_mode c g with
      | Queued => Some (match nth_error (g_queue x) i with
                        | Some b => at_ (For prev i b 0) s
                        | None => at_ (Restore prev) s
                        end)
      | _ => Some (match g_queue x with
                   | b :: q => at_ (For prev i b 0) (set_sig g (set_queue q x) s)
                   | [] => at_ (Restore prev) s             (* IndexError *)
                   end)
      end
  | For prev i b k =>
      let next := match m_mode c g with Queued => Loop prev (S i) | _ => Restore prev end in
      Some (match nth_error (g_slots x) k with
            | None => at_ next s
            | Some y =>
                match m_mode c g with
                | Latest => if g_depth x <? g_max x then at_ next s
                            else set_stk th (InCallback y :: InEmit g a (Back prev i b k) :: r) (say (Called th g y b) s)
                | _ => set_stk th (InCallback y :: InEmit g a (Back prev i b k) :: r) (say (Called th g y b) s)
                end
            end)
  | Back prev i b k =>
      Some (match m_mode c g with
            | Queued => if Z.of_nat (length (g_queue x)) >? m_limit c then at_ (Restore prev) s  (* RecursionError *)
                        else at_ (For prev i b (S k)) s
            | _ => at_ (For prev i b (S k)) s
            end)
  | Restore prev => Some (at_ Finish (set_cur prev s))
  | Finish => let d := g_depth x - 1 in
              let x := if d <=? 0 then set_depth 0 0 x else set_depth d (g_max x) x in
              Some (at_ Release (say (Ended th g) (set_sig g (set_queue [] x) s)))
  | Release => Some (set_stk th r (set_sig g (set_lock (release (g_lock x)) x) s))
  end.
(** emit_fast (SI:1238-1256): no lock, no emitter. *)
Definition fast_step (th g : nat) (a : A) (k : nat) (called : bool) (r : list frame) (s : state) : state :=
  let x := st_sig s g in
  if called then set_stk th (InFast g a (S k) false :: r) s
  else match nth_error (g_slots x) k with
       | Some y => set_stk th (InCallback y :: InFast g a k true :: r) (say (CalledFast th g y a) s)
       | None => set_stk th r (set_sig g (set_depth (if 0 <? g_depth x then g_depth x - 1 else g_depth x) (g_max x) x) s)
       end.
(** connect and disconnect: under the lock. *)
Definition edit_step (th g : nat) (e : edit) (held : bool) (r : list frame) (s : state) : option state :=
  let x := st_sig s g in
  if held then
    let l := edited e (g_slots x) in
    Some (set_stk th r (say (Changed th g l) (set_sig g (set_slots l (set_lock (release (g_lock x)) x)) s)))
  else match acquire th (g_lock x) with
       | Some l => Some (set_stk th (InEdit g e true :: r) (set_sig g (set_lock l x) s))
       | None => None
       end.

(** Thread [th] runs client code. *)
Definition in_client (fs : list frame) : Prop := match fs with [] | InCallback _ :: _ => True | _ => False end.
Definition emitting (fs : list frame) : Prop := exists g a p, In (InEmit g a p) fs.

(** The steps of all threads.  [solo]: a thread does not emit while another one is emitting. *)
Inductive step (c : setting) (solo : bool) : state -> state -> Prop :=
| s_emit : forall s th g a, in_client (st_stk s th) -> (solo = true -> forall t, t <> th -> ~ emitting (st_stk s t)) ->
    step c solo s (set_stk th (InEmit g a Check :: st_stk s th) s)
| s_fast : forall s th g a x, in_client (st_stk s th) -> x = st_sig s g -> g_depth x < m_limit c ->
    step c solo s (set_stk th (InFast g a 0 false :: st_stk s th) (set_sig g (set_depth (g_depth x + 1) (g_max x) x) s))
| s_edit : forall s th g e, in_client (st_stk s th) ->
    step c solo s (set_stk th (InEdit g e false :: st_stk s th) s)
| s_ask : forall s th, in_client (st_stk s th) -> step c solo s (say (Asked th (st_cur s)) s)
| s_return : forall s th x r, st_stk s th = InCallback x :: r -> step c solo s (set_stk th r s)
| s_raise : forall s th x g a prev i b k r, st_stk s th = InCallback x :: InEmit g a (Back prev i b k) :: r ->
    step c solo s (set_stk th (InEmit g a (Restore prev) :: r) (say (Failed th g) s))
| s_raise_fast : forall s th x g a k r y, st_stk s th = InCallback x :: InFast g a k true :: r -> y = st_sig s g ->
    step c solo s (set_stk th r (set_sig g (set_depth (if 0 <? g_depth y then g_depth y - 1 else g_depth y) (g_max y) y) s))
| s_in_emit : forall s th g a p r s', st_stk s th = InEmit g a p :: r -> emit_step c th g a p r s = Some s' ->
    step c solo s s'
| s_in_fast : forall s th g a k b r, st_stk s th = InFast g a k b :: r -> step c solo s (fast_step th g a k b r s)
| s_in_edit : forall s th g e h r s', st_stk s th = InEdit g e h :: r -> edit_step th g e h r s = Some s' ->
    step c solo s s'
| s_gone : forall s g y l, l = remove y (g_slots (st_sig s g)) ->   (* a finalizer: _try_discard (SI:804-821), no lock *)
    step c solo s (say (Gone g l) (set_sig g (set_slots l (st_sig s g)) s)).
Inductive steps (c : setting) (solo : bool) : state -> state -> Prop :=
| ss_refl : forall s, steps c solo s s
| ss_step : forall s s1 s2, steps c solo s s1 -> step c solo s1 s2 -> steps c solo s s2.

(** At the start: no slots, no threads inside. *)
Definition init : state := State (fun _ => Sig None [] [] 0 0) None (fun _ => []) [].
End Threads.
Arguments state : clear implicits.
Arguments event : clear implicits.
Arguments frame : clear implicits.
Arguments signal : clear implicits.
Arguments pc : clear implicits.
