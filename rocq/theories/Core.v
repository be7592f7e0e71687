(** The signal engine: SignalInstance, SignalRelay, weak callbacks, thread queues.

    Line numbers refer to /repo/src/psygnal.  Unless said otherwise the file is
    _signal.py.  "WC" is _weak_callback.py, "GR" is _group.py, "QU" is _queue.py. *)

From Verif Require Import Base.

(** ** Static data *)

(** _signal.py:191 *)
Definition RECURSION_LIMIT : nat := 300.

(** Reemission modes, _signal.py:200-205. *)
Inductive mode := Immediate | Queued | LatestOnly.

(** [RefErrorChoice], WC:25. *)
Inductive refchoice := RefRaise | RefWarn | RefIgnore.

(** The [unique] argument of connect: False, True, or the string "raise". *)
Inductive uniq := UFalse | UTrue | URaise.

(** The [thread] argument of connect, QU:46-53. *)
Inductive thread_spec := ThMain | ThCurrent | ThIs (t : thr).

(** What a WeakCallback calls.
    [TFun]: StrongFunction (WC:335-371); [TObj]: WeakFunction (WC:374-409);
    [TMeth]: WeakMethod (WC:412-464); [TBuiltin]: WeakBuiltin (WC:467-508);
    [TSetattr], [TSetitem]: WC:511-582; [TRelay]: bound method of a SignalRelay. *)
Inductive target :=
| TFun (f : oid) (pre : list val) (kw : list (string * val))
| TObj (o : oid) (pre : list val) (kw : list (string * val))
| TMeth (o f : oid) (pre : list val) (kw : list (string * val))
| TBuiltin (o : oid) (n : string) (pre : list val)
| TSetattr (o : oid) (a : string)
| TSetitem (o : oid) (k : val)
| TRelay (r : sid).

(** A WeakCallback object (WC:196-226), or a QueuedCallback around one (QU:15-57)
    when [w_thread] is [Some t].  [w_uid] is the identity of the object.
    [w_ref = Some o]: the callback holds only a weak reference to [o];
    [w_ref = None]: it holds a strong reference. *)
Record wcb := Wcb {
  w_uid : nat;
  w_key : key;
  w_target : target;
  w_maxargs : option Z;
  w_prio : Z;
  w_ref : option oid;
  w_thread : option thr
}.

(** State of a SignalInstance (_signal.py:524-567); [s_members] and [s_wasb] are the
    extra attributes of a SignalRelay (GR:67-72), [s_members = None] for a plain
    signal.  [s_args] is _args_queue, [s_eq] is _emit_queue.  The recursion depth is
    never negative (_signal.py:1300-1302), so [nat] is used. *)
Record sigst := Sig {
  s_slots : list wcb;
  s_prio : bool;
  s_blocked : bool;
  s_paused : bool;
  s_args : list (list val);
  s_eq : list (list val);
  s_depth : nat;
  s_max : nat;
  s_mode : mode;
  s_params : list param;
  s_chkn : bool;
  s_chkt : bool;
  s_members : option (list (string * sid));
  s_wasb : list (string * bool)
}.

(** Field updates of [sigst]. *)
Definition set_slots x (st : sigst) : sigst :=
  {| s_slots := x; s_prio := s_prio st; s_blocked := s_blocked st; s_paused := s_paused st; s_args := s_args st; s_eq := s_eq st; s_depth := s_depth st; s_max := s_max st; s_mode := s_mode st; s_params := s_params st; s_chkn := s_chkn st; s_chkt := s_chkt st; s_members := s_members st; s_wasb := s_wasb st |}.
Definition set_prio x (st : sigst) : sigst :=
  {| s_slots := s_slots st; s_prio := x; s_blocked := s_blocked st; s_paused := s_paused st; s_args := s_args st; s_eq := s_eq st; s_depth := s_depth st; s_max := s_max st; s_mode := s_mode st; s_params := s_params st; s_chkn := s_chkn st; s_chkt := s_chkt st; s_members := s_members st; s_wasb := s_wasb st |}.
Definition set_blocked x (st : sigst) : sigst :=
  {| s_slots := s_slots st; s_prio := s_prio st; s_blocked := x; s_paused := s_paused st; s_args := s_args st; s_eq := s_eq st; s_depth := s_depth st; s_max := s_max st; s_mode := s_mode st; s_params := s_params st; s_chkn := s_chkn st; s_chkt := s_chkt st; s_members := s_members st; s_wasb := s_wasb st |}.
Definition set_paused x (st : sigst) : sigst :=
  {| s_slots := s_slots st; s_prio := s_prio st; s_blocked := s_blocked st; s_paused := x; s_args := s_args st; s_eq := s_eq st; s_depth := s_depth st; s_max := s_max st; s_mode := s_mode st; s_params := s_params st; s_chkn := s_chkn st; s_chkt := s_chkt st; s_members := s_members st; s_wasb := s_wasb st |}.
Definition set_args x (st : sigst) : sigst :=
  {| s_slots := s_slots st; s_prio := s_prio st; s_blocked := s_blocked st; s_paused := s_paused st; s_args := x; s_eq := s_eq st; s_depth := s_depth st; s_max := s_max st; s_mode := s_mode st; s_params := s_params st; s_chkn := s_chkn st; s_chkt := s_chkt st; s_members := s_members st; s_wasb := s_wasb st |}.
Definition set_eq x (st : sigst) : sigst :=
  {| s_slots := s_slots st; s_prio := s_prio st; s_blocked := s_blocked st; s_paused := s_paused st; s_args := s_args st; s_eq := x; s_depth := s_depth st; s_max := s_max st; s_mode := s_mode st; s_params := s_params st; s_chkn := s_chkn st; s_chkt := s_chkt st; s_members := s_members st; s_wasb := s_wasb st |}.
Definition set_depth x (st : sigst) : sigst :=
  {| s_slots := s_slots st; s_prio := s_prio st; s_blocked := s_blocked st; s_paused := s_paused st; s_args := s_args st; s_eq := s_eq st; s_depth := x; s_max := s_max st; s_mode := s_mode st; s_params := s_params st; s_chkn := s_chkn st; s_chkt := s_chkt st; s_members := s_members st; s_wasb := s_wasb st |}.
Definition set_max x (st : sigst) : sigst :=
  {| s_slots := s_slots st; s_prio := s_prio st; s_blocked := s_blocked st; s_paused := s_paused st; s_args := s_args st; s_eq := s_eq st; s_depth := s_depth st; s_max := x; s_mode := s_mode st; s_params := s_params st; s_chkn := s_chkn st; s_chkt := s_chkt st; s_members := s_members st; s_wasb := s_wasb st |}.
Definition set_mode x (st : sigst) : sigst :=
  {| s_slots := s_slots st; s_prio := s_prio st; s_blocked := s_blocked st; s_paused := s_paused st; s_args := s_args st; s_eq := s_eq st; s_depth := s_depth st; s_max := s_max st; s_mode := x; s_params := s_params st; s_chkn := s_chkn st; s_chkt := s_chkt st; s_members := s_members st; s_wasb := s_wasb st |}.
Definition set_params x (st : sigst) : sigst :=
  {| s_slots := s_slots st; s_prio := s_prio st; s_blocked := s_blocked st; s_paused := s_paused st; s_args := s_args st; s_eq := s_eq st; s_depth := s_depth st; s_max := s_max st; s_mode := s_mode st; s_params := x; s_chkn := s_chkn st; s_chkt := s_chkt st; s_members := s_members st; s_wasb := s_wasb st |}.
Definition set_chkn x (st : sigst) : sigst :=
  {| s_slots := s_slots st; s_prio := s_prio st; s_blocked := s_blocked st; s_paused := s_paused st; s_args := s_args st; s_eq := s_eq st; s_depth := s_depth st; s_max := s_max st; s_mode := s_mode st; s_params := s_params st; s_chkn := x; s_chkt := s_chkt st; s_members := s_members st; s_wasb := s_wasb st |}.
Definition set_chkt x (st : sigst) : sigst :=
  {| s_slots := s_slots st; s_prio := s_prio st; s_blocked := s_blocked st; s_paused := s_paused st; s_args := s_args st; s_eq := s_eq st; s_depth := s_depth st; s_max := s_max st; s_mode := s_mode st; s_params := s_params st; s_chkn := s_chkn st; s_chkt := x; s_members := s_members st; s_wasb := s_wasb st |}.
Definition set_members x (st : sigst) : sigst :=
  {| s_slots := s_slots st; s_prio := s_prio st; s_blocked := s_blocked st; s_paused := s_paused st; s_args := s_args st; s_eq := s_eq st; s_depth := s_depth st; s_max := s_max st; s_mode := s_mode st; s_params := s_params st; s_chkn := s_chkn st; s_chkt := s_chkt st; s_members := x; s_wasb := s_wasb st |}.
Definition set_wasb x (st : sigst) : sigst :=
  {| s_slots := s_slots st; s_prio := s_prio st; s_blocked := s_blocked st; s_paused := s_paused st; s_args := s_args st; s_eq := s_eq st; s_depth := s_depth st; s_max := s_max st; s_mode := s_mode st; s_params := s_params st; s_chkn := s_chkn st; s_chkt := s_chkt st; s_members := s_members st; s_wasb := x |}.

(** A new SignalInstance (_signal.py:524-567) with the given reemission mode and
    signature, and a new SignalRelay (GR:67-72): signature (EmissionInfo,). *)
Definition new_signal (m : mode) (ps : list param) : sigst :=
  Sig [] false false false [] [] 0 0 m ps true false None [].
Definition new_relay (ms : list (string * sid)) : sigst :=
  Sig [] false false false [] [] 0 0 Immediate
      [Param PosOnly false (AClass 1)] true false (Some ms) [].

(** Options of [connect] (_signal.py:633-644). *)
Record copts := Copts {
  c_thread : option thread_spec;
  c_check_nargs : option bool;
  c_check_types : option bool;
  c_unique : uniq;
  c_max : option Z;
  c_onref : refchoice;
  c_prio : Z
}.
Definition default_opts : copts := Copts None None None UFalse None RefWarn 0%Z.

(** The [reducer] argument of [resume] (_signal.py:1373-1394).  Reducers may raise. *)
Inductive reducer :=
| RNone
| ROne (f : list (list val) -> list val + exn)
| RTwo (f : list val -> list val -> list val + exn) (init : option (list val)).

(** What [disconnect] accepts: a callable, or the WeakCallback object returned by
    connect_setattr / connect_setitem (only its key matters, WC:118, 244-248). *)
Inductive slotref := RCallable (c : callable) | RHandle (k : key).

(** ** Client programs *)

Section Engine.
Context {U : Type}.

(** API calls.  [OUsr] is client code acting on its own state, [OCall] a call of a
    method of the library class under study (see [e_lib]), [ORelay] the body of
    SignalRelay._slot_relay, [OKill o] the death of object [o] (all strong references
    are gone), [OThread t] the interpreter switching to thread [t], [OSetHook] the
    assignment of SignalInstance._debug_hook. *)
Inductive op :=
| OEmit (s : sid) (args : list val) (cn ct : bool)
| OEmitFast (s : sid) (args : list val)
| OConnect (s : sid) (c : callable) (o : copts)
| OConnectDirect (r : sid) (c : callable) (o : copts)
| OConnectSetattr (s : sid) (ob : oid) (a : string) (m : option Z) (r : refchoice) (p : Z)
| OConnectSetitem (s : sid) (ob : oid) (k : val) (m : option Z) (r : refchoice) (p : Z)
| ODisconnect (s : sid) (r : option slotref) (missing_ok : bool)
| ODisconnectSetattr (s : sid) (ob : oid) (a : string) (missing_ok : bool)
| ODisconnectSetitem (s : sid) (ob : oid) (k : val) (missing_ok : bool)
| OBlock (s : sid) (excl : list (string + sid))
| OUnblock (s : sid)
| OPause (s : sid)
| OResume (s : sid) (r : reducer)
| OIsBlocked (s : sid)
| OIsPaused (s : sid)
| OLen (s : sid)
| OContains (s : sid) (c : callable)
| OCurrent
| ORelay (r : sid) (args : list val)
| OKill (o : oid)
| OThread (t : thr)
| OEmitQueued (t : option thr)
| OSetHook (h : option oid)
| OGetHook
| OCall (m : string) (args : list val)
| OUsr (f : U -> U * (val + exn)).

(** Python client code: return, raise, stop observing, look at own state, or make a
    call and continue with its value or exception. *)
Inductive prog :=
| Ret (v : val)
| Throw (e : exn)
| Halt
| Look (k : U -> prog)
| Do (o : op) (k : val + exn -> prog).

(** Ghost events.  [EEmit]: emit() was called (with the client state at that time);
    [EStart]/[EEnd]: an emission loop with identity [eid] starts / ends;
    [EQueued]: a nested emission was queued behind the running loop;
    [ECall]/[ERet]: emission [eid] of [s] calls slot [uid] with arguments [args] /
    the call is over, [x] is the exception it raised; [EDefer]: the call was put on the queue of thread [t];
    [EDCall]/[EDRet]: the same for a call taken from such a queue;
    [EHook]: the debug hook is called; [EPop]: emit_queued takes a call from the queue of
    thread [t]. *)
Inductive event :=
| EEmit (s : sid) (args : list val) (u : U)
| EStart (eid : nat) (s : sid) (args : list val)
| EEnd (eid : nat) (s : sid)
| EQueued (s : sid) (args : list val)
| ECall (eid : nat) (s : sid) (uid : nat) (args : list val)
| ERet (eid : nat) (s : sid) (uid : nat) (x : option exn)
| EDCall (eid : nat) (s : sid) (uid : nat) (args : list val)
| EDRet (eid : nat) (s : sid) (uid : nat) (x : option exn)
| EDefer (eid : nat) (s : sid) (uid : nat) (t : thr) (args : list val)
| EHook (h : oid) (s : sid) (args : list val)
| EPop (t : thr) (eid : nat) (s : sid) (uid : nat) (args : list val).

(** The whole program state.  [w_sg]: all signals; [w_cur]: Signal._current_emitter
    (_signal.py:293); [w_hook]: SignalInstance._debug_hook (_signal.py:522);
    [w_dead]: objects that no longer exist; [w_refs]: live weak references with a
    finalizer, newest first: (object, signal whose _try_discard is the finalizer,
    key of the WeakCallback) (WC:250-271, 323-331); [w_tq]: QueuedCallback._GLOBAL_QUEUE
    (QU:29-31); [w_me]: current thread; [w_nxt]: next object identity (ghost);
    [w_tr]: events so far (ghost); [w_usr]: state owned by client code. *)
Record world := World {
  w_sg : sid -> sigst;
  w_cur : option sid;
  w_hook : option oid;
  w_dead : oid -> bool;
  w_refs : list (oid * sid * key);
  w_tq : thr -> list (nat * sid * wcb * list val);
  w_me : thr;
  w_nxt : nat;
  w_tr : list event;
  w_usr : U
}.

(** Field updates of [world]. *)
Definition set_sg x (st : world) : world :=
  {| w_sg := x; w_cur := w_cur st; w_hook := w_hook st; w_dead := w_dead st; w_refs := w_refs st; w_tq := w_tq st; w_me := w_me st; w_nxt := w_nxt st; w_tr := w_tr st; w_usr := w_usr st |}.
Definition set_cur x (st : world) : world :=
  {| w_sg := w_sg st; w_cur := x; w_hook := w_hook st; w_dead := w_dead st; w_refs := w_refs st; w_tq := w_tq st; w_me := w_me st; w_nxt := w_nxt st; w_tr := w_tr st; w_usr := w_usr st |}.
Definition set_hook x (st : world) : world :=
  {| w_sg := w_sg st; w_cur := w_cur st; w_hook := x; w_dead := w_dead st; w_refs := w_refs st; w_tq := w_tq st; w_me := w_me st; w_nxt := w_nxt st; w_tr := w_tr st; w_usr := w_usr st |}.
Definition set_dead x (st : world) : world :=
  {| w_sg := w_sg st; w_cur := w_cur st; w_hook := w_hook st; w_dead := x; w_refs := w_refs st; w_tq := w_tq st; w_me := w_me st; w_nxt := w_nxt st; w_tr := w_tr st; w_usr := w_usr st |}.
Definition set_refs x (st : world) : world :=
  {| w_sg := w_sg st; w_cur := w_cur st; w_hook := w_hook st; w_dead := w_dead st; w_refs := x; w_tq := w_tq st; w_me := w_me st; w_nxt := w_nxt st; w_tr := w_tr st; w_usr := w_usr st |}.
Definition set_tq x (st : world) : world :=
  {| w_sg := w_sg st; w_cur := w_cur st; w_hook := w_hook st; w_dead := w_dead st; w_refs := w_refs st; w_tq := x; w_me := w_me st; w_nxt := w_nxt st; w_tr := w_tr st; w_usr := w_usr st |}.
Definition set_me x (st : world) : world :=
  {| w_sg := w_sg st; w_cur := w_cur st; w_hook := w_hook st; w_dead := w_dead st; w_refs := w_refs st; w_tq := w_tq st; w_me := x; w_nxt := w_nxt st; w_tr := w_tr st; w_usr := w_usr st |}.
Definition set_nxt x (st : world) : world :=
  {| w_sg := w_sg st; w_cur := w_cur st; w_hook := w_hook st; w_dead := w_dead st; w_refs := w_refs st; w_tq := w_tq st; w_me := w_me st; w_nxt := x; w_tr := w_tr st; w_usr := w_usr st |}.
Definition set_tr x (st : world) : world :=
  {| w_sg := w_sg st; w_cur := w_cur st; w_hook := w_hook st; w_dead := w_dead st; w_refs := w_refs st; w_tq := w_tq st; w_me := w_me st; w_nxt := w_nxt st; w_tr := x; w_usr := w_usr st |}.
Definition set_usr x (st : world) : world :=
  {| w_sg := w_sg st; w_cur := w_cur st; w_hook := w_hook st; w_dead := w_dead st; w_refs := w_refs st; w_tq := w_tq st; w_me := w_me st; w_nxt := w_nxt st; w_tr := w_tr st; w_usr := x |}.

(** Everything the engine does not know about the Python program around it:
    [e_body t args w]: what calling target [t] with [args] in world [w] does;
    [e_lib m args]: the library method [m] called with [args] (see client files);
    [e_weakref o]: whether [o] supports weak references; [e_fname f]: [f.__name__];
    [e_sig c]: the signature of [c]; [e_subclass], [e_type]: issubclass and type;
    [e_hasattr o a]: hasattr(o, a). *)
Record env := Env {
  e_body : target -> list val -> world -> prog;
  e_lib : string -> list val -> prog;
  e_weakref : oid -> bool;
  e_fname : oid -> string;
  e_sig : callable -> sigres;
  e_subclass : nat -> nat -> bool;
  e_type : val -> nat;
  e_hasattr : oid -> string -> bool
}.

(** Update the state of one signal. *)
Definition upd (s : sid) (f : sigst -> sigst) (w : world) : world :=
  set_sg (fun x => if Nat.eqb x s then f (w_sg w s) else w_sg w x) w.
(** Record a ghost event. *)
Definition log (e : event) (w : world) : world := set_tr (w_tr w ++ [e]) w.

(** ** Signatures *)

(** Result of scanning the parameters in [_acceptable_posarg_range]
    (_signal.py:1654-1672): ((required, optional), unlimited), or ValueError. *)
Fixpoint scan_params (forbid : bool) (ps : list param) (req opt : nat) (unl : bool)
  : (nat * nat * bool) + exn :=
  match ps with
  | [] => inl (req, opt, unl)
  | p :: r =>
      match p_kind p with
      | PosOnly | PosOrKw =>
          if p_default p then scan_params forbid r req (S opt) unl
          else scan_params forbid r (S req) opt unl
      | VarPos => scan_params forbid r req opt true
      | KwOnly =>
          if negb (p_default p) && forbid then inr EValue
          else scan_params forbid r req opt unl
      | VarKw => scan_params forbid r req opt unl
      end
  end.

(** Part of the Qt signature string between the first "(" and the next ")":
    [sig.split("(", 1)[1].split(")", 1)[0]] (_signal.py:1650); None if no "(". *)
Fixpoint until_close (s : string) : string :=
  match s with
  | EmptyString => EmptyString
  | String c r => if Ascii.eqb c ")"%char then EmptyString else String c (until_close r)
  end.
Fixpoint after_open (s : string) : option string :=
  match s with
  | EmptyString => None
  | String c r => if Ascii.eqb c "("%char then Some (until_close r) else after_open r
  end.
Fixpoint count_commas (s : string) : nat :=
  match s with
  | EmptyString => 0
  | String c r => (if Ascii.eqb c ","%char then 1 else 0) + count_commas r
  end.

(** [_acceptable_posarg_range] (_signal.py:1624-1672). *)
Definition posarg_range_str (s : string) : (nat * option nat) + exn :=
  match after_open s with
  | None => inr EValue
  | Some EmptyString => inl (0, Some 0)
  | Some inner => inl (S (count_commas inner), Some (S (count_commas inner)))
  end.
Definition posarg_range (ps : list param) (forbid : bool) : (nat * option nat) + exn :=
  match scan_params forbid ps 0 0 false with
  | inr e => inr e
  | inl (req, opt, unl) => inl (req, if unl then None else Some (req + opt))
  end.

(** [SignalInstance._check_nargs] (_signal.py:1046-1088): (maxargs, is_qt).  Note that
    the third component is [True] on every successful check (line 1088). *)
Definition check_nargs (E : env) (c : callable) (spec : list param)
  : (option Z * bool) + exn :=
  let range :=
    match e_sig E c with
    | SNone => None
    | SStr s => Some (posarg_range_str s)
    | SSig ps => Some (posarg_range ps true)
    end in
  match range with
  | None => inl (None, false)
  | Some (inr e) => inr e
  | Some (inl (mn, mx)) =>
      if Nat.ltb (List.length spec) mn then inr EValue
      else inl (option_map Z.of_nat mx, true)
  end.

(** [_is_subclass] (_signal.py:1714-1718) on annotations.  [inspect.empty] is class 0.
    [issubclass] takes a class, or (Python 3.10 and later; Python 3.9 raises TypeError) a
    union, on the right; it raises TypeError for anything else that is not a class. *)
Definition ann_classes (a : ann) : option (list nat) :=
  match a with AEmpty => Some [0] | AClass c => Some [c] | AUnion cs => Some cs | AStr _ => None end.
Definition is_subclass (E : env) (l r : ann) : bool + exn :=
  match l, ann_classes r with
  | AUnion cs, Some ds => inl (existsb (fun i => existsb (e_subclass E i) ds) cs)
  | AClass c, Some ds => inl (existsb (e_subclass E c) ds)
  | _, _ => inr EType
  end.

(** [_parameter_types_match] (_signal.py:1675-1711). *)
Fixpoint types_match (E : env) (fs spec : list param) : bool + exn :=
  match fs, spec with
  | f :: fr, sp :: sr =>
      match p_ann f with
      | AEmpty => types_match E fr sr
      | a =>
          let a' := match a with AStr r => r | _ => a end in
          match is_subclass E a' (p_ann sp) with
          | inl true => types_match E fr sr
          | r => r
          end
      end
  | _, _ => inl true
  end.

(** [self.signature.bind( *args)] for [n] positional arguments (_signal.py:1176):
    Python's binding rule. *)
Definition is_positional (p : param) : bool :=
  match p_kind p with PosOnly | PosOrKw => true | _ => false end.
Definition is_varpos (p : param) : bool :=
  match p_kind p with VarPos => true | _ => false end.
Definition is_required_kw (p : param) : bool :=
  match p_kind p with KwOnly => negb (p_default p) | _ => false end.
Definition bind_ok (ps : list param) (n : nat) : bool :=
  let pos := filter is_positional ps in
  (Nat.leb n (List.length pos) || existsb is_varpos ps)
  && forallb p_default (skipn n pos)
  && negb (existsb is_required_kw ps).

(** ** Weak callbacks *)

(** [_try_ref] (WC:250-271): weak if possible; otherwise strong, or TypeError. *)
Definition try_ref (E : env) (o : oid) (r : refchoice) : option oid + exn :=
  if e_weakref E o then inl (Some o)
  else match r with RefRaise => inr EType | _ => inl None end.

(** WeakSetattr.__init__ (WC:514-527) and WeakSetitem.__init__ (WC:553-566). *)
Definition weak_setattr (E : env) (o : oid) (a : string) (m : option Z) (r : refchoice)
  (p : Z) (uid : nat) : wcb + exn :=
  match try_ref E o r with
  | inr e => inr e
  | inl ref => inl (Wcb uid (KSetattr o a) (TSetattr o a) m p ref None)
  end.
Definition weak_setitem (E : env) (o : oid) (k : val) (m : option Z) (r : refchoice)
  (p : Z) (uid : nat) : wcb + exn :=
  match try_ref E o r with
  | inr e => inr e
  | inl ref => inl (Wcb uid (KSetitem o k) (TSetitem o k) m p ref None)
  end.

(** [weak_callback] (WC:38-193) for the callables of [Base.callable], with
    strong_func=True as used by connect.  Simplified: the second reference of
    WeakMethod, to the function on the class (WC:435), is treated as strong; the
    relay object behind [BRelay] is treated as immortal; toolz.curry objects are
    partials. *)
Definition weak_callback (E : env) (c : callable) (m : option Z) (r : refchoice)
  (p : Z) (uid : nat) : wcb + exn :=
  let args := callable_args c in
  let kw := callable_kw c in
  match callable_base c with
  | BFunc f => inl (Wcb uid (KFunc f) (TFun f args kw) m p None None)
  | BMethod o f =>
      if String.eqb (e_fname E f) "__setitem__" then
        match args with
        | [] => inr EType
        | k :: _ => weak_setitem E o k m r p uid
        end
      else
        match try_ref E o r with
        | inr e => inr e
        | inl ref => inl (Wcb uid (KBound o (e_fname E f)) (TMeth o f args kw) m p ref None)
        end
  | BBuiltin o n =>
      match kw with
      | _ :: _ => inr ENotImpl
      | [] =>
          match try_ref E o r with
          | inr e => inr e
          | inl ref => inl (Wcb uid (KBound o n) (TBuiltin o n args) m p ref None)
          end
      end
  | BSetattr =>
      match kw with
      | _ :: _ => inr ENotImpl
      | [] =>
          match args with
          | VObj o :: VStr a :: _ => weak_setattr E o a m r p uid
          | _ => inr EValue
          end
      end
  | BObj o =>
      match try_ref E o r with
      | inr e => inr e
      | inl ref => inl (Wcb uid (KObj o) (TObj o args kw) m p ref None)
      end
  | BRelay rl => inl (Wcb uid (KRelay rl) (TRelay rl) m p None None)
  end.

(** The key under which a callable is looked up in the slots:
    [weak_callback(slot, on_ref_error="ignore")] (_signal.py:1100). *)
Definition key_of (E : env) (c : callable) : key + exn :=
  match weak_callback E c None RefIgnore 0%Z 0 with
  | inl x => inl (w_key x)
  | inr e => inr e
  end.
Definition key_of_ref (E : env) (r : slotref) : key + exn :=
  match r with RCallable c => key_of E c | RHandle k => inl k end.

(** Arguments actually passed by [cb(args)] beyond those bound at connection time
    (WC:355-358, 395-401, 446-454, 498-505, 533-539, 572-578). *)
Definition cut_args (c : wcb) (args : list val) : list val :=
  match w_maxargs c with None => args | Some m => py_take m args end.
Definition cb_args (c : wcb) (args : list val) : list val :=
  let a := cut_args c args in
  match w_target c with
  | TSetattr _ _ | TSetitem _ _ => match a with [v] => [v] | _ => [VTuple a] end
  | _ => a
  end.

(** ** Connections *)

(** The loop of [_append_slot] (_signal.py:788-792). *)
Fixpoint insert_prio (c : wcb) (l : list wcb) : list wcb :=
  match l with
  | [] => [c]
  | x :: r => if Z.ltb (w_prio x) (w_prio c) then c :: x :: r
              else x :: insert_prio c r
  end.
(** [SignalInstance._append_slot] (_signal.py:770-792). *)
Definition append_slot_base (c : wcb) (st : sigst) : sigst :=
  if negb (s_prio st) then
    if Z.eqb (w_prio c) 0 then set_slots (s_slots st ++ [c]) st
    else let st' := set_prio true st in set_slots (insert_prio c (s_slots st')) st'
  else set_slots (insert_prio c (s_slots st)) st.

(** First slot equal to a callback: keys are compared (WC:244-248). *)
Definition has_key (k : key) (l : list wcb) : bool :=
  existsb (fun x => key_eqb (w_key x) k) l.
(** [list.remove] / [_slot_index] + [pop]: delete the first slot with key [k]
    (_signal.py:1097-1103, 794-802). *)
Fixpoint remove_first (k : key) (l : list wcb) : option (list wcb) :=
  match l with
  | [] => None
  | x :: r =>
      if key_eqb (w_key x) k then Some r
      else match remove_first k r with None => None | Some r' => Some (x :: r') end
  end.

(** The part of [connect] that SignalRelay._connect_relay uses on one member:
    [sig.connect(self._slot_relay, check_nargs=False, check_types=False, unique=True)]
    (GR:79-86).  Members are plain signals. *)
Definition connect_relay1 (r m : sid) (w : world) : world :=
  if has_key (KRelay r) (s_slots (w_sg w m)) then w
  else upd m (append_slot_base (Wcb (w_nxt w) (KRelay r) (TRelay r) None 0%Z None None))
           (set_nxt (S (w_nxt w)) w).
Definition connect_relay (r : sid) (ms : list (string * sid)) (w : world) : world :=
  fold_left (fun w nm => connect_relay1 r (snd nm) w) ms w.

(** [_append_slot] as overridden by SignalRelay (GR:74-77). *)
Definition append_slot (s : sid) (c : wcb) (w : world) : world :=
  let w1 := upd s (append_slot_base c) w in
  match s_members (w_sg w1 s) with
  | Some ms => if Nat.eqb (List.length (s_slots (w_sg w1 s))) 1
               then connect_relay s ms w1 else w1
  | None => w1
  end.

(** SignalRelay._disconnect_relay (GR:93-95). *)
Definition disconnect_relay1 (r m : sid) (w : world) : world :=
  match remove_first (KRelay r) (s_slots (w_sg w m)) with
  | None => w
  | Some l => upd m (set_slots l) w
  end.
Definition disconnect_relay (r : sid) (ms : list (string * sid)) (w : world) : world :=
  fold_left (fun w nm => disconnect_relay1 r (snd nm) w) ms w.
(** What SignalRelay._remove_slot adds to SignalInstance._remove_slot (GR:88-91). *)
Definition after_remove (s : sid) (w : world) : world :=
  match s_members (w_sg w s), s_slots (w_sg w s) with
  | Some ms, [] => disconnect_relay s ms w
  | _, _ => w
  end.
(** [_remove_slot("all")], and [_remove_slot] of the first slot with key [k];
    None: there is no such slot. *)
Definition remove_all (s : sid) (w : world) : world :=
  after_remove s (upd s (set_slots []) w).
Definition remove_key (s : sid) (k : key) (w : world) : option world :=
  match remove_first k (s_slots (w_sg w s)) with
  | None => None
  | Some l => Some (after_remove s (upd s (set_slots l) w))
  end.
(** [_try_discard] (_signal.py:804-818). *)
Definition try_discard (s : sid) (k : key) (missing_ok : bool) (w : world) : world * out :=
  match remove_key s k w with
  | Some w' => (w', Ok VNone)
  | None => (w, if missing_ok then Ok VNone else Err EValue)
  end.

(** Add a new WeakCallback to the slots; creating it registered its weak reference
    (WC:255-257). *)
Definition add_wcb (s : sid) (c : wcb) (w : world) : world :=
  let w1 := set_nxt (S (w_nxt w)) w in
  let w2 := match w_ref c with
            | Some o => set_refs ((o, s, w_key c) :: w_refs w1) w1
            | None => w1
            end in
  append_slot s c w2.

(** [QueuedCallback.__init__] (QU:33-57). *)
Definition resolve_thread (w : world) (t : option thread_spec) : option thr :=
  match t with
  | None => None
  | Some ThMain => Some 0
  | Some ThCurrent => Some (w_me w)
  | Some (ThIs t) => Some t
  end.
Definition set_thread (t : option thr) (c : wcb) : wcb :=
  Wcb (w_uid c) (w_key c) (w_target c) (w_maxargs c) (w_prio c) (w_ref c) t.

(** Objects whose methods or attributes a callable would touch: a Python program can
    only mention a callable of objects that are alive. *)
Definition callable_dead (w : world) (c : callable) : bool :=
  match callable_base c with
  | BMethod o _ | BBuiltin o _ | BObj o => w_dead w o
  | BSetattr => match callable_args c with VObj o :: _ => w_dead w o | _ => false end
  | BFunc _ | BRelay _ => false
  end.

(** [SignalInstance.connect] (_signal.py:723-768).  A callable of a dead object
    cannot be written in Python; the model raises ReferenceError for it. *)
Definition connect (E : env) (s : sid) (c : callable) (o : copts) (w : world)
  : world * out :=
  if callable_dead w c then (w, Err EReference) else
  let st := w_sg w s in
  let chkn := match c_check_nargs o with Some b => b | None => s_chkn st end in
  let chkt := match c_check_types o with Some b => b | None => s_chkt st end in
  let already :=
    match c_unique o with
    | UFalse => inl false
    | _ => match key_of E c with
           | inl k => inl (has_key k (s_slots st))
           | inr e => inr e
           end
    end in
  match already with
  | inr e => (w, Err e)
  | inl true =>
      (w, match c_unique o with URaise => Err EValue | _ => Ok VNone end)
  | inl false =>
      let nargs :=
        match chkn, c_max o with
        | true, None =>
            match check_nargs E c (s_params st) with
            | inr e => inr e
            | inl (mx, isqt) => inl (mx, if isqt then RefIgnore else c_onref o)
            end
        | _, _ => inl (c_max o, c_onref o)
        end in
      match nargs with
      | inr e => (w, Err e)
      | inl (mx, onref) =>
          let types :=
            if chkt then
              match e_sig E c with
              | SNone => inr EValue
              | SStr _ => inl true
              | SSig ps => types_match E ps (s_params st)
              end
            else inl true in
          match types with
          | inr e => (w, Err e)
          | inl false => (w, Err EValue)
          | inl true =>
              match weak_callback E c mx onref (c_prio o) (w_nxt w) with
              | inr e => (w, Err e)
              | inl x =>
                  (add_wcb s (set_thread (resolve_thread w (c_thread o)) x) w, Ok VNone)
              end
          end
      end
  end.

(** SignalRelay.connect_direct (GR:145-156).  It passes neither thread, on_ref_error
    nor priority. *)
Fixpoint connect_each (E : env) (ms : list (string * sid)) (c : callable) (o : copts)
  (w : world) : world * out :=
  match ms with
  | [] => (w, Ok VNone)
  | (_, m) :: r =>
      match connect E m c o w with
      | (w1, Ok _) => connect_each E r c o w1
      | other => other
      end
  end.
Definition connect_direct (E : env) (r : sid) (c : callable) (o : copts) (w : world)
  : world * out :=
  match s_members (w_sg w r) with
  | None => (w, Err EAttribute)
  | Some ms =>
      connect_each E ms c (Copts None (c_check_nargs o) (c_check_types o) (c_unique o)
                                 (c_max o) RefWarn 0%Z) w
  end.

(** connect_setattr (_signal.py:892-905) and connect_setitem (1002-1016). *)
Definition connect_setattr (E : env) (s : sid) (ob : oid) (a : string) (m : option Z)
  (r : refchoice) (p : Z) (w : world) : world * out :=
  if w_dead w ob then (w, Err EReference) else
  if negb (e_hasattr E ob a) then (w, Err EAttribute) else
  match weak_setattr E ob a m r p (w_nxt w) with
  | inr e => (w, Err e)
  | inl x => (add_wcb s x w, Ok VNone)
  end.
Definition connect_setitem (E : env) (s : sid) (ob : oid) (k : val) (m : option Z)
  (r : refchoice) (p : Z) (w : world) : world * out :=
  if w_dead w ob then (w, Err EReference) else
  if negb (e_hasattr E ob "__setitem__") then (w, Err EType) else
  match weak_setitem E ob k m r p (w_nxt w) with
  | inr e => (w, Err e)
  | inl x => (add_wcb s x w, Ok VNone)
  end.

(** SignalInstance.disconnect (_signal.py:1105-1132). *)
Definition disconnect_base (E : env) (s : sid) (r : option slotref) (missing_ok : bool)
  (w : world) : world * out :=
  match r with
  | None => (remove_all s w, Ok VNone)
  | Some r =>
      match key_of_ref E r with
      | inr e => (w, Err e)
      | inl k =>
          match remove_key s k w with
          | Some w' => (w', Ok VNone)
          | None => (w, if missing_ok then Ok VNone else Err EValue)
          end
      end
  end.
(** SignalRelay.disconnect (GR:187-206): all members first, then the relay. *)
Fixpoint disconnect_each (E : env) (ms : list (string * sid)) (r : option slotref)
  (missing_ok : bool) (w : world) : world * out :=
  match ms with
  | [] => (w, Ok VNone)
  | (_, m) :: rest =>
      match disconnect_base E m r missing_ok w with
      | (w1, Ok _) => disconnect_each E rest r missing_ok w1
      | other => other
      end
  end.
Definition disconnect (E : env) (s : sid) (r : option slotref) (missing_ok : bool)
  (w : world) : world * out :=
  match s_members (w_sg w s) with
  | None => disconnect_base E s r missing_ok w
  | Some ms =>
      match disconnect_each E ms r missing_ok w with
      | (w1, Ok _) => disconnect_base E s r missing_ok w1
      | other => other
      end
  end.

(** ** Blocking *)

Definition assoc_set {A} (n : string) (b : A) (l : list (string * A)) : list (string * A) :=
  (n, b) :: filter (fun x => negb (String.eqb (fst x) n)) l.
Fixpoint assoc_get {A} (n : string) (l : list (string * A)) : option A :=
  match l with
  | [] => None
  | (m, b) :: r => if String.eqb m n then Some b else assoc_get n r
  end.
Definition assoc_del {A} (n : string) (l : list (string * A)) : list (string * A) :=
  filter (fun x => negb (String.eqb (fst x) n)) l.

(** [name in exclude or sig in exclude] (GR:162). *)
Definition excluded (n : string) (m : sid) (excl : list (string + sid)) : bool :=
  existsb (fun x => match x with inl n' => String.eqb n' n | inr m' => Nat.eqb m' m end) excl.

(** SignalRelay.block (GR:158-165) / SignalInstance.block (_signal.py:1330-1336). *)
Definition block_member (r : sid) (excl : list (string + sid)) (w : world)
  (nm : string * sid) : world :=
  let (n, m) := nm in
  if excluded n m excl then w
  else
    let w1 := upd r (fun st => set_wasb (assoc_set n (s_blocked (w_sg w m)) (s_wasb st)) st) w in
    upd m (set_blocked true) w1.
Definition block (s : sid) (excl : list (string + sid)) (w : world) : world :=
  let w1 := upd s (set_blocked true) w in
  match s_members (w_sg w s) with
  | None => w1
  | Some ms => fold_left (block_member s excl) ms w1
  end.
(** SignalRelay.unblock (GR:167-172) / SignalInstance.unblock (_signal.py:1338-1340). *)
Definition unblock_member (r : sid) (w : world) (nm : string * sid) : world :=
  let (n, m) := nm in
  let was := match assoc_get n (s_wasb (w_sg w r)) with Some b => b | None => false end in
  let w1 := upd r (fun st => set_wasb (assoc_del n (s_wasb st)) st) w in
  if was then w1 else upd m (set_blocked false) w1.
Definition unblock (s : sid) (w : world) : world :=
  let w1 := upd s (set_blocked false) w in
  match s_members (w_sg w s) with
  | None => w1
  | Some ms => fold_left (unblock_member s) ms w1
  end.

(** ** Death of an object: run the finalizers of its weak references
    (WC:250-271, 323-331; finalize is SignalInstance._try_discard, _signal.py:759). *)
Definition finalize1 (w : world) (x : oid * sid * key) : world :=
  fst (try_discard (snd (fst x)) (snd x) true w).
Definition kill (o : oid) (w : world) : world :=
  if w_dead w o then w else
  let mine := filter (fun x => Nat.eqb (fst (fst x)) o) (w_refs w) in
  let others := filter (fun x => negb (Nat.eqb (fst (fst x)) o)) (w_refs w) in
  let w1 := set_refs others
              (set_dead (fun x => if Nat.eqb x o then true else w_dead w x) w) in
  fold_left finalize1 mine w1.

(** ** Emission *)

(** The except clauses of _run_emit_loop and emit_fast (_signal.py:1280-1296,
    1242-1253). *)
Definition wrap_err (s : sid) (depth : nat) (e : exn) : exn :=
  match e with
  | ERecursion => ERecursion
  | EEmitLoop _ _ _ => e
  | EBase _ => e
  | _ => EEmitLoop (Some s) depth e
  end.

Section Knot.
  (** [ex p w]: run the client program [p]; supplied by [exec] below. *)
  Variable ex : prog -> world -> option (world * out).
  Variable E : env.

  (** The program a target runs when called. *)
  Definition body_of (t : target) (args : list val) (w : world) : prog :=
    match t with
    | TRelay r => Do (ORelay r args)
                     (fun x => match x with inl v => Ret v | inr e => Throw e end)
    | _ => e_body E t args w
    end.

  (** Ghost events around a call; [dq]: the call comes from a thread queue. *)
  Definition ev_call (dq : bool) (eid : nat) (s : sid) (uid : nat) (a : list val) : event :=
    if dq then EDCall eid s uid a else ECall eid s uid a.
  Definition ev_ret (dq : bool) (eid : nat) (s : sid) (uid : nat) (r : out) : event :=
    let x := match r with Err e => Some e | _ => None end in
    if dq then EDRet eid s uid x else ERet eid s uid x.

  (** [WeakCallback.cb(args)]: dereference (ReferenceError if dead), cut, call. *)
  Definition invoke (dq : bool) (eid : nat) (s : sid) (c : wcb) (args : list val) (w : world)
    : option (world * out) :=
    if match w_ref c with Some o => w_dead w o | None => false end
    then Some (w, Err EReference)
    else
      let a := cb_args c args in
      let w1 := log (ev_call dq eid s (w_uid c) a) w in
      match ex (body_of (w_target c) a w1) w1 with
      | Some (w2, Halted) => Some (w2, Halted)
      | Some (w2, r) => Some (log (ev_ret dq eid s (w_uid c) r) w2, r)
      | None => None
      end.

  (** [caller.cb(args)] for a slot: QueuedCallback.cb (QU:59-63) or the plain cb. *)
  Definition call_slot (eid : nat) (s : sid) (c : wcb) (args : list val) (w : world)
    : option (world * out) :=
    match w_thread c with
    | Some t =>
        if Nat.eqb t (w_me w) then invoke false eid s c args w
        else Some (log (EDefer eid s (w_uid c) t args)
                     (set_tq (fun x => if Nat.eqb x t then w_tq w t ++ [(eid, s, c, args)]
                                       else w_tq w x) w), Ok VNone)
    | None => invoke false eid s c args w
    end.

  (** [for caller in self._slots: caller.cb(args)] (_signal.py:1307-1308, 1240-1241):
      iteration over the live list, as CPython's list iterator does it. *)
  Fixpoint loop_slots (fuel : nat) (eid : nat) (s : sid) (i : nat) (args : list val)
    (w : world) : option (world * out) :=
    match fuel with
    | 0 => None
    | S f =>
        match nth_error (s_slots (w_sg w s)) i with
        | None => Some (w, Ok VNone)
        | Some c =>
            match call_slot eid s c args w with
            | Some (w1, Ok _) => loop_slots f eid s (S i) args w1
            | r => r
            end
        end
    end.

  (** [_run_emit_loop_latest_only] (_signal.py:1312-1318). *)
  Fixpoint loop_latest (fuel : nat) (eid : nat) (s : sid) (i : nat) (args : list val)
    (w : world) : option (world * out) :=
    match fuel with
    | 0 => None
    | S f =>
        match nth_error (s_slots (w_sg w s)) i with
        | None => Some (w, Ok VNone)
        | Some c =>
            if Nat.ltb (s_depth (w_sg w s)) (s_max (w_sg w s)) then Some (w, Ok VNone)
            else
              match call_slot eid s c args w with
              | Some (w1, Ok _) => loop_latest f eid s (S i) args w1
              | r => r
              end
        end
    end.

  (** Inner for loop of [_run_emit_loop_queued] (_signal.py:1324-1327). *)
  Fixpoint loop_qslots (fuel : nat) (eid : nat) (s : sid) (i : nat) (args : list val)
    (w : world) : option (world * out) :=
    match fuel with
    | 0 => None
    | S f =>
        match nth_error (s_slots (w_sg w s)) i with
        | None => Some (w, Ok VNone)
        | Some c =>
            match call_slot eid s c args w with
            | Some (w1, Ok _) =>
                if Nat.ltb RECURSION_LIMIT (List.length (s_eq (w_sg w1 s)))
                then Some (w1, Err ERecursion)
                else loop_qslots f eid s (S i) args w1
            | r => r
            end
        end
    end.
  (** [_run_emit_loop_queued] (_signal.py:1320-1328). *)
  Fixpoint loop_queue (fuel : nat) (eid : nat) (s : sid) (i : nat) (w : world)
    : option (world * out) :=
    match fuel with
    | 0 => None
    | S f =>
        match nth_error (s_eq (w_sg w s)) i with
        | None => Some (w, Ok VNone)
        | Some args =>
            match loop_qslots f eid s 0 args w with
            | Some (w1, Ok _) => loop_queue f eid s (S i) w1
            | r => r
            end
        end
    end.

  (** [_run_emit_loop_inner] as chosen in __init__ (_signal.py:559-564), with the
      [popleft] of the immediate and latest-only variants (1306, 1311). *)
  Definition inner_loop (fuel : nat) (eid : nat) (s : sid) (w : world)
    : option (world * out) :=
    match s_mode (w_sg w s) with
    | Queued => loop_queue fuel eid s 0 w
    | md =>
        match s_eq (w_sg w s) with
        | [] => Some (w, Err EIndex)
        | args :: q =>
            let w1 := upd s (set_eq q) w in
            match md with
            | LatestOnly => loop_latest fuel eid s 0 args w1
            | _ => loop_slots fuel eid s 0 args w1
            end
        end
    end.

  (** Entering the try block of _run_emit_loop and Signal._emitting
      (_signal.py:1274-1278, 412). *)
  Definition enter (s : sid) (w : world) : world :=
    set_cur (Some s)
      (upd s (fun st => set_max (Nat.max (s_max st) (S (s_depth st)))
                          (set_depth (S (s_depth st)) st)) w).
  (** Leaving it: _emitting's finally (_signal.py:416), then _run_emit_loop's finally
      (1297-1303). *)
  Definition leave (s : sid) (prev : option sid) (w : world) : world :=
    upd s (fun st =>
             let d := s_depth st - 1 in
             set_eq [] (if Nat.leb d 0 then set_max 0 (set_depth 0 st) else set_depth d st))
        (set_cur prev w).

  (** [_run_emit_loop] (_signal.py:1264-1303). *)
  Definition run_emit_loop (fuel : nat) (s : sid) (args : list val) (w : world)
    : option (world * out) :=
    if Nat.leb RECURSION_LIMIT (s_depth (w_sg w s)) then Some (w, Err ERecursion)
    else
      let w1 := upd s (fun st => set_eq (s_eq st ++ [args]) st) w in
      if Nat.ltb 1 (List.length (s_eq (w_sg w1 s)))
      then Some (log (EQueued s args) w1, Ok VNone)
      else
        let prev := w_cur w1 in
        let eid := w_nxt w1 in
        let w2 := log (EStart eid s args) (enter s (set_nxt (S eid) w1)) in
        match inner_loop fuel eid s w2 with
        | None => None
        | Some (w3, Halted) => Some (w3, Halted)
        | Some (w3, r) =>
            let d := s_depth (w_sg w3 s) in
            Some (leave s prev (log (EEnd eid s) w3),
                  match r with Err e => Err (wrap_err s (d - 1) e) | _ => r end)
        end.

  (** [emit] (_signal.py:1171-1201). *)
  Definition do_emit (fuel : nat) (s : sid) (args : list val) (cn ct : bool) (w : world)
    : option (world * out) :=
    let w := log (EEmit s args (w_usr w)) w in
    let st := w_sg w s in
    if s_blocked st then Some (w, Ok VNone)
    else if cn && negb (bind_ok (s_params st) (List.length args)) then Some (w, Err EType)
    else
      let types :=
        if ct then types_match E (map (fun a => Param PosOnly false (AClass (e_type E a))) args)
                               (s_params st)
        else inl true in
      match types with
      | inr e => Some (w, Err e)
      | inl false => Some (w, Err EType)
      | inl true =>
          if s_paused st then Some (upd s (fun st => set_args (s_args st ++ [args]) st) w, Ok VNone)
          else
            match w_hook w with
            | None => run_emit_loop fuel s args w
            | Some h =>
                let w1 := log (EHook h s args) w in
                match ex (e_body E (TFun h [] []) [VInfo s args] w1) w1 with
                | Some (w2, Ok _) => run_emit_loop fuel s args w2
                | r => r
                end
            end
      end.

  (** [emit_fast] (_signal.py:1225-1256). *)
  Definition do_emit_fast (fuel : nat) (s : sid) (args : list val) (w : world)
    : option (world * out) :=
    let w := log (EEmit s args (w_usr w)) w in
    let st := w_sg w s in
    if s_blocked st then Some (w, Ok VNone)
    else if s_paused st then
      Some (upd s (fun st => set_args (s_args st ++ [args]) st) w, Ok VNone)
    else if Nat.leb RECURSION_LIMIT (s_depth st) then Some (w, Err ERecursion)
    else
      let eid := w_nxt w in
      let w1 := log (EStart eid s args)
                  (upd s (fun st => set_depth (S (s_depth st)) st) (set_nxt (S eid) w)) in
      match loop_slots fuel eid s 0 args w1 with
      | None => None
      | Some (w2, Halted) => Some (w2, Halted)
      | Some (w2, r) =>
          Some (upd s (fun st => if Nat.ltb 0 (s_depth st) then set_depth (s_depth st - 1) st
                                 else st) (log (EEnd eid s) w2),
                match r with Err e => Err (wrap_err s 0 e) | _ => r end)
      end.

  (** SignalRelay._slot_relay (GR:97-100).  [if emitter := Signal.current_emitter()]
      tests the truth value of a SignalInstance, i.e. len(emitter) > 0
      (_signal.py:1138-1140).  Only a SignalRelay has this method. *)
  Definition do_relay (fuel : nat) (r : sid) (args : list val) (w : world)
    : option (world * out) :=
    match s_members (w_sg w r) with
    | None => Some (w, Err EAttribute)
    | Some _ =>
        match w_cur w with
        | Some em =>
            match s_slots (w_sg w em) with
            | [] => Some (w, Ok VNone)
            | _ :: _ => run_emit_loop fuel r [VInfo em args] w
            end
        | None => Some (w, Ok VNone)
        end
    end.

  (** functools.reduce (C implementation). *)
  Fixpoint reduce_args (f : list val -> list val -> list val + exn) (acc : list val)
    (l : list (list val)) : list val + exn :=
    match l with
    | [] => inl acc
    | a :: r => match f acc a with inl x => reduce_args f x r | inr e => inr e end
    end.
  Definition apply_reducer (f : list val -> list val -> list val + exn)
    (init : option (list val)) (l : list (list val)) : list val + exn :=
    match init, l with
    | Some x, _ => reduce_args f x l
    | None, a :: r => reduce_args f a r
    | None, [] => inr EType
    end.

  (** [for args in self._args_queue: self._run_emit_loop(args)] (_signal.py:1427-1428),
      iterating over the live list. *)
  Fixpoint replay (fuel : nat) (s : sid) (i : nat) (w : world) : option (world * out) :=
    match fuel with
    | 0 => None
    | S f =>
        match nth_error (s_args (w_sg w s)) i with
        | None => Some (w, Ok VNone)
        | Some args =>
            match run_emit_loop f s args w with
            | Some (w1, Ok _) => replay f s (S i) w1
            | r => r
            end
        end
    end.

  (** [resume] (_signal.py:1407-1429). *)
  Definition do_resume (fuel : nat) (s : sid) (rd : reducer) (w : world)
    : option (world * out) :=
    let w1 := upd s (set_paused false) w in
    let clear := upd s (set_args []) in
    match s_args (w_sg w1 s) with
    | [] => Some (w1, Ok VNone)
    | q =>
        match s_slots (w_sg w1 s) with
        | [] => Some (clear w1, Ok VNone)
        | _ :: _ =>
            let body :=
              match rd with
              | RNone => replay fuel s 0 w1
              | ROne f => match f q with
                          | inl a => run_emit_loop fuel s a w1
                          | inr e => Some (w1, Err e)
                          end
              | RTwo f i => match apply_reducer f i q with
                            | inl a => run_emit_loop fuel s a w1
                            | inr e => Some (w1, Err e)
                            end
              end in
            match body with
            | Some (w2, Ok _) => Some (clear w2, Ok VNone)
            | r => r
            end
        end
    end.

  (** [emit_queued] (QU:86-94). *)
  Fixpoint drain (fuel : nat) (t : thr) (w : world) : option (world * out) :=
    match fuel with
    | 0 => None
    | S f =>
        match w_tq w t with
        | [] => Some (w, Ok VNone)
        | (eid, s, c, args) :: q =>
            let w1 := log (EPop t eid s (w_uid c) args)
                        (set_tq (fun x => if Nat.eqb x t then q else w_tq w x) w) in
            match invoke true eid s c args w1 with
            | Some (w2, Ok _) => drain f t w2
            | Some (w2, Err e) =>
                Some (w2, Err (match e with EBase _ => e | _ => EEmitLoop None 0 e end))
            | r => r
            end
        end
    end.

  Definition lift (r : world * out) : option (world * out) := Some r.

  (** One API call. *)
  Definition step (fuel : nat) (o : op) (w : world) : option (world * out) :=
    match o with
    | OEmit s args cn ct => do_emit fuel s args cn ct w
    | OEmitFast s args => do_emit_fast fuel s args w
    | OConnect s c o => lift (connect E s c o w)
    | OConnectDirect r c o => lift (connect_direct E r c o w)
    | OConnectSetattr s ob a m r p => lift (connect_setattr E s ob a m r p w)
    | OConnectSetitem s ob k m r p => lift (connect_setitem E s ob k m r p w)
    | ODisconnect s r mo => lift (disconnect E s r mo w)
    | ODisconnectSetattr s ob a mo => lift (try_discard s (KSetattr ob a) mo w)
    | ODisconnectSetitem s ob k mo =>
        if e_hasattr E ob "__setitem__" then lift (try_discard s (KSetitem ob k) mo w)
        else Some (w, Err EType)
    | OBlock s excl => Some (block s excl w, Ok VNone)
    | OUnblock s => Some (unblock s w, Ok VNone)
    | OPause s => Some (upd s (set_paused true) w, Ok VNone)
    | OResume s r => do_resume fuel s r w
    | OIsBlocked s => Some (w, Ok (VBool (s_blocked (w_sg w s))))
    | OIsPaused s => Some (w, Ok (VBool (s_paused (w_sg w s))))
    | OLen s => Some (w, Ok (VInt (Z.of_nat (List.length (s_slots (w_sg w s))))))
    | OContains s c =>
        Some (w, match key_of E c with
                 | inl k => Ok (VBool (has_key k (s_slots (w_sg w s))))
                 | inr e => Err e
                 end)
    | OCurrent => Some (w, Ok (match w_cur w with Some s => VSig s | None => VNone end))
    | ORelay r args => do_relay fuel r args w
    | OKill o => Some (kill o w, Ok VNone)
    | OThread t => Some (set_me t w, Ok VNone)
    | OEmitQueued t => drain fuel (match t with Some t => t | None => w_me w end) w
    | OSetHook h => Some (set_hook h w, Ok VNone)
    | OGetHook => Some (w, Ok (match w_hook w with Some h => VObj h | None => VNone end))
    | OCall m args => ex (e_lib E m args) w
    | OUsr f =>
        let (u, r) := f (w_usr w) in
        Some (set_usr u w, match r with inl v => Ok v | inr e => Err e end)
    end.
End Knot.

(** Run a client program.  [None]: out of fuel. *)
Fixpoint exec (E : env) (n : nat) (p : prog) (w : world) : option (world * out) :=
  match n with
  | 0 => None
  | S n' =>
      match p with
      | Ret v => Some (w, Ok v)
      | Throw e => Some (w, Err e)
      | Halt => Some (w, Halted)
      | Look k => exec E n' (k (w_usr w)) w
      | Do o k =>
          match step (exec E n') E n' o w with
          | None => None
          | Some (w1, Halted) => Some (w1, Halted)
          | Some (w1, Ok v) => exec E n' (k (inl v)) w1
          | Some (w1, Err e) => exec E n' (k (inr e)) w1
          end
      end
  end.

(** The observable meaning of a program: [runs E p w w' r] holds when [p] started in
    [w] ends in [w'] with result [r]. *)
Definition runs (E : env) (p : prog) (w w' : world) (r : out) : Prop :=
  exists n, exec E n p w = Some (w', r).
(** [steps E o w w' r]: the call [o] made in [w] ends in [w'] with result [r]. *)
Definition steps (E : env) (o : op) (w w' : world) (r : out) : Prop :=
  exists n, step (exec E n) E n o w = Some (w', r).

(** ** Program combinators *)

(** Sequencing; exceptions propagate. *)
Fixpoint bind (p : prog) (k : val -> prog) : prog :=
  match p with
  | Ret v => k v
  | Throw e => Throw e
  | Halt => Halt
  | Look f => Look (fun u => bind (f u) k)
  | Do o f => Do o (fun x => bind (f x) k)
  end.
(** [try: p  finally/except]: continue with the value or the exception. *)
Fixpoint catch (p : prog) (k : val + exn -> prog) : prog :=
  match p with
  | Ret v => k (inl v)
  | Throw e => k (inr e)
  | Halt => Halt
  | Look f => Look (fun u => catch (f u) k)
  | Do o f => Do o (fun x => catch (f x) k)
  end.
(** Return the value or re-raise. *)
Definition finish (x : val + exn) : prog :=
  match x with inl v => Ret v | inr e => Throw e end.
(** A call whose exception propagates. *)
Definition call (o : op) : prog := Do o finish.
(** [try: p  finally: f]. *)
Definition try_finally (p f : prog) : prog :=
  catch p (fun x => bind f (fun _ => finish x)).

(** [with sig.blocked(exclude): p] (_SignalBlocker, _signal.py:1510-1525). *)
Definition with_blocked (s : sid) (excl : list (string + sid)) (p : prog) : prog :=
  bind (call (OIsBlocked s)) (fun was =>
  bind (call (OBlock s excl)) (fun _ =>
  try_finally p
    (match was with VBool true => Ret VNone | _ => call (OUnblock s) end))).
(** [with sig.paused(reducer): p] (_SignalPauser, _signal.py:1528-1544). *)
Definition with_paused (s : sid) (r : reducer) (p : prog) : prog :=
  bind (call (OIsPaused s)) (fun was =>
  bind (call (OPause s)) (fun _ =>
  try_finally p
    (match was with VBool true => Ret VNone | _ => call (OResume s r) end))).

(** A fresh program: no dead objects, nothing connected, main thread. *)
Definition init_world (cfg : sid -> sigst) (u : U) : world :=
  World cfg None None (fun _ => false) [] (fun _ => []) 0 0 [] u.
End Engine.

Arguments op : clear implicits.
Arguments prog : clear implicits.
Arguments event : clear implicits.
Arguments world : clear implicits.
Arguments env : clear implicits.
