(** Qt signals as callbacks: what psygnal takes for one, and what it finds out about it. *)

From Coq Require Import String Ascii.
From Verif Require Import Base Core.
Open Scope string_scope.

(** What the functions below ask of a callable: type(obj).__name__, type(obj).__module__, obj.__qualname__ ("" if there is none), obj.signal
    or obj.__self__.signal (these are asked for of PyQt's objects only), and what calling the emit method of obj or obj.__self__ with
    255 arguments does. *)
Inductive answer := Accepted | Refused (text : string) (* TypeError *) | Failed (e : exn).
Record traits := Traits { t_type : string; t_module : string; t_qualname : string; t_signal : string; t_emit : answer }.

(** The methods of str that are used: p in s, s.split(p)[0], s.strip() (of the ASCII whitespace). *)
Fixpoint starts (p s : string) : bool :=
  match p, s with
  | EmptyString, _ => true
  | String a p, String b s => Ascii.eqb a b && starts p s
  | _, _ => false
  end.
Fixpoint within (p s : string) : bool := starts p s || match s with EmptyString => false | String _ s => within p s end.
Fixpoint before (p s : string) : string :=
  if starts p s then EmptyString else match s with EmptyString => EmptyString | String c s => String c (before p s) end.
Definition blank (c : ascii) : bool :=
  let n := nat_of_ascii c in ((9 <=? n)%nat && (n <=? 13)%nat) || ((28 <=? n)%nat && (n <=? 32)%nat).
Fixpoint lstrip (s : string) : string := match s with String c r => if blank c then lstrip r else s | EmptyString => s end.
Fixpoint rstrip (s : string) : string :=
  match s with
  | EmptyString => EmptyString
  | String c r => match rstrip r with EmptyString => if blank c then EmptyString else String c EmptyString | r' => String c r' end
  end.
Definition strip (s : string) : string := rstrip (lstrip s).

(** [_ridiculously_call_emit] (_signal.py:1752-1761). *)
Definition ridiculously_call_emit (a : answer) : option string + exn :=
  match a with
  | Accepted => inl None
  | Refused text => if within "only accepts" text then inl (Some (strip (before "only accepts" text))) else inl None
  | Failed e => inr e
  end.
(** [_guess_qtsignal_signature] (_signal.py:1721-1746), and whether it has called the emit method. *)
Definition guess_qtsignal_signature (o : traits) : bool * (option string + exn) :=
  if within "pyqtBoundSignal" (t_type o) then (false, inl (Some (t_signal o)))
  else if String.eqb (t_qualname o) "pyqtBoundSignal.emit" then (false, inl (Some (t_signal o)))
  else if String.eqb (t_qualname o) "SignalInstance.emit" && starts "builtin" (t_type o) then (true, ridiculously_call_emit (t_emit o))
  else if within "SignalInstance" (t_type o) && within "QtCore" (t_module o) then (true, ridiculously_call_emit (t_emit o))
  else (false, inl None).
(** [_get_signature_possibly_qt] (_signal.py:1616-1621); [own] is what inspect.signature does.  An exception of the emit method
    ([Failed]) comes out of connect; that is not represented here. *)
Definition get_signature_possibly_qt (o : traits) (own : sigres) : sigres :=
  match snd (guess_qtsignal_signature o) with
  | inl (Some s) => SStr s
  | _ => own
  end.

(** s1.connect(c, ...) for the emit method c of the SignalInstance s2 (_signal.py:1062-1070 in connect): the guess may call it. *)
Definition CRAZY_ARGS : list val := repeat (VInt 1) 255.
Definition connect_emit {U} (o : traits) (s1 s2 : sid) (c : callable) (k : copts) : prog U :=
  let go := Do (OConnect s1 c k) (fun r => match r with inl v => Ret v | inr e => Throw e end) in
  if fst (guess_qtsignal_signature o)
  then Do (OEmit s2 CRAZY_ARGS false false) (fun r => match r with inl _ | inr EType => go | inr e => Throw e end)
  else go.
