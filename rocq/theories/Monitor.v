(** monitor_events and iter_signal_instances (utils.py:24-120).

    Simplifications.  Reading an attribute has no side effect.  Loggers that take more than
    one argument (the old API, utils.py:46-61, 65-68: the report function then calls
    logger(name, args), and obj=None raises ValueError) are not modelled. *)

From Verif Require Import Base Core Prog.

(** What reading an attribute of the object gives: a SignalInstance, a SignalGroup (its
    relay), something else, or an exception. *)
Inductive attr := ASig (s : sid) | AGroup (r : sid) | AOther | AFails (e : exn).
(** The monitored object: a SignalGroup, or any object with the attributes dir() lists. *)
Inductive watched := WGroup (ms : list (string * sid)) | WObj (attrs : list (string * attr)).

Definition is_private (n : string) : bool :=
  match n with String c _ => Ascii.eqb c "_"%char | EmptyString => false end.

(** The loop over dir(obj) (utils.py:112-120): the signals it yields, and the exception
    that ends it, if any. *)
Fixpoint iter_attrs (private : bool) (l : list (string * attr)) : list sid * option exn :=
  match l with
  | [] => ([], None)
  | (n, a) :: r =>
      if negb private && is_private n then iter_attrs private r
      else
        match a with
        | ASig s | AGroup s => let (ss, e) := iter_attrs private r in (s :: ss, e)
        | AOther | AFails EAttribute => iter_attrs private r
        | AFails e => ([], Some e)
        end
  end.
(** iter_signal_instances (utils.py:87-120). *)
Definition iter_signal_instances (o : watched) (private : bool) : list sid * option exn :=
  match o with
  | WGroup ms => (map snd ms, None)
  | WObj l => iter_attrs private l
  end.

Section Monitor.
Context {U : Type}.

(** [_report] (utils.py:72-73), a new function object for each signal: what calling it does
    and its signature. *)
Definition is_report (E : env U) (logger : oid) (s : sid) (f : oid) : Prop :=
  (forall args w, e_body E (TFun f [] []) args w = e_body E (TFun logger [] []) [VInfo s args] w)
  /\ e_sig E (CBase (BFunc f)) = SSig [Param VarPos false (AStr (AClass 2)); Param KwOnly true (AStr (AClass 3))].

(** The loop that connects the report functions (utils.py:64-75); [rep i] is the one made
    for the [i]-th signal.  [e]: the exception ending the iteration. *)
Fixpoint watch (rep : nat -> oid) (i : nat) (ss : list sid) (e : option exn) (k : prog U) : prog U :=
  match ss with
  | [] => match e with Some e => Throw e | None => k end
  | s :: ss => call (OConnect s (CBase (BFunc (rep i))) default_opts) ;; watch rep (S i) ss e k
  end.
(** The calls of the disconnectors (utils.py:83-84), in the order in which the set yields them. *)
Definition unwatch (rep : nat -> oid) (ord : list (nat * sid)) : prog U :=
  each (fun p => call (ODisconnect (snd p) (Some (RCallable (CBase (BFunc (rep (fst p)))))) true)) ord.
(** monitor_events(obj) around [body]; [ord]: the order of the set of disconnectors. *)
Definition monitor_obj (rep : nat -> oid) (o : watched) (private : bool) (ord : list (nat * sid))
  (body : prog U) : prog U :=
  let (ss, e) := iter_signal_instances o private in
  watch rep 0 ss e (try_finally body (unwatch rep ord)).
(** What the set of disconnectors contains. *)
Definition numbered (ss : list sid) : list (nat * sid) := combine (List.seq 0 (List.length ss)) ss.

(** monitor_events() around [body] (utils.py:55, 80-81). *)
Definition monitor_all (logger : oid) (body : prog U) : prog U :=
  bind (call OGetHook) (fun before =>
  call (OSetHook (Some logger)) ;;
  try_finally body (call (OSetHook (match before with VObj h => Some h | _ => None end)))).
End Monitor.
