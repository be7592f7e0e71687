(** Pickling of a SignalInstance (also used by copy.deepcopy): __getstate__ and
    __setstate__ of SignalInstance and of StrongFunction, and [connect] on a signal that
    was unpickled.

    Simplifications.  Only plain signals are pickled here, not SignalRelay.  Values
    (emission arguments, partial arguments) are unchanged by pickling; functions are
    found again by [rho] (the identity for deepcopy and for loading in the same process;
    another process has another object for the same module-level function).  The instance
    and name of the signal are not part of the state.  Pickling a signal while one of its
    callbacks runs is not excluded by the definitions. *)

From Verif Require Import Base Core.

(** isinstance(x, StrongFunction) (_signal.py:1483): functions, and partials of functions,
    that were not connected with [thread=] (WC:118-134; a QueuedCallback is a WeakCallback
    but no StrongFunction, QU:15). *)
Definition is_strong (c : wcb) : bool :=
  match w_thread c, w_target c with
  | None, TFun _ _ _ => true
  | _, _ => false
  end.

(** StrongFunction.__getstate__ (WC:365-367): _key, _max_args, _f, _args, _kwargs
    (_alive and _on_ref_error play no role for strong references); not the priority. *)
Record fstate := Fstate {
  f_key : key;
  f_max : option Z;
  f_fun : oid;
  f_args : list val;
  f_kw : list (string * val)
}.
Definition get_fstate (c : wcb) : list fstate :=
  match w_target c with
  | TFun f pre kw => [Fstate (w_key c) (w_maxargs c) f pre kw]
  | _ => []
  end.

(** SignalInstance.__getstate__ (_signal.py:1465-1491), without the warning. *)
Record gstate := Gstate {
  g_slots : list fstate;
  g_prio : bool;
  g_blocked : bool;
  g_paused : bool;
  g_args : list (list val);
  g_eq : list (list val);
  g_depth : nat;
  g_max : nat;
  g_mode : mode;
  g_params : list param;
  g_chkn : bool;
  g_chkt : bool
}.
Definition getstate (st : sigst) : gstate :=
  Gstate (flat_map get_fstate (filter is_strong (s_slots st)))
         (s_prio st) (s_blocked st) (s_paused st) (s_args st) (s_eq st) (s_depth st) (s_max st)
         (s_mode st) (s_params st) (s_chkn st) (s_chkt st).

(** StrongFunction.__setstate__ (WC:369-371): objects with the identities [n], [n+1], ...
    They have no attribute [priority]; the 0 here is never looked at, see [append_copy]. *)
Fixpoint load_slots (rho : oid -> oid) (n : nat) (l : list fstate) : list wcb :=
  match l with
  | [] => []
  | f :: r =>
      Wcb n (f_key f) (TFun (rho (f_fun f)) (f_args f) (f_kw f)) (f_max f) 0%Z None None
      :: load_slots rho (S n) r
  end.
(** SignalInstance.__setstate__ (_signal.py:1493-1507); the mode decides the emission loop. *)
Definition setstate (rho : oid -> oid) (n : nat) (g : gstate) : sigst :=
  Sig (load_slots rho n (g_slots g)) (g_prio g) (g_blocked g) (g_paused g) (g_args g) (g_eq g)
      (g_depth g) (g_max g) (g_mode g) (g_params g) (g_chkn g) (g_chkt g) None [].

Section Pickle.
Context {U : Type}.

(** Unpickling state [g] makes the new signal [s]. *)
Definition unpickle (rho : oid -> oid) (g : gstate) (s : sid) (w : world U) : world U :=
  upd s (fun _ => setstate rho (w_nxt w) g)
      (set_nxt (w_nxt w + List.length (g_slots g)) w).
(** The callback objects without attribute [priority] this makes. *)
Definition bare (g : gstate) (w : world U) : list nat := seq (w_nxt w) (List.length (g_slots g)).

(** The search of _append_slot (_signal.py:785-789) when the callbacks [b] have no
    attribute [priority]; None: AttributeError. *)
Fixpoint insert_copy (b : list nat) (c : wcb) (l : list wcb) : option (list wcb) :=
  match l with
  | [] => Some [c]
  | x :: r =>
      if existsb (Nat.eqb (w_uid x)) b then None
      else if Z.ltb (w_prio x) (w_prio c) then Some (c :: x :: r)
      else option_map (cons x) (insert_copy b c r)
  end.
(** _append_slot (_signal.py:770-789); the flag is set before the search. *)
Definition append_copy (b : list nat) (c : wcb) (st : sigst) : sigst * out :=
  if negb (s_prio st) && Z.eqb (w_prio c) 0 then (set_slots (s_slots st ++ [c]) st, Ok VNone)
  else
    let st1 := set_prio true st in
    match insert_copy b c (s_slots st1) with
    | Some l => (set_slots l st1, Ok VNone)
    | None => (st1, Err EAttribute)
    end.

(** [connect] (_signal.py:723-768), see Core.connect, on a plain signal some of whose
    callbacks, [b], have no attribute [priority].  When _append_slot raises, the weak
    reference of the new callback dies with it. *)
Definition connect_copy (E : env U) (b : list nat) (s : sid) (c : callable) (o : copts)
  (w : world U) : world U * out :=
  if callable_dead w c then (w, Err EReference) else
  let st := w_sg w s in
  let chkn := match c_check_nargs o with Some b => b | None => s_chkn st end in
  let chkt := match c_check_types o with Some b => b | None => s_chkt st end in
  let already :=
    match c_unique o with
    | UFalse => inl false
    | _ => match key_of E c with
           | inl k => inl (has_key k (s_slots st))
           | inr e => inr e
           end
    end in
  match already with
  | inr e => (w, Err e)
  | inl true =>
      (w, match c_unique o with URaise => Err EValue | _ => Ok VNone end)
  | inl false =>
      let nargs :=
        match chkn, c_max o with
        | true, None =>
            match check_nargs E c (s_params st) with
            | inr e => inr e
            | inl (mx, isqt) => inl (mx, if isqt then RefIgnore else c_onref o)
            end
        | _, _ => inl (c_max o, c_onref o)
        end in
      match nargs with
      | inr e => (w, Err e)
      | inl (mx, onref) =>
          let types :=
            if chkt then
              match e_sig E c with
              | SNone => inr EValue
              | SStr _ => inl true
              | SSig ps => types_match E ps (s_params st)
              end
            else inl true in
          match types with
          | inr e => (w, Err e)
          | inl false => (w, Err EValue)
          | inl true =>
              match weak_callback E c mx onref (c_prio o) (w_nxt w) with
              | inr e => (w, Err e)
              | inl x =>
                  let y := set_thread (resolve_thread w (c_thread o)) x in
                  match append_copy b y st with
                  | (_, Ok _) => (add_wcb s y w, Ok VNone)
                  | (st', r) => (upd s (fun _ => st') (set_nxt (S (w_nxt w)) w), r)
                  end
              end
          end
      end
  end.
End Pickle.
