(** EventedModel: src/psygnal/_evented_model.py ("EM"), attribute assignment, update and the
    delayed comparisons of models with dependent properties. *)

From Verif Require Import Base Core Prog Evented.
Open Scope string_scope.
Open Scope list_scope.

Section EModel.
Context {X : Type}.
(** What the attributes of a model depend on: the values of the fields, and other data. *)
Definition content : Type := (string -> option val) * X.
(** State of the program: the model's content, its private attributes (EM:459-461)
    _changes_queue (None: the value object() for a missing attribute), _primary_changes and
    _delay_check_semaphore, and the table of operators of its class. *)
Record mstate := MState {
  m_data : content;
  m_queue : list (string * option val);
  m_prim : list string;
  m_sema : nat;
  m_ops : list (string * eqop)
}.
Definition set_queue q u := MState (m_data u) q (m_prim u) (m_sema u) (m_ops u).
Definition set_prim p u := MState (m_data u) (m_queue u) p (m_sema u) (m_ops u).
Definition set_sema n u := MState (m_data u) (m_queue u) (m_prim u) n (m_ops u).
Definition set_mops o u := MState (m_data u) (m_queue u) (m_prim u) (m_sema u) o.
Definition set_data d u := MState d (m_queue u) (m_prim u) (m_sema u) (m_ops u).

(** A model and its class.  [k_sig]: signals of self._events, by name; [k_all]: its relay;
    [k_deps]: __field_dependents__; [k_any]: there are any, that is, _setattr_default is
    _setattr_with_dependents (EM:298-301); [k_get]: getattr(self, name), for properties the
    getter (it calls no signal code); [k_values]: comparison of values; [k_order]: order in
    which a set is iterated over. *)
Record mclass := MClass {
  k_sig : string -> option sid;
  k_all : sid;
  k_deps : string -> list string;
  k_any : bool;
  k_get : string -> content -> val + exn;
  k_values : values;
  k_order : list string -> list string
}.
Variable K : mclass.

(** getattr(self, name, object()) *)
Definition get_default (name : string) (u : mstate) : option val + exn :=
  match k_get K name (m_data u) with
  | inl v => inl (Some v)
  | inr EAttribute => inl None
  | inr e => inr e
  end.
Definition positive (x : val + exn) : bool := match x with inl (VInt n) => Z.ltb 0 n | _ => false end.

(** The set comprehension EM:653-657. *)
Fixpoint listening (l acc : list string) (k : list string -> prog mstate) : prog mstate :=
  match l with
  | [] => k acc
  | d :: l =>
      match k_sig K d with
      | None => Throw EKey
      | Some s => Do (OLen s) (fun x => listening l (if positive x then acc ++ [d] else acc) k)
      end
  end.
(** Lines 664-671: remember the value before the assignment, unless there is one. *)
Fixpoint note_all (names : list string) (u : mstate) : mstate * (val + exn) :=
  match names with
  | [] => (u, inl VNone)
  | n :: names =>
      if has n (m_queue u) then note_all names u
      else match get_default n u with
           | inl v => note_all names (set_queue (m_queue u ++ [(n, v)]) u)
           | inr e => (u, inr e)
           end
  end.
Definition note (name : string) (deps : list string) (u : mstate) : mstate * (val + exn) :=
  let u := if mem name (m_prim u) then u else set_prim (m_prim u ++ [name]) u in
  note_all (name :: k_order K deps) u.
(** [_setattr_impl] (EM:642-672); [sup]: self._super_setattr_(name, value). *)
Definition setattr_impl (name : string) (sup : prog mstate) : prog mstate :=
  match k_sig K name with
  | None => Throw EKey
  | Some s =>
      listening (k_order K (k_deps K name)) [] (fun deps =>
        Do (OLen s) (fun n =>
          let go := act (note name deps) ;; sup in
          if positive n || match deps with [] => false | _ => true end then go
          else Do (OLen (k_all K)) (fun m => if positive m then go else sup)))
  end.

(** Lines 570-578, loop over the directly changed fields. *)
Definition sdel {A} (k : string) (d : list (string * A)) : list (string * A) :=
  filter (fun kv => negb (String.eqb k (fst kv))) d.
Fixpoint primaries (names : list string) (emits : list (string * val)) (u : mstate)
  : mstate * (list (string * val) + exn) :=
  match names with
  | [] => (u, inl emits)
  | n :: names =>
      match sget n (m_queue u) with
      | None => (u, inr EKey)
      | Some old =>
          match k_get K n (m_data u) with
          | inr e => (u, inr e)
          | inl new =>
              let (ops, b) := check_equal (k_values K) n (Some new) old (m_ops u) in
              let u := set_mops ops u in
              match b with
              | inr e => (u, inr e)
              | inl b => primaries names (if b then emits else emits ++ [(n, new)])
                           (set_queue (sdel n (m_queue u)) u)
              end
          end
      end
  end.
(** Lines 584-588, loop over what is left in the queue. *)
Fixpoint others (q : list (string * option val)) (emits : list (string * val)) (u : mstate)
  : mstate * (list (string * val) + exn) :=
  match q with
  | [] => (u, inl emits)
  | (n, old) :: q =>
      match k_get K n (m_data u) with
      | inr e => (u, inr e)
      | inl new =>
          let (ops, b) := check_equal (k_values K) n (Some new) old (m_ops u) in
          let u := set_mops ops u in
          match b with
          | inr e => (u, inr e)
          | inl b => others q (if b then emits else emits ++ [(n, new)]) u
          end
      end
  end.
Definition cleared (u : mstate) : mstate := set_queue [] (set_prim [] u).
(** Lines 567-590: what is to be emitted. *)
Definition compare (u : mstate) : mstate * (list (string * val) + exn) :=
  match primaries (k_order K (m_prim u)) [] u with
  | (u, inr e) => (u, inr e)
  | (u, inl []) => (cleared u, inl [])
  | (u, inl emits) =>
      match others (m_queue u) emits u with
      | (u, inr e) => (u, inr e)
      | (u, inl emits) => (cleared u, inl emits)
      end
  end.
(** getattr(self._events, name)(value) (EM:592, 635) when SignalGroup has such an attribute (GR:343-376, 411-540), which is
    found instead of the signal, or when the name starts with psygnal, in which case the signal is no attribute (GR:314-323).
    [all]: the relay is called; [signals]: a mapping is called; methods without parameters; methods that only make a
    context manager, or a decorator for None.  Simplified: the values are not callable; fields called [block] are not modelled
    (the group raises TypeError when half of it is blocked); no names starting with an underscore. *)
Definition group_call (name : string) (v : val) : option (prog mstate) :=
  if String.eqb name "all" then Some (say (k_all K) [v])
  else if mem name ["signals"; "pause"; "unblock"; "is_uniform"; "psygnals_uniform"] then Some (Throw EType)
  else if mem name ["blocked"; "paused"] then Some (Ret VNone)
  else if mem name ["connect"; "connect_direct"] then
    Some (match v with VNone => Ret VNone | _ => Throw EType end)
  else if String.eqb name "disconnect" then
    Some (match v with VNone => call (ODisconnect (k_all K) None true) | _ => Throw EType end)
  else if String.eqb name "resume" then
    Some (call (OResume (k_all K) (match v with VNone => RNone | _ => ROne (fun _ => inr EType) end)))
  else if String.eqb name "block" then Some Halt
  else if starts "psygnal" name then Some (Throw EAttribute)
  else None.
Definition emit_event (nv : string * val) : prog mstate :=
  match group_call (fst nv) (snd nv) with
  | Some p => p
  | None => match k_sig K (fst nv) with
            | Some s => say s [snd nv]
            | None => Throw EAttribute
            end
  end.
Definition own (f : mstate -> mstate) : prog mstate := act (fun u => (f u, inl VNone)).
Definition enter_delay : prog mstate := own (fun u => set_sema (S (m_sema u)) u).
Definition leave_delay : prog mstate := own (fun u => set_sema (m_sema u - 1) u).
(** [_check_if_values_changed_and_emit_if_needed] (EM:557-592).  It calls itself when its
    ComparisonDelayer exits (EM:194-196); [n] bounds this recursion (a deeper one does not end
    here; in Python it would raise RecursionError). *)
Fixpoint check_and_emit (n : nat) : prog mstate :=
  match n with
  | 0 => Halt
  | S n =>
      Look (fun u =>
        if Nat.ltb 0 (m_sema u) || match m_queue u with [] => true | _ => false end then Ret VNone
        else
          match compare u with
          | (u', inr e) => act (fun _ => (u', inr e))
          | (u', inl []) => own (fun _ => u')
          | (u', inl emits) =>
              own (fun _ => u') ;;
              enter_delay ;;
              try_finally (each emit_event emits) (leave_delay ;; check_and_emit n)
          end)
  end.
(** [with ComparisonDelayer(self): body] (EM:185-196). *)
Definition delayed (n : nat) (body : prog mstate) : prog mstate :=
  enter_delay ;; try_finally body (leave_delay ;; check_and_emit n).

(** [_setattr_no_dependants] (EM:626-635). *)
Definition setattr_plain (s : sid) (name : string) (value : val) (sup : prog mstate) : prog mstate :=
  Do (OLen s) (fun n =>
    if positive n then
      Look (fun u =>
        match get_default name u with
        | inr e => Throw e
        | inl old =>
            sup ;;
            Look (fun u =>
              let (ops, b) := check_equal (k_values K) name (Some value) old (m_ops u) in
              match b with
              | inr e => act (fun u => (set_mops ops u, inr e))
              | inl b => own (set_mops ops) ;; if b then Ret VNone else emit_event (name, value)
              end)
        end)
    else sup).
(** [__setattr__] (EM:594-604) with [sup] as above; [n]: see [check_and_emit]. *)
Definition model_setattr (n : nat) (name : string) (value : val) (sup : prog mstate) : prog mstate :=
  match k_sig K name with
  | None => sup
  | Some s =>
      if k_any K then delayed n (setattr_impl name sup) else setattr_plain s name value sup
  end.
(** [update] (EM:518-545) with a dict; fields that are models themselves are not modelled.
    Each entry comes with the assignment it makes. *)
Definition model_update (n : nat) (values : list (string * val * prog mstate)) : prog mstate :=
  with_paused (k_all K) RNone
    (each (fun kv => let '(name, value, sup) := kv in
             Look (fun u => match k_get K name (m_data u) with
                            | inr e => Throw e
                            | inl _ => model_setattr n name value sup
                            end)) values).
End EModel.
Arguments mstate : clear implicits.
Arguments mclass : clear implicits.
Arguments content : clear implicits.
