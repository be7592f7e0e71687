(** Evented dataclasses: src/psygnal/_group_descriptor.py ("GD") and the part of
    src/psygnal/_group.py ("GR") that collects the signals of a group class. *)

From Verif Require Import Base Core.

(** ** Names of the signals of a group class *)

(** A dict with string keys; [Some None] of [sget]: the key is there with value None. *)
Fixpoint sget {A} (k : string) (d : list (string * A)) : option A :=
  match d with [] => None | (x, v) :: d => if String.eqb k x then Some v else sget k d end.
Definition has {A} (k : string) (d : list (string * A)) : bool :=
  match sget k d with Some _ => true | None => false end.
Fixpoint sset {A} (k : string) (v : A) (d : list (string * A)) : list (string * A) :=
  match d with
  | [] => [(k, v)]
  | (x, y) :: d => if String.eqb k x then (x, v) :: d else (x, y) :: sset k v d
  end.
Definition mem (k : string) (l : list string) : bool := existsb (String.eqb k) l.

(** The argument signal_aliases: a mapping, or a callable (GD:183-189). *)
Inductive alias_arg := AMap (m : list (string * option string)) | AFun (f : string -> option string).

(** A SignalGroup class: names of its signals (_psygnal_signals) and its aliases. *)
Record gclass := Gclass { g_signals : list string; g_aliases : list (string * option string) }.

(** Lines 207-215: the name of the signal for one field, and the aliases afterwards. *)
Definition resolve (transform : option (string -> option string)) (cls : list (string * option string))
  (name : string) (al : list (string * option string)) : option string * list (string * option string) :=
  match sget name al with
  | Some n => (n, al)
  | None =>
      match transform with
      | Some f => (f name, sset name (f name) al)
      | None =>
          match sget name cls with
          | Some n => (n, sset name n al)
          | None => (Some name, al)
          end
      end
  end.
(** The loop over the fields (GD:198-244); warnings are not modelled.  [signals]: names of
    the signals created so far. *)
Fixpoint collect (transform : option (string -> option string)) (base : gclass)
  (fields : list string) (signals : list string) (al : list (string * option string))
  : list string * list (string * option string) :=
  match fields with
  | [] => (signals, al)
  | name :: rest =>
      let (n, al1) := resolve transform (g_aliases base) name al in
      match n with
      | None => collect transform base rest signals al1
      | Some n =>
          if mem n signals then collect transform base rest signals al1
          else if mem n (g_signals base) then collect transform base rest signals al1
          else collect transform base rest (signals ++ [n]) al1
      end
  end.
(** dir(cls) is sorted. *)
Fixpoint sinsert (k : string) (l : list string) : list string :=
  match l with [] => [k] | x :: r => if String.leb k x then k :: l else x :: sinsert k r end.
Definition ssort (l : list string) : list string := fold_right sinsert [] l.
(** SignalGroup.__init_subclass__ (GR:282-341) for a class with the new attributes
    [signals], all of them Signals: TypeError if one of them starts with "_psygnal"; the
    aliases are merged.  (Uniform.v has the general case.) *)
Definition starts (p s : string) : bool := String.prefix p s.
Definition init_subclass (base : gclass) (signals : list string) (al : list (string * option string))
  : gclass + exn :=
  if existsb (starts "_psygnal") signals then inr EType
  else inl (Gclass (g_signals base ++ filter (fun n => negb (mem n (g_signals base))) (ssort signals))
                   (fold_left (fun d kv => sset (fst kv) (snd kv) d) al (g_aliases base))).
(** [_build_dataclass_signal_group] (GD:149-249); iter_fields(cls) is [fields]. *)
Definition build_group (fields : list string) (base : gclass) (a : option alias_arg) : gclass + exn :=
  let transform := match a with Some (AFun f) => Some f | _ => None end in
  let al := match a with Some (AMap m) => m | _ => [] end in
  let (signals, al1) := collect transform base fields [] al in
  init_subclass base signals al1.

(** [get_signal_from_field] (GD:284-303): the name of the signal of a field. *)
Definition field_signal_name (g : gclass) (name : string) : option string :=
  match match sget name (g_aliases g) with Some n => n | None => Some name end with
  | None => None
  | Some n => if mem n (g_signals g) then Some n else None
  end.

(** ** Equality of field values *)

(** An equality operator of a field: operator.eq, np.array_equal, operator.is_, or one
    given by the user. *)
Inductive eqop := OpEq | OpArray | OpIs | OpUser (n : nat).
Definition eqop_eqb (a b : eqop) : bool :=
  match a, b with
  | OpEq, OpEq | OpArray, OpArray | OpIs, OpIs => true
  | OpUser n, OpUser m => Nat.eqb n m
  | _, _ => false
  end.
(** What Python knows about values: [p_eval]: the outcome of an operator, as a bool;
    [p_is]: identity; [p_array]: hasattr(v, "__array__"); [p_numpy]: numpy is imported.
    None stands for the sentinel _NULL (an attribute that does not exist). *)
Record values := Values {
  p_eval : eqop -> option val -> option val -> bool + exn;
  p_is : option val -> option val -> bool;
  p_array : option val -> bool;
  p_numpy : bool
}.
Definition run_op (P : values) (op : eqop) (a b : option val) : bool + exn :=
  match op with OpIs => inl (p_is P a b) | _ => p_eval P op a b end.
(** [except Exception] catches everything but BaseExceptions. *)
Definition caught (e : exn) : bool := match e with EBase _ => false | _ => true end.

(** [_check_field_equality] (GD:60-119), with the class-wide table of operators [ops];
    result: the new table and the answer. *)
Definition check_equal (P : values) (name : string) (before after : option val)
  (ops : list (string * eqop)) : list (string * eqop) * (bool + exn) :=
  match before with
  | None => (ops, inl (match after with None => true | Some _ => false end))
  | Some _ =>
      let op := match sget name ops with Some op => op | None => OpEq end in
      let ops := sset name op ops in
      let by_identity := (sset name OpIs ops, run_op P OpIs after before) in
      match run_op P op after before with
      | inl b => (ops, inl b)
      | inr e =>
          if negb (caught e) then (ops, inr e)
          else if p_array P after && p_numpy P && negb (eqop_eqb op OpArray) then
            match run_op P OpArray after before with
            | inl b => (sset name OpArray ops, inl b)
            | inr e => if negb (caught e) then (sset name OpArray ops, inr e) else by_identity
            end
          else by_identity
      end
  end.

(** ** Assignment *)

Section Assign.
Context {X : Type}.
(** State of the client program: the attributes of all objects of the class (None: not
    there), the class's table of operators, and anything else.  Simplified: getattr(obj,
    field, _NULL) runs no code. *)
Record fields := Fields {
  f_val : oid -> string -> option val;
  f_ops : list (string * eqop);
  f_rest : X
}.
Definition set_ops (l : list (string * eqop)) (u : fields) : fields := Fields (f_val u) l (f_rest u).
(** How _NULL looks as an argument of an emission. *)
Definition null : val := VStr "<NULL>".
Definition shown (v : option val) : val := match v with Some v => v | None => null end.

(** [with _changes_emitted(obj, field, signal): body] (GD:306-318). *)
Definition changes_emitted (P : values) (o : oid) (name : string) (s : sid) (body : prog fields)
  : prog fields :=
  Look (fun u0 =>
    let prev := f_val u0 o name in
    catch body (fun r =>
      Look (fun u1 =>
        let new := f_val u1 o name in
        Do (OUsr (fun u => let (l, b) := check_equal P name prev new (f_ops u) in
                           (set_ops l u, match b with inl b => inl (VBool b) | inr e => inr e end)))
          (fun x =>
             match x with
             | inr e => Throw e
             | inl (VBool true) => finish r
             | inl _ =>
                 Do (OEmit s [shown new; shown prev] false false)
                    (fun y => match y with inl _ => finish r | inr e => Throw e end)
             end)))).
(** [_setattr_and_emit_] (GD:387-402) on object [o]: [gname]: name of the attribute with the
    group; [sigs]: its signals; [sup]: super_setattr(self, name, value), any code.
    Simplified: getattr(self, gname) gives the group of the object. *)
Definition setattr_and_emit (P : values) (gname : string) (with_aliases : bool)
  (aliases : list (string * option string)) (sigs : list (string * sid))
  (o : oid) (name : string) (sup : prog fields) : prog fields :=
  if String.eqb name gname then sup
  else if negb with_aliases && negb (has name sigs) then sup
  else
    let signal :=
      if with_aliases then
        match match sget name aliases with Some n => n | None => Some name end with
        | None => None
        | Some n => sget n sigs
        end
      else sget name sigs in
    match signal with
    | None => sup
    | Some s =>
        Do (OLen s) (fun x =>
          match x with
          | inl (VInt n) => if Z.ltb n 1 then sup else changes_emitted P o name s sup
          | _ => sup
          end)
    end.
End Assign.
Arguments fields : clear implicits.
Arguments setattr_and_emit {X}.
Arguments changes_emitted {X}.

(** [_do_patch_setattr] (GD:562-588) as called by [_create_group] (GD:654): the flag
    with_aliases of the __setattr__ in effect after the group class [g] of an owner was
    created; [already]: the owner has (or inherits) a patched __setattr__ with that flag. *)
Definition patch_setattr (already : option bool) (g : gclass) : bool :=
  match already with
  | Some b => b
  | None => match g_aliases g with [] => false | _ :: _ => true end
  end.
