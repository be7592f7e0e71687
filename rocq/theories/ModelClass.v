(** Creation of EventedModel classes: src/psygnal/_evented_model.py ("EM"),
    EventedMetaclass.__new__ (216-303) and _get_field_dependents (305-370), and which setter an
    assignment uses: _super_setattr_ (606-617).

    The fields of the class are found by pydantic and given here ([f_frozen] by name).  Not
    modelled: json encoders, equality operators (Evented.v), warnings. *)

From Verif Require Import Base Core Evented Uniform.
Open Scope string_scope.
Open Scope list_scope.

(** A property: its identity, the names in the code of its getter (fget.__code__.co_names; None:
    no getter) and whether it has a setter. *)
Record prop := Prop_ { p_id : nat; p_names : option (list string); p_set : bool }.
Inductive nsattr := NProp (p : prop) | NOther.
(** model_config: allow_property_setters, reemission (a mode or a mapping; None: an invalid value),
    field_dependencies (or else property_dependencies), guess_property_dependencies. *)
Inductive reem := RAll (m : option mode) | RMap (l : list (string * option mode)).
Record config := Config { cf_allow : bool; cf_reem : reem; cf_deps : list (string * list string); cf_guess : bool }.
(** The resulting class. *)
Record mcls := Mcls {
  mc_fields : list (string * bool);
  mc_allow : bool;
  mc_setters : list (string * prop);
  mc_signals : list (string * mode);
  mc_deps : list (string * list string)
}.

(** Lines 229-244. *)
Fixpoint valid_map (l : list (string * option mode)) : option (list (string * mode)) :=
  match l with
  | [] => Some []
  | (k, Some m) :: l => match valid_map l with Some r => Some ((k, m) :: r) | None => None end
  | (_, None) :: _ => None
  end.
Definition emission (r : reem) : option (mode * list (string * mode)) :=
  match r with
  | RAll (Some m) => Some (m, [])
  | RAll None => None
  | RMap l => match valid_map l with Some r => Some (LatestOnly, r) | None => None end
  end.
Definition mode_of (e : mode * list (string * mode)) (n : string) : mode :=
  match sget n (snd e) with Some m => m | None => fst e end.
(** Lines 246-250. *)
Definition field_signals (e : mode * list (string * mode)) (fields : list (string * bool)) : list (string * mode) :=
  fold_left (fun d (nf : string * bool) => if snd nf then d else sset (fst nf) (mode_of e (fst nf)) d) fields [].
(** Lines 273-275. *)
Definition base_setters (bases : list mcls) : list (string * prop) :=
  fold_left (fun d b => merge d (mc_setters b)) (rev bases) [].
(** Lines 277-283. *)
Definition own_setters (e : mode * list (string * mode)) (ns : list (string * nsattr))
  (st : list (string * prop) * list (string * mode)) : list (string * prop) * list (string * mode) :=
  fold_left (fun st ka =>
    match snd ka with
    | NProp p => if p_set p then (sset (fst ka) p (fst st), sset (fst ka) (mode_of e (fst ka)) (snd st)) else st
    | NOther => st
    end) ns st.
(** deps.setdefault(field, set()).add(prop) *)
Definition add_dep (f p : string) (d : list (string * list string)) : list (string * list string) :=
  match sget f d with
  | Some l => sset f (if mem p l then l else l ++ [p]) d
  | None => sset f [p] d
  end.
(** Lines 349-360. *)
Fixpoint config_deps (known : string -> bool) (cfg : list (string * list string)) (d : list (string * list string))
  : list (string * list string) + exn :=
  match cfg with
  | [] => inl d
  | (p, fs) :: cfg => if known p then config_deps known cfg (fold_left (fun d f => add_dep f p d) fs d) else inr EValue
  end.
(** Lines 365-369. *)
Definition guess_deps (fields : list (string * bool)) (setters : list (string * prop)) (d : list (string * list string)) :=
  fold_left (fun d ps =>
    match p_names (snd ps) with
    | None => d
    | Some names => fold_left (fun d n => if has n fields then add_dep n (fst ps) d else d) names d
    end) setters d.
(** Lines 331-370. *)
Definition field_dependents (cf : config) (fields : list (string * bool)) (setters : list (string * prop))
  : list (string * list string) + exn :=
  match config_deps (fun p => has p fields || has p setters) (cf_deps cf) [] with
  | inr e => inr e
  | inl d => inl (if cf_guess cf then guess_deps fields setters d else d)
  end.
(** [__new__] (EM:216-303): class statement with the bases [bases] (those that are EventedModels), the
    fields found by pydantic, the namespace and the configuration (pydantic merges those of the
    bases into it).  Creation of the group: Uniform.v; here only the refusal of names. *)
Definition create_model (bases : list mcls) (fields : list (string * bool)) (ns : list (string * nsattr)) (cf : config)
  : mcls + exn :=
  match emission (cf_reem cf) with
  | None => inr EValue
  | Some e =>
      let sg := field_signals e fields in
      match (if cf_allow cf then inl (own_setters e ns (base_setters bases, sg))
             else if existsb mc_allow bases then inr EValue else inl ([], sg)) with
      | inr e => inr e
      | inl (setters, sg) =>
          match field_dependents cf fields setters with
          | inr e => inr e
          | inl d =>
              if existsb (starts "_psygnal") (map fst sg) then inr EType
              else inl (Mcls fields (cf_allow cf) setters sg d)
          end
      end
  end.

(** [_super_setattr_] (EM:606-617): the property whose setter is used, if any; otherwise pydantic
    does the assignment. *)
Definition setter_used (c : mcls) (name : string) : option prop := sget name (mc_setters c).
