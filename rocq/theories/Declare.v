(** Declaring signals: src/psygnal/_signal.py ("SI"), ReemissionMode.validate (207-215), Signal.__init__ (295-321),
    _build_signature (1597-1602), Signal.__set_name__ (328-331), _create_signal_instance (395-406), SignalInstance.__init__ (524-567).

    Simplified: the argument reemission is given as str(reemission), and has ASCII letters only (of the letters that str.lower() changes, no
    other one becomes a letter of the valid modes); annotations as in Base.ann; descriptions and warnings are not modelled. *)

From Coq Require Import Ascii.
From Verif Require Import Base Core.

(** str.lower() *)
Definition lower1 (c : ascii) : ascii :=
  let n := nat_of_ascii c in if ((65 <=? n) && (n <=? 90))%nat then ascii_of_nat (n + 32) else c.
Fixpoint lower (s : string) : string :=
  match s with EmptyString => EmptyString | String c s => String (lower1 c) (lower s) end.
(** SI:203-205, 207-215 *)
Definition IMMEDIATE : string := "immediate".
Definition QUEUED : string := "queued".
Definition LATEST : string := "latest-only".
Definition validate (value : string) : string + exn :=
  let value := lower value in
  if existsb (String.eqb value) [IMMEDIATE; QUEUED; LATEST] then inl value else inr EValue.

(** The positional arguments of Signal(): a Signature, or types. *)
Inductive given := GSig (ps : list param) | GType (t : ann).
(** A Signal: name, options and signature. *)
Record decl := Decl { d_name : option string; d_chkn : bool; d_chkt : bool; d_reem : string; d_params : list param }.
(** SI:1597-1602; a Signature among the types is kept as annotation of its parameter ([of_sig]: that annotation) *)
Definition build_signature (of_sig : list param -> ann) (ts : list given) : list param :=
  map (fun t => Param PosOnly false (match t with GType a => a | GSig ps => of_sig ps end)) ts.
(** SI:295-321 *)
Definition declare (of_sig : list param -> ann) (ts : list given) (name : option string) (chkn chkt : bool) (reem : string) : decl + exn :=
  inl (Decl name chkn chkt reem (match ts with GSig ps :: _ => ps | _ => build_signature of_sig ts end)).
(** SI:328-331 *)
Definition set_name (n : string) (d : decl) : decl :=
  match d_name d with
  | None => Decl (Some n) (d_chkn d) (d_chkt d) (d_reem d) (d_params d)
  | Some _ => d
  end.
(** SI:395-406 (name: not given) with SI:524-567: name and state of the new instance *)
Definition instance (d : decl) : (option string * sigst) + exn :=
  match validate (d_reem d) with
  | inr e => inr e
  | inl r =>
      let mode := if String.eqb r QUEUED then Queued else if String.eqb r LATEST then LatestOnly else Immediate in
      inl (d_name d, Sig [] false false false [] [] 0 0 mode (d_params d) (d_chkn d) (d_chkt d) None [])
  end.
