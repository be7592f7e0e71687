(** Which fields of a class get a signal: [iter_fields] of src/psygnal/_dataclass_utils.py
    ("DU"), and the @dataclass decorator of CPython (Lib/dataclasses.py of 3.11, "DC"), which
    makes what it reads.

    What pydantic, attrs and msgspec put into a class is given here, not computed. *)

From Verif Require Import Base Core Evented.

(** Types are numbers.  Annotations of a class body: ordinary fields, ClassVar, InitVar. *)
Inductive fkind := Regular | ClassVar | InitVar.
Record field := Field { f_kind : fkind; f_type : nat }.
(** A class: its bases in the order of __mro__ (without itself and object), the annotations in
    its body, and what is in its __dict__: __dataclass_fields__, model_fields (with type and
    frozen), __attrs_attrs__ and __struct_fields__. *)
Record cls := Cls {
  c_bases : list nat;
  c_own : list (string * field);
  c_dc : option (list (string * field));
  c_pydantic : option (list (string * (nat * bool)));
  c_attrs : option (list (string * nat));
  c_struct : option (list string)
}.
Definition world := nat -> cls.

(** getattr(c, name, None) for a class attribute. *)
Fixpoint lookup {A} (get : cls -> option A) (w : world) (l : list nat) : option A :=
  match l with
  | [] => None
  | c :: l => match get (w c) with Some a => Some a | None => lookup get w l end
  end.
Definition class_attr {A} (get : cls -> option A) (w : world) (c : nat) : option A :=
  lookup get w (c :: c_bases (w c)).
(** d.update(e) *)
Definition update {A} (d e : list (string * A)) : list (string * A) :=
  fold_left (fun d kv => sset (fst kv) (snd kv) d) e d.
(** [_process_class] (DC:936-987): the fields of the bases, from the last to the first, then
    those of the class body. *)
Fixpoint base_fields (w : world) (bases : list nat) (d : list (string * field)) : list (string * field) :=
  match bases with
  | [] => d
  | b :: bases =>
      let d := base_fields w bases d in
      match class_attr c_dc w b with Some e => update d e | None => d end
  end.
Definition set_class (w : world) (c : nat) (k : cls) : world := fun x => if Nat.eqb x c then k else w x.
Definition dataclass (c : nat) (w : world) : world :=
  let k := w c in
  set_class w c (Cls (c_bases k) (c_own k) (Some (update (base_fields w (c_bases k) []) (c_own k)))
                     (c_pydantic k) (c_attrs k) (c_struct k)).
(** [iter_fields] (DU:141-191), with exclude_frozen=True: names and types (None: unknown).
    is_pydantic_model and is_msgspec_struct: the attributes are there. *)
Definition is_regular (f : field) : bool := match f_kind f with Regular => true | _ => false end.
Definition iter_fields (w : world) (c : nat) : list (string * option nat) :=
  match class_attr c_dc w c with
  | Some d => map (fun kv => (fst kv, Some (f_type (snd kv)))) (filter (fun kv => is_regular (snd kv)) d)
  | None =>
      match class_attr c_pydantic w c with
      | Some d => map (fun kv => (fst kv, Some (fst (snd kv)))) (filter (fun kv => negb (snd (snd kv))) d)
      | None =>
          match class_attr c_attrs w c with
          | Some l => map (fun kv => (fst kv, Some (snd kv))) l
          | None =>
              match class_attr c_struct w c with
              | Some l => map (fun n => (n, match sget n (c_own (w c)) with Some f => Some (f_type f) | None => None end)) l
              | None => []
              end
          end
      end
  end.

(** A module: class statements, each with one base or none, with or without @dataclass; they
    do not use other libraries. *)
Record stmt := Stmt { st_base : option nat; st_own : list (string * field); st_dc : bool }.
Definition define (w : world) (c : nat) (s : stmt) : world :=
  let bases := match st_base s with Some b => b :: c_bases (w b) | None => [] end in
  let w := set_class w c (Cls bases (st_own s) None None None None) in
  if st_dc s then dataclass c w else w.
Fixpoint module (l : list stmt) (c : nat) (w : world) : world :=
  match l with [] => w | s :: l => module l (S c) (define w c s) end.
Definition empty : world := fun _ => Cls [] [] None None None None.
