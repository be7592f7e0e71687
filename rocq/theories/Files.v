(** decompile() and recompile() (utils.py): renaming the files of the compiled modules. *)

From Verif Require Import Base.

(** A file: directory, stem of the name, and last suffix, of which those that matter are ".so", ".pyd" (_COMPILED_EXTS, utils.py:123) and
    these with "_BAK" (utils.py:124) after them.  Names that are nothing but a suffix do not occur. *)
Inductive suffix := Ext (pyd : bool) | Bak (pyd : bool) | Other (n : nat).
Record path := Path { p_dir : nat; p_stem : nat; p_suffix : suffix }.
(** The files below the package's directory, with their contents. *)
Definition files := path -> option nat.
Definition suffix_eqb (a b : suffix) : bool :=
  match a, b with
  | Ext x, Ext y | Bak x, Bak y => Bool.eqb x y
  | Other x, Other y => Nat.eqb x y
  | _, _ => false
  end.
Definition path_eqb (a b : path) : bool := Nat.eqb (p_dir a) (p_dir b) && Nat.eqb (p_stem a) (p_stem b) && suffix_eqb (p_suffix a) (p_suffix b).
(** path.with_suffix(s). *)
Definition with_suffix (p : path) (s : suffix) : path := Path (p_dir p) (p_stem p) s.
(** path.rename(q) on POSIX systems: what was at q is lost.  (On Windows it raises FileExistsError if there is something.) *)
Definition rename (p q : path) (f : files) : files :=
  match f p with
  | None => f
  | Some c => fun x => if path_eqb x q then Some c else if path_eqb x p then None else f x
  end.
(** Path(...).rglob of the names with suffix [s]: each of these files, in any order, as they are when it is called. *)
Definition rglob (f : files) (s : suffix) (l : list path) : Prop :=
  NoDup l /\ forall p, In p l <-> p_suffix p = s /\ f p <> None.
Fixpoint rename_all (s : suffix) (l : list path) (f : files) : files :=
  match l with [] => f | p :: l => rename_all s l (rename p (with_suffix p s) f) end.
(** [decompile] (utils.py:127-134) and [recompile] (utils.py:137-144). *)
Inductive decompile : files -> files -> Prop :=
| decompiled : forall f l m, rglob f (Ext false) l ->
    rglob (rename_all (Bak false) l f) (Ext true) m ->
    decompile f (rename_all (Bak true) m (rename_all (Bak false) l f)).
Inductive recompile : files -> files -> Prop :=
| recompiled : forall f l m, rglob f (Bak false) l ->
    rglob (rename_all (Ext false) l f) (Bak true) m ->
    recompile f (rename_all (Ext true) m (rename_all (Ext false) l f)).
