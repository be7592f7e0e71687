(** Which classes are evented, and under which name (C111): from the statements of the program alone. *)

From Verif Require Import Base Core Evented Uniform Decorator.

(** The last descriptor among the attributes of a class statement *)
Fixpoint last_descr (l : list (string * attr)) (n : option string) : option string :=
  match l with
  | [] => n
  | (x, ADescr _) :: l => last_descr l (Some x)
  | _ :: l => last_descr l n
  end.
(** The name declared last for class [c] itself; and whether it has annotations that evented refuses *)
Fixpoint declared (c : nat) (l : list stmt) (n : option string) (bad : Prop) : option string -> Prop :=
  match l with
  | [] => eq n
  | SClass c' o an _ :: l =>
      if Nat.eqb c c' then declared c l (last_descr o None) (exists x, In x an /\ String.prefix "_psygnal" x = true) else declared c l n bad
  | SEvented c' _ ns :: l =>
      if Nat.eqb c c' then fun r => (bad /\ declared c l n bad r) \/ (~ bad /\ declared c l (Some ns) bad r) else declared c l n bad
  | SAssign _ _ _ :: l => declared c l n bad
  end.
(** The name declared for the first of the classes that has one *)
Fixpoint nearest (l : list stmt) (cs : list nat) (r : option string) : Prop :=
  match cs with
  | [] => r = None
  | c :: cs => exists n, declared c l None False n /\ match n with Some x => r = Some x | None => nearest l cs r end
  end.
(** The program does not use psygnal's own attribute. *)
Definition polite (a : stmt) : Prop :=
  match a with
  | SClass _ o _ _ => ~ In flag (map fst o)
  | SEvented _ _ ns => ns <> flag
  | SAssign _ n _ => n <> flag
  end.
Definition blank : pystate := Pystate (fun _ => Pycls [] [] false) (fun _ => None).
(** The class annotates itself a name with the prefix reserved for psygnal. *)
Definition refused (s : pystate) (c : nat) : Prop := exists x, In x (pc_anns (py_cls s c)) /\ String.prefix "_psygnal" x = true.
