(** Building blocks of the programs modelling methods of classes that own signals. *)

From Verif Require Import Base Core.

Section Prog.
Context {U : Type}.
(** [sig.emit(...)] with the default options. *)
Definition say (s : sid) (args : list val) : prog U := call (OEmit s args false false).
(** Work on the own data. *)
Definition act (f : U -> U * (val + exn)) : prog U := call (OUsr f).
Definition seq (p q : prog U) : prog U := bind p (fun _ => q).
(** for x in l: f(x) *)
Fixpoint each {A} (f : A -> prog U) (l : list A) : prog U :=
  match l with [] => Ret VNone | x :: l => seq (f x) (each f l) end.
End Prog.
Notation "p ;; q" := (seq p q) (at level 60, right associativity).
