(** What EventedModel is meant to do, independently of its bookkeeping. *)

From Coq Require Import Permutation.
From Verif Require Import Base Core Evented SpecEvented EModel Prog.
Open Scope string_scope.
Open Scope list_scope.

Section SpecModel.
Context {X : Type}.
Implicit Types K : mclass X.

(** Between assignments nothing is remembered. *)
Definition at_rest (u : mstate X) : Prop := m_queue u = [] /\ m_prim u = [] /\ m_sema u = 0.
(** The private attributes are not touched. *)
Definition same_private (u u' : mstate X) : Prop :=
  m_queue u' = m_queue u /\ m_prim u' = m_prim u /\ m_sema u' = m_sema u.
(** Attributes with a signal can be read. *)
Definition readable K : Prop := forall n d, k_sig K n <> None -> exists v, k_get K n d = inl v.
(** The public attributes of SignalGroup, and the names it reserves: signals with other names are attributes of a group. *)
Definition group_names : list string :=
  ["all"; "signals"; "connect"; "connect_direct"; "disconnect"; "block"; "unblock"; "blocked"; "pause"; "resume"; "paused";
   "is_uniform"; "psygnals_uniform"].
Definition own_name (n : string) : Prop := ~ In n group_names /\ forall r, n <> ("psygnal" ++ r)%string.
(** Dependents are fields or properties with a signal. *)
Definition closed_deps K : Prop := forall n d, In d (k_deps K n) -> k_sig K d <> None.
(** Iterating over a set gives its elements. *)
Definition iterates K : Prop := forall l, Permutation l (k_order K l).
(** Comparisons do not raise BaseExceptions (KeyboardInterrupt). *)
Definition tame (P : values) : Prop := forall op a b n, run_op P op a b <> inr (EBase n).

(** Programs using a model through its attributes: arbitrary code, calls of signals, and
    assignments.  [sup] of an assignment: what the field's or property's setter does, again such
    a program. *)
Inductive client K : prog (mstate X) -> Prop :=
| cl_ret : forall v, client K (Ret v)
| cl_throw : forall e, client K (Throw e)
| cl_halt : client K Halt
| cl_look : forall k, (forall u, client K (k u)) -> client K (Look k)
| cl_do : forall o k, match o with OUsr f => forall u, same_private u (fst (f u)) | _ => True end ->
    (forall x, client K (k x)) -> client K (Do o k)
| cl_bind : forall p k, client K p -> (forall v, client K (k v)) -> client K (bind p k)
| cl_catch : forall p k, client K p -> (forall x, client K (k x)) -> client K (catch p k)
| cl_set : forall n name value sup, client K sup -> client K (model_setattr K n name value sup)
| cl_update : forall n l, (forall name value sup, In (name, value, sup) l -> client K sup) ->
    client K (model_update K n l).
End SpecModel.

Section Assignments.
Context {X : Type}.
Implicit Types K : mclass X.

(** What an assignment runs: for a field, the validation and assignment of pydantic, any
    function of the content of the model, which may raise; for a property, a setter that makes
    further assignments to attributes of the model. *)
Inductive todo : Type :=
| Field (f : content X -> content X * (val + exn))
| Setter (l : list (string * val * todo)).
(** Its effect if there were no signals: the attributes with signals that were assigned (also
    when the assignment raised), the new content, and the result. *)
Fixpoint effect K (t : todo) (d : content X) : list string * content X * (val + exn) :=
  match t with
  | Field f => ([], fst (f d), snd (f d))
  | Setter l =>
      (fix go l d :=
         match l with
         | [] => ([], d, inl VNone)
         | (n, _, t) :: l =>
             let '(a, d1, r) := effect K t d in
             let a := match k_sig K n with Some _ => n :: a | None => a end in
             match r with
             | inl _ => let '(b, d2, r2) := go l d1 in (a ++ b, d2, r2)
             | inr e => (a, d1, inr e)
             end
         end) l d
  end.
(** The program. *)
Fixpoint todo_prog K (n : nat) (t : todo) : prog (mstate X) :=
  match t with
  | Field f => act (fun u => (set_data (fst (f (m_data u))) u, snd (f (m_data u))))
  | Setter l =>
      (fix go l :=
         match l with
         | [] => Ret VNone
         | (name, v, t) :: l => model_setattr K n name v (todo_prog K n t) ;; go l
         end) l
  end.
(** The dependencies are declared: an assignment to field [name] changes no other attribute
    with a signal than the declared dependents. *)
Fixpoint declared K (name : string) (t : todo) : Prop :=
  match t with
  | Field f => forall d m, k_sig K m <> None ->
      ~ (k_sig K name <> None /\ (m = name \/ In m (k_deps K name))) ->
      k_get K m (fst (f d)) = k_get K m d
  | Setter l =>
      (fix go l := match l with [] => True | (n, _, t) :: l => declared K n t /\ go l end) l
  end.
(** The attribute differs between two contents, by its operator. *)
Definition differs K (ops : list (string * eqop)) (d d' : content X) (n : string) : Prop :=
  exists old new, k_get K n d = inl old /\ k_get K n d' = inl new
    /\ changed (k_values K) (op_of ops n) (Some new) (Some old).
End Assignments.
Arguments todo : clear implicits.
