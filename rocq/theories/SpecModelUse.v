(** What the properties of EventedModels whose listeners use the model are about. *)

From Verif Require Import Base Core Prog Evented SpecSelect EModel SpecEvented SpecModel SpecSelUse.
Open Scope string_scope.
Open Scope list_scope.

Section SpecModelUse.
Context {X : Type}.
Implicit Types K : mclass X.

(** The call disconnects nothing (no object dies, either). *)
Definition severs {U} (o : op U) : bool :=
  match o with ODisconnect _ _ _ | ODisconnectSetattr _ _ _ _ | ODisconnectSetitem _ _ _ _ | OKill _ => true | _ => false end.
(** What code that uses a model does to it: assignments, of fields and properties, and update(). *)
Inductive used_model K : prog (mstate X) -> Prop :=
| um_set : forall N name v t, declared K name t -> used_model K (model_setattr K N name v (todo_prog K N t))
| um_update : forall N l, (forall name v sup, In (name, v, sup) l -> exists t, declared K name t /\ sup = todo_prog K N t) ->
    used_model K (model_update K N l).
(** Models without dependents: assignments of fields whose validators keep the value, or refuse it. *)
Definition stored K (name : string) (v : val) (f : content X -> content X * (val + exn)) : Prop :=
  forall d x, snd (f d) = inl x -> k_get K name (fst (f d)) = inl v.
Inductive used_plain K : prog (mstate X) -> Prop :=
| up_set : forall N name v f, declared K name (Field f) -> (k_sig K name <> None -> stored K name v f) ->
    used_plain K (model_setattr K N name v (todo_prog K N (Field f)))
| up_update : forall N l, (forall name v sup, In (name, v, sup) l ->
      exists f, declared K name (Field f) /\ (k_sig K name <> None -> stored K name v f) /\ sup = todo_prog K N (Field f)) ->
    used_plain K (model_update K N l).
(** What else it does: it keeps own data, makes calls that disconnect nothing, and does not itself emit the model's signals. *)
Definition apart K (o : op (mstate X)) : Prop :=
  match o with
  | OUsr f => forall u, same_private u (fst (f u)) /\ forall n, k_sig K n <> None -> k_get K n (m_data (fst (f u))) = k_get K n (m_data u)
  | OEmit s _ _ _ | OEmitFast s _ => forall n, k_sig K n <> Some s
  | _ => severs o = false
  end.
(** Programs that use the model by [used] and do this, and do not catch exceptions. *)
Inductive model_user K (used : prog (mstate X) -> Prop) : prog (mstate X) -> Prop :=
| mu_ret : forall v, model_user K used (Ret v)
| mu_throw : forall e, model_user K used (Throw e)
| mu_halt : model_user K used Halt
| mu_look : forall k, (forall u, model_user K used (k u)) -> model_user K used (Look k)
| mu_call : forall o, apart K o -> model_user K used (call o)
| mu_bind : forall p k, model_user K used p -> (forall v, model_user K used (k v)) -> model_user K used (bind p k)
| mu_used : forall p, used p -> model_user K used p.
Definition model_users K (used : prog (mstate X) -> Prop) (E : env (mstate X)) : Prop :=
  (forall t a w, model_user K used (e_body E t a w)) /\ (forall m a, model_user K used (e_lib E m a)).

(** Values for which the operators say "equal" are the same. *)
Definition recognises (P : values) (same : val -> val -> Prop) : Prop :=
  forall op old new, unchanged P op (Some new) (Some old) -> same old new.
Definition dependent K (n : string) : Prop := exists m, In n (k_deps K m).
(** An attribute has the same value in two states of the model. *)
Definition stays K (same : val -> val -> Prop) (d d' : content X) (n : string) : Prop :=
  exists a b, k_get K n d = inl a /\ k_get K n d' = inl b /\ same a b.
(** The values of dependent properties follow from the other attributes. *)
Definition follows K (same : val -> val -> Prop) : Prop :=
  forall d d', (forall m, k_sig K m <> None -> ~ dependent K m -> stays K same d d' m) ->
  forall n, k_sig K n <> None -> dependent K n -> stays K same d d' n.
(** Each attribute has its own signal. *)
Definition own_signals K : Prop := forall n m s, k_sig K n = Some s -> k_sig K m = Some s -> n = m.
(** Somebody listens to each of them. *)
Definition all_heard {U} K (w : world U) : Prop := forall n s, k_sig K n = Some s -> s_slots (w_sg w s) <> [].
(** A listener that remembers the last value of attribute [n] has the right one: [d]: the model when it started, [h]: what was
    emitted since then, [d']: the model now. *)
Definition informed K (same : val -> val -> Prop) (d : content X) (h : list (sid * list val * mstate X)) (d' : content X) : Prop :=
  forall n s, k_sig K n = Some s -> exists a b, k_get K n d = inl a /\ k_get K n d' = inl b /\ same (replay s a h) b.
(** Each value announced is the attribute's value at that time. *)
Definition current K (h : list (sid * list val * mstate X)) : Prop :=
  forall n s a u, k_sig K n = Some s -> In (s, a, u) h -> exists v, a = [v] /\ k_get K n (m_data u) = inl v.
End SpecModelUse.
