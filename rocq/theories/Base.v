(** Python values, exceptions, callables and signatures used by every model file.

    Nothing here is specific to one psygnal function; each definition names the
    Python notion it stands for. *)

From Coq Require Export ZArith Lia Bool Arith Ascii String List.
Export ListNotations.
Open Scope list_scope.
Open Scope bool_scope.

(** Identity of a [SignalInstance] object (its Python [id]). *)
Definition sid := nat.
(** Identity of any other Python object: receivers, functions, callable objects. *)
Definition oid := nat.
(** Identity of a thread; the main thread is [0]. *)
Definition thr := nat.

(** Python values, as far as signals look at them.  Two [val]s are Leibniz-equal
    exactly when Python's [is] holds; Python's [==] is a parameter where needed.
    [VInfo s args] is [EmissionInfo(signal, args)] (_group.py:40-50). *)
Inductive val : Type :=
| VNone
| VBool (b : bool)
| VInt (z : Z)
| VStr (s : string)
| VObj (o : oid)
| VSig (s : sid)
| VTuple (l : list val)
| VSlice (a b c : option Z)
| VInfo (s : sid) (args : list val).

(** Exceptions.  [EBase] stands for a [BaseException] that is not an [Exception]
    (KeyboardInterrupt, SystemExit): [except Exception] does not catch it.
    [EEmitLoop s d c] is [EmitLoopError(exc=c, signal=s, recursion_depth=d)]
    (_exceptions.py:20-61); its message text is in [Report]. *)
Inductive exn : Type :=
| EUser (n : nat)
| EValue | EType | EIndex | EKey | EAttribute | EReference | ENotImpl | ERuntime
| ERecursion
| EEmitLoop (s : option sid) (depth : nat) (cause : exn)
| EBase (n : nat).

(** Result of running a piece of Python code: normal return, exception, or
    [Halted]: the observer stopped looking at this point (the process was
    inspected or killed there), so no [finally] block has run. *)
Inductive out : Type :=
| Ok (v : val)
| Err (e : exn)
| Halted.

(** [args[:m]] for an int [m] (Python slicing with a possibly negative stop). *)
Definition py_take {A} (m : Z) (l : list A) : list A :=
  if (m <? 0)%Z then firstn (List.length l - Z.to_nat (- m)) l
  else firstn (Z.to_nat m) l.

(** ** Signatures: [inspect.Parameter] / [inspect.Signature] *)

(** [inspect._ParameterKind]. *)
Inductive pkind := PosOnly | PosOrKw | VarPos | KwOnly | VarKw.

(** A parameter annotation.  [AEmpty] is [Signature.empty]; [AClass c] a class;
    [AUnion l] a [typing.Union] of classes; [AStr r] a string annotation which
    [typing.get_type_hints] resolves to [r]. *)
Inductive ann :=
| AEmpty
| AClass (c : nat)
| AUnion (l : list nat)
| AStr (r : ann).

Record param := Param { p_kind : pkind; p_default : bool; p_ann : ann }.

(** What [_get_signature_possibly_qt] returns for a callable (_signal.py:1616-1621):
    it raises ValueError, or gives a Qt string signature, or an inspect.Signature. *)
Inductive sigres :=
| SNone
| SStr (s : string)
| SSig (l : list param).

(** ** Callables that can be passed to [connect] *)

(** The unwrapped callable.  [BFunc f]: a Python function object; [BMethod o f]: a
    bound method of object [o] whose [__func__] is [f]; [BBuiltin o n]: a C method
    named [n] bound to [o]; [BSetattr]: the builtin [setattr]; [BObj o]: any other
    callable object; [BRelay r]: the bound method [relay._slot_relay]. *)
Inductive base :=
| BFunc (f : oid)
| BMethod (o f : oid)
| BBuiltin (o : oid) (n : string)
| BSetattr
| BObj (o : oid)
| BRelay (r : sid).

(** [CPartial b args kw] is [functools.partial(b, *args, **kw)]; CPython flattens
    nested partials at construction, so one level is enough. *)
Inductive callable :=
| CBase (b : base)
| CPartial (b : base) (args : list val) (kw : list (string * val)).

Definition callable_base (c : callable) : base :=
  match c with CBase b => b | CPartial b _ _ => b end.
Definition callable_args (c : callable) : list val :=
  match c with CBase _ => [] | CPartial _ a _ => a end.
Definition callable_kw (c : callable) : list (string * val) :=
  match c with CBase _ => [] | CPartial _ _ k => k end.

(** The string key by which two WeakCallbacks are compared
    (_weak_callback.py:276-296, 524, 563).  The string is kept structured: an object
    id, plus the bound method name, the attribute name or the item key when the
    string contains one.  Module and type names are functions of the object and are
    left out; an item key appears in the string as its repr, which is taken to be
    injective.  A function object and another callable object are never the same object,
    hence [KFunc] and [KObj]. *)
Inductive key :=
| KFunc (f : oid)
| KObj (o : oid)
| KBound (o : oid) (n : string)
| KSetattr (o : oid) (a : string)
| KSetitem (o : oid) (k : val)
| KRelay (r : sid).

(** ** Decidable equalities *)

Section ListEq.
  Context {A : Type}.
  Variable eqb : A -> A -> bool.
  Fixpoint list_eqb (l1 l2 : list A) : bool :=
    match l1, l2 with
    | [], [] => true
    | a :: r, b :: s => eqb a b && list_eqb r s
    | _, _ => false
    end.
End ListEq.

Definition optZ_eqb (a b : option Z) : bool :=
  match a, b with
  | None, None => true
  | Some x, Some y => Z.eqb x y
  | _, _ => false
  end.

(** Python's [is] on values. *)
Fixpoint val_eqb (a b : val) {struct a} : bool :=
  match a, b with
  | VNone, VNone => true
  | VBool x, VBool y => Bool.eqb x y
  | VInt x, VInt y => Z.eqb x y
  | VStr x, VStr y => String.eqb x y
  | VObj x, VObj y => Nat.eqb x y
  | VSig x, VSig y => Nat.eqb x y
  | VTuple x, VTuple y => list_eqb val_eqb x y
  | VSlice a1 b1 c1, VSlice a2 b2 c2 =>
      optZ_eqb a1 a2 && optZ_eqb b1 b2 && optZ_eqb c1 c2
  | VInfo s1 x, VInfo s2 y => Nat.eqb s1 s2 && list_eqb val_eqb x y
  | _, _ => false
  end.

Definition key_eqb (a b : key) : bool :=
  match a, b with
  | KFunc x, KFunc y => Nat.eqb x y
  | KObj x, KObj y => Nat.eqb x y
  | KBound x n, KBound y m => Nat.eqb x y && String.eqb n m
  | KSetattr x n, KSetattr y m => Nat.eqb x y && String.eqb n m
  | KSetitem x n, KSetitem y m => Nat.eqb x y && val_eqb n m
  | KRelay x, KRelay y => Nat.eqb x y
  | _, _ => false
  end.

(** ** Correctness of the equality tests *)

Lemma list_eqb_eq : forall {A} (eqb : A -> A -> bool) l1 l2,
  (forall a b, In a l1 -> (eqb a b = true <-> a = b)) -> (list_eqb eqb l1 l2 = true <-> l1 = l2).
Proof.
  intros A eqb; induction l1 as [|a l1 IH]; intros [|b l2] H; cbn; split; intros H1;
    try discriminate; auto.
  - apply andb_true_iff in H1 as [H1 H2]. apply H in H1; [|now left]. subst.
    f_equal. apply IH; auto. intros; apply H; now right.
  - injection H1 as <- <-. apply andb_true_iff. split; [apply H; auto; now left|].
    apply IH; auto. intros; apply H; now right.
Qed.

Lemma optZ_eqb_eq : forall a b, optZ_eqb a b = true <-> a = b.
Proof.
  intros [x|] [y|]; cbn; split; intros H; try discriminate; auto.
  - apply Z.eqb_eq in H; congruence.
  - injection H as <-. apply Z.eqb_refl.
Qed.

Fixpoint val_size (v : val) : nat :=
  match v with
  | VTuple l => S (fold_right (fun x n => val_size x + n) 0 l)
  | VInfo _ l => S (fold_right (fun x n => val_size x + n) 0 l)
  | _ => 1
  end.
Lemma val_size_In : forall x l, In x l -> val_size x <= fold_right (fun x n => val_size x + n) 0 l.
Proof. induction l as [|y l IH]; cbn; [tauto|]. intros [->|H]; [lia|]. specialize (IH H). lia. Qed.

Lemma val_eqb_eq : forall a b, val_eqb a b = true <-> a = b.
Proof.
  intros a. remember (val_size a) as n eqn:Hn. assert (Hle : val_size a <= n) by lia. clear Hn.
  revert a Hle. induction n as [|n IH]; intros a Hle b.
  - destruct a; cbn in Hle; lia.
  - destruct a as [|x|x|x|x|x|x|x y z|s x]; destruct b as [|x'|x'|x'|x'|x'|x'|x' y' z'|s' x'];
      cbn; split; intros H; try discriminate; auto.
    + apply Bool.eqb_prop in H; congruence.
    + injection H as <-; apply Bool.eqb_reflx.
    + apply Z.eqb_eq in H; congruence.
    + injection H as <-; apply Z.eqb_refl.
    + apply String.eqb_eq in H; congruence.
    + injection H as <-; apply String.eqb_refl.
    + apply Nat.eqb_eq in H; congruence.
    + injection H as <-; apply Nat.eqb_refl.
    + apply Nat.eqb_eq in H; congruence.
    + injection H as <-; apply Nat.eqb_refl.
    + f_equal. apply (list_eqb_eq val_eqb) in H; [exact H|]. intros a b Ha. apply IH.
      pose proof (val_size_In _ _ Ha). cbn in Hle. lia.
    + injection H as <-. apply (list_eqb_eq val_eqb); [|reflexivity]. intros a b Ha. apply IH.
      pose proof (val_size_In _ _ Ha). cbn in Hle. lia.
    + apply andb_true_iff in H as [H H3]. apply andb_true_iff in H as [H1 H2].
      apply optZ_eqb_eq in H1, H2, H3. congruence.
    + injection H as <- <- <-. rewrite !(proj2 (optZ_eqb_eq _ _) eq_refl). reflexivity.
    + apply andb_true_iff in H as [H1 H2]. apply Nat.eqb_eq in H1. f_equal; [exact H1|].
      apply (list_eqb_eq val_eqb) in H2; [exact H2|]. intros a b Ha. apply IH.
      pose proof (val_size_In _ _ Ha). cbn in Hle. lia.
    + injection H as <- <-. apply andb_true_iff. split; [apply Nat.eqb_refl|].
      apply (list_eqb_eq val_eqb); [|reflexivity]. intros a b Ha. apply IH.
      pose proof (val_size_In _ _ Ha). cbn in Hle. lia.
Qed.

Lemma key_eqb_eq : forall a b, key_eqb a b = true <-> a = b.
Proof.
  intros [x|x|x n|x n|x n|x] [y|y|y m|y m|y m|y]; cbn; split; intros H; try discriminate.
  - apply Nat.eqb_eq in H; congruence.
  - injection H as <-; apply Nat.eqb_refl.
  - apply Nat.eqb_eq in H; congruence.
  - injection H as <-; apply Nat.eqb_refl.
  - apply andb_true_iff in H as [H1 H2]. apply Nat.eqb_eq in H1. apply String.eqb_eq in H2. congruence.
  - injection H as <- <-. now rewrite Nat.eqb_refl, String.eqb_refl.
  - apply andb_true_iff in H as [H1 H2]. apply Nat.eqb_eq in H1. apply String.eqb_eq in H2. congruence.
  - injection H as <- <-. now rewrite Nat.eqb_refl, String.eqb_refl.
  - apply andb_true_iff in H as [H1 H2]. apply Nat.eqb_eq in H1. apply val_eqb_eq in H2. congruence.
  - injection H as <- <-. now rewrite Nat.eqb_refl, (proj2 (val_eqb_eq _ _) eq_refl).
  - apply Nat.eqb_eq in H; congruence.
  - injection H as <-; apply Nat.eqb_refl.
Qed.
Lemma key_eqb_refl : forall k, key_eqb k k = true.
Proof. intros; now apply key_eqb_eq. Qed.
Lemma key_eqb_neq : forall a b, key_eqb a b = false <-> a <> b.
Proof.
  intros a b. destruct (key_eqb a b) eqn:H.
  - apply key_eqb_eq in H. split; congruence.
  - split; auto. intros _ H1. apply key_eqb_eq in H1. congruence.
Qed.
