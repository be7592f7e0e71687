(** Concrete programs for the examples and counterexamples beside the theorems.
    Nothing here models code of the repository. *)

From Verif Require Import Base Core Spec Frame Fuel.

Section Demo.
Context {U : Type}.

(** A program whose functions behave as [body] says (for methods the first argument is
    the receiver); attribute assignments do nothing; every signature is ( *args). *)
Definition demo (body : oid -> list val -> prog U) : env U :=
  Env (fun t a _ =>
         match t with
         | TFun f pre _ => body f (pre ++ a)
         | TObj o pre _ => body o (pre ++ a)
         | TMeth o f pre _ => body f (VObj o :: pre ++ a)
         | _ => Ret VNone
         end)
      (fun _ _ => Ret VNone) (fun _ => true) (fun f => String (ascii_of_nat (97 + f)) "")
      (fun _ => SSig [Param VarPos false AEmpty]) Nat.eqb (fun _ => 0) (fun _ _ => true).

(** Calls in sequence; the first exception ends it. *)
Fixpoint calls (l : list (op U)) : prog U :=
  match l with [] => Ret VNone | o :: r => bind (call o) (fun _ => calls r) end.

Definition fn (f : oid) : callable := CBase (BFunc f).
Definition meth (o f : oid) : callable := CBase (BMethod o f).
Definition prio (p : Z) : copts := Copts None None None UFalse None RefWarn p.
(** f was connected with priority p. *)
Definition conn (s : sid) (f : oid) (p : Z) : op U := OConnect s (fn f) (prio p).
Definition emit (s : sid) (args : list val) : op U := OEmit s args true false.

(** State after running a program, and its result. *)
Definition after (E : env U) (n : nat) (p : prog U) (w : world U) : world U :=
  match exec E n p w with Some (w', _) => w' | None => w end.
Definition outcome (E : env U) (n : nat) (p : prog U) (w : world U) : option out :=
  match exec E n p w with Some (_, r) => Some r | None => None end.
Definition after1 (E : env U) (n : nat) (o : op U) (w : world U) : world U :=
  match step (exec E n) E n o w with Some (w', _) => w' | None => w end.
Definition outcome1 (E : env U) (n : nat) (o : op U) (w : world U) : option out :=
  match step (exec E n) E n o w with Some (_, r) => Some r | None => None end.

Lemma after_runs : forall E n p w r, outcome E n p w = Some r -> runs E p w (after E n p w) r.
Proof.
  intros E n p w r H. exists n. unfold outcome, after in *. destruct (exec E n p w) as [[w' x]|]; congruence.
Qed.
Lemma after1_steps : forall E n o w r, outcome1 E n o w = Some r -> steps E o w (after1 E n o w) r.
Proof.
  intros E n o w r H. exists n. unfold outcome1, after1 in *.
  destruct (step (exec E n) E n o w) as [[w' x]|]; congruence.
Qed.
Lemma after_reachable : forall E n p cfg u r, (forall s, fresh_sig (cfg s)) ->
  flat (init_world (U:=U) cfg u) -> outcome E n p (init_world cfg u) = Some r ->
  reachable E (after E n p (init_world cfg u)).
Proof. intros E n p cfg u r H1 H2 H. exists cfg, u, p, r. split; [exact H1|]. split; [exact H2|]. now apply after_runs. Qed.

Lemma same_objects_refl : forall E : env U, same_objects E E.
Proof. intros E o. reflexivity. Qed.

(** Restrictions on the functions of a [demo] program. *)
Lemma demo_all : forall (A : op U -> Prop) body, (forall f a, prog_all A (body f a)) -> env_all A (demo body).
Proof. intros A body H. split; [|intros; exact I]. intros t a w. destruct t; cbn; auto. Qed.
End Demo.

Lemma fresh_new : forall m ps, fresh_sig (new_signal m ps).
Proof. repeat split. Qed.
Lemma fresh_relay : forall ms, fresh_sig (new_relay ms).
Proof. repeat split. Qed.

(** Only plain signals. *)
Definition all_plain (m : mode) (n : nat) : sid -> sigst :=
  fun _ => new_signal m (repeat (Param PosOnly false AEmpty) n).
(** Signal 0 is a group of signals 1 and 2, named a and b; all others are plain. *)
Definition group_of_two (m : mode) (n : nat) : sid -> sigst :=
  fun s => match s with
           | 0 => new_relay [("a"%string, 1); ("b"%string, 2)]
           | _ => new_signal m (repeat (Param PosOnly false AEmpty) n)
           end.
Lemma all_plain_fresh : forall m n s, fresh_sig (all_plain m n s).
Proof. intros. apply fresh_new. Qed.
Lemma all_plain_flat : forall {U} m n (u : U), flat (init_world (all_plain m n) u).
Proof. intros U m n u r ms x y H. discriminate. Qed.
Lemma group_fresh : forall m n s, fresh_sig (group_of_two m n s).
Proof. intros m n [|s]; [apply fresh_relay|apply fresh_new]. Qed.
Lemma group_flat : forall {U} m n (u : U), flat (init_world (group_of_two m n) u).
Proof.
  intros U m n u [|r] ms x y H Hi; [|discriminate]. injection H as <-.
  destruct Hi as [Hi|[Hi|[]]]; injection Hi as <- <-; reflexivity.
Qed.
Global Hint Resolve all_plain_fresh all_plain_flat group_fresh group_flat same_objects_refl : demo.

(** The state after the calls [l] of a fresh program. *)
Notation world_of E cfg u n l := (after E n (calls l) (init_world cfg u)) (only parsing).
(** Prove that such a state is reachable. *)
Ltac reach := eapply after_reachable; [auto with demo|auto with demo|vm_compute; reflexivity].
Ltac ran := apply after1_steps; vm_compute; reflexivity.
(** Prove [prog_all A p] for a concrete [p]. *)
Ltac allp :=
  repeat first
    [ progress cbn
    | match goal with
      | |- True => exact I
      | |- _ /\ _ => split
      | |- prog_all _ (match ?x with _ => _ end) => destruct x
      | |- forall _ : _ + _, _ => let x := fresh in intros [x|x]
      | |- forall _, _ => intro
      end ]; auto; try (intuition discriminate).
