(** emit and emit_fast with groups and with a debug hook: C28. *)

From Verif Require Import Base Core Spec Frame Fuel Demo.
Open Scope Z_scope.
Open Scope string_scope.
Open Scope nat_scope.
Open Scope list_scope.

(** A slot of signal [s] is called with [args] *)
Definition called {U} (s : sid) (args : list val) (w : world U) : Prop := exists eid uid, In (ECall eid s uid args) (w_tr w).

(** emit() of a member of a group tells the group's callbacks, emit_fast() does not. *)
Theorem C28_group_refuted : exists (E : env unit) r m w w1 w2 r1 r2, reachable E w /\ s_mode (w_sg w m) = Immediate /\ w_hook w = None /\
  In m (members_of w r) /\ steps E (OEmit m [VInt 7] true false) w w1 r1 /\ steps E (OEmitFast m [VInt 7]) w w2 r2 /\
  called r [VInfo m [VInt 7]] w1 /\ forall args, ~ called r args w2.
Proof.
  pose (l := [conn 0 1 0] : list (op unit)). pose (E := demo (fun _ _ => Ret VNone) : env unit).
  pose (w := world_of E (group_of_two Immediate 1) tt 50 l).
  exists E, 0, 1, w, (after1 E 50 (OEmit 1 [VInt 7] true false) w), (after1 E 50 (OEmitFast 1 [VInt 7]) w), (Ok VNone), (Ok VNone).
  split.
  { exists (group_of_two Immediate 1), tt, (calls l), (Ok VNone).
    split; [auto with demo|]. split; [auto with demo|]. apply after_runs. vm_compute. reflexivity. }
  split; [vm_compute; reflexivity|]. split; [vm_compute; reflexivity|]. split; [vm_compute; auto|]. split; [ran|]. split; [ran|]. split.
  - do 2 eexists. vm_compute. repeat (try (left; reflexivity); right).
  - intros args (eid & uid & H). vm_compute in H. repeat (destruct H as [H|H]; [discriminate|]). exact H.
Qed.
Print Assumptions C28_group_refuted.

(** A debug hook that raises keeps emit() from calling anything; emit_fast() does not call the hook. *)
Theorem C28_hook_refuted : exists (E : env unit) s h w w1 w2, reachable E w /\ s_mode (w_sg w s) = Immediate /\ w_hook w = Some h /\
  (forall x, s_members (w_sg w x) = None) /\
  steps E (OEmit s [VInt 7] true false) w w1 (Err (EUser 1)) /\ steps E (OEmitFast s [VInt 7]) w w2 (Ok VNone) /\
  (forall args, ~ called s args w1) /\ called s [VInt 7] w2.
Proof.
  pose (l := [conn 0 1 0; OSetHook (Some 3)] : list (op unit)).
  pose (E := demo (fun f _ => match f with 3 => Throw (EUser 1) | _ => Ret VNone end) : env unit).
  pose (w := world_of E (all_plain Immediate 1) tt 50 l).
  exists E, 0, 3, w, (after1 E 50 (OEmit 0 [VInt 7] true false) w), (after1 E 50 (OEmitFast 0 [VInt 7]) w).
  split.
  { exists (all_plain Immediate 1), tt, (calls l), (Ok VNone).
    split; [auto with demo|]. split; [auto with demo|]. apply after_runs. vm_compute. reflexivity. }
  split; [vm_compute; reflexivity|]. split; [vm_compute; reflexivity|]. split; [intros [|x]; vm_compute; reflexivity|].
  split; [ran|]. split; [ran|]. split.
  - intros args (eid & uid & H). vm_compute in H. repeat (destruct H as [H|H]; [discriminate|]). exact H.
  - do 2 eexists. vm_compute. repeat (try (left; reflexivity); right).
Qed.
Print Assumptions C28_hook_refuted.
