(** Calls handed to other threads (_queue.py): the queues are first in, first out.
    Proof infrastructure; models no code. *)

From Verif Require Import Base Core Spec Frame Fuel Conn Keep Trace.

Section Q.
Context {U : Type}.

Lemma deferred_app : forall t (a b : list (event U)), deferred t (a ++ b) = deferred t a ++ deferred t b.
Proof.
  intros t a b; induction a as [|e a IH]; [reflexivity|]. destruct e; cbn; auto.
  destruct (Nat.eqb _ _); cbn; now rewrite IH.
Qed.
Lemma popped_app : forall t (a b : list (event U)), popped t (a ++ b) = popped t a ++ popped t b.
Proof.
  intros t a b; induction a as [|e a IH]; [reflexivity|]. destruct e; cbn; auto.
  destruct (Nat.eqb _ _); cbn; now rewrite IH.
Qed.

(** Every call ever deferred to a thread has been taken out or is still waiting, in order;
    what waits for a thread belongs to that thread. *)
Definition fifo (w : world U) : Prop :=
  forall t, deferred t (w_tr w) = popped t (w_tr w) ++ waiting t w
    /\ Forall (fun x => w_thread (snd (fst x)) = Some t) (w_tq w t).

Lemma fifo_same : forall (w w' : world U) tl, w_tq w' = w_tq w -> w_tr w' = w_tr w ++ tl ->
  (forall t, deferred t tl = [] /\ popped t tl = []) -> fifo w -> fifo w'.
Proof.
  intros w w' tl H1 H2 H3 HF t. destruct (HF t) as [F1 F2], (H3 t) as [D P].
  unfold waiting in *. rewrite H1, H2, deferred_app, popped_app, D, P, !app_nil_r. auto.
Qed.
Lemma fifo_eq : forall (w w' : world U), w_tq w' = w_tq w -> w_tr w' = w_tr w -> fifo w -> fifo w'.
Proof. intros w w' H1 H2. apply fifo_same with (tl := []); auto. now rewrite app_nil_r. Qed.
Lemma fifo_log : forall e (w : world U), (forall t, deferred t [e] = [] /\ popped t [e] = []) ->
  fifo w -> fifo (log e w).
Proof. intros e w H. now apply fifo_same with (tl := [e]). Qed.

Lemma started_tq : forall s args (w : world U), w_tq (started s args w) = w_tq w
  /\ w_tr (started s args w) = w_tr w ++ [EStart (w_nxt w) s args].
Proof. intros. unfold started, entered. destruct (s_mode _); split; reflexivity. Qed.

Lemma framed_fifo : forall E : env U,
  framed E (fun _ => True) (fun _ => True) (fun w w' _ => fifo w -> fifo w') (fun _ _ w w' _ => fifo w -> fifo w').
Proof.
  intros E. split; try (intros; exact I); auto.
  - intros o w w' r _ Hp Hs. pose proof (pure_keeps _ _ _ _ _ Hp Hs) as (_ & _ & HT & HQ & _).
    intros HF t. destruct (HF t) as [F1 F2]. unfold waiting in *. rewrite HT, HQ. auto.
  - intros s args w r _. apply fifo_log; auto.
  - intros h s args w r _. apply fifo_log; auto.
  - intros s args w r _ _ _ HF. apply fifo_log; auto.
  - intros s args w w' r _ _ _ H.
    assert (HI : fifo w -> fifo w').
    { intros HF. apply H. destruct (started_tq s args w) as [A B].
      eapply fifo_same; [exact A|exact B|auto|exact HF]. }
    destruct r; auto; intros HF; apply (fifo_log (EEnd (w_nxt w) s) w'); auto.
  - intros s args w w' r _ _ H _.
    assert (HI : fifo w -> fifo w').
    { intros HF. apply H. apply (fifo_log (EStart (w_nxt w) s args) w); auto. }
    destruct r; auto; intros HF; apply (fifo_log (EEnd (w_nxt w) s) w'); auto.
  - intros eid s c a w w' r _ H _.
    assert (HI : fifo w -> fifo w') by (intros HF; apply H, fifo_log; auto).
    destruct r; auto; intros HF; apply fifo_log; auto.
  - intros eid s c a w w' r _ H.
    assert (HI : fifo w -> fifo w') by (intros HF; apply H, fifo_log; auto).
    destruct r; auto; intros HF; apply fifo_log; auto.
  - intros eid s c t args w r _ Ht _ HF x. destruct (HF x) as [F1 F2]. unfold waiting in *.
    cbn [w_tr log set_tr w_tq set_tq]. rewrite deferred_app, popped_app. cbn [deferred popped].
    rewrite app_nil_r. rewrite (Nat.eqb_sym t x). destruct (Nat.eqb_spec x t) as [->|].
    + rewrite map_app. cbn [map]. rewrite F1, app_assoc. split; [reflexivity|].
      apply Forall_app. split; [exact F2|]. constructor; [exact Ht|constructor].
    + rewrite app_nil_r. auto.
  - intros t eid s c args q w r Hq HF x. destruct (HF x) as [F1 F2]. unfold waiting in *.
    cbn [w_tr log set_tr w_tq set_tq]. rewrite deferred_app, popped_app. cbn [deferred popped].
    rewrite app_nil_r. rewrite (Nat.eqb_sym t x). destruct (Nat.eqb_spec x t) as [->|].
    + rewrite Hq in F1, F2. cbn [map] in F1. inversion F2; subst. split; [|assumption].
      rewrite <- app_assoc. exact F1.
    + rewrite app_nil_r. auto.
Qed.

Lemma runs_fifo : forall (E : env U) p w w' r, runs E p w w' r -> fifo w -> fifo w'.
Proof.
  intros E p w w' r H.
  exact (frame_runs E _ _ _ _ (framed_fifo E) (env_all_true E) p w w' r (prog_all_true p) H).
Qed.
Theorem reachable_fifo : forall (E : env U) w, reachable E w -> fifo w.
Proof.
  intros E w (cfg & u & p & r & _ & _ & H). eapply runs_fifo; [exact H|].
  intros t. split; [reflexivity|constructor].
Qed.

Lemma due_called : forall t args c, w_thread c = Some t -> due t args c = Called (w_uid c) (cb_args c args).
Proof.
  intros t args c H. unfold due, cb_args, cut_args. rewrite H, Nat.eqb_refl. f_equal.
  set (l := match w_maxargs c with None => args | Some m => py_take m args end).
  destruct (w_target c); auto; destruct l as [|x [|y l']]; reflexivity.
Qed.

Lemma drain_drains : forall (E : env U) n f t w w' r,
  drain (exec E n) E f t w = Some (w', r) -> fifo w -> r <> Halted ->
  fifo w' /\ exists tl x, w_tr w' = w_tr w ++ tl /\ drains t tl x /\
    match x with
    | None => r = Ok VNone /\ w_tq w' t = []
    | Some e => r = Err (match e with EBase _ => e | _ => EEmitLoop None 0 e end)
    end.
Proof.
  intros E n f. induction f as [|f IH]; intros t w w' r H HF Hr; cbn [drain] in H; [discriminate|].
  destruct (w_tq w t) as [|[[[eid s] c] args] q] eqn:Hq.
  { injection H as <- <-. split; [exact HF|]. exists [], None. rewrite app_nil_r. repeat split; auto. constructor. }
  set (w1 := log (EPop t eid s (w_uid c) args) (set_tq (fun x => if Nat.eqb x t then q else w_tq w x) w)) in H.
  assert (HF1 : fifo w1).
  { exact (fr_pop _ _ _ _ _ (framed_fifo E) t eid s c args q w (Ok VNone) Hq HF). }
  assert (Hth : w_thread c = Some t).
  { destruct (HF t) as [_ F]. rewrite Hq in F. inversion F; assumption. }
  unfold invoke in H.
  destruct (match w_ref c with Some o => w_dead w1 o | None => false end) eqn:Hd.
  { injection H as <- <-. split; [exact HF1|]. exists [EPop t eid s (w_uid c) args], (Some EReference).
    split; [reflexivity|]. split; [|reflexivity]. destruct (w_ref c) as [o|] eqn:Ho; [|discriminate].
    now apply dr_dead with (o := o). }
  set (w1' := log (ev_call true eid s (w_uid c) (cb_args c args)) w1) in H.
  destruct (exec E n (body_of E (w_target c) (cb_args c args) w1') w1') as [[w2 r2]|] eqn:Hx; [|discriminate].
  assert (Hrun : runs E (body_of E (w_target c) (cb_args c args) w1') w1' w2 r2) by (exists n; exact Hx).
  assert (HF2 : fifo w2).
  { eapply runs_fifo; [exact Hrun|]. apply fifo_log; auto. }
  destruct r2 as [v|e|].
  - apply IH in H; [|apply fifo_log; auto|exact Hr]. destruct H as (F & tl & x & T & D & R).
    split; [exact F|]. apply runs_based in Hrun. destruct Hrun as [_ _ (b & B1 & _ & B2)].
    destruct (B2 ltac:(discriminate)) as [B3 _ _ _].
    eexists _, x. split; [|split; [eapply (dr_ok t eid s c args (cb_args c args) b tl x); auto using due_called|exact R]].
    rewrite T. cbn [w_tr log set_tr]. rewrite B1. unfold w1', w1. cbn [w_tr log set_tr set_tq ev_call ev_ret].
    repeat (rewrite <- !app_assoc; cbn [List.app]). reflexivity.
  - injection H as <- <-. split; [apply fifo_log; auto|].
    apply runs_based in Hrun. destruct Hrun as [_ _ (b & B1 & _ & B2)].
    destruct (B2 ltac:(discriminate)) as [B3 _ _ _].
    eexists _, (Some e). split; [|split; [eapply (dr_err t eid s c args (cb_args c args) b e); auto using due_called|reflexivity]].
    cbn [w_tr log set_tr]. rewrite B1. unfold w1', w1. cbn [w_tr log set_tr set_tq ev_call ev_ret].
    repeat (rewrite <- !app_assoc; cbn [List.app]). reflexivity.
  - injection H as <- <-. congruence.
Qed.
End Q.
