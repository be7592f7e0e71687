(** Fuel monotonicity: more fuel never changes the result of a finished run, so
    [runs] is a partial function; and inversion rules for [runs]. *)

From Verif Require Import Base Core Spec Frame.

Section Mono.
  Context {U : Type} (E : env U).
  Variables ex ex' : prog U -> world U -> option (world U * out).
  Hypothesis Hex : forall p w r, ex p w = Some r -> ex' p w = Some r.

  Lemma invoke_mono : forall dq eid s c args w r,
    invoke ex E dq eid s c args w = Some r -> invoke ex' E dq eid s c args w = Some r.
  Proof.
    intros dq eid s c args w r H. unfold invoke in *.
    destruct (match w_ref c with Some o => w_dead w o | None => false end); [exact H|].
    destruct (ex _ _) as [x|] eqn:Hx; [|discriminate]. now rewrite (Hex _ _ _ Hx).
  Qed.
  Lemma call_slot_mono : forall eid s c args w r,
    call_slot ex E eid s c args w = Some r -> call_slot ex' E eid s c args w = Some r.
  Proof.
    intros eid s c args w r H. unfold call_slot in *.
    destruct (w_thread c); [|now apply invoke_mono].
    destruct (Nat.eqb _ _); [now apply invoke_mono|exact H].
  Qed.
  Lemma loop_slots_mono : forall f f' eid s i args w r, f <= f' ->
    loop_slots ex E f eid s i args w = Some r -> loop_slots ex' E f' eid s i args w = Some r.
  Proof.
    induction f as [|f IH]; intros f' eid s i args w r Hf H; [discriminate|].
    destruct f' as [|f']; [lia|]. cbn [loop_slots] in *.
    destruct (nth_error _ i) as [c|]; [|exact H].
    destruct (call_slot ex E eid s c args w) as [x|] eqn:Hx; [|discriminate].
    rewrite (call_slot_mono _ _ _ _ _ _ Hx).
    destruct x as [w1 [v|e|]]; [|exact H|exact H]. apply IH; [lia|exact H].
  Qed.
  Lemma loop_latest_mono : forall f f' eid s i args w r, f <= f' ->
    loop_latest ex E f eid s i args w = Some r -> loop_latest ex' E f' eid s i args w = Some r.
  Proof.
    induction f as [|f IH]; intros f' eid s i args w r Hf H; [discriminate|].
    destruct f' as [|f']; [lia|]. cbn [loop_latest] in *.
    destruct (nth_error _ i) as [c|]; [|exact H]. destruct (Nat.ltb _ _); [exact H|].
    destruct (call_slot ex E eid s c args w) as [x|] eqn:Hx; [|discriminate].
    rewrite (call_slot_mono _ _ _ _ _ _ Hx).
    destruct x as [w1 [v|e|]]; [|exact H|exact H]. apply IH; [lia|exact H].
  Qed.
  Lemma loop_qslots_mono : forall f f' eid s i args w r, f <= f' ->
    loop_qslots ex E f eid s i args w = Some r -> loop_qslots ex' E f' eid s i args w = Some r.
  Proof.
    induction f as [|f IH]; intros f' eid s i args w r Hf H; [discriminate|].
    destruct f' as [|f']; [lia|]. cbn [loop_qslots] in *.
    destruct (nth_error _ i) as [c|]; [|exact H].
    destruct (call_slot ex E eid s c args w) as [x|] eqn:Hx; [|discriminate].
    rewrite (call_slot_mono _ _ _ _ _ _ Hx).
    destruct x as [w1 [v|e|]]; [|exact H|exact H].
    destruct (Nat.ltb _ _); [exact H|]. apply IH; [lia|exact H].
  Qed.
  Lemma loop_queue_mono : forall f f' eid s i w r, f <= f' ->
    loop_queue ex E f eid s i w = Some r -> loop_queue ex' E f' eid s i w = Some r.
  Proof.
    induction f as [|f IH]; intros f' eid s i w r Hf H; [discriminate|].
    destruct f' as [|f']; [lia|]. cbn [loop_queue] in *.
    destruct (nth_error _ i) as [a|]; [|exact H].
    destruct (loop_qslots ex E f eid s 0 a w) as [x|] eqn:Hx; [|discriminate].
    rewrite (loop_qslots_mono f f' _ _ _ _ _ _ ltac:(lia) Hx).
    destruct x as [w1 [v|e|]]; [|exact H|exact H]. apply IH; [lia|exact H].
  Qed.
  Lemma inner_loop_mono : forall f f' eid s w r, f <= f' ->
    inner_loop ex E f eid s w = Some r -> inner_loop ex' E f' eid s w = Some r.
  Proof.
    intros f f' eid s w r Hf H. unfold inner_loop in *.
    destruct (s_mode _); [|now apply (loop_queue_mono f)|];
      (destruct (s_eq _); [exact H|]).
    - now apply (loop_slots_mono f).
    - now apply (loop_latest_mono f).
  Qed.
  Lemma run_emit_loop_mono : forall f f' s args w r, f <= f' ->
    run_emit_loop ex E f s args w = Some r -> run_emit_loop ex' E f' s args w = Some r.
  Proof.
    intros f f' s args w r Hf H. unfold run_emit_loop in *.
    destruct (Nat.leb _ _); [exact H|]. destruct (Nat.ltb _ _); [exact H|].
    destruct (inner_loop ex E f _ _ _) as [x|] eqn:Hx; [|discriminate].
    now rewrite (inner_loop_mono f f' _ _ _ _ Hf Hx).
  Qed.
  Lemma replay_mono : forall f f' s i w r, f <= f' ->
    replay ex E f s i w = Some r -> replay ex' E f' s i w = Some r.
  Proof.
    induction f as [|f IH]; intros f' s i w r Hf H; [discriminate|].
    destruct f' as [|f']; [lia|]. cbn [replay] in *.
    destruct (nth_error _ i) as [a|]; [|exact H].
    destruct (run_emit_loop ex E f s a w) as [x|] eqn:Hx; [|discriminate].
    rewrite (run_emit_loop_mono f f' _ _ _ _ ltac:(lia) Hx).
    destruct x as [w1 [v|e|]]; [|exact H|exact H]. apply IH; [lia|exact H].
  Qed.
  Lemma drain_mono : forall f f' t w r, f <= f' ->
    drain ex E f t w = Some r -> drain ex' E f' t w = Some r.
  Proof.
    induction f as [|f IH]; intros f' t w r Hf H; [discriminate|].
    destruct f' as [|f']; [lia|]. cbn [drain] in *.
    destruct (w_tq w t) as [|[[[eid s] c] args] q]; [exact H|].
    destruct (invoke ex E true eid s c args _) as [x|] eqn:Hx; [|discriminate].
    rewrite (invoke_mono _ _ _ _ _ _ _ Hx).
    destruct x as [w1 [v|e|]]; [|exact H|exact H]. apply IH; [lia|exact H].
  Qed.
  Lemma step_mono : forall f f' o w r, f <= f' ->
    step ex E f o w = Some r -> step ex' E f' o w = Some r.
  Proof.
    intros f f' o w r Hf H. destruct o; cbn [step] in *; try exact H.
    - unfold do_emit in *.
      destruct (s_blocked _); [exact H|]. destruct (cn && _); [exact H|].
      destruct (if ct then _ else _) as [[|]|]; try exact H.
      destruct (s_paused _); [exact H|].
      destruct (w_hook _); [|now apply (run_emit_loop_mono f)].
      destruct (ex _ _) as [x|] eqn:Hx; [|discriminate]. rewrite (Hex _ _ _ Hx).
      destruct x as [w1 [v|e|]]; [|exact H|exact H]. now apply (run_emit_loop_mono f).
    - unfold do_emit_fast in *.
      destruct (s_blocked _); [exact H|]. destruct (s_paused _); [exact H|].
      destruct (Nat.leb _ _); [exact H|].
      destruct (loop_slots ex E f _ _ _ _ _) as [x|] eqn:Hx; [|discriminate].
      now rewrite (loop_slots_mono f f' _ _ _ _ _ _ Hf Hx).
    - unfold do_resume in *.
      destruct (s_args _); [exact H|]. destruct (s_slots _); [exact H|].
      match type of H with match ?b with _ => _ end = _ => destruct b as [x|] eqn:Hx end;
        [|discriminate].
      match goal with |- match ?b with _ => _ end = _ => assert (HB : b = Some x) end.
      { destruct r0 as [|g|g i]; [now apply (replay_mono f)| |].
        - destruct (g _); [now apply (run_emit_loop_mono f)|exact Hx].
        - destruct (apply_reducer _ _ _); [now apply (run_emit_loop_mono f)|exact Hx]. }
      now rewrite HB.
    - unfold do_relay in *. destruct (s_members _); [|exact H].
      destruct (w_cur w); [|exact H]. destruct (s_slots _); [exact H|].
      now apply (run_emit_loop_mono f).
    - now apply (drain_mono f).
    - now apply Hex.
  Qed.
End Mono.

Theorem exec_mono : forall {U} (E : env U) n m p w r, n <= m ->
  exec E n p w = Some r -> exec E m p w = Some r.
Proof.
  induction n as [|n IH]; intros m p w r Hm H; [discriminate|].
  destruct m as [|m]; [lia|]. cbn [exec] in *.
  destruct p as [v|e| |k|o k]; try exact H.
  - apply IH; [lia|exact H].
  - destruct (step (exec E n) E n o w) as [x|] eqn:HS; [|discriminate].
    assert (HS' : step (exec E m) E m o w = Some x).
    { eapply (step_mono E (exec E n) (exec E m)) with (f := n); [|lia|exact HS].
      intros; apply IH; [lia|assumption]. }
    rewrite HS'. destruct x as [w1 [v|e|]]; try exact H; (apply IH; [lia|exact H]).
Qed.

Lemma step_lift : forall {U} (E : env U) n m o w r, n <= m ->
  step (exec E n) E n o w = Some r -> step (exec E m) E m o w = Some r.
Proof.
  intros U E n m o w r Hm H. eapply (step_mono E (exec E n) (exec E m)) with (f := n); [|exact Hm|exact H].
  intros; eapply exec_mono; eauto.
Qed.

Theorem runs_det : forall {U} (E : env U) p w w1 w2 r1 r2,
  runs E p w w1 r1 -> runs E p w w2 r2 -> w1 = w2 /\ r1 = r2.
Proof.
  intros U E p w w1 w2 r1 r2 [n H1] [m H2].
  apply exec_mono with (m := n + m) in H1; [|lia].
  apply exec_mono with (m := n + m) in H2; [|lia].
  rewrite H1 in H2. injection H2; auto.
Qed.

Lemma runs_ret : forall {U} (E : env U) v w w' r,
  runs E (Ret v) w w' r <-> w' = w /\ r = Ok v.
Proof.
  split.
  - intros [[|n] H]; [discriminate|]. injection H as <- <-; auto.
  - intros [-> ->]. now exists 1.
Qed.
Lemma runs_throw : forall {U} (E : env U) e w w' r,
  runs E (Throw e) w w' r <-> w' = w /\ r = Err e.
Proof.
  split.
  - intros [[|n] H]; [discriminate|]. injection H as <- <-; auto.
  - intros [-> ->]. now exists 1.
Qed.
Lemma runs_halt : forall {U} (E : env U) w w' r,
  runs E Halt w w' r <-> w' = w /\ r = Halted.
Proof.
  split.
  - intros [[|n] H]; [discriminate|]. injection H as <- <-; auto.
  - intros [-> ->]. now exists 1.
Qed.
Lemma runs_look : forall {U} (E : env U) k w w' r,
  runs E (Look k) w w' r <-> runs E (k (w_usr w)) w w' r.
Proof.
  split.
  - intros [[|n] H]; [discriminate|]. exists n; exact H.
  - intros [n H]. exists (S n). exact H.
Qed.
Lemma runs_do : forall {U} (E : env U) o k w w' r,
  runs E (Do o k) w w' r <->
  exists w1 r1, steps E o w w1 r1 /\
    match r1 with
    | Ok v => runs E (k (inl v)) w1 w' r
    | Err e => runs E (k (inr e)) w1 w' r
    | Halted => w' = w1 /\ r = Halted
    end.
Proof.
  split.
  - intros [[|n] H]; [discriminate|]. cbn [exec] in H.
    destruct (step (exec E n) E n o w) as [[w1 r1]|] eqn:HS; [|discriminate].
    exists w1, r1. split; [now exists n|].
    destruct r1; [exists n; exact H|exists n; exact H|now injection H as <- <-].
  - intros (w1 & r1 & [n HS] & H). destruct r1 as [v|e|].
    + destruct H as [m H]. exists (S (n + m)). cbn [exec].
      rewrite (step_lift E n (n + m) o w _ ltac:(lia) HS).
      eapply exec_mono; [|exact H]; lia.
    + destruct H as [m H]. exists (S (n + m)). cbn [exec].
      rewrite (step_lift E n (n + m) o w _ ltac:(lia) HS).
      eapply exec_mono; [|exact H]; lia.
    + destruct H as [-> ->]. exists (S n). cbn [exec]. now rewrite HS.
Qed.

Lemma runs_bind : forall {U} (E : env U) p k w w' r,
  runs E (bind p k) w w' r <->
  exists w1 r1, runs E p w w1 r1 /\
    match r1 with
    | Ok v => runs E (k v) w1 w' r
    | _ => w' = w1 /\ r = r1
    end.
Proof.
  intros U E. induction p as [v|e| |f IH|o f IH]; intros k w w' r; cbn [bind].
  - split.
    + intros H. exists w, (Ok v). rewrite runs_ret. auto.
    + intros (w1 & r1 & H1 & H). apply runs_ret in H1 as [-> ->]. exact H.
  - rewrite runs_throw. split.
    + intros [-> ->]. exists w, (Err e). rewrite runs_throw. auto.
    + intros (w1 & r1 & H1 & H). apply runs_throw in H1 as [-> ->]. exact H.
  - rewrite runs_halt. split.
    + intros [-> ->]. exists w, Halted. rewrite runs_halt. auto.
    + intros (w1 & r1 & H1 & H). apply runs_halt in H1 as [-> ->]. exact H.
  - rewrite runs_look. rewrite IH. split.
    + intros (w1 & r1 & H1 & H). exists w1, r1. rewrite runs_look. auto.
    + intros (w1 & r1 & H1 & H). rewrite runs_look in H1. eauto.
  - rewrite runs_do. split.
    + intros (w1 & r1 & HS & H). destruct r1 as [v|e|].
      * apply IH in H as (w2 & r2 & H2 & H). exists w2, r2. split; [|exact H].
        apply runs_do. exists w1, (Ok v). auto.
      * apply IH in H as (w2 & r2 & H2 & H). exists w2, r2. split; [|exact H].
        apply runs_do. exists w1, (Err e). auto.
      * destruct H as [-> ->]. exists w1, Halted. split; [|auto]. apply runs_do. exists w1, Halted. auto.
    + intros (w1 & r1 & H1 & H). apply runs_do in H1 as (w2 & r2 & HS & H1).
      exists w2, r2. split; [exact HS|]. destruct r2 as [v|e|].
      * apply IH. eauto.
      * apply IH. eauto.
      * destruct H1 as [-> ->]. exact H.
Qed.

Lemma runs_catch : forall {U} (E : env U) p k w w' r,
  runs E (catch p k) w w' r <->
  exists w1 r1, runs E p w w1 r1 /\
    match r1 with
    | Ok v => runs E (k (inl v)) w1 w' r
    | Err e => runs E (k (inr e)) w1 w' r
    | Halted => w' = w1 /\ r = Halted
    end.
Proof.
  intros U E. induction p as [v|e| |f IH|o f IH]; intros k w w' r; cbn [catch].
  - split.
    + intros H. exists w, (Ok v). rewrite runs_ret. auto.
    + intros (w1 & r1 & H1 & H). apply runs_ret in H1 as [-> ->]. exact H.
  - split.
    + intros H. exists w, (Err e). rewrite runs_throw. auto.
    + intros (w1 & r1 & H1 & H). apply runs_throw in H1 as [-> ->]. exact H.
  - rewrite runs_halt. split.
    + intros [-> ->]. exists w, Halted. rewrite runs_halt. auto.
    + intros (w1 & r1 & H1 & H). apply runs_halt in H1 as [-> ->]. exact H.
  - rewrite runs_look. rewrite IH. split.
    + intros (w1 & r1 & H1 & H). exists w1, r1. rewrite runs_look. auto.
    + intros (w1 & r1 & H1 & H). rewrite runs_look in H1. eauto.
  - rewrite runs_do. split.
    + intros (w1 & r1 & HS & H). destruct r1 as [v|e|].
      * apply IH in H as (w2 & r2 & H2 & H). exists w2, r2. split; [|exact H].
        apply runs_do. exists w1, (Ok v). auto.
      * apply IH in H as (w2 & r2 & H2 & H). exists w2, r2. split; [|exact H].
        apply runs_do. exists w1, (Err e). auto.
      * destruct H as [-> ->]. exists w1, Halted. split; [|auto]. apply runs_do. exists w1, Halted. auto.
    + intros (w1 & r1 & H1 & H). apply runs_do in H1 as (w2 & r2 & HS & H1).
      exists w2, r2. split; [exact HS|]. destruct r2 as [v|e|].
      * apply IH. eauto.
      * apply IH. eauto.
      * destruct H1 as [-> ->]. exact H.
Qed.

Lemma runs_call : forall {U} (E : env U) o w w' r,
  runs E (call o) w w' r <-> steps E o w w' r.
Proof.
  intros U E o w w' r. unfold call. rewrite runs_do. split.
  - intros (w1 & r1 & HS & H). destruct r1; cbn [finish] in H.
    + apply runs_ret in H as [-> ->]; exact HS.
    + apply runs_throw in H as [-> ->]; exact HS.
    + destruct H as [-> ->]; exact HS.
  - intros HS. exists w', r. split; [exact HS|]. destruct r; cbn [finish].
    + now apply runs_ret.
    + now apply runs_throw.
    + auto.
Qed.

Lemma steps_pure : forall {U} (E : env U) o w w' r, is_pure o = true ->
  (steps E o w w' r <-> pure_step E o w = Some (w', r)).
Proof.
  intros U E o w w' r Hp. split.
  - intros [n H]. now rewrite step_pure in H.
  - intros H. exists 0. now rewrite step_pure.
Qed.

Lemma steps_det : forall {U} (E : env U) o w w1 w2 r1 r2,
  steps E o w w1 r1 -> steps E o w w2 r2 -> w1 = w2 /\ r1 = r2.
Proof.
  intros U E o w w1 w2 r1 r2 [n H1] [m H2].
  apply step_lift with (m := n + m) in H1; [|lia].
  apply step_lift with (m := n + m) in H2; [|lia].
  rewrite H1 in H2. injection H2; auto.
Qed.

(** Frame rule for [runs] and [steps]. *)
Theorem frame_runs : forall {U} (E : env U) A L P Q,
  framed E A L P Q -> env_all A E ->
  forall p w w' r, prog_all A p -> runs E p w w' r -> P w w' r.
Proof. intros U E A L P Q HP HE p w w' r Hp [n H]. eapply frame_exec; eauto. Qed.
Theorem frame_steps : forall {U} (E : env U) A L P Q,
  framed E A L P Q -> env_all A E ->
  forall o w w' r, A o -> steps E o w w' r -> P w w' r.
Proof. intros U E A L P Q HP HE o w w' r Ho [n H]. eapply frame_step_exec; eauto. Qed.

Lemma prog_all_true : forall {U} (p : prog U), prog_all (fun _ => True) p.
Proof. intros U p; induction p; cbn; auto. Qed.
Lemma env_all_true : forall {U} (E : env U), env_all (fun _ => True) E.
Proof. split; intros; apply prog_all_true. Qed.
Lemma prog_all_impl : forall {U} (A B : op U -> Prop) p,
  (forall o, A o -> B o) -> prog_all A p -> prog_all B p.
Proof. intros U A B p HAB; induction p; cbn; auto. intros [HA Hk]; split; auto. Qed.
Lemma prog_all_bind : forall {U} (A : op U -> Prop) p k,
  prog_all A p -> (forall v, prog_all A (k v)) -> prog_all A (bind p k).
Proof. intros U A p k; induction p; cbn; auto. intros [HA Hk] HH; split; auto. Qed.
Lemma prog_all_catch : forall {U} (A : op U -> Prop) p k,
  prog_all A p -> (forall v, prog_all A (k v)) -> prog_all A (catch p k).
Proof. intros U A p k; induction p; cbn; auto. intros [HA Hk] HH; split; auto. Qed.
