(** What emissions raise. *)

From Verif Require Import Base Core Spec.

(** A debug hook raises [e]. *)
Definition hook_raised {U} (E : env U) (e : exn) : Prop :=
  exists h s args w w', runs E (e_body E (TFun h [] []) [VInfo s args] w) w w' (Err e).
(** EmitLoopError, RecursionError, a BaseException, or whatever the debug hook raises. *)
Definition emission_error {U} (E : env U) (e : exn) : Prop :=
  (exists s d c, e = EEmitLoop s d c) \/ e = ERecursion \/ (exists n, e = EBase n) \/ hook_raised E e.

Lemma wrap_kinds : forall {U} (E : env U) s d e, emission_error E (wrap_err s d e).
Proof. intros U E s d e. unfold emission_error. destruct e; cbn; eauto 6. Qed.
Lemma loop_kinds : forall {U} (E : env U) ex fuel s args w w' e, run_emit_loop ex E fuel s args w = Some (w', Err e) -> emission_error E e.
Proof.
  intros U E ex fuel s args w w' e H. unfold run_emit_loop in H. destruct (Nat.leb _ _); [injection H as _ <-; right; now left|].
  cbv zeta in H. destruct (Nat.ltb _ _); [discriminate|]. destruct (inner_loop _ _ _ _ _ _) as [[w3 [v|e'|]]|]; try discriminate.
  injection H as _ <-. apply wrap_kinds.
Qed.
Lemma replay_kinds : forall {U} (E : env U) ex fuel s i w w' e, replay ex E fuel s i w = Some (w', Err e) -> emission_error E e.
Proof.
  intros U E ex fuel s. induction fuel as [|fuel IH]; intros i w w' e H; [discriminate|]. cbn in H. destruct (nth_error _ i); [|discriminate].
  destruct (run_emit_loop _ _ _ _ _ _) as [[w1 [v|e'|]]|] eqn:ER; try discriminate; [eauto|]. injection H as _ <-. eapply loop_kinds; eauto.
Qed.
Lemma reduce_total : forall f l acc e, (forall a b e, f a b <> inr e) -> reduce_args f acc l <> inr e.
Proof.
  intros f l. induction l as [|a l IH]; intros acc e Hf; cbn; [discriminate|]. destruct (f acc a) eqn:Ef; [now apply IH|]. now destruct (Hf acc a e0).
Qed.
Theorem raised_kinds : forall {U} (E : env U) C e, listener_raised E C e -> emission_error E e.
Proof.
  intros U E C e (s & o & w & w' & _ & [n HS] & HO). destruct HO as [(args & ->)|(rd & -> & Hrd)]; cbn [step] in HS.
  - unfold do_emit in HS. cbv zeta in HS. destruct (s_blocked _); [discriminate|]. cbn [andb] in HS. destruct (s_paused _); [discriminate|].
    destruct (w_hook _) as [h|].
    + match type of HS with match ?x with _ => _ end = _ => destruct x as [[w2 [v|e'|]]|] eqn:EB end; try discriminate.
      * eapply loop_kinds; eauto.
      * injection HS as _ <-. right. right. right. exists h, s, args. eexists. exists w2. exists n. exact EB.
    + eapply loop_kinds; eauto.
  - unfold do_resume in HS. cbv zeta in HS. destruct (s_args _) as [|q0 q] eqn:EQ; [discriminate|]. destruct (s_slots _); [discriminate|].
    destruct rd as [|f|f i]; cbn in Hrd.
    + destruct (replay _ _ _ _ _ _) as [[w2 [v|e'|]]|] eqn:ER; try discriminate. injection HS as _ <-. eapply replay_kinds; eauto.
    + destruct (f _) as [a|e'] eqn:Ef; [|now destruct (Hrd _ _ Ef)].
      destruct (run_emit_loop _ _ _ _ _ _) as [[w2 [v|e'|]]|] eqn:ER; try discriminate. injection HS as _ <-. eapply loop_kinds; eauto.
    + destruct (apply_reducer f i _) as [a|e'] eqn:Ef.
      2:{ exfalso. unfold apply_reducer in Ef. destruct i; eapply reduce_total; eauto. }
      destruct (run_emit_loop _ _ _ _ _ _) as [[w2 [v|e'|]]|] eqn:ER; try discriminate. injection HS as _ <-. eapply loop_kinds; eauto.
Qed.

(** The exceptions of programs that only emit signals. *)
Section Plain.
Context {U : Type} (E : env U) (P : exn -> Prop).
Fixpoint throws (p : prog U) : Prop :=
  match p with
  | Ret _ | Halt => True
  | Throw e => P e
  | Look k => forall u, throws (k u)
  | Do o k =>
      match o with
      | OEmit _ _ _ false => (forall v, throws (k (inl v))) /\ (forall e, P e -> throws (k (inr e)))
      | _ => False
      end
  end.
Hypothesis Ploop : forall s d c, P (EEmitLoop s d c).
Hypothesis Prec : P ERecursion.
Hypothesis Ptype : P EType.
Hypothesis Pbase : forall n, P (EBase n).
Hypothesis HB : forall h s args w, throws (e_body E (TFun h [] []) [VInfo s args] w).
Lemma wrap_p : forall s d e, P (wrap_err s d e).
Proof. intros s d e. destruct e; cbn; auto. Qed.
Lemma loop_p : forall ex fuel s args w w' e, run_emit_loop ex E fuel s args w = Some (w', Err e) -> P e.
Proof.
  intros ex fuel s args w w' e H. unfold run_emit_loop in H. destruct (Nat.leb _ _); [injection H as _ <-; exact Prec|].
  cbv zeta in H. destruct (Nat.ltb _ _); [discriminate|]. destruct (inner_loop _ _ _ _ _ _) as [[w3 [v|e'|]]|]; try discriminate.
  injection H as _ <-. apply wrap_p.
Qed.
Lemma throws_exec : forall n p w w' e, throws p -> exec E n p w = Some (w', Err e) -> P e.
Proof.
  induction n as [|n IH]; intros p w w' e HT H; [discriminate|]. cbn [exec] in H. destruct p as [v|e0| |k|o k]; cbn [throws] in HT; try discriminate.
  - injection H as _ <-. exact HT.
  - eapply IH; [apply HT|exact H].
  - destruct o; try contradiction. destruct ct; [destruct cn; contradiction|]. destruct HT as [H1 H2].
    assert (HE : forall w1 e1, step (exec E n) E n (OEmit s args cn false) w = Some (w1, Err e1) -> P e1).
    { intros w1 e1 HS. cbn [step] in HS. unfold do_emit in HS. cbv zeta in HS. destruct (s_blocked _); [discriminate|].
      destruct (cn && _); [injection HS as _ <-; exact Ptype|]. destruct (s_paused _); [discriminate|]. destruct (w_hook _) as [h|]; [|eapply loop_p; eauto].
      match type of HS with match ?x with _ => _ end = _ => destruct x as [[w2 [v|e'|]]|] eqn:EB end; try discriminate.
      - eapply loop_p; eauto.
      - injection HS as _ <-. eapply IH; [apply HB|exact EB]. }
    destruct (step _ _ _ _ _) as [[w1 [v|e1|]]|] eqn:ES; try discriminate; eauto.
Qed.
Lemma hook_p : forall e, hook_raised E e -> P e.
Proof. intros e (h & s & args & w & w' & n & H). eapply throws_exec; [apply (HB h s args w)|exact H]. Qed.
Theorem raised_p : forall C e, listener_raised E C e -> P e.
Proof.
  intros C e H. apply raised_kinds in H as [(s & d & c & ->)|[->|[(n & ->)|H]]]; auto. now apply hook_p.
Qed.
End Plain.
