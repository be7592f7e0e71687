(** What every run does to the history and the emission state.
    Proof infrastructure; models no code. *)

From Verif Require Import Base Core Frame Fuel Conn Keep Spec.

Section T.
Context {U : Type}.

Lemma notices_app : forall i (a b : list (event U)), notices i (a ++ b) = notices i a ++ notices i b.
Proof.
  induction a as [|e a IH]; intros b; cbn; [reflexivity|].
  destruct e; cbn; rewrite ?IH; auto; destruct (Nat.eqb _ i); auto.
Qed.
Lemma raised_app : forall i (a b : list (event U)), raised i (a ++ b) = raised i a ++ raised i b.
Proof.
  induction a as [|e a IH]; intros b; cbn; [reflexivity|].
  destruct e as [| | | | | x1 x2 x3 [x|]| | x1 x2 x3 [x|] | | |]; cbn; rewrite ?IH; auto;
    destruct (Nat.eqb _ i); auto.
Qed.
Lemma queued_on_app : forall s (a b : list (event U)),
  queued_on s (a ++ b) = queued_on s a ++ queued_on s b.
Proof.
  induction a as [|e a IH]; intros b; cbn; [reflexivity|].
  destruct e; cbn; rewrite ?IH; auto; destruct (Nat.eqb _ s); auto.
Qed.
Lemma in_progress_app : forall s (a b : list (event U)),
  in_progress s (a ++ b) = (in_progress s a + in_progress s b)%Z.
Proof.
  induction a as [|e a IH]; intros b; cbn; [reflexivity|].
  destruct e; cbn; rewrite ?IH; lia.
Qed.
Lemma nested_app : forall (a b : list (event U)), nested a -> nested b -> nested (a ++ b).
Proof.
  intros a b Ha Hb; induction Ha; cbn; try (constructor; auto; fail); auto;
    rewrite <- app_assoc; cbn; constructor; auto.
Qed.

(** Events of other emissions do not count. *)
Lemma notices_none : forall i (t : list (event U)),
  Forall (fun e => emission_of e <> Some i) t -> notices i t = [].
Proof.
  induction t as [|e t IH]; intros H; [reflexivity|]. inversion H as [|? ? H1 H2]; subst.
  specialize (IH H2). destruct e; cbn in *; auto; destruct (Nat.eqb_spec eid i); congruence.
Qed.
Lemma raised_none : forall i (t : list (event U)),
  Forall (fun e => emission_of e <> Some i) t -> raised i t = [].
Proof.
  induction t as [|e t IH]; intros H; [reflexivity|]. inversion H as [|? ? H1 H2]; subst.
  specialize (IH H2).
  destruct e as [| | | | | x1 x2 x3 [x|]| | x1 x2 x3 [x|] | | |]; cbn in *; auto;
    destruct (Nat.eqb_spec x1 i); congruence.
Qed.

Definition eq_after (q : list (list val)) (more : list (list val)) : list (list val) :=
  match q with [] => [] | _ => q ++ more end.

Lemma eq_after_nil : forall q, eq_after q [] = q.
Proof. intros [|x q]; cbn; [reflexivity|]. now rewrite app_nil_r. Qed.
Lemma eq_after_app : forall q a b, eq_after (eq_after q a) b = eq_after q (a ++ b).
Proof. intros [|x q] a b; cbn; [reflexivity|]. now rewrite app_assoc. Qed.


Record based_end (w w' : world U) (t : list (event U)) : Prop := {
  be_nested : nested t;
  be_cur : w_cur w' = w_cur w;
  be_depth : forall s, s_depth (w_sg w' s) = s_depth (w_sg w s);
  be_eq : forall s, s_eq (w_sg w' s) = eq_after (s_eq (w_sg w s)) (queued_on s t)
}.

(** What every run does: [own] tells which emissions the new events may belong to. *)
Record based_gen (own : nat -> Prop) (w w' : world U) (r : out) : Prop := {
  bg_static : forall s, static (w_sg w' s) = static (w_sg w s);
  bg_nxt : w_nxt w <= w_nxt w';
  bg_tr : exists t, w_tr w' = w_tr w ++ t
    /\ Forall (fun e => forall i, emission_of e = Some i ->
                 (own i \/ w_nxt w <= i) /\ i < w_nxt w') t
    /\ (done r -> based_end w w' t)
}.
Definition based := based_gen (fun _ => False).
Definition based_loop (eid : nat) (s : sid) (w w' : world U) (r : out) : Prop :=
  eid < w_nxt w -> based_gen (fun i => i = eid) w w' r.

Lemma based_gen_refl : forall own w r, based_gen own w w r.
Proof.
  intros. constructor; auto. exists []. rewrite app_nil_r. repeat split; auto.
  - constructor.
  - intros s; cbn. now rewrite eq_after_nil.
Qed.
Lemma based_gen_trans : forall own a b c r r', based_gen own a b r -> done r ->
  based_gen own b c r' -> based_gen own a c r'.
Proof.
  intros own a b c r r' [H1 H2 (t1 & T1 & O1 & D1)] Hr [K1 K2 (t2 & T2 & O2 & D2)].
  specialize (D1 Hr). constructor.
  - intros; rewrite K1; apply H1.
  - lia.
  - exists (t1 ++ t2). rewrite app_assoc, <- T1. repeat split; auto.
    + apply Forall_app; split; (eapply Forall_impl; [|eassumption]); cbn; intros e He i Hi;
        destruct (He i Hi) as [[|] ?]; split; auto; try lia; right; lia.
    + apply nested_app; [apply D1|apply D2; auto].
    + rewrite (be_cur _ _ _ (D2 H)). apply D1.
    + intros s. rewrite (be_depth _ _ _ (D2 H)). apply D1.
    + intros s. rewrite (be_eq _ _ _ (D2 H)), (be_eq _ _ _ D1), queued_on_app.
      apply eq_after_app.
Qed.
Lemma based_gen_weaken : forall (own own' : nat -> Prop) w w' r,
  (forall i, own i -> own' i \/ w_nxt w <= i) -> based_gen own w w' r -> based_gen own' w w' r.
Proof.
  intros own own' w w' r Ho [H1 H2 (t & T & O & D)]. constructor; auto.
  exists t. repeat split; auto; try apply D; auto.
  eapply Forall_impl; [|exact O]. cbn; intros e He i Hi. destruct (He i Hi) as [[|] ?]; auto.
Qed.

Lemma based_keeps : forall own w w' r, keeps w w' -> based_gen own w w' r.
Proof.
  intros own w w' r (H1 & H2 & H3 & H4 & H5). constructor; auto.
  - intros s; apply H1.
  - exists []. rewrite app_nil_r, H3. repeat split; auto.
    + constructor.
    + intros s. destruct (H1 s) as [_ Hb]. unfold busy in Hb. congruence.
    + intros s. destruct (H1 s) as [_ Hb]. unfold busy in Hb. cbn. rewrite eq_after_nil. congruence.
Qed.

Lemma based_log_atom : forall own e w r, nested [e] -> (forall s, queued_on s [e] = []) ->
  (forall i, emission_of e = Some i -> own i /\ i < w_nxt w) -> based_gen own w (log e w) r.
Proof.
  intros own e w r He Hq Ho. constructor; auto.
  exists [e]. repeat split; auto.
  - constructor; [|constructor]. intros i Hi. destruct (Ho i Hi). auto.
  - intros s. cbn -[queued_on]. now rewrite Hq, eq_after_nil.
Qed.

(** Changes of fields that have nothing to do with running emissions. *)
Lemma based_upd : forall own s f w r,
  (forall st, static (f st) = static st) -> (forall st, s_depth (f st) = s_depth st) ->
  (forall st, s_eq (f st) = s_eq st) -> based_gen own w (upd s f w) r.
Proof.
  intros own s f w r Hs Hd Hq. constructor.
  - intros x. destruct (Nat.eq_dec x s) as [->|Hx]; [rewrite upd_same|rewrite upd_other]; auto.
  - apply Nat.le_refl.
  - exists []. rewrite app_nil_r. repeat split; auto; cbn -[upd].
    + constructor.
    + intros x. destruct (Nat.eq_dec x s) as [->|Hx]; [rewrite upd_same|rewrite upd_other]; auto.
    + intros x. rewrite eq_after_nil.
      destruct (Nat.eq_dec x s) as [->|Hx]; [rewrite upd_same|rewrite upd_other]; auto.
Qed.
End T.

Ltac dec_sid x s := destruct (Nat.eq_dec x s) as [->|?Hne].

Section T2.
Context {U : Type}.
Implicit Types w : world U.

Lemma started_sg_same : forall s args w, s_eq (w_sg w s) = [] ->
  static (w_sg (started s args w) s) = static (w_sg w s)
  /\ s_depth (w_sg (started s args w) s) = S (s_depth (w_sg w s))
  /\ s_max (w_sg (started s args w) s) = Nat.max (s_max (w_sg w s)) (S (s_depth (w_sg w s)))
  /\ s_eq (w_sg (started s args w) s) =
     match s_mode (w_sg w s) with Queued => [args] | _ => [] end.
Proof.
  intros s args w Hq. unfold started.
  assert (HE : w_sg (entered s args w) s =
     let st := w_sg w s in
     set_max (Nat.max (s_max st) (S (s_depth st)))
       (set_depth (S (s_depth st)) (set_eq (s_eq st ++ [args]) st))).
  { unfold entered, enter, log. cbn -[upd]. rewrite upd_same. cbn -[upd]. now rewrite upd_same. }
  destruct (s_mode (w_sg w s)) eqn:Hm; try rewrite upd_same; rewrite HE; unfold static;
    cbn; rewrite ?Hm, ?Hq; auto.
Qed.
Lemma started_sg_other : forall s args w x, x <> s -> w_sg (started s args w) x = w_sg w x.
Proof.
  intros s args w x Hx.
  assert (HE : w_sg (entered s args w) x = w_sg w x).
  { unfold entered, enter, log. cbn -[upd]. rewrite upd_other by exact Hx. cbn -[upd].
    now rewrite upd_other by exact Hx. }
  unfold started. destruct (s_mode _); try rewrite upd_other by exact Hx; exact HE.
Qed.
Lemma started_w : forall s args w,
  w_nxt (started s args w) = S (w_nxt w)
  /\ w_tr (started s args w) = w_tr w ++ [EStart (w_nxt w) s args]
  /\ w_cur (started s args w) = Some s /\ w_usr (started s args w) = w_usr w
  /\ w_me (started s args w) = w_me w /\ w_dead (started s args w) = w_dead w
  /\ w_tq (started s args w) = w_tq w /\ w_refs (started s args w) = w_refs w
  /\ w_hook (started s args w) = w_hook w.
Proof.
  intros. unfold started, entered, enter, log. destruct (s_mode _); cbn; auto 20.
Qed.
Lemma started_slots : forall s args w x, s_slots (w_sg (started s args w) x) = s_slots (w_sg w x).
Proof. intros. apply conn_same_started. Qed.

Lemma started_fast_sg_same : forall s args w,
  w_sg (started_fast s args w) s = set_depth (S (s_depth (w_sg w s))) (w_sg w s).
Proof. intros. unfold started_fast, log. cbn -[upd]. now rewrite upd_same. Qed.
Lemma started_fast_sg_other : forall s args w x, x <> s ->
  w_sg (started_fast s args w) x = w_sg w x.
Proof. intros. unfold started_fast, log. cbn -[upd]. now rewrite upd_other. Qed.
Lemma leave_sg_same : forall s prev w,
  static (w_sg (leave s prev w) s) = static (w_sg w s)
  /\ s_depth (w_sg (leave s prev w) s) = s_depth (w_sg w s) - 1
  /\ s_eq (w_sg (leave s prev w) s) = [].
Proof.
  intros. unfold leave. rewrite upd_same. cbn [w_sg set_cur].
  destruct (Nat.leb_spec (s_depth (w_sg w s) - 1) 0); unfold static; cbn; repeat split; auto; lia.
Qed.
Lemma leave_sg_other : forall s prev w x, x <> s -> w_sg (leave s prev w) x = w_sg w x.
Proof. intros. unfold leave. now rewrite upd_other. Qed.
Lemma left_fast_sg_same : forall s w,
  static (w_sg (left_fast s w) s) = static (w_sg w s)
  /\ s_depth (w_sg (left_fast s w) s) = s_depth (w_sg w s) - 1
  /\ s_eq (w_sg (left_fast s w) s) = s_eq (w_sg w s).
Proof.
  intros. unfold left_fast. rewrite upd_same.
  destruct (Nat.ltb_spec 0 (s_depth (w_sg w s))); unfold static; cbn; repeat split; auto; lia.
Qed.
Lemma left_fast_sg_other : forall s w x, x <> s -> w_sg (left_fast s w) x = w_sg w x.
Proof. intros. unfold left_fast. now rewrite upd_other. Qed.

Lemma nested_wrap_loop : forall i s a (t : list (event U)), nested t ->
  nested (EStart i s a :: t ++ [EEnd i s]).
Proof. intros. apply ne_loop; [assumption|constructor]. Qed.
Lemma nested_wrap_call : forall i s u a x (t : list (event U)), nested t ->
  nested (ECall i s u a :: t ++ [ERet i s u x]).
Proof. intros. apply ne_call; [assumption|constructor]. Qed.
Lemma nested_wrap_dcall : forall i s u a x (t : list (event U)), nested t ->
  nested (EDCall i s u a :: t ++ [EDRet i s u x]).
Proof. intros. apply ne_dcall; [assumption|constructor]. Qed.

Lemma framed_based : forall (E : env U),
  framed E (fun _ => True) (fun _ => True) based based_loop.
Proof.
  intros E. constructor; intros; auto.
  - apply based_gen_refl.
  - eapply based_gen_trans; eauto.
  - intros ?. apply based_gen_refl.
  - intros Hlt. specialize (H Hlt). eapply based_gen_trans; [exact H|exact H0|].
    apply H1. pose proof (bg_nxt _ _ _ _ H). lia.
  - apply based_keeps. eapply pure_keeps; eauto.
  - apply based_log_atom; [repeat constructor|reflexivity|discriminate].
  - apply based_upd; reflexivity.
  - apply based_log_atom; [repeat constructor|reflexivity|discriminate].
  - (* queued *)
    constructor.
    + intros x. cbn -[upd]. dec_sid x s; [rewrite upd_same|rewrite upd_other]; auto.
    + apply Nat.le_refl.
    + exists [EQueued s args]. repeat split.
      * constructor; [|constructor]. discriminate.
      * repeat constructor.
      * intros x. cbn -[upd]. dec_sid x s; [rewrite upd_same|rewrite upd_other]; auto.
      * intros x. cbn -[upd]. dec_sid x s; [rewrite upd_same|rewrite upd_other]; auto.
        -- rewrite Nat.eqb_refl. cbn. destruct (s_eq (w_sg w s)); [congruence|reflexivity].
        -- destruct (Nat.eqb_spec s x); [congruence|]. now rewrite eq_after_nil.
  - (* loop *)
    destruct (started_w s args w) as (W1 & W2 & W3 & W4 & _).
    destruct (started_sg_same s args w H1) as (S1 & S2 & _ & S3).
    assert (HL : based_gen (fun i => i = w_nxt w) (started s args w) w' r) by (apply H2; lia).
    destruct HL as [B1 B2 (t & T & O & D)].
    assert (Bs : forall x, static (w_sg w' x) = static (w_sg w x)).
    { intros x. rewrite B1. dec_sid x s; [exact S1|]. now rewrite started_sg_other. }
    assert (Tr : w_tr w' = w_tr w ++ EStart (w_nxt w) s args :: t).
    { rewrite T, W2, <- app_assoc. reflexivity. }
    assert (Own : forall n, w_nxt w' <= n ->
      Forall (fun e : event U => forall i, emission_of e = Some i ->
                (False \/ w_nxt w <= i) /\ i < n) (EStart (w_nxt w) s args :: t)).
    { intros n Hn. constructor.
      - intros i Hi; injection Hi as <-. lia.
      - eapply Forall_impl; [|exact O]. cbn. intros e He i Hi. destruct (He i Hi) as [[|] ?]; lia. }
    assert (DD : r <> Halted -> based w (leave s (w_cur w) (log (EEnd (w_nxt w) s) w'))
                 (loop_out s (s_depth (w_sg w' s) - 1) r)).
    { intros Hr. specialize (D Hr). constructor.
      - intros x. dec_sid x s.
        + rewrite (proj1 (leave_sg_same s (w_cur w) _)). apply Bs.
        + rewrite leave_sg_other by assumption. apply Bs.
      - cbn. lia.
      - exists (EStart (w_nxt w) s args :: t ++ [EEnd (w_nxt w) s]). repeat split.
        + cbn. rewrite Tr, <- app_assoc. reflexivity.
        + change (EStart (w_nxt w) s args :: t ++ [EEnd (w_nxt w) s])
            with ((EStart (w_nxt w) s args :: t) ++ [EEnd (w_nxt w) s]).
          apply Forall_app; split; [apply Own; cbn; lia|].
          constructor; [|constructor]. intros i Hi; injection Hi as <-. cbn. lia.
        + apply nested_wrap_loop, D.
        + intros x. dec_sid x s.
          * rewrite (proj1 (proj2 (leave_sg_same s (w_cur w) _))). cbn.
            rewrite (be_depth _ _ _ D), S2. lia.
          * rewrite leave_sg_other by assumption. cbn.
            rewrite (be_depth _ _ _ D). now rewrite started_sg_other.
        + intros x. dec_sid x s.
          * rewrite (proj2 (proj2 (leave_sg_same s (w_cur w) _))), H1. reflexivity.
          * rewrite leave_sg_other by assumption. cbn [w_sg log set_tr].
            rewrite (be_eq _ _ _ D). rewrite started_sg_other by assumption. cbn [queued_on].
            rewrite queued_on_app. cbn. now rewrite app_nil_r. }
    destruct r; [apply DD; discriminate|apply DD; discriminate|].
    constructor; [exact Bs|lia|]. exists (EStart (w_nxt w) s args :: t). repeat split; auto.
    all: try (congruence).
  - (* fast *)
    assert (W1 : w_nxt (started_fast s args w) = S (w_nxt w)) by reflexivity.
    assert (W2 : w_tr (started_fast s args w) = w_tr w ++ [EStart (w_nxt w) s args]) by reflexivity.
    assert (W3 : w_cur (started_fast s args w) = w_cur w) by reflexivity.
    assert (HL : based_gen (fun i => i = w_nxt w) (started_fast s args w) w' r) by (apply H1; lia).
    destruct HL as [B1 B2 (t & T & O & D)].
    assert (Bs : forall x, static (w_sg w' x) = static (w_sg w x)).
    { intros x. rewrite B1. dec_sid x s; [now rewrite started_fast_sg_same|].
      now rewrite started_fast_sg_other. }
    assert (Tr : w_tr w' = w_tr w ++ EStart (w_nxt w) s args :: t).
    { rewrite T, W2, <- app_assoc. reflexivity. }
    assert (Own : forall n, w_nxt w' <= n ->
      Forall (fun e : event U => forall i, emission_of e = Some i ->
                (False \/ w_nxt w <= i) /\ i < n) (EStart (w_nxt w) s args :: t)).
    { intros n Hn. constructor.
      - intros i Hi; injection Hi as <-. lia.
      - eapply Forall_impl; [|exact O]. cbn. intros e He i Hi. destruct (He i Hi) as [[|] ?]; lia. }
    assert (DD : r <> Halted -> based w (left_fast s (log (EEnd (w_nxt w) s) w'))
                 (loop_out s 0 r)).
    { intros Hr. specialize (D Hr). constructor.
      - intros x. dec_sid x s.
        + rewrite (proj1 (left_fast_sg_same s _)). apply Bs.
        + rewrite left_fast_sg_other by assumption. apply Bs.
      - cbn. lia.
      - exists (EStart (w_nxt w) s args :: t ++ [EEnd (w_nxt w) s]). repeat split.
        + cbn. rewrite Tr, <- app_assoc. reflexivity.
        + change (EStart (w_nxt w) s args :: t ++ [EEnd (w_nxt w) s])
            with ((EStart (w_nxt w) s args :: t) ++ [EEnd (w_nxt w) s]).
          apply Forall_app; split; [apply Own; cbn; lia|].
          constructor; [|constructor]. intros i Hi; injection Hi as <-. cbn. lia.
        + apply nested_wrap_loop, D.
        + cbn. rewrite (be_cur _ _ _ D). exact W3.
        + intros x. dec_sid x s.
          * rewrite (proj1 (proj2 (left_fast_sg_same s _))). cbn.
            rewrite (be_depth _ _ _ D), started_fast_sg_same. cbn. lia.
          * rewrite left_fast_sg_other by assumption. cbn.
            rewrite (be_depth _ _ _ D). now rewrite started_fast_sg_other.
        + intros x. cbn [queued_on]. rewrite queued_on_app. cbn [queued_on]. rewrite app_nil_r.
          dec_sid x s.
          * rewrite (proj2 (proj2 (left_fast_sg_same s _))). cbn [w_sg log set_tr].
            rewrite (be_eq _ _ _ D), started_fast_sg_same. reflexivity.
          * rewrite left_fast_sg_other by assumption. cbn [w_sg log set_tr].
            rewrite (be_eq _ _ _ D). now rewrite started_fast_sg_other. }
    destruct r; [apply DD; discriminate|apply DD; discriminate|].
    constructor; [exact Bs|lia|]. exists (EStart (w_nxt w) s args :: t). repeat split; auto.
    all: try (congruence).
  - (* call *)
    assert (Own : forall (own : nat -> Prop) n t, own eid -> eid < n ->
      Forall (fun e : event U => forall i, emission_of e = Some i ->
           (False \/ w_nxt w <= i) /\ i < n) t ->
      Forall (fun e : event U => forall i, emission_of e = Some i ->
           (own i \/ w_nxt w <= i) /\ i < n) (ECall eid s (w_uid c) a :: t)).
    { intros own n t Ho Hn Ht. constructor.
      - intros i Hi; injection Hi as <-. auto.
      - eapply Forall_impl; [|exact Ht]. cbn. intros e He i Hi. destruct (He i Hi) as [[|] ?]; tauto. }
    destruct H0 as [B1 B2 (t & T & O & D)]. cbn [w_tr log set_tr w_nxt] in *.
    rewrite <- app_assoc in T. cbn [List.app] in T.
    assert (DD : r <> Halted -> based_loop eid s w (log (ev_ret false eid s (w_uid c) r) w') r).
    { intros Hr Hlt. specialize (D Hr). constructor; [exact B1|exact B2|].
      eexists (ECall eid s (w_uid c) a :: t ++ [_]). repeat split.
      - cbn. rewrite T, <- app_assoc. reflexivity.
      - change (ECall eid s (w_uid c) a :: t ++ ?l) with ((ECall eid s (w_uid c) a :: t) ++ l).
        apply Forall_app; split; [apply Own; cbn; auto; lia|].
        constructor; [|constructor]. cbn. intros i Hi; injection Hi as <-. cbn. split; auto. lia.
      - apply nested_wrap_call, D.
      - apply D.
      - apply D.
      - intros x. cbn [queued_on]. rewrite queued_on_app. cbn [queued_on ev_ret]. rewrite app_nil_r.
        apply (be_eq _ _ _ D). }
    destruct r; [apply DD; discriminate|apply DD; discriminate|].
    intros Hlt. constructor; [exact B1|exact B2|].
    exists (ECall eid s (w_uid c) a :: t). repeat split; auto.
    all: try (congruence). apply Own; auto; lia.
  - (* dcall *)
    assert (Own : forall n t,
      Forall (fun e : event U => forall i, emission_of e = Some i ->
           (False \/ w_nxt w <= i) /\ i < n) t ->
      Forall (fun e : event U => forall i, emission_of e = Some i ->
           (False \/ w_nxt w <= i) /\ i < n) (EDCall eid s (w_uid c) a :: t)).
    { intros n t Ht. constructor; [discriminate|exact Ht]. }
    destruct H0 as [B1 B2 (t & T & O & D)]. cbn [w_tr log set_tr w_nxt] in *.
    rewrite <- app_assoc in T. cbn [List.app] in T.
    assert (DD : r <> Halted -> based w (log (ev_ret true eid s (w_uid c) r) w') r).
    { intros Hr. specialize (D Hr). constructor; [exact B1|exact B2|].
      eexists (EDCall eid s (w_uid c) a :: t ++ [_]). repeat split.
      - cbn. rewrite T, <- app_assoc. reflexivity.
      - change (EDCall eid s (w_uid c) a :: t ++ ?l) with ((EDCall eid s (w_uid c) a :: t) ++ l).
        apply Forall_app; split; [apply Own; cbn; auto|].
        constructor; [|constructor]. discriminate.
      - apply nested_wrap_dcall, D.
      - apply D.
      - apply D.
      - intros x. cbn [queued_on]. rewrite queued_on_app. cbn [queued_on ev_ret]. rewrite app_nil_r.
        apply (be_eq _ _ _ D). }
    destruct r; [apply DD; discriminate|apply DD; discriminate|].
    constructor; [exact B1|exact B2|].
    exists (EDCall eid s (w_uid c) a :: t). repeat split; auto.
    all: try (congruence).
  - (* defer *)
    intros Hlt. eapply based_gen_trans with (b := set_tq _ w) (r := Ok VNone);
      [|discriminate|].
    2: { apply based_log_atom; [repeat constructor|reflexivity|].
         cbn. intros i Hi; injection Hi as <-. auto. }
    constructor; cbn; auto. exists []. rewrite app_nil_r. repeat split; auto; [constructor|].
    intros x; cbn; now rewrite eq_after_nil.
  - apply based_upd; reflexivity.
  - apply based_upd; reflexivity.
  - eapply based_gen_trans with (b := set_tq _ w) (r := Ok VNone);
      [|discriminate|apply based_log_atom; [repeat constructor|reflexivity|discriminate]].
    constructor; cbn; auto. exists []. rewrite app_nil_r. repeat split; auto; [constructor|].
    intros z; cbn; now rewrite eq_after_nil.
Qed.

Theorem runs_based : forall (E : env U) p w w' r, runs E p w w' r -> based w w' r.
Proof.
  intros E p w w' r H. eapply frame_runs; [apply framed_based|apply env_all_true|apply prog_all_true|eauto].
Qed.
Theorem steps_based : forall (E : env U) o w w' r, steps E o w w' r -> based w w' r.
Proof.
  intros E o w w' r H. eapply frame_steps; [apply framed_based|apply env_all_true|exact I|eauto].
Qed.
End T2.
