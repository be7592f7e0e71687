(** Callbacks that are no longer connected are never called again by an emission
    (C12, C21).  Proof infrastructure. *)

From Verif Require Import Base Core Frame Fuel Conn Keep Spec Trace Inv Dead.

Section Gone.
Context {U : Type} (E : env U) (u : nat).
Implicit Types w : world U.

Definition gone w : Prop :=
  u < w_nxt w /\ forall s c, In c (s_slots (w_sg w s)) -> w_uid c <> u.
Definition passive (e : event U) : Prop :=
  match e with ECall _ _ v _ | EDefer _ _ v _ _ => v <> u | _ => True end.
Definition ignored w w' : Prop :=
  gone w -> gone w' /\ exists t, w_tr w' = w_tr w ++ t /\ Forall passive t.

Lemma gone_same : forall w w', conn_same w w' -> gone w -> gone w'.
Proof.
  intros w w' (H1 & _ & _ & H4) (G1 & G2). split; [lia|].
  intros s c. rewrite (proj1 (H1 s)). apply G2.
Qed.
Lemma gone_cstep : forall kb w w', cstep E kb w w' -> gone w -> gone w'.
Proof.
  intros kb w w' HS HG. inversion HS; subst.
  - eapply gone_same; eauto.
  - destruct HG as [G1 G2].
    assert (HN : w_nxt (upd s (append_slot_base c) (reg s c (set_nxt (S (w_nxt w)) w))) = S (w_nxt w))
      by (unfold reg; destruct (w_ref c); reflexivity).
    split; [rewrite HN; lia|]. intros x d Hd.
    assert (HR : forall y, w_sg (reg s c (set_nxt (S (w_nxt w)) w)) y = w_sg w y)
      by (intros; unfold reg; destruct (w_ref c); reflexivity).
    dec_sid x s.
    + rewrite upd_same in Hd. apply append_In in Hd as [->|Hd]; [lia|].
      rewrite HR in Hd. eapply G2; eauto.
    + rewrite upd_other in Hd by assumption. rewrite HR in Hd. eapply G2; eauto.
  - destruct HG as [G1 G2]. split; [exact G1|]. intros x d Hd. dec_sid x s.
    + rewrite upd_same in Hd. eapply G2, remove_first_In; eauto.
    + rewrite upd_other in Hd by assumption. eapply G2; eauto.
  - destruct HG as [G1 G2]. split; [exact G1|]. intros x d Hd. dec_sid x s.
    + rewrite upd_same in Hd. destruct Hd.
    + rewrite upd_other in Hd by assumption. eapply G2; eauto.
  - exact HG.
Qed.

Lemma ignored_refl : forall w, ignored w w.
Proof. intros w H. split; [exact H|]. exists []. rewrite app_nil_r. auto. Qed.
Lemma ignored_trans : forall a b c, ignored a b -> ignored b c -> ignored a c.
Proof.
  intros a b c H1 H2 HG. destruct (H1 HG) as (G1 & t1 & T1 & F1).
  destruct (H2 G1) as (G2 & t2 & T2 & F2). split; [exact G2|]. exists (t1 ++ t2).
  rewrite T2, T1, <- app_assoc. split; [reflexivity|]. now apply Forall_app.
Qed.
Lemma ignored_same : forall w w', conn_same w w' -> w_tr w' = w_tr w -> ignored w w'.
Proof.
  intros w w' HC HT HG. split; [eapply gone_same; eauto|]. exists []. rewrite app_nil_r. auto.
Qed.
Lemma ignored_log : forall e w, passive e -> ignored w (log e w).
Proof.
  intros e w He HG. split; [eapply gone_same; [apply conn_same_log|exact HG]|].
  exists [e]. split; [reflexivity|]. auto.
Qed.

Lemma framed_gone : framed E (fun _ => True) (fun _ => True)
  (fun w w' _ => ignored w w') (fun _ _ w w' _ => ignored w w').
Proof.
  constructor; intros; auto using ignored_refl.
  - eapply ignored_trans; eauto.
  - eapply ignored_trans; eauto.
  - intros HG. split.
    + eapply csteps_inv; [apply gone_cstep| |exact HG]. eapply csteps_true, pure_csteps; eauto.
    + exists []. rewrite app_nil_r. split; [|constructor].
      now destruct (pure_keeps _ _ _ _ _ H0 H1) as (_ & _ & K3 & _).
  - apply ignored_log; exact I.
  - apply ignored_same; [apply conn_same_upd; reflexivity|reflexivity].
  - apply ignored_log; exact I.
  - eapply ignored_trans; [|apply ignored_log; exact I].
    apply ignored_same; [apply conn_same_upd; reflexivity|reflexivity].
  - assert (H3 : ignored w w').
    { eapply ignored_trans; [|exact H2]. intros HG.
      split; [eapply gone_same; [apply conn_same_started|exact HG]|].
      destruct (started_w s args w) as (_ & W2 & _). eexists. split; [exact W2|].
      repeat constructor. }
    assert (H4 : ignored w (leave s (w_cur w) (log (EEnd (w_nxt w) s) w'))).
    { eapply ignored_trans; [exact H3|]. eapply ignored_trans; [apply (ignored_log (EEnd (w_nxt w) s)); exact I|].
      apply ignored_same; [apply conn_same_leave|reflexivity]. }
    destruct r; assumption.
  - assert (H3 : ignored w w').
    { eapply ignored_trans; [|exact H1]. intros HG.
      split; [eapply gone_same; [apply conn_same_started_fast|exact HG]|].
      eexists. split; [reflexivity|]. repeat constructor. }
    assert (H4 : ignored w (left_fast s (log (EEnd (w_nxt w) s) w'))).
    { eapply ignored_trans; [exact H3|]. eapply ignored_trans; [apply (ignored_log (EEnd (w_nxt w) s)); exact I|].
      apply ignored_same; [apply conn_same_left_fast|reflexivity]. }
    destruct r; assumption.
  - assert (H2 : ignored w w').
    { intros HG. eapply ignored_trans; [|exact H0|exact HG]. apply ignored_log. cbn.
      eapply (proj2 HG); exact H1. }
    destruct r; try exact H2; (eapply ignored_trans; [exact H2|]; apply ignored_log; exact I).
  - assert (H2 : ignored w w').
    { eapply ignored_trans; [|exact H0]. apply ignored_log; exact I. }
    destruct r; try exact H2; (eapply ignored_trans; [exact H2|]; apply ignored_log; exact I).
  - intros HG. eapply ignored_trans; [|apply ignored_log|exact HG].
    + apply ignored_same; [|reflexivity]. repeat split; auto.
    + cbn. eapply (proj2 HG); exact H.
  - apply ignored_same; [apply conn_same_upd; reflexivity|reflexivity].
  - apply ignored_same; [apply conn_same_upd; reflexivity|reflexivity].
  - eapply ignored_trans; [|apply ignored_log; exact I].
    apply ignored_same; [|reflexivity]. repeat split; auto.
Qed.

Theorem runs_gone : forall p w w' r, runs E p w w' r -> gone w ->
  gone w' /\ exists t, w_tr w' = w_tr w ++ t /\ Forall passive t.
Proof.
  intros p w w' r H.
  exact (frame_runs E _ _ _ _ framed_gone (env_all_true E) p w w' r (prog_all_true p) H).
Qed.
Theorem steps_gone : forall o w w' r, steps E o w w' r -> gone w ->
  gone w' /\ exists t, w_tr w' = w_tr w ++ t /\ Forall passive t.
Proof.
  intros o w w' r H.
  exact (frame_steps E _ _ _ _ framed_gone (env_all_true E) o w w' r I H).
Qed.
End Gone.

(** Every connection has its own identity. *)
Section Ids.
Context {U : Type}.
Definition distinct (w : world U) : Prop :=
  forall s s' c c', In c (s_slots (w_sg w s)) -> In c' (s_slots (w_sg w s')) -> w_uid c = w_uid c' ->
    s = s' /\ c = c'.
Definition young (w : world U) : Prop :=
  forall s c, In c (s_slots (w_sg w s)) -> w_uid c < w_nxt w.

Lemma distinct_cstep : forall (E : env U) w w', cstep E true w w' ->
  distinct w /\ young w -> distinct w' /\ young w'.
Proof.
  intros E w w' HS [HD HY].
  assert (HSub : forall w1 : world U, w_nxt w <= w_nxt w1 ->
            (forall s c, In c (s_slots (w_sg w1 s)) -> In c (s_slots (w_sg w s))) ->
            distinct w1 /\ young w1).
  { intros w1 Hn Hs. split.
    - intros s s' c c' H1 H2. apply HD; auto.
    - intros s c H1. specialize (HY s c (Hs _ _ H1)). lia. }
  inversion HS; subst.
  - destruct H as (H1 & _ & _ & H4). apply HSub; [exact H4|]. intros s c. now rewrite (proj1 (H1 s)).
  - assert (HN : w_nxt (upd s (append_slot_base c) (reg s c (set_nxt (S (w_nxt w)) w))) = S (w_nxt w))
      by (unfold reg; destruct (w_ref c); reflexivity).
    assert (HI : forall x d, In d (s_slots (w_sg (upd s (append_slot_base c) (reg s c (set_nxt (S (w_nxt w)) w))) x)) ->
              (x = s /\ d = c) \/ In d (s_slots (w_sg w x))).
    { intros x d Hd.
      assert (HR : forall y, w_sg (reg s c (set_nxt (S (w_nxt w)) w)) y = w_sg w y)
        by (intros; unfold reg; destruct (w_ref c); reflexivity).
      dec_sid x s.
      - rewrite upd_same in Hd. apply append_In in Hd as [->|Hd]; [now left|]. rewrite HR in Hd. now right.
      - rewrite upd_other in Hd by assumption. rewrite HR in Hd. now right. }
    split.
    + intros x x' d d' H3 H4 H5. apply HI in H3, H4.
      destruct H3 as [[-> ->]|H3], H4 as [[-> ->]|H4]; auto.
      * specialize (HY _ _ H4). lia.
      * specialize (HY _ _ H3). lia.
    + intros x d H3. rewrite HN. apply HI in H3 as [[-> ->]|H3]; [lia|]. specialize (HY _ _ H3). lia.
  - apply HSub; [cbn; lia|]. intros x d Hd. dec_sid x s.
    + rewrite upd_same in Hd. eapply remove_first_In; eauto.
    + now rewrite upd_other in Hd by assumption.
  - apply HSub; [cbn; lia|]. intros x d Hd. dec_sid x s.
    + rewrite upd_same in Hd. destruct Hd.
    + now rewrite upd_other in Hd by assumption.
  - apply HSub; [cbn; lia|]. auto.
Qed.
Theorem reachable_distinct : forall (E : env U) w, reachable E w -> distinct w /\ young w.
Proof.
  intros E w HR. eapply (reachable_inv E (fun w => distinct w /\ young w)); [apply distinct_cstep| |exact HR].
  intros cfg u0 Hc. split; intros s; cbn; intros; destruct (Hc s) as (Hs & _); rewrite Hs in *; contradiction.
Qed.
End Ids.
