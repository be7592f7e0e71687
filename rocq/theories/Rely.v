(** Programs whose listeners call back into the class that emits: what such a program does to
    the data of the class, if everything that listeners can do keeps a relation [R] between the
    data before and after.  Proof infrastructure; models no code. *)

From Verif Require Import Base Core Spec Frame Fuel Conn Keep Trace Client.

Section Rely.
Context {U : Type} (E : env U) (R : U -> U -> Prop).
Hypothesis R_refl : forall u, R u u.
Hypothesis R_trans : forall a b c, R a b -> R b c -> R a c.

(** Whatever [p] does starting in [u], [Q] holds in the end.  A call other than the own
    [OUsr] may change the data as [R] allows, since it may run listeners. *)
Fixpoint rwp (p : prog U) (u : U) (Q : U -> val + exn -> Prop) : Prop :=
  match p with
  | Ret v => Q u (inl v)
  | Throw e => Q u (inr e)
  | Halt => True
  | Look k => rwp (k u) u Q
  | Do (OUsr f) k => rwp (k (snd (f u))) (fst (f u)) Q
  | Do _ k => forall u' x, R u u' -> rwp (k x) u' Q
  end.
(** [p] keeps [R]. *)
Definition keeps (p : prog U) : Prop := forall u, rwp p u (fun u' _ => R u u').

Lemma rwp_mono : forall p u (Q Q' : U -> val + exn -> Prop), (forall u x, Q u x -> Q' u x) ->
  rwp p u Q -> rwp p u Q'.
Proof.
  intros p; induction p as [v|e| |k IH|o k IH]; intros u Q Q' HQ H; cbn in *; auto.
  - eapply IH; eauto.
  - destruct o; eauto.
Qed.
Lemma rwp_bind : forall p k u Q,
  rwp p u (fun u1 x => match x with inl v => rwp (k v) u1 Q | inr e => Q u1 (inr e) end) ->
  rwp (bind p k) u Q.
Proof. intros p; induction p as [v|e| |f IH|o f IH]; intros k u Q H; cbn in *; auto. destruct o; auto. Qed.
Lemma rwp_catch : forall p k u Q, rwp p u (fun u1 x => rwp (k x) u1 Q) -> rwp (catch p k) u Q.
Proof. intros p; induction p as [v|e| |f IH|o f IH]; intros k u Q H; cbn in *; auto. destruct o; auto. Qed.

(** A fact about the start may be used. *)
Lemma rwp_pull : forall (A : Prop) p u Q, (A -> rwp p u Q) -> rwp p u (fun u' x => A -> Q u' x).
Proof.
  intros A p; induction p as [v|e| |k IH|o k IH]; intros u Q H; cbn in *; auto.
  destruct o; try (intros u1 x1 Hu; apply IH; intros HA; now apply H). now apply IH.
Qed.

(** Calls that change the data only through listeners. *)
Definition indirect (o : op U) : Prop := match o with OUsr _ => False | _ => True end.
Definition kept (w w' : world U) (r : out) : Prop := r <> Halted -> R (w_usr w) (w_usr w').
Lemma framed_kept : framed E indirect (fun _ => True) kept (fun _ _ => kept).
Proof.
  assert (HS : forall w w' r, w_usr w' = w_usr w -> kept w w' r).
  { intros w w' r H _. rewrite H. apply R_refl. }
  assert (HT : forall a b c r r', kept a b r -> r <> Halted -> kept b c r' -> kept a c r').
  { intros a b c r r' H1 Hn H2 Hr. eapply R_trans; [apply H1, Hn|apply H2, Hr]. }
  split; auto.
  - intros o w w' r HA Hp H. apply HS. eapply usame_pure; eauto. destruct o; auto; contradiction.
  - intros s args w w' r _ _ _ H.
    assert (Hu : w_usr (started s args w) = w_usr w)
      by (unfold started, entered; destruct (s_mode _); reflexivity).
    destruct r; intros Hr; cbn; try congruence; rewrite <- Hu; apply H; discriminate.
  - intros s args w w' r _ _ H _. destruct r; intros Hr; try congruence; apply H; discriminate.
  - intros eid s c a w w' r _ H _. destruct r; intros Hr; try congruence; apply H; discriminate.
  - intros eid s c a w w' r _ H. destruct r; intros Hr; try congruence; apply H; discriminate.
Qed.

Hypothesis HE : (forall t a w, keeps (e_body E t a w)) /\ (forall m a, keeps (e_lib E m a)).

Lemma rely_both : forall n,
  (forall p w w' r Q, exec E n p w = Some (w', r) -> rwp p (w_usr w) Q ->
     match r with Ok v => Q (w_usr w') (inl v) | Err e => Q (w_usr w') (inr e) | Halted => True end)
  /\ (forall r args w w' o,
      exec E n (Do (ORelay r args) (fun x => match x with inl v => Ret v | inr e => Throw e end)) w
        = Some (w', o) -> kept w w' o).
Proof.
  induction n as [|n [IH1 IH2]]; split; intros.
  - discriminate.
  - discriminate.
  - assert (ST : forall o w w' r, indirect o -> step (exec E n) E n o w = Some (w', r) -> kept w w' r).
    { intros o w0 w0' r0 HA HS.
      eapply (frame_step E indirect _ kept _ framed_kept keeps HE (exec E n)); eauto.
      intros p0 w1 w1' r1 HG Hx Hr. pose proof (IH1 _ _ _ _ _ Hx (HG (w_usr w1))) as K.
      destruct r1; [exact K|exact K|congruence]. }
    destruct p as [v|e| |k|o k]; cbn [exec] in H.
    + injection H as <- <-. exact H0.
    + injection H as <- <-. exact H0.
    + injection H as <- <-. exact I.
    + exact (IH1 _ _ _ _ _ H H0).
    + destruct (step (exec E n) E n o w) as [[w1 r1]|] eqn:HS; [|discriminate].
      assert (K : forall x, match r1 with Ok v => x = inl v | Err e => x = inr e | Halted => False end ->
                  rwp (k x) (w_usr w1) Q).
      { intros x Hx. destruct (match o with OUsr f => Some f | _ => None end) as [f|] eqn:Ho.
        - destruct o; try discriminate. injection Ho as ->. cbn [rwp] in H0. cbn [step] in HS.
          destruct (f (w_usr w)) as [u y]. injection HS as <- <-. cbn [fst snd] in H0.
          replace x with y; [exact H0|]. destruct y; congruence.
        - assert (HI : indirect o) by (destruct o; try exact I; discriminate).
          assert (HK : R (w_usr w) (w_usr w1)).
          { eapply ST; eauto. intros ->. exact Hx. }
          destruct o; try discriminate; cbn [rwp] in H0; now apply H0. }
      destruct r1 as [v|e|].
      * eapply IH1; [exact H|]. now apply K.
      * eapply IH1; [exact H|]. now apply K.
      * injection H as <- <-. exact I.
  - cbn [exec step] in H.
    destruct (do_relay (exec E n) E n r args w) as [[w1 r1]|] eqn:HS; [|discriminate].
    assert (HK : kept w w1 r1).
    { eapply (frame_do_relay E indirect _ kept _ framed_kept keeps HE (exec E n)); eauto.
      intros p0 w2 w2' r2 HG Hx Hr. pose proof (IH1 _ _ _ _ _ Hx (HG (w_usr w2))) as K.
      destruct r2; [exact K|exact K|congruence]. }
    destruct r1 as [v|e|].
    + intros Hr. eapply R_trans; [apply HK; discriminate|].
      pose proof (IH1 _ _ _ _ (fun u' _ => R (w_usr w1) u') H (R_refl _)) as K. destruct o; [exact K|exact K|congruence].
    + intros Hr. eapply R_trans; [apply HK; discriminate|].
      pose proof (IH1 _ _ _ _ (fun u' _ => R (w_usr w1) u') H (R_refl _)) as K. destruct o; [exact K|exact K|congruence].
    + injection H as <- <-. exact HK.
Qed.

Theorem rely_sound : forall p w w' r Q, runs E p w w' r -> done r -> rwp p (w_usr w) Q ->
  match r with Ok v => Q (w_usr w') (inl v) | Err e => Q (w_usr w') (inr e) | Halted => False end.
Proof.
  intros p w w' r Q [n H] Hr HQ. destruct (rely_both n) as [IH _]. specialize (IH _ _ _ _ _ H HQ).
  destruct r; [exact IH|exact IH|now destruct Hr].
Qed.
Corollary rely_keeps : forall p w w' r, runs E p w w' r -> done r -> keeps p -> R (w_usr w) (w_usr w').
Proof.
  intros p w w' r H Hr HK. pose proof (rely_sound _ _ _ _ _ H Hr (HK (w_usr w))) as K.
  destruct r; [exact K|exact K|contradiction].
Qed.
End Rely.
