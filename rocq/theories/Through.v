(** Invariants of client programs that hold however they end.  Proof infrastructure. *)

From Verif Require Import Base Core Spec Frame Fuel Client Prog.

Section Through.
Context {U : Type}.
Variable E : env U.
Variable C : sid -> bool.
(** Every way [p] can end, started in [u]: [Q] when it returns, [X] when it raises. *)
Definition through (p : prog U) (u : U) (Q : U -> Prop) (X : U -> exn -> Prop) : Prop :=
  forall h, wp E C p u h (fun u _ r => match r with Ok _ => Q u | Err e => X u e | Halted => True end).
Notation raised := (listener_raised E C).

Lemma th_mono : forall p u (Q Q' : U -> Prop) (X X' : U -> exn -> Prop), through p u Q X ->
  (forall u, Q u -> Q' u) -> (forall u e, X u e -> X' u e) -> through p u Q' X'.
Proof. intros p u Q Q' X X' H HQ HX h. eapply wp_mono; [|apply H]. intros u' h' [v|e|]; auto. Qed.
Lemma th_ret : forall v u (Q : U -> Prop) (X : U -> exn -> Prop), Q u -> through (Ret v) u Q X.
Proof. intros v u Q X H h. exact H. Qed.
Lemma th_throw : forall e u (Q : U -> Prop) (X : U -> exn -> Prop), X u e -> through (Throw e) u Q X.
Proof. intros e u Q X H h. exact H. Qed.
Lemma th_look : forall k u (Q : U -> Prop) (X : U -> exn -> Prop), through (k u) u Q X -> through (Look k) u Q X.
Proof. intros k u Q X H h. apply H. Qed.
Lemma th_bind : forall p k u (Q1 Q : U -> Prop) (X : U -> exn -> Prop), through p u Q1 X ->
  (forall u v, Q1 u -> through (k v) u Q X) -> through (bind p k) u Q X.
Proof.
  intros p k u Q1 Q X Hp Hq h. apply wp_bind. eapply wp_mono; [|apply Hp].
  intros u' h' [v|e|] HH; auto. now apply Hq.
Qed.
Lemma th_seq : forall p q u (Q1 Q : U -> Prop) (X : U -> exn -> Prop), through p u Q1 X ->
  (forall u, Q1 u -> through q u Q X) -> through (p;; q) u Q X.
Proof. intros p q u Q1 Q X Hp Hq. unfold seq. eapply th_bind; eauto. Qed.
Lemma th_catch : forall p k u (Q1 Q : U -> Prop) (X1 X : U -> exn -> Prop), through p u Q1 X1 ->
  (forall u v, Q1 u -> through (k (inl v)) u Q X) -> (forall u e, X1 u e -> through (k (inr e)) u Q X) ->
  through (catch p k) u Q X.
Proof.
  intros p k u Q1 Q X1 X Hp Hq Hx h. apply wp_catch. eapply wp_mono; [|apply Hp].
  intros u' h' [v|e|] HH; auto; [now apply Hq|now apply Hx].
Qed.
Lemma th_say : forall s a u (Q : U -> Prop) (X : U -> exn -> Prop),
  Q u -> (forall e, (C s = true -> raised e) -> X u e) -> through (say s a) u Q X.
Proof. intros s a u Q X HQ HX h. unfold say, call. cbn. auto. Qed.
Lemma th_act : forall f u (Q : U -> Prop) (X : U -> exn -> Prop),
  match f u with (u', inl v) => Q u' | (u', inr e) => X u' e end -> through (act f) u Q X.
Proof. intros f u Q X HQ h. unfold act, call. cbn. destruct (f u) as [u' [v|e]]; exact HQ. Qed.
Lemma th_each : forall {A} (f : A -> prog U) l u (I : U -> Prop) (X : U -> exn -> Prop),
  (forall x u, In x l -> I u -> through (f x) u I X) -> I u -> through (each f l) u I X.
Proof.
  intros A f l u I X; revert u; induction l as [|x l IH]; intros u Hf HI; cbn [each]; [now apply th_ret|].
  eapply th_seq; [apply Hf; [now left|exact HI]|]. intros u' HI'. apply IH; [|exact HI']. intros y u1 Hy. apply Hf. now right.
Qed.
Lemma th_paused : forall s rd p u (Q : U -> Prop) (X : U -> exn -> Prop), reduces_ok rd -> through p u Q X ->
  (forall u e, Q u \/ (exists e', X u e') -> (C s = true -> raised e) -> X u e) ->
  through (with_paused s rd p) u Q X.
Proof.
  intros s rd p u Q X Hrd H HX h. unfold with_paused, try_finally, call. cbn [bind wp]. intros b. cbn [finish bind].
  apply wp_catch. eapply wp_mono; [|apply H]. intros u' h' [v|e|] HH; auto; destruct b; cbn; auto.
  split; [auto|]. intros e' He. apply HX; eauto.
Qed.
Lemma th_blocked : forall s ex p u (Q : U -> Prop) (X : U -> exn -> Prop), through p u Q X ->
  through (with_blocked s ex p) u Q X.
Proof.
  intros s ex p u Q X H h. unfold with_blocked, try_finally, call. cbn [bind wp]. intros b. cbn [finish bind].
  apply wp_catch. eapply wp_mono; [|apply H]. intros u' h' [v|e|] HH; auto; destruct b; cbn; auto.
Qed.
Lemma th_sound : forall p w w' r Q X, env_all (aloof C) E -> through p (w_usr w) Q X ->
  runs E p w w' r -> done r -> match r with Ok _ => Q (w_usr w') | Err e => X (w_usr w') e | Halted => False end.
Proof.
  intros p w w' r Q X HE H HR Hr. destruct (wp_sound E C HE p w w' r HR Hr [] _ (H [])) as (t & _ & HQ).
  destruct r; auto.
Qed.
End Through.
