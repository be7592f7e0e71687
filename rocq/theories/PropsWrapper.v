(** Throttled and debounced callbacks of signals: C112. *)

From Coq Require Import List Bool Lia.
From Verif Require Import Wrapper.
Import ListNotations.

Section Facts.
Context {A : Type} (o : options).
Implicit Types s : wstate A.

Lemma inputs_app : forall l m s, inputs o (l ++ m) s = inputs o m (inputs o l s).
Proof. induction l; intros; cbn; auto. Qed.

(** As in the documentation of throttled and debounced (TH:197, 253): emitter.changed.connect(throttled(f)).  Nothing else refers to
    the wrapper.  f is not called, whatever happens afterwards. *)
Theorem C112_lost : forall l : list (input A), let s := inputs o (IConnect :: IDrop :: l) fresh in told s = [] /\ links s = 0 /\ dead s = true.
Proof.
  intros l. cbn [inputs]. set (s0 := input_step o IDrop (input_step o IConnect fresh)).
  assert (H : held s0 = false /\ ticking s0 = false /\ dead s0 = true /\ links s0 = 0 /\ told s0 = []) by (repeat split).
  clearbody s0. revert s0 H. induction l as [|i l IH]; intros s (Hh & Ht & Hd & Hl & H0); cbn [inputs]; [auto|].
  apply IH. destruct i as [|a| | |]; cbn.
  - rewrite Hh. auto.
  - rewrite Hl. cbn. auto.
  - destruct (cycle s); cbn; auto.
  - rewrite Ht. auto.
  - rewrite Hh, Ht. cbn. auto 6.
Qed.

(** What holds while the program has the wrapper in a variable *)
Lemma held_step : forall (l : list (input A)) s, ~ In IDrop l -> held s = true -> dead s = false ->
  (ticking s = false -> pending s = None) ->
  let s' := inputs o l s in held s' = true /\ dead s' = false /\ (ticking s' = false -> pending s' = None) /\
    (0 < links s \/ In IConnect l -> 0 < links s').
Proof.
  intros l. induction l as [|i l IH]; intros s ND Hh Hd Hp; cbn [inputs]; cbn zeta.
  { repeat split; auto. intros [H|[]]. exact H. }
  assert (R : forall n a s, held s = true -> dead s = false -> (ticking s = false -> pending s = None) ->
    let s' := times n (request o a) s in held s' = true /\ dead s' = false /\ (ticking s' = false -> pending s' = None) /\ links s' = links s).
  { clear. induction n as [|n IHn]; intros a s Hh Hd Hp; cbn [times]; cbn zeta; [auto|].
    assert (X : held (request o a s) = true /\ dead (request o a s) = false /\ ticking (request o a s) = true /\ links (request o a s) = links s).
    { unfold request. destruct (o_kind o), (o_leading o), (ticking s) eqn:T; cbn; rewrite ?T; cbn; auto. }
    destruct X as (X1 & X2 & X3 & X4). destruct (IHn a _ X1 X2 ltac:(congruence)) as (Y1 & Y2 & Y3 & Y4). rewrite Y4. auto. }
  assert (S1 : let s' := input_step o i s in held s' = true /\ dead s' = false /\ (ticking s' = false -> pending s' = None) /\
    (0 < links s \/ i = IConnect -> 0 < links s')).
  { destruct i as [|a| | |]; cbn.
    - rewrite Hh. cbn. repeat split; auto. lia.
    - destruct (R (links s) a s Hh Hd Hp) as (Y1 & Y2 & Y3 & Y4). cbn in *. repeat split; auto. rewrite Y4. intros [H|H]; [exact H|discriminate].
    - exfalso. apply ND. now left.
    - destruct (ticking s) eqn:T; [|repeat split; auto; intros [H|H]; [exact H|discriminate]].
      destruct (pending s); cbn; repeat split; auto; try discriminate; intros [H|H]; auto; discriminate.
    - rewrite Hh. cbn. repeat split; auto. intros [H|H]; [exact H|discriminate]. }
  destruct S1 as (X1 & X2 & X3 & X4).
  destruct (IH (input_step o i s) ltac:(intros H; apply ND; now right) X1 X2 X3) as (Y1 & Y2 & Y3 & Y4).
  repeat split; auto. intros [H|[H|H]]; apply Y4; auto.
Qed.

Lemma request_pending : forall (a : A) n s, let s' := times n (request o a) s in 0 < n -> (ticking s = false -> pending s = None) ->
  ticking s' = true /\ (pending s' = Some a \/ pending s' = None /\ exists l, told s' = a :: l).
Proof.
  intros a n. induction n as [|n IH]; intros s; cbn zeta; [lia|]. intros _ Hp. cbn [times].
  assert (X : ticking (request o a s) = true /\ (pending (request o a s) = Some a \/ pending (request o a s) = None /\ exists l, told (request o a s) = a :: l)).
  { unfold request. destruct (o_kind o), (o_leading o), (ticking s) eqn:T; cbn; rewrite ?T; cbn; split; eauto. }
  destruct n as [|n]; [exact X|]. apply IH; [lia|]. intros F. destruct X as [X _]. congruence.
Qed.

Lemma request_keeps : forall (a : A) n s, let s' := times n (request o a) s in 0 < n -> (ticking s = true -> cycle s = true) ->
  cycle s' = true /\ dead s' = dead s /\ links s' = links s.
Proof.
  intros a n. induction n as [|n IH]; intros s; cbn zeta; [lia|]. intros _ Ht. cbn [times].
  assert (X : cycle (request o a s) = true /\ dead (request o a s) = dead s /\ links (request o a s) = links s).
  { unfold request. destruct (o_kind o), (o_leading o), (ticking s) eqn:T; cbn; rewrite ?T; cbn; auto. }
  destruct n as [|n]; [exact X|]. destruct X as (X1 & X2 & X3). destruct (IH (request o a s) ltac:(lia) (fun _ => X1)) as (Y1 & Y2 & Y3).
  cbn zeta in *. rewrite Y2, Y3. auto.
Qed.
Lemma ticking_cycle : forall l : list (input A), ticking (inputs o l fresh) = true -> cycle (inputs o l fresh) = true.
Proof.
  intros l. enough (G : forall l s, (ticking s = true -> cycle s = true) -> ticking (inputs o l s) = true -> cycle (inputs o l s) = true)
    by (apply G; discriminate).
  clear l. induction l as [|i l IH]; intros s H; [exact H|]. cbn [inputs]. apply IH. destruct i as [|a| | |]; cbn.
  - destruct (held s); exact H.
  - destruct (links s) as [|n] eqn:E; [exact H|]. intros _. exact (proj1 (request_keeps a (S n) s ltac:(lia) H)).
  - destruct (cycle s) eqn:C; cbn; auto.
  - destruct (ticking s) eqn:T; [|congruence]. destruct (pending s); cbn; [auto|discriminate].
  - destruct (negb (held s) && negb (ticking s)); exact H.
Qed.
Definition going (b : A) (s : wstate A) : Prop :=
  ticking s = true /\ cycle s = true /\ dead s = false /\ 0 < links s /\ (pending s = Some b \/ pending s = None /\ exists l, told s = b :: l).

(** The last emission among [m], or [a] *)
Fixpoint last_emitted (a : A) (m : list (input A)) : A :=
  match m with
  | [] => a
  | IEmit b :: m => last_emitted b m
  | _ :: m => last_emitted a m
  end.
(** While a variable refers to it, the wrapper serves each emission: when the timer fires next, the last call made was with the
    arguments of the last emission.  This holds also if the wrapper is dropped between the emission and the time of the timer; until
    then it is not freed, and further emissions reach it. *)
Theorem C112_served : forall (l m : list (input A)) a, ~ In IDrop l -> In IConnect l -> ~ In IFire m ->
  (exists calls, told (inputs o (l ++ IEmit a :: m ++ [IFire]) fresh) = last_emitted a m :: calls) /\
  dead (inputs o (l ++ IEmit a :: m) fresh) = false.
Proof.
  intros l m a ND HC HM. rewrite !inputs_app. cbn [inputs]. rewrite inputs_app.
  destruct (held_step l fresh ND eq_refl eq_refl (fun _ => eq_refl)) as (_ & HD & Hp & Hl).
  assert (HT : ticking (inputs o l fresh) = true -> cycle (inputs o l fresh) = true) by apply ticking_cycle.
  set (s := inputs o l fresh) in *. clearbody s. specialize (Hl (or_intror HC)).
  assert (K : forall b s, (ticking s = true -> cycle s = true) -> (ticking s = false -> pending s = None) -> dead s = false -> 0 < links s ->
    going b (input_step o (IEmit b) s)).
  { clear. intros b s Ht Hp Hd Hl. cbn [input_step]. destruct (request_pending b (links s) s Hl Hp) as [T P].
    destruct (request_keeps b (links s) s Hl Ht) as (C & D & L). cbn in *. repeat split; auto; congruence. }
  assert (G : going (last_emitted a m) (inputs o m (input_step o (IEmit a) s))).
  { generalize (K a s HT Hp HD Hl). generalize (input_step o (IEmit a) s). clear - K HM. revert a.
    induction m as [|i m IH]; intros a s G; [exact G|]. cbn [inputs].
    assert (HM' : ~ In IFire m) by (intros H; apply HM; now right).
    destruct G as (T & C & D & L & P).
    destruct i as [|b| | |]; cbn [last_emitted]; apply (IH HM').
    - cbn. destruct (held s); repeat split; cbn; auto.
    - apply K; auto; congruence.
    - cbn. rewrite C. repeat split; cbn; auto.
    - exfalso. apply HM. now left.
    - cbn. rewrite T, andb_false_r. repeat split; auto. }
  destruct G as (T & C & D & L & P). split; [|exact D]. set (s1 := input_step o (IEmit a) s) in *. clearbody s1.
  destruct P as [P'|[P' [l' E']]]; cbn [inputs input_step]; rewrite T; cbn; rewrite P'; cbn; eauto.
Qed.

(** When the time is over and nothing is pending, a leading wrapper makes the call at once, the other waits. *)
Theorem C112_leading : forall (l : list (input A)) a, ~ In IDrop l -> In IConnect l ->
  let before := told (inputs o (l ++ [IFire; IFire]) fresh) in
  told (inputs o (l ++ [IFire; IFire; IEmit a]) fresh) = if o_leading o then a :: before else before.
Proof.
  intros l a ND HC before. unfold before. clear before.
  change [IFire; IFire; IEmit a] with ([IFire; IFire] ++ [IEmit a]). rewrite app_assoc, (inputs_app (l ++ _)). cbn [inputs input_step].
  assert (ND' : ~ In IDrop (l ++ [IFire; IFire])) by (rewrite in_app_iff; intros [H|[H|[H|[]]]]; [auto|discriminate|discriminate]).
  destruct (held_step (l ++ [IFire; IFire]) fresh ND' eq_refl eq_refl (fun _ => eq_refl)) as (_ & _ & _ & Hl).
  specialize (Hl (or_intror (in_or_app _ _ _ (or_introl HC)))).
  assert (T : ticking (inputs o (l ++ [IFire; IFire]) fresh) = false).
  { rewrite inputs_app. generalize (inputs o l fresh) as s. clear. intros s. cbn. destruct (ticking s) eqn:T; [|now rewrite T].
    destruct (pending s) eqn:P; cbn; rewrite ?P; reflexivity. }
  set (s := inputs o (l ++ [IFire; IFire]) fresh) in *. clearbody s. destruct (links s) as [|n]; [lia|]. cbn [times].
  assert (W : forall m s, ticking s = true -> told (times m (request o a) s) = told s).
  { clear. induction m as [|m IH]; intros s T; cbn [times]; [reflexivity|].
    assert (X : ticking (request o a s) = true /\ told (request o a s) = told s)
      by (unfold request; destruct (o_kind o), (o_leading o); cbn; rewrite T; cbn; auto).
    destruct X as [X1 X2]. rewrite IH; auto. }
  rewrite W; unfold request; destruct (o_kind o), (o_leading o); cbn; rewrite ?T; cbn; auto.
Qed.

(** While the timer runs, emissions make no calls. *)
Theorem C112_waits : forall (l : list (input A)) a b, told (inputs o (l ++ [IEmit a; IEmit b]) fresh) = told (inputs o (l ++ [IEmit a]) fresh).
Proof.
  intros l a b. rewrite !inputs_app. cbn [inputs input_step]. set (s := inputs o l fresh). destruct (links s) as [|n] eqn:E.
  { cbn. now rewrite E. }
  assert (W : forall m s, ticking s = true -> told (times m (request o b) s) = told s).
  { clear. induction m as [|m IH]; intros s T; cbn [times]; [reflexivity|].
    assert (X : ticking (request o b s) = true /\ told (request o b s) = told s)
      by (unfold request; destruct (o_kind o), (o_leading o); cbn; rewrite T; cbn; auto).
    destruct X as [X1 X2]. rewrite IH; auto. }
  apply W. assert (R : forall m s, 0 < m -> ticking (times m (request o a) s) = true).
  { clear. induction m as [|m IH]; intros s H; [lia|]. cbn [times]. destruct m as [|m]; [|apply IH; lia].
    cbn [times]. unfold request. destruct (o_kind o), (o_leading o), (ticking s) eqn:T; cbn; rewrite ?T; cbn; auto. }
  apply R. lia.
Qed.

(** With one connection, there is at most one call for each emission, in the order of the emissions. *)
Inductive subseq : list A -> list A -> Prop :=
| sub_nil : subseq [] []
| sub_skip : forall x l m, subseq l m -> subseq l (x :: m)
| sub_take : forall x l m, subseq l m -> subseq (x :: l) (x :: m).
Fixpoint emits (l : list (input A)) : list A :=
  match l with [] => [] | IEmit a :: l => a :: emits l | _ :: l => emits l end.
Fixpoint connects (l : list (input A)) : nat :=
  match l with [] => 0 | IConnect :: l => S (connects l) | _ :: l => connects l end.
Lemma sub_less : forall x l m, subseq (x :: l) m -> subseq l m.
Proof. intros x l m H. remember (x :: l) as k. induction H; try discriminate; [constructor; auto|injection Heqk as -> ->; now apply sub_skip]. Qed.
Definition wanted (s : wstate A) : list A := match pending s with Some a => a :: told s | None => told s end.
Lemma request_wanted : forall a s, wanted (request o a s) = a :: told s.
Proof. intros a s. unfold request, wanted. destruct (o_kind o), (o_leading o), (ticking s) eqn:T; cbn; rewrite ?T; cbn; reflexivity. Qed.
Lemma wanted_told : forall s m, subseq (wanted s) m -> subseq (told s) m.
Proof. intros s m. unfold wanted. destruct (pending s); [apply sub_less|auto]. Qed.
Theorem C112_once : forall l : list (input A), connects l <= 1 -> subseq (told (inputs o l fresh)) (rev (emits l)).
Proof.
  intros l HC. enough (G : forall l s m, links s + connects l <= 1 -> subseq (wanted s) m -> subseq (wanted (inputs o l s)) (rev (emits l) ++ m)).
  { apply wanted_told. rewrite <- (app_nil_r (rev (emits l))). apply G; [exact HC|constructor]. }
  clear l HC. induction l as [|i l IH]; intros s m HC HS; cbn [inputs]; [exact HS|].
  destruct i as [|a| | |]; cbn [emits connects] in *.
  - apply IH; cbn; [destruct (held s); cbn; lia|]. destruct (held s); exact HS.
  - cbn [rev]. rewrite <- app_assoc. cbn [app input_step]. apply IH.
    + destruct (links s) as [|[|n]] eqn:E; [cbn; lia| |lia]. cbn. assert (L : links (request o a s) = links s); [|lia].
      unfold request. destruct (o_kind o), (o_leading o), (ticking s) eqn:T; cbn; rewrite ?T; reflexivity.
    + destruct (links s) as [|[|n]]; [now constructor| |lia]. cbn [times]. rewrite request_wanted. apply sub_take. now apply wanted_told.
  - apply IH; cbn; destruct (cycle s); cbn; auto; lia.
  - apply IH; cbn; destruct (ticking s); auto; destruct (pending s) eqn:P; cbn; auto; unfold wanted in *; cbn; rewrite ?P in *; auto.
  - apply IH; cbn; destruct (negb (held s) && negb (ticking s)); cbn; auto; lia.
Qed.

(** While a variable refers to it, the wrapper is not freed and stays connected. *)
Theorem C112_held : forall l : list (input A), ~ In IDrop l -> dead (inputs o l fresh) = false /\ (In IConnect l -> 0 < links (inputs o l fresh)).
Proof.
  intros l ND. destruct (held_step l fresh ND eq_refl eq_refl (fun _ => eq_refl)) as (_ & Hd & _ & Hl). auto.
Qed.

(** Only arguments that were emitted are used. *)
Theorem C112_only : forall (l : list (input A)) a, In a (told (inputs o l fresh)) -> In (IEmit a) l.
Proof.
  intros l a. assert (G : forall l s, (In a (told (inputs o l s)) -> In (IEmit a) l \/ In a (told s) \/ pending s = Some a)).
  { clear l. induction l as [|i l IH]; intros s H; cbn [inputs] in H; [auto|]. destruct (IH _ H) as [E|E]; [left; now right|]. clear IH H.
    assert (R : forall n b s, In a (told (times n (request o b) s)) \/ pending (times n (request o b) s) = Some a ->
      a = b \/ In a (told s) \/ pending s = Some a).
    { clear. induction n as [|n IHn]; intros b s H; cbn [times] in H; [auto|]. destruct (IHn _ _ H) as [E|E]; [auto|].
      revert E. unfold request. destruct (o_kind o), (o_leading o), (ticking s) eqn:T; cbn; rewrite ?T; cbn; intuition (congruence || auto). }
    destruct i as [|b| | |]; cbn in E.
    - destruct (held s); cbn in E; auto.
    - destruct (R _ _ _ E) as [->|E']; [left; now left|auto].
    - destruct (cycle s); cbn in E; auto.
    - destruct (ticking s); [|auto]. destruct (pending s) eqn:P; cbn in E; rewrite ?P in E; intuition (congruence || auto).
    - destruct (negb (held s) && negb (ticking s)); cbn in E; auto. }
  intros H. destruct (G l fresh H) as [E|[E|E]]; [exact E|destruct E|discriminate].
Qed.
End Facts.

(** The documentation's example: nothing is called for the emission of 7, at no time. *)
Theorem C112_refuted : forall k b, exists l, In (IEmit 7) l /\ forall m, told (inputs (Options k b) (l ++ m) fresh) = [].
Proof.
  intros k b. exists [IConnect; IDrop; IEmit 7]. split; [cbn; auto|]. intros m. exact (proj1 (C112_lost (Options k b) (IEmit 7 :: m))).
Qed.

(** With a variable: leading and trailing calls; dropped while a call is pending, it is made all the same, and then no more. *)
Example C112_case :
  told (inputs (Options Throttled true) [IConnect; IEmit 1; IEmit 2; IEmit 3; IFire; IDrop; IGc; IFire; IEmit 4; IFire; IGc; IEmit 5; IFire] fresh) = [4; 3; 1] /\
  told (inputs (Options Debounced false) [IConnect; IEmit 1; IEmit 2; IDrop; IGc; IFire; IFire; IGc; IEmit 3; IFire] fresh) = [2] /\
  told (inputs (Options Debounced false) [IConnect; IDrop; IEmit 1; IEmit 2; IFire] fresh) = [].
Proof. repeat split; reflexivity. Qed.

Print Assumptions C112_lost.
Print Assumptions C112_served.
Print Assumptions C112_held.
Print Assumptions C112_leading.
Print Assumptions C112_waits.
Print Assumptions C112_once.
Print Assumptions C112_only.
Print Assumptions C112_refuted.
