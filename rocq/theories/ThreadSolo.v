(** The current emitter when one thread emits at a time.  Proof infrastructure. *)

From Coq Require Import List ZArith Bool Lia.
From Verif Require Import Threads ThreadFacts.
Import ListNotations.
Open Scope Z_scope.

Section Solo.
Context {A : Type} (c : setting).
Implicit Types (s : state A) (f : frame A) (fs : list (frame A)) (l : list (event A)).

(** Spec: the emissions that thread [th] is in, innermost first, by the log. *)
Definition inside (th : nat) l : list nat :=
  fold_left (fun x e => match e with
                        | Began t g _ => if Nat.eqb t th then g :: x else x
                        | Ended t _ => if Nat.eqb t th then tl x else x
                        | _ => x
                        end) l [].
Lemma inside_app : forall th l e, inside th (l ++ [e]) =
  match e with
  | Began t g _ => if Nat.eqb t th then g :: inside th l else inside th l
  | Ended t _ => if Nat.eqb t th then tl (inside th l) else inside th l
  | _ => inside th l
  end.
Proof. intros. unfold inside. rewrite fold_left_app. now destruct e. Qed.

Fixpoint emissions fs : list nat :=
  match fs with
  | [] => []
  | InEmit g _ p :: r => if active p then g :: emissions r else emissions r
  | _ :: r => emissions r
  end.
(** Between setting the emitter and restoring it. *)
Definition entered (p : pc A) : bool := match p with Loop _ _ | For _ _ _ _ | Back _ _ _ _ | Restore _ => true | _ => false end.
Fixpoint expected fs : option nat :=
  match fs with
  | [] => None
  | InEmit g _ p :: r => if entered p then Some g else expected r
  | _ :: r => expected r
  end.
Definition saved (p : pc A) : option (option nat) :=
  match p with Enter x | Loop x _ | For x _ _ _ | Back x _ _ _ | Restore x => Some x | _ => None end.
Fixpoint saves fs : Prop :=
  match fs with
  | [] => True
  | InEmit _ _ p :: r => (forall x, saved p = Some x -> x = expected r) /\ saves r
  | _ :: r => saves r
  end.
(** Below the innermost frame callbacks are running. *)
Definition waits f : Prop :=
  match f with InCallback _ => True | InEmit _ _ (Back _ _ _ _) => True | InFast _ _ _ true => True | _ => False end.
Definition shaped fs : Prop := match fs with [] => True | _ :: r => Forall waits r end.

Lemma not_emitting : forall fs, ~ emitting fs -> expected fs = None /\ saves fs /\ emissions fs = [].
Proof.
  intros fs H. induction fs as [|f fs IH]; [cbn; auto|]. assert (K : ~ emitting fs).
  { intros (g & a & p & K). apply H. exists g, a, p. now right. }
  destruct f as [g a p| | |]; cbn; auto. exfalso. apply H. exists g, a, p. now left.
Qed.
Lemma waits_expected : forall fs, Forall waits fs -> expected fs = hd_error (emissions fs).
Proof.
  intros fs H. induction H as [|f fs Hf H IH]; [reflexivity|]. destruct f as [g a p| | |]; cbn; auto. now destruct p.
Qed.
Lemma client_expected : forall fs, in_client fs -> shaped fs -> expected fs = hd_error (emissions fs).
Proof.
  intros [|[| | |x] fs] H1 H2; try destruct H1; try reflexivity. cbn in *. now apply waits_expected.
Qed.
Lemma expected_inside : forall fs g, expected fs = Some g -> emissions fs <> [].
Proof.
  intros fs g. induction fs as [|f fs IH]; [discriminate|]. destruct f as [h a p| | |]; cbn; auto. destruct p; cbn; auto; discriminate.
Qed.

(** Asking gives the innermost emission of the thread, and nothing if nobody emits. *)
Definition answered l (e : event A) : Prop :=
  match e with
  | Asked th r => (forall g x, inside th l = g :: x -> r = Some g) /\ ((forall t, inside t l = []) -> r = None)
  | _ => True
  end.
Definition all_answered l : Prop := forall l1 e l2, l = l1 ++ e :: l2 -> answered l1 e.
Lemma answered_app : forall l e, all_answered l -> answered l e -> all_answered (l ++ [e]).
Proof.
  intros l e H He l1 e1 l2 E. destruct l2 as [|x l2 _] using rev_ind.
  - apply app_inj_tail in E as [<- <-]. exact He.
  - rewrite app_comm_cons, app_assoc in E. apply app_inj_tail in E as [E _]. eapply H; eauto.
Qed.
Record solo_inv s : Prop := {
  o_shape : forall t, shaped (st_stk s t);
  o_in : forall t, inside t (st_log s) = emissions (st_stk s t);
  o_cur : exists th, (forall t, t <> th -> ~ emitting (st_stk s t)) /\ st_cur s = expected (st_stk s th) /\ saves (st_stk s th);
  o_log : all_answered (st_log s)
}.
(** Emissions after the step of one thread. *)
Lemma emitting_tail : forall f fs, emitting fs -> emitting (f :: fs).
Proof. intros f fs (g & a & p & H). exists g, a, p. now right. Qed.
Lemma one_solo : forall s s' th fs' es,
  solo_inv s ->
  (forall t, st_stk s' t = if Nat.eqb t th then fs' else st_stk s t) ->
  st_log s' = st_log s ++ es ->
  shaped fs' ->
  (forall t, inside t (st_log s ++ es) = if Nat.eqb t th then emissions fs' else inside t (st_log s)) ->
  (emitting fs' -> emitting (st_stk s th) \/ (forall t, t <> th -> ~ emitting (st_stk s t))) ->
  (~ emitting fs' -> ~ emitting (st_stk s th) -> st_cur s' = st_cur s) ->
  ((emitting fs' \/ emitting (st_stk s th)) ->
     st_cur s = expected (st_stk s th) -> saves (st_stk s th) -> st_cur s' = expected fs' /\ saves fs') ->
  all_answered (st_log s ++ es) ->
  solo_inv s'.
Proof.
  intros s s' th fs' es [O1 O2 (o & C1 & C2 & C3) O4] E1 E2 HS HI HE HN HC HA.
  assert (Eth : st_stk s' th = fs') by (rewrite E1, Nat.eqb_refl; reflexivity).
  assert (Eo : forall t, t <> th -> st_stk s' t = st_stk s t) by (intros t Ht; rewrite E1; destruct (Nat.eqb_spec t th); congruence).
  assert (Dec : forall fs, {emitting fs} + {~ emitting fs}).
  { intros fs. induction fs as [|f fs IH]; [right; intros (g & a & p & [])|].
    destruct f as [g a p| | |]; [left; exists g, a, p; now left| | |];
      (destruct IH as [IH|IH]; [left; now apply emitting_tail|right; intros (h & b & q & [K|K]); [discriminate|apply IH; exists h, b, q; exact K]]). }
  split.
  - intros t. destruct (Nat.eq_dec t th) as [->|N]; [now rewrite Eth|rewrite Eo by exact N; auto].
  - intros t. rewrite E2, HI. destruct (Nat.eqb_spec t th) as [->|N]; [now rewrite Eth|]. rewrite Eo by exact N. apply O2.
  - destruct (Dec fs') as [D|D]; [|destruct (Dec (st_stk s th)) as [D'|D']].
    + assert (Oth : forall t, t <> th -> ~ emitting (st_stk s t)).
      { destruct (HE D) as [K|K]; [|exact K]. intros t Ht. apply C1. intros ->. apply (C1 th); auto. }
      assert (Cth : st_cur s = expected (st_stk s th) /\ saves (st_stk s th)).
      { destruct (Nat.eq_dec o th) as [->|N]; [auto|]. destruct (not_emitting _ (Oth o N)) as (K1 & _ & _).
        destruct (not_emitting (st_stk s th)) as (K3 & K4 & _); [apply C1; congruence|]. rewrite K3. split; [congruence|exact K4]. }
      exists th. split; [intros t Ht; rewrite Eo by exact Ht; auto|]. rewrite Eth. apply HC; tauto.
    + assert (o = th) as ->. { destruct (Nat.eq_dec o th); [auto|]. exfalso. apply (C1 th); auto. }
      exists th. split; [intros t Ht; rewrite Eo by exact Ht; auto|]. rewrite Eth. apply HC; auto.
    + exists o. specialize (HN D D'). destruct (Nat.eq_dec o th) as [->|N].
      * split; [intros t Ht; rewrite Eo by exact Ht; auto|]. rewrite Eth, HN, C2.
        destruct (not_emitting _ D) as (K1 & K2 & _), (not_emitting _ D') as (K3 & _). rewrite K1, K3. auto.
      * split.
        -- intros t Ht. destruct (Nat.eq_dec t th) as [->|N']; [now rewrite Eth|rewrite Eo by exact N'; auto].
        -- rewrite Eo by congruence. rewrite HN. auto.
  - rewrite E2. exact HA.
Qed.

Definition silent (e : event A) : Prop := match e with Began _ _ _ | Ended _ _ | Asked _ _ => False | _ => True end.
Lemma silent_log : forall l es, all_answered l -> (es = [] \/ exists e, es = [e] /\ silent e) ->
  all_answered (l ++ es) /\ forall t, inside t (l ++ es) = inside t l.
Proof.
  intros l es H [-> | (e & -> & He)].
  - split; [now rewrite app_nil_r|intros; now rewrite app_nil_r].
  - split.
    + apply answered_app; [exact H|]. destruct e; try exact Logic.I. destruct He.
    + intros t. rewrite inside_app. destruct e; try reflexivity; destruct He.
Qed.
(** A step that changes neither the emitter nor what is running. *)
Lemma plain_solo : forall s s' th fs' es,
  solo_inv s -> (es = [] \/ exists e, es = [e] /\ silent e) ->
  (forall t, st_stk s' t = if Nat.eqb t th then fs' else st_stk s t) ->
  st_log s' = st_log s ++ es -> st_cur s' = st_cur s ->
  shaped fs' -> emissions fs' = emissions (st_stk s th) ->
  (emitting fs' -> emitting (st_stk s th) \/ (forall t, t <> th -> ~ emitting (st_stk s t))) ->
  expected fs' = expected (st_stk s th) -> (saves (st_stk s th) -> saves fs') -> solo_inv s'.
Proof.
  intros s s' th fs' es HI HE E1 E2 E3 HS HM HO HX HV. destruct (silent_log (st_log s) es (o_log s HI) HE) as [L1 L2].
  eapply (one_solo s s' th fs' es); eauto.
  - intros t. rewrite L2. destruct (Nat.eqb_spec t th) as [->|]; [|reflexivity]. rewrite (o_in s HI). now symmetry.
  - intros _ K1 K2. rewrite E3, HX. auto.
Qed.
Lemma shaped_tail : forall f fs, shaped (f :: fs) -> shaped fs.
Proof. intros f [|f' fs] H; [exact Logic.I|]. cbn in *. now inversion H. Qed.
Lemma shaped_client : forall f fs, in_client fs -> shaped fs -> shaped (f :: fs).
Proof. intros f [|[| | |x] fs] H1 H2; try destruct H1; cbn in *; [constructor|]. constructor; [exact Logic.I|exact H2]. Qed.
Lemma emit_solo : forall s s' th g a p r, solo_inv s -> st_stk s th = InEmit g a p :: r ->
  emit_step c th g a p r s = Some s' -> solo_inv s'.
Proof.
  intros s s' th g a p r HI Hm H. pose proof HI as [O1 O2 O3 O4].
  assert (Sr : Forall waits r). { specialize (O1 th). rewrite Hm in O1. exact O1. }
  assert (Er : emitting (st_stk s th)). { rewrite Hm. exists g, a, p. now left. }
  assert (PL : forall p' es s', active p' = active p -> entered p' = entered p ->
    (forall x, saved p' = Some x -> saved p = Some x) ->
    (es = [] \/ exists e, es = [e] /\ silent e) ->
    (forall t, st_stk s' t = if Nat.eqb t th then InEmit g a p' :: r else st_stk s t) ->
    st_log s' = st_log s ++ es -> st_cur s' = st_cur s -> solo_inv s').
  { intros p' es s1 K1 K2 K3 K4 E1 E2 E3. eapply (plain_solo s s1 th (InEmit g a p' :: r) es); eauto.
    - rewrite Hm. cbn. now rewrite K1.
    - rewrite Hm. cbn. now rewrite K2.
    - rewrite Hm. cbn. intros [V1 V2]. split; auto. }
  assert (NE : @nil (event A) = [] \/ exists e, @nil (event A) = [e] /\ silent e) by now left.
  destruct p; cbn [emit_step] in H.
  - (* Check *) injection H as <-. destruct (_ >=? _).
    + eapply (plain_solo s _ th r [Refused th g]); eauto; try reflexivity.
      * right. exists (Refused th g). split; [reflexivity|exact Logic.I].
      * destruct r; [exact Logic.I|]. cbn. now inversion Sr.
      * now rewrite Hm.
      * now rewrite Hm.
      * rewrite Hm. cbn. tauto.
    + apply (PL Acquire []); auto; try reflexivity; try discriminate. cbn. now rewrite app_nil_r.
  - (* Acquire *) destruct (acquire _ _) as [l|] eqn:Ha; [|discriminate]. injection H as <-.
    apply (PL Append []); auto; try reflexivity; try discriminate. cbn. now rewrite app_nil_r.
  - (* Append *) injection H as <-. destruct (g_queue (st_sig s g)) as [|b q] eqn:Eq.
    + eapply (one_solo s _ th (InEmit g a Depth :: r) [Began th g a]); eauto; try reflexivity.
      * intros t. rewrite inside_app, (Nat.eqb_sym th t). destruct (Nat.eqb_spec t th) as [->|]; [|reflexivity].
        rewrite O2, Hm. reflexivity.
      * intros _. rewrite Hm. cbn. intros K1 [_ K2]. repeat split; auto. discriminate.
      * apply answered_app; [exact O4|exact Logic.I].
    + apply (PL Release [Joined th g]); auto; try reflexivity; try discriminate.
      right. exists (Joined th g). split; [reflexivity|exact Logic.I].
  - (* Depth *) injection H as <-. apply (PL Save []); auto; try reflexivity; try discriminate. cbn. now rewrite app_nil_r.
  - (* Save *) injection H as <-. eapply (one_solo s _ th (InEmit g a (Enter (st_cur s)) :: r) []); eauto; try reflexivity.
    + cbn. now rewrite app_nil_r.
    + intros t. rewrite app_nil_r. destruct (Nat.eqb_spec t th) as [->|]; [|reflexivity]. rewrite O2, Hm. reflexivity.
    + intros _. rewrite Hm. cbn. intros K1 [_ K2]. repeat split; auto. intros x K. injection K as <-. exact K1.
    + now rewrite app_nil_r.
  - (* Enter *) injection H as <-. eapply (one_solo s _ th (InEmit g a (Loop prev 0) :: r) []); eauto; try reflexivity.
    + cbn. now rewrite app_nil_r.
    + intros t. rewrite app_nil_r. destruct (Nat.eqb_spec t th) as [->|]; [|reflexivity]. rewrite O2, Hm. reflexivity.
    + intros K. exfalso. apply K. exists g, a, (Loop prev 0). now left.
    + intros _. rewrite Hm. cbn. intros K1 [K3 K2]. repeat split; auto.
    + now rewrite app_nil_r.
  - (* Loop *)
    assert (P1 : forall b, solo_inv (set_stk th (InEmit g a (For prev i b 0) :: r) s)).
    { intros b. apply (PL (For prev i b 0) []); auto; try reflexivity. cbn. now rewrite app_nil_r. }
    assert (P2 : solo_inv (set_stk th (InEmit g a (Restore prev) :: r) s)).
    { apply (PL (Restore prev) []); auto; try reflexivity. cbn. now rewrite app_nil_r. }
    assert (P3 : forall b q, solo_inv (set_stk th (InEmit g a (For prev i b 0) :: r) (set_sig g (set_queue q (st_sig s g)) s))).
    { intros b q. apply (PL (For prev i b 0) []); auto; try reflexivity. cbn. now rewrite app_nil_r. }
    destruct (m_mode c g); injection H as <-; [destruct (g_queue _)|destruct (nth_error _ _)|destruct (g_queue _)]; auto.
  - (* For *)
    assert (P1 : forall j, solo_inv (set_stk th (InEmit g a (Loop prev j) :: r) s)).
    { intros j. apply (PL (Loop prev j) []); auto; try reflexivity. cbn. now rewrite app_nil_r. }
    assert (P2 : solo_inv (set_stk th (InEmit g a (Restore prev) :: r) s)).
    { apply (PL (Restore prev) []); auto; try reflexivity. cbn. now rewrite app_nil_r. }
    assert (P3 : forall y, solo_inv (set_stk th (InCallback y :: InEmit g a (Back prev i a0 k) :: r) (say (Called th g y a0) s))).
    { intros y. eapply (plain_solo s _ th (InCallback y :: InEmit g a (Back prev i a0 k) :: r) [Called th g y a0]); eauto; try reflexivity.
      - right. exists (Called th g y a0). split; [reflexivity|exact Logic.I].
      - cbn. constructor; [exact Logic.I|exact Sr].
      - now rewrite Hm.
      - now rewrite Hm.
      - rewrite Hm. cbn. tauto. }
    injection H as <-. destruct (nth_error _ _); destruct (m_mode c g); auto. destruct (_ <? _); auto.
  - (* Back *)
    assert (P1 : solo_inv (set_stk th (InEmit g a (For prev i a0 (S k)) :: r) s)).
    { apply (PL (For prev i a0 (S k)) []); auto; try reflexivity. cbn. now rewrite app_nil_r. }
    assert (P2 : solo_inv (set_stk th (InEmit g a (Restore prev) :: r) s)).
    { apply (PL (Restore prev) []); auto; try reflexivity. cbn. now rewrite app_nil_r. }
    injection H as <-. destruct (m_mode c g); auto. destruct (_ >? _); auto.
  - (* Restore *) injection H as <-. eapply (one_solo s _ th (InEmit g a Finish :: r) []); eauto; try reflexivity.
    + cbn. now rewrite app_nil_r.
    + intros t. rewrite app_nil_r. destruct (Nat.eqb_spec t th) as [->|]; [|reflexivity]. rewrite O2, Hm. reflexivity.
    + intros K. exfalso. apply K. exists g, a, Finish. now left.
    + intros _. rewrite Hm. cbn. intros K1 [K3 K2]. repeat split; auto. discriminate.
    + now rewrite app_nil_r.
  - (* Finish *) injection H as <-. eapply (one_solo s _ th (InEmit g a Release :: r) [Ended th g]); eauto; try reflexivity.
    + intros t. rewrite inside_app, (Nat.eqb_sym th t). destruct (Nat.eqb_spec t th) as [->|]; [|reflexivity].
      rewrite O2, Hm. reflexivity.
    + intros _. rewrite Hm. cbn. intros K1 [_ K2]. repeat split; auto. discriminate.
    + apply answered_app; [exact O4|exact Logic.I].
  - (* Release *) injection H as <-. eapply (plain_solo s _ th r []); eauto; try reflexivity.
    + cbn. now rewrite app_nil_r.
    + destruct r; [exact Logic.I|]. cbn. now inversion Sr.
    + now rewrite Hm.
    + now rewrite Hm.
    + rewrite Hm. cbn. tauto.
Qed.
Lemma step_solo : forall s s', step c true s s' -> solo_inv s -> solo_inv s'.
Proof.
  intros s s' H HI. pose proof HI as [O1 O2 O3 O4].
  assert (NE : @nil (event A) = [] \/ exists e, @nil (event A) = [e] /\ silent e) by now left.
  assert (ET : forall f fs, ~ emitting fs -> emitting (f :: fs) -> exists g a p, f = InEmit g a p).
  { intros f fs K (g & a & p & [K'|K']); [eauto|]. exfalso. apply K. exists g, a, p. exact K'. }
  assert (ED : forall f fs, (forall g a p, f <> InEmit g a p) -> emitting (f :: fs) -> emitting fs).
  { intros f fs K (g & a & p & [K'|K']); [now apply K in K'|]. exists g, a, p. exact K'. }
  destruct H.
  - eapply (plain_solo s _ th (InEmit g a Check :: st_stk s th) []); eauto; try reflexivity.
    + cbn. now rewrite app_nil_r.
    + now apply shaped_client.
    + cbn. intros V. split; [discriminate|exact V].
  - eapply (plain_solo s _ th (InFast g a 0 false :: st_stk s th) []); eauto; try reflexivity.
    + cbn. now rewrite app_nil_r.
    + now apply shaped_client.
    + intros K. left. eapply ED; [|exact K]. discriminate.
  - eapply (plain_solo s _ th (InEdit g e false :: st_stk s th) []); eauto; try reflexivity.
    + cbn. now rewrite app_nil_r.
    + now apply shaped_client.
    + intros K. left. eapply ED; [|exact K]. discriminate.
  - eapply (one_solo s _ th (st_stk s th) [Asked th (st_cur s)]); eauto; try reflexivity.
    + intros t. cbn. now destruct (Nat.eqb_spec t th) as [->|].
    + intros t. rewrite inside_app. destruct (Nat.eqb_spec t th) as [->|]; [apply O2|reflexivity].
    + apply answered_app; [exact O4|]. destruct O3 as (o & C1 & C2 & C3). split.
      * intros g x K. rewrite O2 in K. destruct (Nat.eq_dec o th) as [->|N].
        -- rewrite C2, client_expected, K by auto. reflexivity.
        -- destruct (not_emitting (st_stk s th)) as (_ & _ & K'); [apply C1; congruence|]. congruence.
      * intros K. specialize (K o). rewrite O2 in K. destruct (st_cur s) as [g|]; [|reflexivity].
        symmetry in C2. now apply expected_inside in C2.
  - eapply (plain_solo s _ th r []); eauto; try reflexivity.
    + cbn. now rewrite app_nil_r.
    + specialize (O1 th). rewrite H in O1. eapply shaped_tail; eauto.
    + now rewrite H.
    + intros K. left. rewrite H. now apply emitting_tail.
    + now rewrite H.
    + now rewrite H.
  - eapply (plain_solo s _ th (InEmit g a (Restore prev) :: r) [Failed th g]); eauto; try reflexivity.
    + right. exists (Failed th g). split; [reflexivity|exact Logic.I].
    + specialize (O1 th). rewrite H in O1. cbn in *. now inversion O1.
    + now rewrite H.
    + intros _. left. rewrite H. exists g, a, (Back prev i b k). right. now left.
    + now rewrite H.
    + rewrite H. cbn. auto.
  - eapply (plain_solo s _ th r []); eauto; try reflexivity.
    + cbn. now rewrite app_nil_r.
    + specialize (O1 th). rewrite H in O1. cbn in O1. inversion O1. destruct r; [exact Logic.I|]. cbn. now match goal with K : Forall waits (_ :: _) |- _ => inversion K end.
    + now rewrite H.
    + intros K. left. rewrite H. now do 2 apply emitting_tail.
    + now rewrite H.
    + now rewrite H.
  - eapply emit_solo; eauto.
  - assert (Sr : Forall waits r). { specialize (O1 th). rewrite H in O1. exact O1. }
    unfold fast_step. destruct b.
    + eapply (plain_solo s _ th (InFast g a (S k) false :: r) []); eauto; try reflexivity.
      * cbn. now rewrite app_nil_r.
      * now rewrite H.
      * intros K. left. rewrite H. apply emitting_tail. eapply ED; [|exact K]. discriminate.
      * now rewrite H.
      * now rewrite H.
    + destruct (nth_error _ _) as [y|].
      * eapply (plain_solo s _ th (InCallback y :: InFast g a k true :: r) [CalledFast th g y a]); eauto; try reflexivity.
        -- right. exists (CalledFast th g y a). split; [reflexivity|exact Logic.I].
        -- cbn. constructor; [exact Logic.I|exact Sr].
        -- now rewrite H.
        -- intros K. left. rewrite H. apply emitting_tail. eapply ED; [|eapply ED; [|exact K]]; discriminate.
        -- now rewrite H.
        -- now rewrite H.
      * eapply (plain_solo s _ th r []); eauto; try reflexivity.
        -- cbn. now rewrite app_nil_r.
        -- destruct r; [exact Logic.I|]. cbn. now inversion Sr.
        -- now rewrite H.
        -- intros K. left. rewrite H. now apply emitting_tail.
        -- now rewrite H.
        -- now rewrite H.
  - assert (Sr : Forall waits r). { specialize (O1 th). rewrite H in O1. exact O1. }
    unfold edit_step in H0. destruct h.
    + injection H0 as <-. eapply (plain_solo s _ th r [Changed th g _]); eauto; try reflexivity.
      * right. eexists. split; [reflexivity|exact Logic.I].
      * destruct r; [exact Logic.I|]. cbn. now inversion Sr.
      * now rewrite H.
      * intros K. left. rewrite H. now apply emitting_tail.
      * now rewrite H.
      * now rewrite H.
    + destruct (acquire _ _) as [l|] eqn:Ha; [|discriminate]. injection H0 as <-.
      eapply (plain_solo s _ th (InEdit g e true :: r) []); eauto; try reflexivity.
      * cbn. now rewrite app_nil_r.
      * now rewrite H.
      * intros K. left. rewrite H. apply emitting_tail. eapply ED; [|exact K]. discriminate.
      * now rewrite H.
      * now rewrite H.
  - eapply (plain_solo s _ 0%nat (st_stk s 0%nat) [Gone g l]); eauto; try reflexivity.
    + right. exists (Gone g l). split; [reflexivity|exact Logic.I].
    + intros t. cbn. now destruct t.
Qed.
Theorem steps_solo : forall s, steps c true init s -> solo_inv s.
Proof.
  intros s H. remember init as s0 eqn:E. induction H as [|s s1 s2 H IH Hs]; subst.
  - split; cbn; auto.
    + exists 0%nat. repeat split. intros t _ (g & a & p & []).
    + intros l1 e l2 K. destruct l1; discriminate.
  - eapply step_solo; eauto.
Qed.
End Solo.
