(** What API calls that run no callback leave alone: everything about emissions.
    Proof infrastructure; models no code. *)

From Verif Require Import Base Core Spec Frame Fuel Conn.

(** Static settings of a signal. *)
Definition static (st : sigst) :=
  (s_mode st, s_params st, s_chkn st, s_chkt st, s_members st).
(** Emission state of a signal. *)
Definition busy (st : sigst) := (s_args st, s_eq st, s_depth st, s_max st).

Definition keeps {U} (w w' : world U) : Prop :=
  (forall s, static (w_sg w' s) = static (w_sg w s) /\ busy (w_sg w' s) = busy (w_sg w s))
  /\ w_cur w' = w_cur w /\ w_tr w' = w_tr w /\ (forall t, w_tq w' t = w_tq w t)
  /\ w_nxt w <= w_nxt w'.

Lemma keeps_refl : forall {U} (w : world U), keeps w w.
Proof. repeat split; auto. Qed.
Lemma keeps_trans : forall {U} (a b c : world U), keeps a b -> keeps b c -> keeps a c.
Proof.
  intros U a b c (H1 & H2 & H3 & H4 & H5) (K1 & K2 & K3 & K4 & K5).
  repeat split; try congruence; try lia.
  - destruct (H1 s), (K1 s); congruence.
  - destruct (H1 s), (K1 s); congruence.
Qed.
Lemma keeps_upd : forall {U} s f (a b : world U), keeps a b ->
  (forall st, static (f st) = static st) -> (forall st, busy (f st) = busy st) ->
  keeps a (upd s f b).
Proof.
  intros U s f a b H Hs Hb. eapply keeps_trans; [exact H|].
  split; [|repeat split; auto]. intros x. destruct (Nat.eq_dec x s) as [->|Hx].
  - rewrite upd_same; auto.
  - rewrite upd_other by exact Hx; auto.
Qed.
Lemma keeps_fold : forall {U B} (f : world U -> B -> world U) l (a b : world U),
  keeps a b -> (forall w x, keeps w (f w x)) -> keeps a (fold_left f l b).
Proof.
  intros U B f l a b H Hf. revert b H; induction l as [|x l IH]; intros b H; cbn; [exact H|].
  apply IH. eapply keeps_trans; eauto.
Qed.
Lemma keeps_world : forall {U} (w w' : world U),
  w_sg w' = w_sg w -> w_cur w' = w_cur w -> w_tr w' = w_tr w -> w_tq w' = w_tq w ->
  w_nxt w <= w_nxt w' -> keeps w w'.
Proof. intros U w w' H1 H2 H3 H4 H5. split; [rewrite H1; auto|]. rewrite H4. repeat split; auto. Qed.

Lemma static_slots : forall st l, static (set_slots l st) = static st /\ busy (set_slots l st) = busy st.
Proof. auto. Qed.
Lemma append_keeps : forall c st,
  static (append_slot_base c st) = static st /\ busy (append_slot_base c st) = busy st.
Proof.
  intros. unfold append_slot_base. destruct (negb _); [|auto]. destruct (Z.eqb _ _); auto.
Qed.

Lemma keeps_connect_relay : forall {U} r ms (w : world U), keeps w (connect_relay r ms w).
Proof.
  intros. unfold connect_relay. apply keeps_fold; [apply keeps_refl|].
  intros w1 [n m]; cbn. unfold connect_relay1. destruct (has_key _ _); [apply keeps_refl|].
  apply keeps_upd; [|intros; apply append_keeps..].
  apply keeps_world; cbn; auto.
Qed.
Lemma keeps_disconnect_relay : forall {U} r ms (w : world U), keeps w (disconnect_relay r ms w).
Proof.
  intros. unfold disconnect_relay. apply keeps_fold; [apply keeps_refl|].
  intros w1 [n m]; cbn. unfold disconnect_relay1. destruct (remove_first _ _); [|apply keeps_refl].
  apply keeps_upd; [apply keeps_refl|intros; apply static_slots..].
Qed.
Lemma keeps_after_remove : forall {U} s (w : world U), keeps w (after_remove s w).
Proof.
  intros. unfold after_remove. destruct (s_members _); [|apply keeps_refl].
  destruct (s_slots _); [apply keeps_disconnect_relay|apply keeps_refl].
Qed.
Lemma keeps_remove_all : forall {U} s (w : world U), keeps w (remove_all s w).
Proof.
  intros. unfold remove_all. eapply keeps_trans; [|apply keeps_after_remove].
  apply keeps_upd; [apply keeps_refl|intros; apply static_slots..].
Qed.
Lemma keeps_remove_key : forall {U} s k (w w' : world U), remove_key s k w = Some w' -> keeps w w'.
Proof.
  intros U s k w w' H. unfold remove_key in H. destruct (remove_first _ _); [|discriminate].
  injection H as <-. eapply keeps_trans; [|apply keeps_after_remove].
  apply keeps_upd; [apply keeps_refl|intros; apply static_slots..].
Qed.
Lemma keeps_try_discard : forall {U} s k mo (w : world U), keeps w (fst (try_discard s k mo w)).
Proof.
  intros. unfold try_discard. destruct (remove_key _ _ _) eqn:H; [|apply keeps_refl].
  eapply keeps_remove_key; eauto.
Qed.
Lemma keeps_add_wcb : forall {U} s c (w : world U), keeps w (add_wcb s c w).
Proof.
  intros U s c w. unfold add_wcb, append_slot.
  match goal with |- keeps w ?g => set (goal := g) end.
  set (w2 := match w_ref c with Some _ => _ | None => _ end) in goal.
  assert (H2 : keeps w w2).
  { unfold w2. destruct (w_ref c); apply keeps_world; cbn; auto. }
  assert (H3 : keeps w (upd s (append_slot_base c) w2)).
  { apply keeps_upd; [exact H2|intros; apply append_keeps..]. }
  unfold goal. destruct (s_members _); [|exact H3]. destruct (Nat.eqb _ _); [|exact H3].
  eapply keeps_trans; [exact H3|apply keeps_connect_relay].
Qed.
Lemma keeps_connect : forall {U} (E : env U) s c o (w w' : world U) r,
  connect E s c o w = (w', r) -> keeps w w'.
Proof.
  intros U E s c o w w' r H. unfold connect in H.
  repeat (match type of H with
          | context [match ?x with _ => _ end] => destruct x
          end; try (injection H as <- _; apply keeps_refl)).
  all: injection H as <- _; apply keeps_add_wcb.
Qed.
Lemma keeps_disconnect_base : forall {U} (E : env U) s r mo (w w' : world U) o,
  disconnect_base E s r mo w = (w', o) -> keeps w w'.
Proof.
  intros U E s r mo w w' o H. unfold disconnect_base in H.
  destruct r as [r|]; [|injection H as <- _; apply keeps_remove_all].
  destruct (key_of_ref E r); [|injection H as <- _; apply keeps_refl].
  destruct (remove_key _ _ _) eqn:HR; injection H as <- _;
    [eapply keeps_remove_key; eauto|apply keeps_refl].
Qed.
Lemma keeps_disconnect_each : forall {U} (E : env U) ms r mo (w w' : world U) o,
  disconnect_each E ms r mo w = (w', o) -> keeps w w'.
Proof.
  induction ms as [|[nm m] ms IH]; intros r mo w w' o H; cbn in H.
  - injection H as <- _; apply keeps_refl.
  - destruct (disconnect_base E m r mo w) as [w1 [v|e|]] eqn:EB; apply keeps_disconnect_base in EB.
    + eapply keeps_trans; [exact EB|]. eapply IH; eauto.
    + injection H as <- _; exact EB.
    + injection H as <- _; exact EB.
Qed.
Lemma keeps_disconnect : forall {U} (E : env U) s r mo (w w' : world U) o,
  disconnect E s r mo w = (w', o) -> keeps w w'.
Proof.
  intros U E s r mo w w' o H. unfold disconnect in H.
  destruct (s_members (w_sg w s)) as [ms|]; [|eapply keeps_disconnect_base; eauto].
  destruct (disconnect_each E ms r mo w) as [w1 [v|e|]] eqn:EB; apply keeps_disconnect_each in EB.
  + eapply keeps_trans; [exact EB|]. eapply keeps_disconnect_base; eauto.
  + injection H as <- _; exact EB.
  + injection H as <- _; exact EB.
Qed.
Lemma keeps_connect_each : forall {U} (E : env U) ms c o (w w' : world U) r,
  connect_each E ms c o w = (w', r) -> keeps w w'.
Proof.
  induction ms as [|[nm m] ms IH]; intros c o w w' r H; cbn in H.
  - injection H as <- _; apply keeps_refl.
  - destruct (connect E m c o w) as [w1 [v|e|]] eqn:EB; apply keeps_connect in EB.
    + eapply keeps_trans; [exact EB|]. eapply IH; eauto.
    + injection H as <- _; exact EB.
    + injection H as <- _; exact EB.
Qed.
Lemma keeps_block : forall {U} s excl (w : world U), keeps w (block s excl w).
Proof.
  intros U s excl w. unfold block.
  assert (H : keeps w (upd s (set_blocked true) w)) by (apply keeps_upd; auto; apply keeps_refl).
  destruct (s_members (w_sg w s)); [|exact H]. apply keeps_fold; [exact H|].
  intros w1 [n m]. unfold block_member. destruct (excluded _ _ _); [apply keeps_refl|].
  apply keeps_upd; auto. apply keeps_upd; auto. apply keeps_refl.
Qed.
Lemma keeps_unblock : forall {U} s (w : world U), keeps w (unblock s w).
Proof.
  intros U s w. unfold unblock.
  assert (H : keeps w (upd s (set_blocked false) w)) by (apply keeps_upd; auto; apply keeps_refl).
  destruct (s_members (w_sg w s)); [|exact H]. apply keeps_fold; [exact H|].
  intros w1 [n m]. unfold unblock_member.
  destruct (match assoc_get _ _ with Some b => b | None => false end);
    repeat (apply keeps_upd; auto); apply keeps_refl.
Qed.
Lemma keeps_kill : forall {U} o (w : world U), keeps w (kill o w).
Proof.
  intros U o w. unfold kill. destruct (w_dead w o); [apply keeps_refl|].
  apply keeps_fold; [apply keeps_world; cbn; auto|].
  intros. unfold finalize1. apply keeps_try_discard.
Qed.

Theorem pure_keeps : forall {U} (E : env U) o (w w' : world U) r,
  is_pure o = true -> pure_step E o w = Some (w', r) -> keeps w w'.
Proof.
  intros U E o w w' r Hp H. destruct o; try discriminate Hp; unfold pure_step in H;
    cbn [step] in H; unfold lift in H;
    try (injection H as <- <-; apply keeps_refl).
  - injection H as H. eapply keeps_connect; eauto.
  - injection H as H. unfold connect_direct in H.
    destruct (s_members (w_sg w r0)) as [ms|]; [|injection H as <- _; apply keeps_refl].
    eapply keeps_connect_each; eauto.
  - injection H as H. unfold connect_setattr in H.
    destruct (w_dead w ob); [injection H as <- _; apply keeps_refl|].
    destruct (negb _); [injection H as <- _; apply keeps_refl|].
    destruct (weak_setattr _ _ _ _ _ _ _); injection H as <- _; [apply keeps_add_wcb|apply keeps_refl].
  - injection H as H. unfold connect_setitem in H.
    destruct (w_dead w ob); [injection H as <- _; apply keeps_refl|].
    destruct (negb _); [injection H as <- _; apply keeps_refl|].
    destruct (weak_setitem _ _ _ _ _ _ _); injection H as <- _; [apply keeps_add_wcb|apply keeps_refl].
  - injection H as H. eapply keeps_disconnect; eauto.
  - injection H as H. pose proof (keeps_try_discard s (KSetattr ob a) missing_ok w) as HT.
    rewrite H in HT. exact HT.
  - destruct (e_hasattr E ob "__setitem__").
    + injection H as H. pose proof (keeps_try_discard s (KSetitem ob k) missing_ok w) as HT.
      rewrite H in HT. exact HT.
    + injection H as <- _; apply keeps_refl.
  - injection H as <- _. apply keeps_block.
  - injection H as <- _. apply keeps_unblock.
  - injection H as <- _. apply keeps_upd; auto; apply keeps_refl.
  - injection H as <- _. apply keeps_kill.
  - injection H as <- _. apply keeps_world; cbn; auto.
  - injection H as <- _. apply keeps_world; cbn; auto.
  - destruct (f (w_usr w)) as [u [v|e]]; injection H as <- _; apply keeps_world; cbn; auto.
Qed.
