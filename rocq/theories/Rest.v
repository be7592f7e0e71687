(** Connection calls leave the thread, the hook and client state alone, and only
    blocking calls change blocked flags.  Proof infrastructure; models no code. *)

From Verif Require Import Base Core Spec Frame Fuel Conn Keep.

Definition flags (st : sigst) := (s_blocked st, s_paused st, s_wasb st).
Definition rest {U} (w w' : world U) : Prop :=
  w_me w' = w_me w /\ w_hook w' = w_hook w /\ w_usr w' = w_usr w
  /\ forall s, flags (w_sg w' s) = flags (w_sg w s).

Lemma rest_refl : forall {U} (w : world U), rest w w.
Proof. repeat split; auto. Qed.
Lemma rest_trans : forall {U} (a b c : world U), rest a b -> rest b c -> rest a c.
Proof.
  intros U a b c (H1 & H2 & H3 & H4) (K1 & K2 & K3 & K4).
  repeat split; try congruence.
Qed.
Lemma rest_upd : forall {U} s f (a b : world U), rest a b ->
  (forall st, flags (f st) = flags st) -> rest a (upd s f b).
Proof.
  intros U s f a b H Hs. eapply rest_trans; [exact H|]. repeat split; auto.
  intros x. destruct (Nat.eq_dec x s) as [->|Hx]; [rewrite upd_same|rewrite upd_other]; auto.
Qed.
Lemma rest_world : forall {U} (w w' : world U), w_sg w' = w_sg w -> w_me w' = w_me w ->
  w_hook w' = w_hook w -> w_usr w' = w_usr w -> rest w w'.
Proof. intros U w w' H1 H2 H3 H4. repeat split; auto. now rewrite H1. Qed.
Lemma rest_fold : forall {U B} (f : world U -> B -> world U) l (a b : world U),
  rest a b -> (forall w x, rest w (f w x)) -> rest a (fold_left f l b).
Proof.
  intros U B f l a b H Hf. revert b H; induction l as [|x l IH]; intros b H; cbn; [exact H|].
  apply IH. eapply rest_trans; eauto.
Qed.
Lemma append_flags : forall c st, flags (append_slot_base c st) = flags st.
Proof. intros. unfold append_slot_base. destruct (negb _); [destruct (Z.eqb _ _)|]; reflexivity. Qed.

Section R.
Context {U : Type} (E : env U).
Implicit Types w : world U.

Lemma rest_connect_relay : forall r ms w, rest w (connect_relay r ms w).
Proof.
  intros. unfold connect_relay. apply rest_fold; [apply rest_refl|].
  intros w1 [n m]; cbn. unfold connect_relay1. destruct (has_key _ _); [apply rest_refl|].
  apply rest_upd; [|intros; apply append_flags]. apply rest_world; reflexivity.
Qed.
Lemma rest_disconnect_relay : forall r ms w, rest w (disconnect_relay r ms w).
Proof.
  intros. unfold disconnect_relay. apply rest_fold; [apply rest_refl|].
  intros w1 [n m]; cbn. unfold disconnect_relay1. destruct (remove_first _ _); [|apply rest_refl].
  apply rest_upd; [apply rest_refl|reflexivity].
Qed.
Lemma rest_after_remove : forall s w, rest w (after_remove s w).
Proof.
  intros. unfold after_remove. destruct (s_members _); [|apply rest_refl].
  destruct (s_slots _); [apply rest_disconnect_relay|apply rest_refl].
Qed.
Lemma rest_remove_all : forall s w, rest w (remove_all s w).
Proof.
  intros. unfold remove_all. eapply rest_trans; [|apply rest_after_remove].
  apply rest_upd; [apply rest_refl|reflexivity].
Qed.
Lemma rest_remove_key : forall s k w w', remove_key s k w = Some w' -> rest w w'.
Proof.
  intros s k w w' H. unfold remove_key in H. destruct (remove_first _ _); [|discriminate].
  injection H as <-. eapply rest_trans; [|apply rest_after_remove].
  apply rest_upd; [apply rest_refl|reflexivity].
Qed.
Lemma rest_try_discard : forall s k mo w, rest w (fst (try_discard s k mo w)).
Proof.
  intros. unfold try_discard. destruct (remove_key _ _ _) eqn:H; [|apply rest_refl].
  eapply rest_remove_key; eauto.
Qed.
Lemma rest_add_wcb : forall s c w, rest w (add_wcb s c w).
Proof.
  intros s c w. unfold add_wcb, append_slot.
  match goal with |- rest w ?g => set (goal := g) end.
  set (w2 := match w_ref c with Some _ => _ | None => _ end) in goal.
  assert (H2 : rest w w2) by (unfold w2; destruct (w_ref c); apply rest_world; reflexivity).
  assert (H3 : rest w (upd s (append_slot_base c) w2))
    by (apply rest_upd; [exact H2|intros; apply append_flags]).
  unfold goal. destruct (s_members _); [|exact H3]. destruct (Nat.eqb _ _); [|exact H3].
  eapply rest_trans; [exact H3|apply rest_connect_relay].
Qed.
Lemma rest_connect : forall s c o w w' r, connect E s c o w = (w', r) -> rest w w'.
Proof.
  intros s c o w w' r H. unfold connect in H.
  repeat (match type of H with
          | context [match ?x with _ => _ end] => destruct x
          end; try (injection H as <- _; apply rest_refl)).
  all: injection H as <- _; apply rest_add_wcb.
Qed.
Lemma rest_disconnect_base : forall s r mo w w' o,
  disconnect_base E s r mo w = (w', o) -> rest w w'.
Proof.
  intros s r mo w w' o H. unfold disconnect_base in H.
  destruct r as [r|]; [|injection H as <- _; apply rest_remove_all].
  destruct (key_of_ref E r); [|injection H as <- _; apply rest_refl].
  destruct (remove_key _ _ _) eqn:HR; injection H as <- _;
    [eapply rest_remove_key; eauto|apply rest_refl].
Qed.
Lemma rest_disconnect_each : forall ms r mo w w' o,
  disconnect_each E ms r mo w = (w', o) -> rest w w'.
Proof.
  induction ms as [|[nm m] ms IH]; intros r mo w w' o H; cbn in H.
  - injection H as <- _; apply rest_refl.
  - destruct (disconnect_base E m r mo w) as [w1 [v|e|]] eqn:EB; apply rest_disconnect_base in EB.
    + eapply rest_trans; [exact EB|]. eapply IH; eauto.
    + injection H as <- _; exact EB.
    + injection H as <- _; exact EB.
Qed.
Lemma rest_disconnect : forall s r mo w w' o, disconnect E s r mo w = (w', o) -> rest w w'.
Proof.
  intros s r mo w w' o H. unfold disconnect in H.
  destruct (s_members (w_sg w s)) as [ms|]; [|eapply rest_disconnect_base; eauto].
  destruct (disconnect_each E ms r mo w) as [w1 [v|e|]] eqn:EB; apply rest_disconnect_each in EB.
  + eapply rest_trans; [exact EB|]. eapply rest_disconnect_base; eauto.
  + injection H as <- _; exact EB.
  + injection H as <- _; exact EB.
Qed.
Lemma rest_connect_each : forall ms c o w w' r, connect_each E ms c o w = (w', r) -> rest w w'.
Proof.
  induction ms as [|[nm m] ms IH]; intros c o w w' r H; cbn in H.
  - injection H as <- _; apply rest_refl.
  - destruct (connect E m c o w) as [w1 [v|e|]] eqn:EB; apply rest_connect in EB.
    + eapply rest_trans; [exact EB|]. eapply IH; eauto.
    + injection H as <- _; exact EB.
    + injection H as <- _; exact EB.
Qed.
Lemma rest_kill : forall o w, rest w (kill o w).
Proof.
  intros o w. unfold kill. destruct (w_dead w o); [apply rest_refl|].
  apply rest_fold; [apply rest_world; reflexivity|].
  intros. unfold finalize1. apply rest_try_discard.
Qed.

(** Calls about connections. *)
Definition is_conn (o : op U) : bool :=
  match o with
  | OConnect _ _ _ | OConnectDirect _ _ _ | OConnectSetattr _ _ _ _ _ _
  | OConnectSetitem _ _ _ _ _ _ | ODisconnect _ _ _ | ODisconnectSetattr _ _ _ _
  | ODisconnectSetitem _ _ _ _ | OKill _ => true
  | _ => false
  end.
Theorem conn_rest : forall o w w' r, is_conn o = true -> pure_step E o w = Some (w', r) -> rest w w'.
Proof.
  intros o w w' r Hp H. destruct o; try discriminate Hp; unfold pure_step in H;
    cbn [step] in H; unfold lift in H.
  - injection H as H. eapply rest_connect; eauto.
  - injection H as H. unfold connect_direct in H.
    destruct (s_members (w_sg w r0)) as [ms|]; [|injection H as <- _; apply rest_refl].
    eapply rest_connect_each; eauto.
  - injection H as H. unfold connect_setattr in H.
    destruct (w_dead w ob); [injection H as <- _; apply rest_refl|].
    destruct (negb _); [injection H as <- _; apply rest_refl|].
    destruct (weak_setattr _ _ _ _ _ _ _); injection H as <- _; [apply rest_add_wcb|apply rest_refl].
  - injection H as H. unfold connect_setitem in H.
    destruct (w_dead w ob); [injection H as <- _; apply rest_refl|].
    destruct (negb _); [injection H as <- _; apply rest_refl|].
    destruct (weak_setitem _ _ _ _ _ _ _); injection H as <- _; [apply rest_add_wcb|apply rest_refl].
  - injection H as H. eapply rest_disconnect; eauto.
  - injection H as H. pose proof (rest_try_discard s (KSetattr ob a) missing_ok w) as HT.
    rewrite H in HT. exact HT.
  - destruct (e_hasattr E ob "__setitem__").
    + injection H as H. pose proof (rest_try_discard s (KSetitem ob k) missing_ok w) as HT.
      rewrite H in HT. exact HT.
    + injection H as <- _; apply rest_refl.
  - injection H as <- _. apply rest_kill.
Qed.

Lemma block_me : forall s excl w, w_me (block s excl w) = w_me w /\ w_usr (block s excl w) = w_usr w
  /\ w_hook (block s excl w) = w_hook w.
Proof.
  intros s excl w. unfold block. destruct (s_members _) as [ms|]; [|auto].
  assert (H : forall l (a : world U), w_me (fold_left (block_member s excl) l a) = w_me a
     /\ w_usr (fold_left (block_member s excl) l a) = w_usr a
     /\ w_hook (fold_left (block_member s excl) l a) = w_hook a).
  { induction l as [|[n m] l IH]; intros a; cbn [fold_left]; [auto|].
    destruct (IH (block_member s excl a (n, m))) as (-> & -> & ->).
    unfold block_member. destruct (excluded _ _ _); auto. }
  destruct (H ms (upd s (set_blocked true) w)) as (-> & -> & ->). auto.
Qed.
Lemma unblock_me : forall s w, w_me (unblock s w) = w_me w /\ w_usr (unblock s w) = w_usr w
  /\ w_hook (unblock s w) = w_hook w.
Proof.
  intros s w. unfold unblock. destruct (s_members _) as [ms|]; [|auto].
  assert (H : forall l (a : world U), w_me (fold_left (unblock_member s) l a) = w_me a
     /\ w_usr (fold_left (unblock_member s) l a) = w_usr a
     /\ w_hook (fold_left (unblock_member s) l a) = w_hook a).
  { induction l as [|[n m] l IH]; intros a; cbn [fold_left]; [auto|].
    destruct (IH (unblock_member s a (n, m))) as (-> & -> & ->).
    unfold unblock_member.
    destruct (match assoc_get _ _ with Some b => b | None => false end); auto. }
  destruct (H ms (upd s (set_blocked false) w)) as (-> & -> & ->). auto.
Qed.

Definition is_thread (o : op U) : bool := match o with OThread _ => true | _ => false end.
Theorem pure_me : forall o w w' r, is_pure o = true -> is_thread o = false ->
  pure_step E o w = Some (w', r) -> w_me w' = w_me w.
Proof.
  intros o w w' r Hp Ht H. destruct (is_conn o) eqn:Hc; [eapply conn_rest in H; [apply H|exact Hc]|].
  destruct o; try discriminate; unfold pure_step in H; cbn [step] in H; unfold lift in H;
    try (injection H as <- _; reflexivity).
  - injection H as <- _. apply block_me.
  - injection H as <- _. apply unblock_me.
  - destruct (f (w_usr w)) as [u [v|e]]; injection H as <- _; reflexivity.
Qed.
End R.
