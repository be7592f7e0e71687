(** The key of a connection is determined by what it calls.  Proof infrastructure; models no
    code. *)

From Verif Require Import Base Core Frame Fuel Conn Keep Spec Trace Inv Dead.

Section Made.
Context {U : Type} (E : env U).
Implicit Types w : world U.

Definition made (c : wcb) : Prop :=
  match w_target c with
  | TFun f _ _ => w_key c = KFunc f
  | TObj o _ _ => w_key c = KObj o
  | TMeth o f _ _ => w_key c = KBound o (e_fname E f)
  | TBuiltin o n _ => w_key c = KBound o n
  | TSetattr o a => w_key c = KSetattr o a
  | TSetitem o k => w_key c = KSetitem o k
  | TRelay r => w_key c = KRelay r
  end.
Definition all_made w : Prop := forall s c, In c (s_slots (w_sg w s)) -> made c.

Lemma append_In : forall c st x, In x (s_slots (append_slot_base c st)) -> x = c \/ In x (s_slots st).
Proof.
  intros c st x. unfold append_slot_base. destruct (s_prio st); cbn; [apply insert_prio_In|].
  destruct (Z.eqb _ _); cbn; [|apply insert_prio_In]. intros H. apply in_app_or in H as [H|[<-|[]]]; auto.
Qed.
Lemma made_upd : forall s f w, (forall x, In x (s_slots (f (w_sg w s))) -> made x \/ In x (s_slots (w_sg w s))) ->
  all_made w -> all_made (upd s f w).
Proof.
  intros s f w H HW x c Hc. dec_sid x s; [rewrite upd_same in Hc|rewrite upd_other in Hc by assumption; eauto].
  destruct (H c Hc); eauto.
Qed.
Lemma made_connect_relay : forall r ms w, all_made w -> all_made (connect_relay r ms w).
Proof.
  intros r ms. unfold connect_relay. induction ms as [|[n m] ms IH]; intros w HW; [exact HW|].
  cbn [fold_left snd]. apply IH. unfold connect_relay1. destruct (has_key _ _); [exact HW|].
  apply made_upd; [|exact HW]. intros x Hx. apply append_In in Hx as [->|Hx]; [now left|now right].
Qed.
Lemma made_disconnect_relay : forall r ms w, all_made w -> all_made (disconnect_relay r ms w).
Proof.
  intros r ms. unfold disconnect_relay. induction ms as [|[n m] ms IH]; intros w HW; [exact HW|].
  cbn [fold_left snd]. apply IH. unfold disconnect_relay1. destruct (remove_first _ _) eqn:R; [|exact HW].
  apply made_upd; [|exact HW]. intros x Hx. right. eapply remove_first_In; eauto.
Qed.
Lemma made_after_remove : forall s w, all_made w -> all_made (after_remove s w).
Proof.
  intros s w HW. unfold after_remove. destruct (s_members _); [|exact HW].
  destruct (s_slots _); [now apply made_disconnect_relay|exact HW].
Qed.
Lemma made_remove_all : forall s w, all_made w -> all_made (remove_all s w).
Proof. intros s w HW. apply made_after_remove, made_upd; [|exact HW]. intros x []. Qed.
Lemma made_remove_key : forall s k w w', remove_key s k w = Some w' -> all_made w -> all_made w'.
Proof.
  intros s k w w' H HW. unfold remove_key in H. destruct (remove_first _ _) eqn:R; [|discriminate].
  injection H as <-. apply made_after_remove, made_upd; [|exact HW].
  intros x Hx. right. eapply remove_first_In; eauto.
Qed.
Lemma made_add : forall s c w, made c -> all_made w -> all_made (add_wcb s c w).
Proof.
  intros s c w Hc HW. unfold add_wcb, append_slot.
  set (w2 := match w_ref c with Some _ => _ | None => _ end).
  assert (H2 : all_made w2) by (unfold w2; destruct (w_ref c); exact HW).
  assert (H3 : all_made (upd s (append_slot_base c) w2)).
  { apply made_upd; [|exact H2]. intros x Hx. apply append_In in Hx as [->|Hx]; auto. }
  destruct (s_members _); [|exact H3]. destruct (Nat.eqb _ _); [|exact H3]. now apply made_connect_relay.
Qed.
Lemma weak_callback_made : forall c m rc p uid x t, weak_callback E c m rc p uid = inl x -> made (set_thread t x).
Proof.
  intros c m rc p uid x t H. unfold weak_callback, weak_setattr, weak_setitem in H.
  destruct (callable_base c) eqn:HB; repeat
    match type of H with
    | (match ?t with _ => _ end) = _ => destruct t; try discriminate
    end; try (injection H as <-; reflexivity).
Qed.
Lemma made_connect : forall s c o w w' x, connect E s c o w = (w', x) -> all_made w -> all_made w'.
Proof.
  intros s c o w w' x H HW. unfold connect in H.
  repeat match type of H with
    | (match ?t with _ => _ end) = _ => destruct t eqn:?; try (injection H as <- _; exact HW)
    | (if ?t then _ else _) = _ => destruct t eqn:?; try (injection H as <- _; exact HW)
    end; injection H as <- _; apply made_add; auto; eapply weak_callback_made; eauto.
Qed.
Lemma made_connect_each : forall ms c o w w' x, connect_each E ms c o w = (w', x) -> all_made w -> all_made w'.
Proof.
  intros ms c o. induction ms as [|[n m] ms IH]; intros w w' x H HW; cbn in H.
  - now injection H as <- _.
  - destruct (connect E m c o w) as [w1 [v|e|]] eqn:K;
      pose proof (made_connect _ _ _ _ _ _ K HW); try (injection H as <- _; assumption). eauto.
Qed.
Lemma made_base : forall s rf mo w w' x, disconnect_base E s rf mo w = (w', x) -> all_made w -> all_made w'.
Proof.
  intros s rf mo w w' x H HW. unfold disconnect_base in H.
  destruct rf as [rf|]; [|injection H as <- _; now apply made_remove_all].
  destruct (key_of_ref E rf) as [k|e]; [|now injection H as <- _].
  destruct (remove_key s k w) as [w1|] eqn:HR; injection H as <- _; [|exact HW].
  eapply made_remove_key; eauto.
Qed.
Lemma made_each : forall ms rf mo w w' x, disconnect_each E ms rf mo w = (w', x) -> all_made w -> all_made w'.
Proof.
  intros ms rf mo. induction ms as [|[n m] ms IH]; intros w w' x H HW; cbn [disconnect_each] in H.
  - now injection H as <- _.
  - destruct (disconnect_base E m rf mo w) as [w1 [v|e|]] eqn:K;
      pose proof (made_base _ _ _ _ _ _ K HW); try (injection H as <- _; assumption). eauto.
Qed.
Lemma made_kill : forall o w, all_made w -> all_made (kill o w).
Proof.
  intros o w HW. unfold kill. destruct (w_dead w o); [exact HW|].
  set (w1 := set_refs _ _). assert (H1 : all_made w1) by exact HW.
  clearbody w1. revert w1 H1. induction (filter _ _) as [|[[x s] k] l IH]; intros w1 H1; [exact H1|].
  cbn [fold_left]. apply IH. unfold finalize1, try_discard. cbn.
  destruct (remove_key s k w1) as [w2|] eqn:K; [|exact H1]. cbn. eapply made_remove_key; eauto.
Qed.
Lemma made_same : forall w w', conn_same w w' -> all_made w -> all_made w'.
Proof. intros w w' (H & _) HW s c Hc. rewrite (proj1 (H s)) in Hc. eauto. Qed.

Lemma made_pure : forall o w w' x, is_pure o = true ->
  pure_step E o w = Some (w', x) -> all_made w -> all_made w'.
Proof.
  intros o w w' x Hp H HW. destruct o; try discriminate Hp; unfold pure_step in H;
    cbn [step] in H; unfold lift in H; try (injection H as <- _; exact HW).
  - injection H as H. eapply made_connect; eauto.
  - injection H as H. unfold connect_direct in H. destruct (s_members (w_sg w r)); [|now injection H as <- _].
    eapply made_connect_each; eauto.
  - injection H as H. unfold connect_setattr in H.
    destruct (w_dead w ob); [now injection H as <- _|].
    destruct (negb _); [now injection H as <- _|].
    destruct (weak_setattr _ _ _ _ _ _ _) eqn:HWk; injection H as <- _; [|exact HW].
    apply made_add; [|exact HW]. unfold weak_setattr in HWk.
    destruct (try_ref _ _ _); [|discriminate]. injection HWk as <-. reflexivity.
  - injection H as H. unfold connect_setitem in H.
    destruct (w_dead w ob); [now injection H as <- _|].
    destruct (negb _); [now injection H as <- _|].
    destruct (weak_setitem _ _ _ _ _ _ _) eqn:HWk; injection H as <- _; [|exact HW].
    apply made_add; [|exact HW]. unfold weak_setitem in HWk.
    destruct (try_ref _ _ _); [|discriminate]. injection HWk as <-. reflexivity.
  - injection H as H. unfold disconnect in H. destruct (s_members (w_sg w s)); [|eapply made_base; eauto].
    destruct (disconnect_each E _ _ _ w) as [w1 [v|e|]] eqn:K;
      pose proof (made_each _ _ _ _ _ _ K HW); try (injection H as <- _; assumption).
    eapply made_base; eauto.
  - injection H as H. unfold try_discard in H. destruct (remove_key _ _ w) eqn:K; injection H as <- _; [|exact HW].
    eapply made_remove_key; eauto.
  - destruct (e_hasattr E ob "__setitem__"); [|now injection H as <- _].
    injection H as H. unfold try_discard in H. destruct (remove_key _ _ w) eqn:K; injection H as <- _; [|exact HW].
    eapply made_remove_key; eauto.
  - injection H as <- _. eapply made_same; [apply conn_same_block|exact HW].
  - injection H as <- _. eapply made_same; [apply conn_same_unblock|exact HW].
  - injection H as <- _. eapply made_same; [|exact HW]. apply conn_same_upd; reflexivity.
  - injection H as <- _. now apply made_kill.
  - destruct (f (w_usr w)) as [u [v|e]]; injection H as <- _; (eapply made_same; [|exact HW]); repeat split; auto.
Qed.

Theorem reachable_made : forall w, reachable E w -> all_made w.
Proof.
  intros w (cfg & u & p & r & Hf & _ & HR).
  refine (frame_runs E (fun _ => True) (fun _ => True) (fun w w' _ => all_made w -> all_made w') _ _ _ _ _ _ _ _ HR _).
  - apply framed_conn; [exact made_same|]. intros o w1 w2 x _. apply made_pure.
  - apply env_all_true.
  - apply prog_all_true.
  - intros s c Hc. cbn in Hc. now rewrite (proj1 (Hf s)) in Hc.
Qed.
End Made.
