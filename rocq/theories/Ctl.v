(** Blocking and pausing: which calls leave these settings of a signal alone.
    Proof infrastructure; models no code. *)

From Verif Require Import Base Core Frame Fuel Conn Keep Spec.

Section Proj.
Context {X : Type} (f : sigst -> X).
Hypothesis Hs : forall l st, f (set_slots l st) = f st.
Hypothesis Hp : forall b st, f (set_prio b st) = f st.

(** All signals have the same [f]. *)
Definition fsame {U} (w w' : world U) : Prop := forall x, f (w_sg w' x) = f (w_sg w x).
Lemma fsame_refl : forall {U} (w : world U), fsame w w.
Proof. intros U w x. reflexivity. Qed.
Lemma fsame_trans : forall {U} (a b c : world U), fsame a b -> fsame b c -> fsame a c.
Proof. intros U a b c H1 H2 x. rewrite H2. apply H1. Qed.
Lemma fsame_upd : forall {U} s g (w : world U), f (g (w_sg w s)) = f (w_sg w s) -> fsame w (upd s g w).
Proof. intros U s g w H x. destruct (Nat.eq_dec x s) as [->|]; [now rewrite upd_same|now rewrite upd_other]. Qed.
Lemma fsame_fold : forall {U B} (g : world U -> B -> world U) l (w : world U),
  (forall w b, fsame w (g w b)) -> fsame w (fold_left g l w).
Proof.
  intros U B g l w Hg. revert w; induction l as [|b l IH]; intros w; cbn; [apply fsame_refl|].
  eapply fsame_trans; [apply Hg|apply IH].
Qed.
Lemma f_append : forall c st, f (append_slot_base c st) = f st.
Proof.
  intros c st. unfold append_slot_base. destruct (negb _); [|apply Hs].
  destruct (Z.eqb _ _); [apply Hs|]. now rewrite Hs, Hp.
Qed.
Lemma fsame_connect_relay : forall {U} r ms (w : world U), fsame w (connect_relay r ms w).
Proof.
  intros U r ms w. apply fsame_fold. clear w. intros w [n m]. cbn [snd]. unfold connect_relay1.
  destruct (has_key _ _); [apply fsame_refl|]. eapply fsame_trans; [|apply fsame_upd, f_append].
  intros x. reflexivity.
Qed.
Lemma fsame_disconnect_relay : forall {U} r ms (w : world U), fsame w (disconnect_relay r ms w).
Proof.
  intros U r ms w. apply fsame_fold. clear w. intros w [n m]. cbn [snd]. unfold disconnect_relay1.
  destruct (remove_first _ _); [|apply fsame_refl]. apply fsame_upd, Hs.
Qed.
Lemma fsame_after_remove : forall {U} s (w : world U), fsame w (after_remove s w).
Proof.
  intros U s w. unfold after_remove. destruct (s_members (w_sg w s)); [|apply fsame_refl].
  destruct (s_slots (w_sg w s)); [apply fsame_disconnect_relay|apply fsame_refl].
Qed.
Lemma fsame_remove_all : forall {U} s (w : world U), fsame w (remove_all s w).
Proof. intros. unfold remove_all. eapply fsame_trans; [apply fsame_upd, Hs|apply fsame_after_remove]. Qed.
Lemma fsame_remove_key : forall {U} s k (w w' : world U), remove_key s k w = Some w' -> fsame w w'.
Proof.
  intros U s k w w' H. unfold remove_key in H. destruct (remove_first _ _); [|discriminate].
  injection H as <-. eapply fsame_trans; [apply fsame_upd, Hs|apply fsame_after_remove].
Qed.
Lemma fsame_try_discard : forall {U} s k mo (w : world U), fsame w (fst (try_discard s k mo w)).
Proof.
  intros. unfold try_discard. destruct (remove_key _ _ _) eqn:H; [|apply fsame_refl].
  eapply fsame_remove_key; eauto.
Qed.
Lemma fsame_add_wcb : forall {U} s c (w : world U), fsame w (add_wcb s c w).
Proof.
  intros U s c w. unfold add_wcb, append_slot.
  match goal with |- fsame w ?g => set (goal := g) end.
  set (w2 := match w_ref c with Some _ => _ | None => _ end) in goal.
  assert (H2 : fsame w w2) by (unfold w2; destruct (w_ref c); intros x; reflexivity).
  assert (H3 : fsame w (upd s (append_slot_base c) w2)).
  { eapply fsame_trans; [exact H2|apply fsame_upd, f_append]. }
  unfold goal. destruct (s_members _); [|exact H3]. destruct (Nat.eqb _ _); [|exact H3].
  eapply fsame_trans; [exact H3|apply fsame_connect_relay].
Qed.
Lemma fsame_connect : forall {U} (E : env U) s c o (w w' : world U) r,
  connect E s c o w = (w', r) -> fsame w w'.
Proof.
  intros U E s c o w w' r H. unfold connect in H.
  repeat (match type of H with
          | context [match ?x with _ => _ end] => destruct x
          end; try (injection H as <- _; apply fsame_refl)).
  all: injection H as <- _; apply fsame_add_wcb.
Qed.
Lemma fsame_disconnect_base : forall {U} (E : env U) s r mo (w w' : world U) o,
  disconnect_base E s r mo w = (w', o) -> fsame w w'.
Proof.
  intros U E s r mo w w' o H. unfold disconnect_base in H.
  destruct r as [r|]; [|injection H as <- _; apply fsame_remove_all].
  destruct (key_of_ref E r); [|injection H as <- _; apply fsame_refl].
  destruct (remove_key _ _ _) eqn:HR; injection H as <- _;
    [eapply fsame_remove_key; eauto|apply fsame_refl].
Qed.
Lemma fsame_disconnect : forall {U} (E : env U) s r mo (w w' : world U) o,
  disconnect E s r mo w = (w', o) -> fsame w w'.
Proof.
  assert (HE : forall U (E : env U) ms r mo (w w' : world U) o,
    disconnect_each E ms r mo w = (w', o) -> fsame w w').
  { induction ms as [|[nm m] ms IH]; intros r mo w w' o H; cbn in H.
    - injection H as <- _; apply fsame_refl.
    - destruct (disconnect_base E m r mo w) as [w1 [v|e|]] eqn:EB; apply fsame_disconnect_base in EB.
      + eapply fsame_trans; [exact EB|]. eapply IH; eauto.
      + injection H as <- _; exact EB.
      + injection H as <- _; exact EB. }
  intros U E s r mo w w' o H. unfold disconnect in H.
  destruct (s_members (w_sg w s)) as [ms|]; [|eapply fsame_disconnect_base; eauto].
  destruct (disconnect_each E ms r mo w) as [w1 [v|e|]] eqn:EB; apply HE in EB.
  + eapply fsame_trans; [exact EB|]. eapply fsame_disconnect_base; eauto.
  + injection H as <- _; exact EB.
  + injection H as <- _; exact EB.
Qed.
Lemma fsame_kill : forall {U} o (w : world U), fsame w (kill o w).
Proof.
  intros U o w. unfold kill. destruct (w_dead w o); [apply fsame_refl|].
  eapply fsame_trans; [|apply fsame_fold; intros; unfold finalize1; apply fsame_try_discard].
  intros x. reflexivity.
Qed.
Lemma fsame_pure : forall {U} (E : env U) o (w w' : world U) r, is_pure o = true ->
  match o with OBlock _ _ | OUnblock _ | OPause _ => False | _ => True end ->
  pure_step E o w = Some (w', r) -> fsame w w'.
Proof.
  intros U E o w w' r Hpu Hn H. destruct o; try discriminate Hpu; try contradiction; unfold pure_step in H;
    cbn [step] in H; unfold lift in H;
    try (injection H as <- _; intros x; reflexivity).
  - injection H as H. eapply fsame_connect; eauto.
  - injection H as H. unfold connect_direct in H.
    destruct (s_members (w_sg w r0)) as [ms|]; [|injection H as <- _; apply fsame_refl].
    remember (Copts _ _ _ _ _ _ _) as oo. clear Heqoo. revert w H.
    induction ms as [|[nm m] ms IH]; intros w H; cbn in H.
    + injection H as <- _; apply fsame_refl.
    + destruct (connect E m c oo w) as [w1 [v|e|]] eqn:EC; apply fsame_connect in EC.
      * eapply fsame_trans; [exact EC|]. now apply IH.
      * injection H as <- _. exact EC.
      * injection H as <- _. exact EC.
  - injection H as H. unfold connect_setattr in H.
    destruct (w_dead w ob); [injection H as <- _; apply fsame_refl|].
    destruct (negb _); [injection H as <- _; apply fsame_refl|].
    destruct (weak_setattr _ _ _ _ _ _ _); injection H as <- _; [apply fsame_add_wcb|apply fsame_refl].
  - injection H as H. unfold connect_setitem in H.
    destruct (w_dead w ob); [injection H as <- _; apply fsame_refl|].
    destruct (negb _); [injection H as <- _; apply fsame_refl|].
    destruct (weak_setitem _ _ _ _ _ _ _); injection H as <- _; [apply fsame_add_wcb|apply fsame_refl].
  - injection H as H. eapply fsame_disconnect; eauto.
  - injection H as H. pose proof (fsame_try_discard s (KSetattr ob a) missing_ok w) as HT.
    rewrite H in HT. exact HT.
  - destruct (e_hasattr E ob "__setitem__").
    + injection H as H. pose proof (fsame_try_discard s (KSetitem ob k) missing_ok w) as HT.
      rewrite H in HT. exact HT.
    + injection H as <- _; apply fsame_refl.
  - injection H as <- _. apply fsame_kill.
  - destruct (f0 (w_usr w)) as [u [v|e]]; injection H as <- _; intros x; reflexivity.
Qed.
End Proj.

(** Blocking [x] changes settings of [x] and its members only. *)
Lemma block_other : forall {U} x excl (w : world U) s, s <> x -> ~ In s (members_of w x) ->
  w_sg (block x excl w) s = w_sg w s.
Proof.
  intros U x excl w s Hx Hm. unfold block, members_of in *.
  destruct (s_members (w_sg w x)) as [ms|]; [|now rewrite upd_other].
  assert (H : forall w0 : world U, w_sg (fold_left (block_member x excl) ms w0) s = w_sg w0 s).
  { induction ms as [|[n m] ms IH]; intros w0; cbn [fold_left]; [reflexivity|]. cbn in Hm.
    rewrite IH by tauto. unfold block_member. destruct (excluded n m excl); [reflexivity|].
    rewrite !upd_other by (intros ->; tauto). reflexivity. }
  rewrite H. now rewrite upd_other.
Qed.
Lemma unblock_other : forall {U} x (w : world U) s, s <> x -> ~ In s (members_of w x) ->
  w_sg (unblock x w) s = w_sg w s.
Proof.
  intros U x w s Hx Hm. unfold unblock, members_of in *.
  destruct (s_members (w_sg w x)) as [ms|]; [|now rewrite upd_other].
  assert (H : forall w0 : world U, w_sg (fold_left (unblock_member x) ms w0) s = w_sg w0 s).
  { induction ms as [|[n m] ms IH]; intros w0; cbn [fold_left]; [reflexivity|]. cbn in Hm.
    rewrite IH by tauto. unfold unblock_member.
    destruct (match assoc_get _ _ with Some b => b | None => false end);
      rewrite !upd_other by (intros ->; tauto); reflexivity. }
  rewrite H. now rewrite upd_other.
Qed.
(** A block or unblock changes neither members nor connections. *)
Lemma block_members : forall {U} x excl (w : world U) s, s_members (w_sg (block x excl w) s) = s_members (w_sg w s).
Proof. intros. apply (proj2 (proj2 (proj1 (conn_same_block x excl w) s))). Qed.
Lemma unblock_members : forall {U} x (w : world U) s, s_members (w_sg (unblock x w) s) = s_members (w_sg w s).
Proof. intros. apply (proj2 (proj2 (proj1 (conn_same_unblock x w) s))). Qed.

(** ** [exec] of a program with an exception handler *)

Lemma exec_catch : forall {U} (E : env U) n p k w w' r, exec E n (catch p k) w = Some (w', r) ->
  exists m1 w1 r1, m1 <= n /\ exec E m1 p w = Some (w1, r1)
    /\ match r1 with
       | Ok v => exists m2, m2 <= n /\ exec E m2 (k (inl v)) w1 = Some (w', r)
       | Err e => exists m2, m2 <= n /\ exec E m2 (k (inr e)) w1 = Some (w', r)
       | Halted => w' = w1 /\ r = Halted
       end.
Proof.
  intros U E. induction n as [|n IH]; intros p k w w' r H; [discriminate|].
  destruct p as [v|e| |f|o f]; cbn [catch] in H.
  - exists (S n), w, (Ok v). split; [lia|]. split; [reflexivity|]. exists (S n). auto.
  - exists (S n), w, (Err e). split; [lia|]. split; [reflexivity|]. exists (S n). auto.
  - injection H as <- <-. exists (S n), w, Halted. auto.
  - cbn [exec] in H. apply IH in H as (m1 & w1 & r1 & Hm & HX & H). exists (S m1), w1, r1.
    split; [lia|]. split; [exact HX|]. destruct r1; [destruct H as (m2 & ? & ?); exists m2; split; [lia|auto]..|auto].
  - cbn [exec] in H. destruct (step (exec E n) E n o w) as [[w2 [v|e|]]|] eqn:HS; try discriminate.
    + apply IH in H as (m1 & w1 & r1 & Hm & HX & H). exists (S n), w1, r1.
      split; [lia|]. split; [cbn [exec]; rewrite HS; eapply exec_mono; [|exact HX]; lia|].
      destruct r1; [destruct H as (m2 & ? & ?); exists m2; split; [lia|auto]..|auto].
    + apply IH in H as (m1 & w1 & r1 & Hm & HX & H). exists (S n), w1, r1.
      split; [lia|]. split; [cbn [exec]; rewrite HS; eapply exec_mono; [|exact HX]; lia|].
      destruct r1; [destruct H as (m2 & ? & ?); exists m2; split; [lia|auto]..|auto].
    + injection H as <- <-. exists (S n), w2, Halted. split; [lia|]. split; [cbn [exec]; now rewrite HS|auto].
Qed.
Lemma exec_pure : forall {U} (E : env U) n o k w w' r, is_pure o = true ->
  exec E n (Do o k) w = Some (w', r) ->
  exists m w1 r1, n = S m /\ pure_step E o w = Some (w1, r1)
    /\ match r1 with
       | Ok v => exec E m (k (inl v)) w1 = Some (w', r)
       | Err e => exec E m (k (inr e)) w1 = Some (w', r)
       | Halted => False
       end.
Proof.
  intros U E [|n] o k w w' r Hp H; [discriminate|]. cbn [exec] in H. rewrite step_pure in H by exact Hp.
  destruct (pure_step E o w) as [[w1 r1]|] eqn:HS; [|discriminate]. exists n, w1, r1. repeat split.
  destruct r1; auto. eapply pure_not_halted; eauto.
Qed.

(** ** Relations between the settings of one signal before and after *)

(** Everything about a signal except its connections and running emissions. *)
Definition ctl (st : sigst) :=
  (s_blocked st, s_paused st, s_args st, s_mode st, s_params st, s_chkn st, s_chkt st, s_members st, s_wasb st).

Section OneSignal.
Context {U : Type} (E : env U) (A : op U -> Prop) (L : sid -> Prop) (s : sid) (R : sigst -> sigst -> Prop).
Hypothesis Rctl : forall st st', ctl st' = ctl st -> R st st'.
Hypothesis Rtrans : forall a b c, R a b -> R b c -> R a c.
Hypothesis Rblock : forall o w w' r, A o ->
  match o with OBlock _ _ | OUnblock _ | OPause _ => True | _ => False end ->
  pure_step E o w = Some (w', r) -> R (w_sg w s) (w_sg w' s).
Hypothesis Lemit : forall x args cn ct, A (OEmit x args cn ct) -> L x.
Hypothesis Lfast : forall x args, A (OEmitFast x args) -> L x.
Hypothesis Lresume : forall x rd, A (OResume x rd) -> L x.
Hypothesis Rargs : forall st l, L s -> s_paused st = true -> R st (set_args l st).
Hypothesis Rclear : forall st rd, A (OResume s rd) -> R st (set_args [] st).
Hypothesis Rpaused : forall st rd, A (OResume s rd) -> R st (set_paused false st).

Definition one (w w' : world U) (_ : out) : Prop := R (w_sg w s) (w_sg w' s).

Lemma ctl_slots : forall l st, ctl (set_slots l st) = ctl st. Proof. reflexivity. Qed.
Lemma ctl_prio : forall b st, ctl (set_prio b st) = ctl st. Proof. reflexivity. Qed.

Lemma one_same : forall w w' r, fsame ctl w w' -> one w w' r.
Proof. intros w w' r H. apply Rctl, H. Qed.
Lemma one_trans : forall a b c r r', one a b r -> one b c r' -> one a c r'.
Proof. intros a b c r r'. apply Rtrans. Qed.

Lemma framed_one : framed E A L one (fun _ _ => one).
Proof.
  split; auto.
  - intros w r. apply one_same, fsame_refl.
  - intros a b c r r' H1 _ H2. eapply one_trans; eauto.
  - intros _ _ w r. apply one_same, fsame_refl.
  - intros _ _ a b c r r' H1 _ H2. eapply one_trans; eauto.
  - intros o w w' r HA Hp H.
    destruct o; try (apply one_same; eapply (fsame_pure ctl ctl_slots ctl_prio); eauto; exact I);
      (eapply Rblock; [exact HA|exact I|exact H]).
  - intros x args w r _. apply one_same. intros y; reflexivity.
  - intros x args w r HL Hp. unfold one. destruct (Nat.eq_dec s x) as [<-|Hne];
      [rewrite upd_same; auto|rewrite upd_other by assumption; apply Rctl; reflexivity].
  - intros h x args w r _. apply one_same. intros y; reflexivity.
  - intros x args w r _ _ _. apply one_same. intros y. cbn [log w_sg set_tr]. apply fsame_upd. reflexivity.
  - intros x args w w' r _ _ _ H.
    assert (H0 : forall r, one w (started x args w) r).
    { intros r0. apply one_same. intros y. unfold started, entered, enter.
      destruct (s_mode (w_sg w x)) eqn:Em; cbn [log w_sg set_tr set_cur];
        (destruct (Nat.eq_dec y x) as [->|Hne];
         [repeat first [rewrite upd_same | progress cbn [log w_sg set_tr set_cur set_nxt]]; reflexivity
         |repeat first [rewrite upd_other by assumption | progress cbn [log w_sg set_tr set_cur set_nxt]]; reflexivity]). }
    assert (HL : forall r, one w' (leave x (w_cur w) (log (EEnd (w_nxt w) x) w')) r).
    { intros r0. apply one_same. unfold leave. intros y. destruct (Nat.eq_dec y x) as [->|Hne].
      * rewrite upd_same. cbn. destruct (Nat.leb _ 0); reflexivity.
      * rewrite upd_other by assumption. reflexivity. }
    destruct r.
    + eapply one_trans; [apply (H0 (Ok v))|]. eapply one_trans; [exact H|apply (HL (Ok VNone))].
    + eapply one_trans; [apply (H0 (Err e))|]. eapply one_trans; [exact H|apply (HL (Ok VNone))].
    + eapply one_trans; [apply (H0 (Ok VNone))|exact H].
  - intros x args w w' r _ _ H _.
    assert (H0 : forall r, one w (started_fast x args w) r).
    { intros r0. apply one_same. intros y. unfold started_fast.
      cbn [log w_sg set_tr]. destruct (Nat.eq_dec y x) as [->|Hne];
        [rewrite upd_same|rewrite upd_other by assumption]; reflexivity. }
    assert (HL : forall r, one w' (left_fast x (log (EEnd (w_nxt w) x) w')) r).
    { intros r0. apply one_same. intros y. unfold left_fast. destruct (Nat.eq_dec y x) as [->|Hne].
      * rewrite upd_same. cbn [log w_sg set_tr]. destruct (Nat.ltb 0 _); reflexivity.
      * rewrite upd_other by assumption. reflexivity. }
    destruct r.
    + eapply one_trans; [apply (H0 (Ok v))|]. eapply one_trans; [exact H|apply (HL (Ok VNone))].
    + eapply one_trans; [apply (H0 (Err e))|]. eapply one_trans; [exact H|apply (HL (Ok VNone))].
    + eapply one_trans; [apply (H0 (Ok VNone))|exact H].
  - intros eid x c a w w' r _ H _. destruct r; exact H.
  - intros eid x c a w w' r _ H. destruct r; exact H.
  - intros eid x c t args w r _ _ _. apply one_same. intros y. reflexivity.
  - intros x rd w r _ HA. unfold one. destruct (Nat.eq_dec s x) as [<-|Hne];
      [rewrite upd_same; eauto|rewrite upd_other by assumption; apply Rctl; reflexivity].
  - intros x rd w r _ HA. unfold one. destruct (Nat.eq_dec s x) as [<-|Hne];
      [rewrite upd_same; eauto|rewrite upd_other by assumption; apply Rctl; reflexivity].
  - intros t eid x c args q w r _. apply one_same. intros y. reflexivity.
Qed.
End OneSignal.
