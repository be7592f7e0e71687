(** Emissions end when callbacks do not add connections.
    Proof infrastructure; models no code. *)

From Verif Require Import Base Core Spec Frame Fuel Conn Keep Trace Quiet Shrink.

(** The calls of a program that cannot run for ever: it emits signals of [S] only,
    connects nothing to them ([M r]: members of group [r]), resumes with a reducer only,
    and leaves the debug hook and library methods alone.  With [home], it stays in its thread and
    may call emit_queued() for it; otherwise it leaves thread queues alone. *)
Definition tame {U} (M : sid -> list sid) (S : list sid) (home : bool) (o : op U) : Prop :=
  match o with
  | OEmit s _ _ _ | OEmitFast s _ | ORelay s _ => In s S
  | OResume s rd => In s S /\ rd <> RNone
  | OConnect x _ _ | OConnectSetattr x _ _ _ _ _ | OConnectSetitem x _ _ _ _ _ =>
      forall s, In s S -> x <> s /\ ~ In s (M x)
  | OEmitQueued t => home = true /\ t = None
  | OThread _ => home = false
  | OConnectDirect _ _ _ | OCall _ _ | OSetHook _ => False
  | _ => True
  end.

Section Ends.
Context {U : Type} (E : env U) (M : sid -> list sid) (S : list sid) (home : bool).
Implicit Types w : world U.

Definition stays w w' : Prop :=
  w_hook w' = w_hook w
  /\ (home = true -> w_me w' = w_me w /\ subseq (w_tq w' (w_me w)) (w_tq w (w_me w))).
Lemma stays_refl : forall w w', w_hook w' = w_hook w -> w_me w' = w_me w -> w_tq w' = w_tq w -> stays w w'.
Proof. intros w w' H1 H2 H3. split; [exact H1|]. intros _. rewrite H2, H3. split; [reflexivity|apply subseq_refl]. Qed.
Lemma stays_trans : forall a b c, stays a b -> stays b c -> stays a c.
Proof.
  intros a b c [A1 A2] [B1 B2]. split; [congruence|]. intros H. destruct (A2 H) as [A3 A4], (B2 H) as [B3 B4].
  split; [congruence|]. rewrite A3 in B4. eapply subseq_trans; eauto.
Qed.
Definition kept w w' : Prop :=
  (forall x, static (w_sg w' x) = static (w_sg w x))
  /\ stays w w'
  /\ (forall x, s_depth (w_sg w' x) = s_depth (w_sg w x))
  /\ (forall s, In s S -> subseq (s_slots (w_sg w' s)) (s_slots (w_sg w s))).

Lemma kept_refl : forall w, kept w w.
Proof.
  intros w. split; [auto|]. split; [now apply stays_refl|]. split; [auto|]. intros; apply subseq_refl.
Qed.
Lemma kept_trans : forall a b c, kept a b -> kept b c -> kept a c.
Proof.
  intros a b c (A1 & A2 & A3 & A4) (B1 & B2 & B3 & B4). split; [|split; [|split]].
  - intros; congruence.
  - eapply stays_trans; eauto.
  - intros; congruence.
  - intros s Hs. eapply subseq_trans; [apply B4|apply A4]; exact Hs.
Qed.
Lemma kept_world : forall w w', w_sg w' = w_sg w -> stays w w' -> kept w w'.
Proof.
  intros w w' H1 H2. unfold kept. rewrite H1. split; [auto|]. split; [exact H2|]. split; [auto|].
  intros; apply subseq_refl.
Qed.
Lemma kept_upd : forall s f w, (forall st, static (f st) = static st) ->
  (forall st, s_depth (f st) = s_depth st) -> (forall st, s_slots (f st) = s_slots st) ->
  kept w (upd s f w).
Proof.
  intros s f w H1 H2 H3.
  assert (HX : forall x, static (w_sg (upd s f w) x) = static (w_sg w x)
                 /\ s_depth (w_sg (upd s f w) x) = s_depth (w_sg w x)
                 /\ s_slots (w_sg (upd s f w) x) = s_slots (w_sg w x)).
  { intros x. destruct (Nat.eq_dec x s) as [->|Hx]; [rewrite upd_same|rewrite upd_other by exact Hx]; auto. }
  split; [intros; apply HX|]. split; [now apply stays_refl|]. split; [intros; apply HX|].
  intros x _. destruct (HX x) as (_ & _ & ->). apply subseq_refl.
Qed.

Definition membered w : Prop := forall x, members_of w x = M x.
Lemma kept_membered : forall w w', kept w w' -> membered w -> membered w'.
Proof.
  intros w w' (H & _) HM x. rewrite <- (HM x). unfold members_of.
  assert (HX : s_members (w_sg w' x) = s_members (w_sg w x)).
  { pose proof (H x) as HX. unfold static in HX. congruence. }
  now rewrite HX.
Qed.

Definition KP w w' (r : out) : Prop := membered w -> r <> Halted -> kept w w'.

Definition still w := (w_hook w, w_me w).
Lemma hook_fold : forall {B} (f : world U -> B -> world U) l w,
  (forall w x, still (f w x) = still w) -> still (fold_left f l w) = still w.
Proof.
  intros B f l. induction l as [|x l IH]; intros w H; cbn [fold_left]; [reflexivity|].
  rewrite IH by exact H. apply H.
Qed.
Lemma hook_after_remove : forall s w, still (after_remove s w) = still w.
Proof.
  intros s w. unfold after_remove. destruct (s_members _); [|reflexivity].
  destruct (s_slots _); [|reflexivity]. unfold disconnect_relay. apply hook_fold.
  intros w1 [n m]. unfold disconnect_relay1. cbn [snd]. destruct (remove_first _ _); reflexivity.
Qed.
Lemma hook_remove_all : forall s w, still (remove_all s w) = still w.
Proof. intros. unfold remove_all. now rewrite hook_after_remove. Qed.
Lemma hook_remove_key : forall s k w w', remove_key s k w = Some w' -> still w' = still w.
Proof.
  intros s k w w' H. unfold remove_key in H. destruct (remove_first _ _); [|discriminate].
  injection H as <-. now rewrite hook_after_remove.
Qed.
Lemma hook_try_discard : forall s k mo w, still (fst (try_discard s k mo w)) = still w.
Proof.
  intros. unfold try_discard. destruct (remove_key _ _ _) eqn:H; [|reflexivity].
  eapply hook_remove_key; eauto.
Qed.
Lemma hook_add_wcb : forall s c w, still (add_wcb s c w) = still w.
Proof.
  intros s c w. unfold add_wcb, append_slot.
  set (w2 := match w_ref c with Some _ => _ | None => _ end).
  assert (H2 : still w2 = still w) by (unfold w2; destruct (w_ref c); reflexivity).
  destruct (s_members _); [|exact H2]. destruct (Nat.eqb _ _); [|exact H2].
  unfold connect_relay. rewrite hook_fold; [exact H2|].
  intros w1 [n m]. unfold connect_relay1. cbn [snd]. destruct (has_key _ _); reflexivity.
Qed.
Lemma hook_disconnect_base : forall s r mo w w' o,
  disconnect_base E s r mo w = (w', o) -> still w' = still w.
Proof.
  intros s r mo w w' o H. unfold disconnect_base in H.
  destruct r as [r|]; [|injection H as <- _; apply hook_remove_all].
  destruct (key_of_ref E r); [|injection H as <- _; reflexivity].
  destruct (remove_key _ _ _) eqn:HR; injection H as <- _; [eapply hook_remove_key; eauto|reflexivity].
Qed.
Lemma hook_disconnect_each : forall ms r mo w w' o,
  disconnect_each E ms r mo w = (w', o) -> still w' = still w.
Proof.
  induction ms as [|[nm m] ms IH]; intros r mo w w' o H; cbn in H.
  - now injection H as <- _.
  - destruct (disconnect_base E m r mo w) as [w1 [v|e|]] eqn:EB; apply hook_disconnect_base in EB;
      [rewrite <- EB; eapply IH; eauto|injection H as <- _; exact EB|injection H as <- _; exact EB].
Qed.
Lemma hook_disconnect : forall s r mo w w' o,
  disconnect E s r mo w = (w', o) -> still w' = still w.
Proof.
  intros s r mo w w' o H. unfold disconnect in H.
  destruct (s_members (w_sg w s)) as [ms|]; [|eapply hook_disconnect_base; eauto].
  destruct (disconnect_each E ms r mo w) as [w1 [v|e|]] eqn:EB; apply hook_disconnect_each in EB;
    [|injection H as <- _; exact EB|injection H as <- _; exact EB].
  rewrite <- EB. eapply hook_disconnect_base; eauto.
Qed.

Lemma pure_kept : forall o w w' r, tame M S home o -> is_pure o = true -> membered w ->
  pure_step E o w = Some (w', r) -> kept w w'.
Proof.
  intros o w w' r HT Hp HM H.
  assert (HO : (exists t, o = OThread t) \/ forall t, o <> OThread t).
  { destruct o; try (right; discriminate). left. eexists; reflexivity. }
  destruct HO as [[t ->]|HO].
  { cbn [tame] in HT. injection H as <- _. split; [auto|]. split; [|split; [auto|intros; apply subseq_refl]].
    split; [reflexivity|]. rewrite HT. discriminate. }
  pose proof (pure_keeps E o w w' r Hp H) as (HK & _ & _ & HQ & _).
  assert (HX : still w' = still w /\
    (forall s, In s S -> subseq (s_slots (w_sg w' s)) (s_slots (w_sg w s)))).
  { destruct o; try discriminate Hp; unfold pure_step in H; cbn [step] in H; unfold lift in H;
      cbn [tame] in HT; try contradiction HT; try (exfalso; now apply (HO t));
      try (injection H as <- <-; split; [reflexivity|intros; apply subseq_refl]).
    - injection H as H. split.
      + unfold connect in H.
        repeat (match type of H with
                | context [match ?x with _ => _ end] => destruct x
                end; try (injection H as <- _; reflexivity)).
        all: injection H as <- _; apply hook_add_wcb.
      + intros x Hx. destruct (HT x Hx) as [H1 H2]. rewrite <- HM in H2.
        rewrite (connect_other E _ _ _ _ _ _ x H1 H2 H). apply subseq_refl.
    - injection H as H. unfold connect_setattr in H.
      destruct (w_dead w ob); [injection H as <- _; split; [reflexivity|intros; apply subseq_refl]|].
      destruct (negb _); [injection H as <- _; split; [reflexivity|intros; apply subseq_refl]|].
      destruct (weak_setattr _ _ _ _ _ _ _); injection H as <- _;
        [|split; [reflexivity|intros; apply subseq_refl]].
      split; [apply hook_add_wcb|]. intros x Hx. destruct (HT x Hx) as [H1 H2]. rewrite <- HM in H2.
      rewrite (add_wcb_other _ _ _ x H1 H2). apply subseq_refl.
    - injection H as H. unfold connect_setitem in H.
      destruct (w_dead w ob); [injection H as <- _; split; [reflexivity|intros; apply subseq_refl]|].
      destruct (negb _); [injection H as <- _; split; [reflexivity|intros; apply subseq_refl]|].
      destruct (weak_setitem _ _ _ _ _ _ _); injection H as <- _;
        [|split; [reflexivity|intros; apply subseq_refl]].
      split; [apply hook_add_wcb|]. intros x Hx. destruct (HT x Hx) as [H1 H2]. rewrite <- HM in H2.
      rewrite (add_wcb_other _ _ _ x H1 H2). apply subseq_refl.
    - injection H as H. split; [eapply hook_disconnect; eauto|]. intros x _.
      eapply disconnect_shrinks; eauto.
    - injection H as H. pose proof (hook_try_discard s (KSetattr ob a) missing_ok w) as H1.
      pose proof (try_discard_shrinks s (KSetattr ob a) missing_ok w) as H2. rewrite H in H1, H2.
      split; [exact H1|]. intros x _. apply H2.
    - destruct (e_hasattr E ob "__setitem__").
      + injection H as H. pose proof (hook_try_discard s (KSetitem ob k) missing_ok w) as H1.
        pose proof (try_discard_shrinks s (KSetitem ob k) missing_ok w) as H2. rewrite H in H1, H2.
        split; [exact H1|]. intros x _. apply H2.
      + injection H as <- _. split; [reflexivity|intros; apply subseq_refl].
    - injection H as <- _. split.
      + unfold block. destruct (s_members (w_sg w s)); [|reflexivity].
        rewrite hook_fold; [reflexivity|]. intros w1 [n m]. unfold block_member.
        destruct (excluded _ _ _); reflexivity.
      + intros x _. destruct (conn_same_block s excl w) as (HC & _).
        destruct (HC x) as (-> & _). apply subseq_refl.
    - injection H as <- _. split.
      + unfold unblock. destruct (s_members (w_sg w s)); [|reflexivity].
        rewrite hook_fold; [reflexivity|]. intros w1 [n m]. unfold unblock_member.
        destruct (match assoc_get _ _ with Some b => b | None => false end); reflexivity.
      + intros x _. destruct (conn_same_unblock s w) as (HC & _).
        destruct (HC x) as (-> & _). apply subseq_refl.
    - injection H as <- _. split; [reflexivity|]. intros x _.
      destruct (Nat.eq_dec x s) as [->|Hx]; [rewrite upd_same|rewrite upd_other by exact Hx];
        apply subseq_refl.
    - injection H as <- _. split; [|intros x _; apply kill_shrinks].
      unfold kill. destruct (w_dead w o); [reflexivity|]. rewrite hook_fold; [reflexivity|].
      intros. apply hook_try_discard.
    - destruct (f (w_usr w)) as [u [v|e]]; injection H as <- _; split; try reflexivity;
        intros; apply subseq_refl. }
  destruct HX as [HX1 HX2]. split; [intros x; apply HK|]. split; [|split; [|exact HX2]].
  { injection HX1 as HX3 HX4. split; [exact HX3|]. intros _. split; [exact HX4|]. rewrite HQ. apply subseq_refl. }
  intros x. destruct (HK x) as [_ HB]. unfold busy in HB. congruence.
Qed.

Lemma kept_started : forall s args w x, s_eq (w_sg w s) = [] ->
  static (w_sg (started s args w) x) = static (w_sg w x)
  /\ s_depth (w_sg (started s args w) x) = (if Nat.eqb x s then 1 else 0) + s_depth (w_sg w x)
  /\ s_slots (w_sg (started s args w) x) = s_slots (w_sg w x)
  /\ stays w (started s args w).
Proof.
  intros s args w x Hq. split; [|split; [|split]].
  - destruct (Nat.eq_dec x s) as [->|Hx];
      [now apply started_sg_same|now rewrite started_sg_other by exact Hx].
  - destruct (Nat.eqb_spec x s) as [->|Hx]; [now apply started_sg_same|now rewrite started_sg_other by exact Hx].
  - apply started_slots.
  - apply stays_refl; apply started_w.
Qed.
Lemma kept_started_fast : forall s args w x,
  static (w_sg (started_fast s args w) x) = static (w_sg w x)
  /\ s_depth (w_sg (started_fast s args w) x) = (if Nat.eqb x s then 1 else 0) + s_depth (w_sg w x)
  /\ s_slots (w_sg (started_fast s args w) x) = s_slots (w_sg w x)
  /\ stays w (started_fast s args w).
Proof.
  intros s args w x.
  destruct (Nat.eqb_spec x s) as [->|Hx];
    [rewrite started_fast_sg_same|rewrite started_fast_sg_other by exact Hx];
    (split; [auto|split; [auto|split; [auto|now apply stays_refl]]]).
Qed.
Lemma kept_leave : forall s prev w x,
  static (w_sg (leave s prev w) x) = static (w_sg w x)
  /\ s_depth (w_sg (leave s prev w) x) = s_depth (w_sg w x) - (if Nat.eqb x s then 1 else 0)
  /\ s_slots (w_sg (leave s prev w) x) = s_slots (w_sg w x)
  /\ stays w (leave s prev w).
Proof.
  intros s prev w x. split; [|split; [|split; [|now apply stays_refl]]].
  - destruct (Nat.eq_dec x s) as [->|Hx]; [apply leave_sg_same|now rewrite leave_sg_other by exact Hx].
  - destruct (Nat.eqb_spec x s) as [->|Hx]; [apply leave_sg_same|rewrite leave_sg_other by exact Hx; lia].
  - destruct (conn_same_leave s prev w) as (H & _). apply H.
Qed.
Lemma kept_left_fast : forall s w x,
  static (w_sg (left_fast s w) x) = static (w_sg w x)
  /\ s_depth (w_sg (left_fast s w) x) = s_depth (w_sg w x) - (if Nat.eqb x s then 1 else 0)
  /\ s_slots (w_sg (left_fast s w) x) = s_slots (w_sg w x)
  /\ stays w (left_fast s w).
Proof.
  intros s w x. split; [|split; [|split; [|now apply stays_refl]]].
  - destruct (Nat.eq_dec x s) as [->|Hx]; [apply left_fast_sg_same|now rewrite left_fast_sg_other by exact Hx].
  - destruct (Nat.eqb_spec x s) as [->|Hx]; [apply left_fast_sg_same|rewrite left_fast_sg_other by exact Hx; lia].
  - destruct (conn_same_left_fast s w) as (H & _). apply H.
Qed.
Lemma membered_static : forall w w', (forall x, static (w_sg w' x) = static (w_sg w x)) ->
  membered w -> membered w'.
Proof.
  intros w w' H HM x. rewrite <- (HM x). unfold members_of.
  assert (HX : s_members (w_sg w' x) = s_members (w_sg w x)).
  { pose proof (H x) as HX. unfold static in HX. congruence. }
  now rewrite HX.
Qed.

Lemma framed_kept : framed E (tame M S home) (fun _ => True) KP (fun _ _ => KP).
Proof.
  assert (HT : forall a b c r r', KP a b r -> r <> Halted -> KP b c r' -> KP a c r').
  { intros a b c r r' H1 Hr H2 HM Hr'. specialize (H1 HM Hr).
    eapply kept_trans; [exact H1|]. apply H2; [|exact Hr']. eapply kept_membered; eauto. }
  assert (HW : forall w w' r, w_sg w' = w_sg w -> w_hook w' = w_hook w -> w_me w' = w_me w ->
    w_tq w' = w_tq w -> KP w w' r)
    by (intros w w' r H1 H2 H3 H4 _ _; apply kept_world; [exact H1|now apply stays_refl]).
  assert (HU : forall s f w r, (forall st, static (f st) = static st) ->
    (forall st, s_depth (f st) = s_depth st) -> (forall st, s_slots (f st) = s_slots st) ->
    KP w (upd s f w) r) by (intros; intros _ _; now apply kept_upd).
  constructor; try (intros; exact I).
  - intros w r _ _. apply kept_refl.
  - exact HT.
  - intros _ _ w r _ _. apply kept_refl.
  - intros _ _. exact HT.
  - intros o w w' r HA Hp HS HM _. eapply pure_kept; eauto.
  - intros. now apply HW.
  - intros. now apply HU.
  - intros. now apply HW.
  - intros s args w r _ _ _. eapply HT with (r := Ok VNone); [|discriminate|now apply HW].
    now apply HU.
  - intros s args w w' r _ Hd Hq HQ.
    assert (HK : r <> Halted -> membered w -> kept w (leave s (w_cur w) (log (EEnd (w_nxt w) s) w'))).
    { intros Hr HM. destruct HQ as (Q1 & Q2 & Q3 & Q4); [|exact Hr|].
      { eapply membered_static; [|exact HM]. intros x. now apply kept_started. }
      split; [|split; [|split]].
      - intros x. rewrite (proj1 (kept_leave s (w_cur w) (log (EEnd (w_nxt w) s) w') x)).
        cbn [w_sg log set_tr]. rewrite Q1. now apply kept_started.
      - eapply stays_trans; [apply (kept_started s args w 0 Hq)|].
        eapply stays_trans; [exact Q2|]. now apply stays_refl.
      - intros x. rewrite (proj1 (proj2 (kept_leave s (w_cur w) (log (EEnd (w_nxt w) s) w') x))).
        cbn [w_sg log set_tr]. rewrite Q3, (proj1 (proj2 (kept_started s args w x Hq))).
        destruct (Nat.eqb x s); lia.
      - intros x Hx.
        rewrite (proj1 (proj2 (proj2 (kept_leave s (w_cur w) (log (EEnd (w_nxt w) s) w') x)))).
        cbn [w_sg log set_tr]. rewrite <- (proj1 (proj2 (proj2 (kept_started s args w x Hq)))).
        now apply Q4. }
    destruct r as [v|e|].
    + intros HM _. apply HK; [discriminate|exact HM].
    + intros HM _. apply HK; [discriminate|exact HM].
    + intros _ HF. congruence.
  - intros s args w w' r _ Hd HQ _.
    assert (HK : r <> Halted -> membered w -> kept w (left_fast s (log (EEnd (w_nxt w) s) w'))).
    { intros Hr HM. destruct HQ as (Q1 & Q2 & Q3 & Q4); [|exact Hr|].
      { eapply membered_static; [|exact HM]. intros x. now apply kept_started_fast. }
      split; [|split; [|split]].
      - intros x. rewrite (proj1 (kept_left_fast s (log (EEnd (w_nxt w) s) w') x)).
        cbn [w_sg log set_tr]. rewrite Q1. now apply kept_started_fast.
      - eapply stays_trans; [apply (kept_started_fast s args w 0)|].
        eapply stays_trans; [exact Q2|]. now apply stays_refl.
      - intros x. rewrite (proj1 (proj2 (kept_left_fast s (log (EEnd (w_nxt w) s) w') x))).
        cbn [w_sg log set_tr]. rewrite Q3, (proj1 (proj2 (kept_started_fast s args w x))).
        destruct (Nat.eqb x s); lia.
      - intros x Hx.
        rewrite (proj1 (proj2 (proj2 (kept_left_fast s (log (EEnd (w_nxt w) s) w') x)))).
        cbn [w_sg log set_tr]. rewrite <- (proj1 (proj2 (proj2 (kept_started_fast s args w x)))).
        now apply Q4. }
    destruct r as [v|e|].
    + intros HM _. apply HK; [discriminate|exact HM].
    + intros HM _. apply HK; [discriminate|exact HM].
    + intros _ HF. congruence.
  - intros eid s c a w w' r _ HQ _. destruct r; (intros HM Hr; try congruence);
      exact (HQ HM Hr).
  - intros eid s c a w w' r _ HQ. destruct r; (intros HM Hr; try congruence);
      exact (HQ HM Hr).
  - intros eid s c t args w r _ _ Ht _ _. apply kept_world; [reflexivity|]. split; [reflexivity|].
    intros _. split; [reflexivity|]. cbn [w_tq log set_tr set_tq].
    destruct (Nat.eqb_spec (w_me w) t); [congruence|]. apply subseq_refl.
  - intros. now apply HU.
  - intros. now apply HU.
  - intros t eid s c args q w r Ht _ _. apply kept_world; [reflexivity|]. split; [reflexivity|].
    intros _. split; [reflexivity|]. cbn [w_tq log set_tr set_tq].
    destruct (Nat.eqb_spec (w_me w) t) as [->|_]; [rewrite Ht; constructor|]; apply subseq_refl.
Qed.

(** ** The measure: how much deeper emissions of [S] can be nested. *)

Definition room1 (g : sid -> sigst) (s : sid) : nat := RECURSION_LIMIT - s_depth (g s).
Fixpoint room_of (l : list sid) (g : sid -> sigst) : nat :=
  match l with [] => 0 | s :: r => room1 g s + room_of r g end.
Definition room w : nat := room_of S (w_sg w) + (if home then List.length (w_tq w (w_me w)) else 0).
Lemma subseq_length : forall {A} (a b : list A), subseq a b -> List.length a <= List.length b.
Proof. intros A a b H. induction H; cbn; lia. Qed.

Lemma kept_room : forall w w', kept w w' -> room w' <= room w.
Proof.
  intros w w' (_ & (_ & Q) & H & _). unfold room.
  assert (HR : forall l, room_of l (w_sg w') = room_of l (w_sg w)).
  { induction l as [|s l IH]; cbn [room_of]; [reflexivity|]. unfold room1 at 1 2. now rewrite H, IH. }
  rewrite HR. destruct home; [|lia]. destruct (Q eq_refl) as [-> HQ]. apply subseq_length in HQ. lia.
Qed.
Lemma deeper_room : forall s w w', In s S -> s_depth (w_sg w s) < RECURSION_LIMIT ->
  (forall x, s_depth (w_sg w' x) = (if Nat.eqb x s then 1 else 0) + s_depth (w_sg w x)) ->
  stays w w' -> room w' < room w.
Proof.
  intros s w w' Hs Hd H [_ HQ]. unfold room.
  assert (HQL : (if home then List.length (w_tq w' (w_me w')) else 0) <= (if home then List.length (w_tq w (w_me w)) else 0)).
  { destruct home; [|lia]. destruct (HQ eq_refl) as [-> HS]. now apply subseq_length. }
  assert (HL : forall l, room_of l (w_sg w') <= room_of l (w_sg w) /\ (In s l -> room_of l (w_sg w') < room_of l (w_sg w))).
  { induction l as [|x l [IH1 IH2]]; cbn [room_of]; [split; [lia|intros []]|].
    assert (H1 : room1 (w_sg w') x <= room1 (w_sg w) x) by (unfold room1; rewrite H; destruct (Nat.eqb x s); lia).
    split; [lia|]. intros [->|Hin]; [|specialize (IH2 Hin); lia].
    assert (room1 (w_sg w') s < room1 (w_sg w) s); [|lia].
    unfold room1. rewrite H, Nat.eqb_refl. lia. }
  pose proof (proj2 (HL S) Hs). lia.
Qed.

(** Relays into [S] only. *)
Definition closed w : Prop := forall s c r, In s S -> In c (s_slots (w_sg w s)) ->
  w_target c = TRelay r -> In r S.
Definition closed_queue w : Prop := home = true ->
  forall e s c a r, In (e, s, c, a) (w_tq w (w_me w)) -> w_target c = TRelay r -> In r S.
Definition fine w : Prop := membered w /\ w_hook w = None /\ closed w /\ closed_queue w.
Lemma kept_fine : forall w w', kept w w' -> fine w -> fine w'.
Proof.
  intros w w' HK (F1 & F2 & F3 & F4). split; [eapply kept_membered; eauto|].
  destruct HK as (K1 & (K2 & K5) & K3 & K4). split; [congruence|]. split.
  - intros s c r Hs Hc. apply (F3 s c r Hs). eapply subseq_In; [apply K4, Hs|exact Hc].
  - intros H e s c a r Hin. destruct (K5 H) as [K6 K7]. rewrite K6 in Hin.
    apply (F4 H e s c a r). eapply subseq_In; eauto.
Qed.

Hypothesis HE : env_all (tame M S home) E.

Lemma exec_kept : forall n p w w' r, prog_all (tame M S home) p -> membered w -> r <> Halted ->
  exec E n p w = Some (w', r) -> kept w w'.
Proof.
  intros n p w w' r Hp HM Hr H.
  exact (frame_exec E (tame M S home) (fun _ => True) KP (fun _ _ => KP) framed_kept HE n p w w' r Hp H HM Hr).
Qed.
Lemma call_slot_kept : forall n eid s c args w w' r, membered w -> r <> Halted ->
  In c (s_slots (w_sg w s)) ->
  call_slot (exec E n) E eid s c args w = Some (w', r) -> kept w w'.
Proof.
  intros n eid s c args w w' r HM Hr Hin H.
  destruct (frame_both E (tame M S home) (fun _ => True) KP (fun _ _ => KP) framed_kept HE n) as [F1 F2].
  exact (frame_call_slot E (tame M S home) (fun _ => True) KP (fun _ _ => KP) framed_kept
           (prog_all (tame M S home)) HE (exec E n) F1 F2 eid s c args w w' r H Hin HM Hr).
Qed.
Lemma loop_qslots_kept : forall n f eid s i args w w' r, membered w -> r <> Halted ->
  loop_qslots (exec E n) E f eid s i args w = Some (w', r) -> kept w w'.
Proof.
  intros n f eid s i args w w' r HM Hr H.
  destruct (frame_both E (tame M S home) (fun _ => True) KP (fun _ _ => KP) framed_kept HE n) as [F1 F2].
  exact (frame_loop_qslots E (tame M S home) (fun _ => True) KP (fun _ _ => KP) framed_kept
           (prog_all (tame M S home)) HE (exec E n) F1 F2 f eid s i args w w' r H HM Hr).
Qed.
Lemma step_kept : forall n m o w w' r, tame M S home o -> membered w -> r <> Halted ->
  step (exec E n) E m o w = Some (w', r) -> kept w w'.
Proof.
  intros n m o w w' r Hp HM Hr H.
  exact (frame_step_exec E (tame M S home) (fun _ => True) KP (fun _ _ => KP) framed_kept HE n m o w w' r Hp H HM Hr).
Qed.

Lemma exec_le : forall n m p w r, n <= m -> exec E n p w = Some r -> exec E m p w = Some r.
Proof. intros; eapply exec_mono; eauto. Qed.

Lemma call_slot_up : forall n m eid s c args w r,
  call_slot (exec E n) E eid s c args w = Some r -> n <= m ->
  call_slot (exec E m) E eid s c args w = Some r.
Proof.
  intros n m eid s c args w r H Hm. eapply (call_slot_mono E (exec E n)); [|exact H].
  intros; eapply exec_le; eauto.
Qed.
Lemma loop_qslots_up : forall n m f f' eid s i args w r,
  loop_qslots (exec E n) E f eid s i args w = Some r -> n <= m -> f <= f' ->
  loop_qslots (exec E m) E f' eid s i args w = Some r.
Proof.
  intros n m f f' eid s i args w r H Hm Hf. eapply (loop_qslots_mono E (exec E n)); [|exact Hf|exact H].
  intros; eapply exec_le; eauto.
Qed.

(** ** Loops end if the calls of callbacks do. *)
Section Level.
Variable k : nat.
Hypothesis below : forall p w, prog_all (tame M S home) p -> fine w -> room w < k ->
  exists n x, exec E n p w = Some x.

Lemma ends_invoke0 : forall dq eid s c args w, (forall r, w_target c = TRelay r -> In r S) -> fine w ->
  room w < k -> exists n x, invoke (exec E n) E dq eid s c args w = Some x.
Proof.
  intros dq eid s c args w Hc HF Hk. unfold invoke.
  destruct (match w_ref c with Some o => w_dead w o | None => false end);
    [exists 0; eexists; reflexivity|].
  set (w1 := log _ w). set (a := cb_args c args).
  assert (HF1 : fine w1) by exact HF. assert (Hk1 : room w1 < k) by exact Hk.
  destruct (below (body_of E (w_target c) a w1) w1) as (n & [w2 r2] & Hn).
  - unfold body_of. destruct (w_target c) eqn:Ht; try apply HE.
    split; [|intros [v|e]; exact I]. exact (Hc r eq_refl).
  - exact HF1.
  - exact Hk1.
  - exists n. rewrite Hn. destruct r2; eexists; reflexivity.
Qed.
Lemma ends_invoke : forall dq eid s c args w, In s S -> In c (s_slots (w_sg w s)) -> fine w ->
  room w < k -> exists n x, invoke (exec E n) E dq eid s c args w = Some x.
Proof.
  intros dq eid s c args w Hs Hc HF Hk. apply ends_invoke0; auto. intros r Ht.
  destruct HF as (_ & _ & HC & _). exact (HC s c r Hs Hc Ht).
Qed.
Lemma ends_call_slot : forall eid s c args w, In s S -> In c (s_slots (w_sg w s)) -> fine w ->
  room w < k -> exists n x, call_slot (exec E n) E eid s c args w = Some x.
Proof.
  intros eid s c args w Hs Hc HF Hk. unfold call_slot.
  destruct (w_thread c) as [t|]; [|now apply ends_invoke].
  destruct (Nat.eqb t (w_me w)); [now apply ends_invoke|]. exists 0. eexists; reflexivity.
Qed.

Lemma after_call : forall n eid s c args w w' v, In s S -> fine w -> room w < k ->
  In c (s_slots (w_sg w s)) ->
  call_slot (exec E n) E eid s c args w = Some (w', Ok v) ->
  fine w' /\ room w' < k /\ List.length (s_slots (w_sg w' s)) <= List.length (s_slots (w_sg w s)).
Proof.
  intros n eid s c args w w' v Hs HF Hk Hc H.
  assert (HK : kept w w') by (eapply call_slot_kept; eauto; [apply HF|discriminate]).
  split; [eapply kept_fine; eauto|]. split; [pose proof (kept_room _ _ HK); lia|].
  apply subseq_length. now apply HK.
Qed.

Lemma ends_loop_slots : forall m eid s i args w, In s S -> fine w -> room w < k ->
  List.length (s_slots (w_sg w s)) - i <= m ->
  exists n x, loop_slots (exec E n) E n eid s i args w = Some x.
Proof.
  induction m as [|m IH]; intros eid s i args w Hs HF Hk Hm.
  - exists 1. cbn [loop_slots]. assert (HN : nth_error (s_slots (w_sg w s)) i = None)
      by (apply nth_error_None; lia). rewrite HN. eexists; reflexivity.
  - destruct (nth_error (s_slots (w_sg w s)) i) as [c|] eqn:HN.
    2: { exists 1. cbn [loop_slots]. rewrite HN. eexists; reflexivity. }
    pose proof (nth_error_In _ _ HN) as Hin.
    destruct (ends_call_slot eid s c args w Hs Hin HF Hk) as (n1 & [w1 r1] & H1).
    destruct r1 as [v|e|].
    + destruct (after_call _ _ _ _ _ _ _ _ Hs HF Hk Hin H1) as (HF1 & Hk1 & HL).
      assert (Hi : i < List.length (s_slots (w_sg w s))) by (apply nth_error_Some; congruence).
      destruct (IH eid s (Datatypes.S i) args w1 Hs HF1 Hk1) as (n2 & x & H2); [lia|].
      exists (Datatypes.S (n1 + n2)), x. cbn [loop_slots]. rewrite HN.
      rewrite (call_slot_up n1 (Datatypes.S (n1 + n2)) _ _ _ _ _ _ H1) by lia.
      eapply loop_slots_mono; [|apply Nat.le_add_l|exact H2].
      intros; eapply exec_le; [|eassumption]; lia.
    + exists (Datatypes.S n1), (w1, Err e). cbn [loop_slots]. rewrite HN.
      rewrite (call_slot_up n1 (Datatypes.S n1) _ _ _ _ _ _ H1) by lia. reflexivity.
    + exists (Datatypes.S n1), (w1, Halted). cbn [loop_slots]. rewrite HN.
      rewrite (call_slot_up n1 (Datatypes.S n1) _ _ _ _ _ _ H1) by lia. reflexivity.
Qed.
Lemma ends_loop_latest : forall m eid s i args w, In s S -> fine w -> room w < k ->
  List.length (s_slots (w_sg w s)) - i <= m ->
  exists n x, loop_latest (exec E n) E n eid s i args w = Some x.
Proof.
  induction m as [|m IH]; intros eid s i args w Hs HF Hk Hm.
  - exists 1. cbn [loop_latest]. assert (HN : nth_error (s_slots (w_sg w s)) i = None)
      by (apply nth_error_None; lia). rewrite HN. eexists; reflexivity.
  - destruct (nth_error (s_slots (w_sg w s)) i) as [c|] eqn:HN.
    2: { exists 1. cbn [loop_latest]. rewrite HN. eexists; reflexivity. }
    destruct (Nat.ltb (s_depth (w_sg w s)) (s_max (w_sg w s))) eqn:HL0.
    { exists 1. cbn [loop_latest]. rewrite HN, HL0. eexists; reflexivity. }
    pose proof (nth_error_In _ _ HN) as Hin.
    destruct (ends_call_slot eid s c args w Hs Hin HF Hk) as (n1 & [w1 r1] & H1).
    destruct r1 as [v|e|].
    + destruct (after_call _ _ _ _ _ _ _ _ Hs HF Hk Hin H1) as (HF1 & Hk1 & HL).
      assert (Hi : i < List.length (s_slots (w_sg w s))) by (apply nth_error_Some; congruence).
      destruct (IH eid s (Datatypes.S i) args w1 Hs HF1 Hk1) as (n2 & x & H2); [lia|].
      exists (Datatypes.S (n1 + n2)), x. cbn [loop_latest]. rewrite HN, HL0.
      rewrite (call_slot_up n1 (Datatypes.S (n1 + n2)) _ _ _ _ _ _ H1) by lia.
      eapply loop_latest_mono; [|apply Nat.le_add_l|exact H2].
      intros; eapply exec_le; [|eassumption]; lia.
    + exists (Datatypes.S n1), (w1, Err e). cbn [loop_latest]. rewrite HN, HL0.
      rewrite (call_slot_up n1 (Datatypes.S n1) _ _ _ _ _ _ H1) by lia. reflexivity.
    + exists (Datatypes.S n1), (w1, Halted). cbn [loop_latest]. rewrite HN, HL0.
      rewrite (call_slot_up n1 (Datatypes.S n1) _ _ _ _ _ _ H1) by lia. reflexivity.
Qed.
Lemma ends_loop_qslots : forall m eid s i args w, In s S -> fine w -> room w < k ->
  List.length (s_slots (w_sg w s)) - i <= m ->
  exists n x, loop_qslots (exec E n) E n eid s i args w = Some x.
Proof.
  induction m as [|m IH]; intros eid s i args w Hs HF Hk Hm.
  - exists 1. cbn [loop_qslots]. assert (HN : nth_error (s_slots (w_sg w s)) i = None)
      by (apply nth_error_None; lia). rewrite HN. eexists; reflexivity.
  - destruct (nth_error (s_slots (w_sg w s)) i) as [c|] eqn:HN.
    2: { exists 1. cbn [loop_qslots]. rewrite HN. eexists; reflexivity. }
    pose proof (nth_error_In _ _ HN) as Hin.
    destruct (ends_call_slot eid s c args w Hs Hin HF Hk) as (n1 & [w1 r1] & H1).
    destruct r1 as [v|e|].
    + destruct (after_call _ _ _ _ _ _ _ _ Hs HF Hk Hin H1) as (HF1 & Hk1 & HL).
      assert (Hi : i < List.length (s_slots (w_sg w s))) by (apply nth_error_Some; congruence).
      destruct (Nat.ltb RECURSION_LIMIT (List.length (s_eq (w_sg w1 s)))) eqn:HR.
      { exists (Datatypes.S n1), (w1, Err ERecursion). cbn [loop_qslots]. rewrite HN.
        rewrite (call_slot_up n1 (Datatypes.S n1) _ _ _ _ _ _ H1) by lia.
        now rewrite HR. }
      destruct (IH eid s (Datatypes.S i) args w1 Hs HF1 Hk1) as (n2 & x & H2); [lia|].
      exists (Datatypes.S (n1 + n2)), x. cbn [loop_qslots]. rewrite HN.
      rewrite (call_slot_up n1 (Datatypes.S (n1 + n2)) _ _ _ _ _ _ H1) by lia.
      rewrite HR. eapply loop_qslots_mono; [|apply Nat.le_add_l|exact H2].
      intros; eapply exec_le; [|eassumption]; lia.
    + exists (Datatypes.S n1), (w1, Err e). cbn [loop_qslots]. rewrite HN.
      rewrite (call_slot_up n1 (Datatypes.S n1) _ _ _ _ _ _ H1) by lia. reflexivity.
    + exists (Datatypes.S n1), (w1, Halted). cbn [loop_qslots]. rewrite HN.
      rewrite (call_slot_up n1 (Datatypes.S n1) _ _ _ _ _ _ H1) by lia. reflexivity.
Qed.

(** The queue stays within its limit. *)
Lemma qslots_limit : forall ex f eid s i args w w' v,
  loop_qslots ex E f eid s i args w = Some (w', Ok v) ->
  List.length (s_eq (w_sg w' s)) <= Nat.max (List.length (s_eq (w_sg w s))) RECURSION_LIMIT.
Proof.
  intros ex. assert (HG : forall f eid s i args w w' v,
    loop_qslots ex E f eid s i args w = Some (w', Ok v) ->
    w' = w \/ List.length (s_eq (w_sg w' s)) <= RECURSION_LIMIT).
  { induction f as [|f IH]; intros eid s i args w w' v H; cbn [loop_qslots] in H; [discriminate|].
    destruct (nth_error _ i) as [c|]; [|injection H as <- _; now left].
    destruct (call_slot ex E eid s c args w) as [[w1 [v1|e|]]|]; try discriminate.
    destruct (Nat.ltb_spec RECURSION_LIMIT (List.length (s_eq (w_sg w1 s)))); [discriminate|].
    right. destruct (IH _ _ _ _ _ _ _ H) as [->|HX]; [|exact HX]. lia. }
  intros f eid s i args w w' v H. destruct (HG _ _ _ _ _ _ _ _ H) as [->|HX]; lia.
Qed.
Lemma ends_loop_queue : forall m eid s i w, In s S -> fine w -> room w < k ->
  Nat.max (List.length (s_eq (w_sg w s))) RECURSION_LIMIT - i <= m ->
  exists n x, loop_queue (exec E n) E n eid s i w = Some x.
Proof.
  induction m as [|m IH]; intros eid s i w Hs HF Hk Hm.
  - exists 1. cbn [loop_queue]. assert (HN : nth_error (s_eq (w_sg w s)) i = None)
      by (apply nth_error_None; lia). rewrite HN. eexists; reflexivity.
  - destruct (nth_error (s_eq (w_sg w s)) i) as [args|] eqn:HN.
    2: { exists 1. cbn [loop_queue]. rewrite HN. eexists; reflexivity. }
    destruct (ends_loop_qslots _ eid s 0 args w Hs HF Hk (Nat.le_refl _)) as (n1 & [w1 r1] & H1).
    destruct r1 as [v|e|].
    + assert (HK : kept w w1) by (eapply loop_qslots_kept; eauto; [apply HF|discriminate]).
      pose proof (qslots_limit _ _ _ _ _ _ _ _ _ H1) as HL.
      assert (Hi : i < List.length (s_eq (w_sg w s))) by (apply nth_error_Some; congruence).
      destruct (IH eid s (Datatypes.S i) w1 Hs) as (n2 & x & H2).
      { eapply kept_fine; eauto. }
      { pose proof (kept_room _ _ HK). lia. }
      { lia. }
      exists (Datatypes.S (n1 + n2)), x. cbn [loop_queue]. rewrite HN.
      rewrite (loop_qslots_up n1 (Datatypes.S (n1 + n2)) n1 (n1 + n2) _ _ _ _ _ _ H1) by lia.
      eapply loop_queue_mono; [|apply Nat.le_add_l|exact H2].
      intros; eapply exec_le; [|eassumption]; lia.
    + exists (Datatypes.S n1), (w1, Err e). cbn [loop_queue]. rewrite HN.
      rewrite (loop_qslots_up n1 (Datatypes.S n1) n1 n1 _ _ _ _ _ _ H1) by lia. reflexivity.
    + exists (Datatypes.S n1), (w1, Halted). cbn [loop_queue]. rewrite HN.
      rewrite (loop_qslots_up n1 (Datatypes.S n1) n1 n1 _ _ _ _ _ _ H1) by lia. reflexivity.
Qed.

Lemma ends_run_emit_loop : forall s args w, In s S -> fine w -> room w <= k ->
  exists n x, run_emit_loop (exec E n) E n s args w = Some x.
Proof.
  intros s args w Hs HF Hk. unfold run_emit_loop.
  destruct (Nat.leb_spec RECURSION_LIMIT (s_depth (w_sg w s))) as [Hd|Hd];
    [exists 0; eexists; reflexivity|].
  rewrite upd_same. cbn [s_eq set_eq]. rewrite app_length. cbn [List.length].
  destruct (s_eq (w_sg w s)) as [|q0 q] eqn:Hq.
  2: { exists 0. cbn [List.length].
       replace (Nat.ltb 1 (Datatypes.S (List.length q) + 1)) with true
         by (symmetry; apply Nat.ltb_lt; lia).
       eexists; reflexivity. }
  cbn [List.length Nat.ltb Nat.leb Nat.add].
  assert (HF1 : fine (started s args w)).
  { destruct HF as (F1 & F2 & F3 & F4). split; [|split; [|split]].
    - eapply membered_static; [|exact F1]. intros x. now apply kept_started.
    - rewrite <- F2. apply started_w.
    - intros x c r Hx Hc. apply (F3 x c r Hx). now rewrite started_slots in Hc.
    - unfold closed_queue. destruct (started_w s args w) as (_ & _ & _ & _ & -> & _ & -> & _). exact F4. }
  assert (Hk1 : room (started s args w) < k).
  { eapply Nat.lt_le_trans; [|exact Hk]. apply (deeper_room s); auto; [intros x; now apply kept_started|].
    now apply (kept_started s args w 0). }
  assert (HI : exists n x, inner_loop (exec E n) E n (w_nxt w) s (entered s args w) = Some x).
  { unfold inner_loop. rewrite entered_mode, (entered_eq s args w Hq).
    unfold started in HF1, Hk1. destruct (s_mode (w_sg w s)).
    - eapply ends_loop_slots; eauto.
    - eapply ends_loop_queue; eauto.
    - eapply ends_loop_latest; eauto. }
  destruct HI as (n & [w3 r3] & HI). exists n.
  change (exists x, match inner_loop (exec E n) E n (w_nxt w) s (entered s args w) with
    | None => None
    | Some (w3, Halted) => Some (w3, Halted)
    | Some (w3, r) => Some (leave s (w_cur w) (log (EEnd (w_nxt w) s) w3),
        match r with Err e => Err (wrap_err s (s_depth (w_sg w3 s) - 1) e) | _ => r end)
    end = Some x).
  rewrite HI.
  destruct r3; eexists; reflexivity.
Qed.

Lemma ends_drain : forall m w, home = true -> fine w -> room w <= k -> List.length (w_tq w (w_me w)) <= m ->
  exists n x, drain (exec E n) E n (w_me w) w = Some x.
Proof.
  induction m as [|m IH]; intros w Hh HF Hk Hm.
  { exists 1. cbn [drain]. destruct (w_tq w (w_me w)); [eexists; reflexivity|cbn in Hm; lia]. }
  destruct (w_tq w (w_me w)) as [|[[[eid s] c] args] q] eqn:Hq.
  { exists 1. cbn [drain]. rewrite Hq. eexists; reflexivity. }
  set (w1 := log (EPop (w_me w) eid s (w_uid c) args)
               (set_tq (fun y => if Nat.eqb y (w_me w) then q else w_tq w y) w)).
  assert (HQ1 : w_tq w1 (w_me w) = q) by (unfold w1; cbn [w_tq log set_tr set_tq]; now rewrite Nat.eqb_refl).
  assert (HK1 : kept w w1).
  { apply (fr_pop _ _ _ _ _ framed_kept _ _ _ _ _ _ _ (Ok VNone) Hq); [apply HF|discriminate]. }
  assert (HR1 : room w1 < k).
  { unfold room in *. rewrite Hh in *. change (w_me w1) with (w_me w). rewrite HQ1. rewrite Hq in Hk.
    cbn [List.length] in Hk. change (w_sg w1) with (w_sg w). lia. }
  assert (HF1 : fine w1) by (eapply kept_fine; eauto).
  destruct (ends_invoke0 true eid s c args w1) as (n1 & [w2 r2] & H1); [|exact HF1|exact HR1|].
  { intros r Hr. destruct HF as (_ & _ & _ & HC). apply (HC Hh eid s c args r); [|exact Hr]. rewrite Hq. now left. }
  assert (HD : forall n, n1 <= n -> invoke (exec E n) E true eid s c args w1 = Some (w2, r2)).
  { intros n Hn. eapply (invoke_mono E (exec E n1)); [|exact H1]. intros; eapply exec_le; eauto. }
  destruct r2 as [v|e|].
  - assert (HK2 : kept w1 w2).
    { destruct (frame_both E (tame M S home) (fun _ => True) KP (fun _ _ => KP) framed_kept HE n1) as [F1 F2].
      apply (frame_dinvoke E (tame M S home) (fun _ => True) KP (fun _ _ => KP) framed_kept
           (prog_all (tame M S home)) HE (exec E n1) F1 F2 eid s c args w1 w2 (Ok v) H1); [apply HF1|discriminate]. }
    destruct HK2 as (A1 & (A2 & A3) & A4). destruct (A3 Hh) as [A5 A6]. change (w_me w1) with (w_me w) in A5, A6.
    destruct (IH w2 Hh) as (n2 & x & H2).
    { eapply kept_fine; [|exact HF1]. split; [exact A1|]. split; [split; assumption|exact A4]. }
    { assert (HK2 : kept w1 w2) by (split; [exact A1|]; split; [split; assumption|exact A4]).
      pose proof (kept_room _ _ HK2). lia. }
    { rewrite A5. apply subseq_length in A6. rewrite HQ1 in A6. cbn [List.length] in Hm. lia. }
    rewrite A5 in H2. exists (Datatypes.S (n1 + n2)), x. cbn [drain]. rewrite Hq. fold w1.
    rewrite HD by lia. eapply drain_mono; [|apply Nat.le_add_l|exact H2].
    intros; eapply exec_le; [|eassumption]; lia.
  - exists (Datatypes.S n1). eexists. cbn [drain]. rewrite Hq. fold w1. rewrite HD by lia. reflexivity.
  - exists (Datatypes.S n1). eexists. cbn [drain]. rewrite Hq. fold w1. rewrite HD by lia. reflexivity.
Qed.

Lemma ends_step : forall o w, tame M S home o -> fine w -> room w <= k ->
  exists n x, step (exec E n) E n o w = Some x.
Proof.
  intros o w Ho HF Hk. destruct (is_pure o) eqn:Hp.
  - exists 0. rewrite step_pure by exact Hp. unfold pure_step.
    destruct o; try discriminate Hp; cbn [step]; unfold lift; try (eexists; reflexivity).
    + destruct (e_hasattr E ob "__setitem__"); eexists; reflexivity.
    + destruct (f (w_usr w)); eexists; reflexivity.
  - destruct o; try discriminate Hp; cbn [tame] in Ho; try contradiction Ho; cbn [step].
    + unfold do_emit. set (w0 := log (EEmit s args (w_usr w)) w).
      destruct (s_blocked (w_sg w0 s)); [exists 0; eexists; reflexivity|].
      destruct (cn && _); [exists 0; eexists; reflexivity|].
      destruct (if ct then _ else _) as [[|]|e]; try (exists 0; eexists; reflexivity).
      destruct (s_paused (w_sg w0 s)); [exists 0; eexists; reflexivity|].
      assert (HH : w_hook w0 = None) by apply HF. rewrite HH.
      apply ends_run_emit_loop; [exact Ho|exact HF|exact Hk].
    + unfold do_emit_fast. set (w0 := log (EEmit s args (w_usr w)) w).
      destruct (s_blocked (w_sg w0 s)); [exists 0; eexists; reflexivity|].
      destruct (s_paused (w_sg w0 s)); [exists 0; eexists; reflexivity|].
      destruct (Nat.leb_spec RECURSION_LIMIT (s_depth (w_sg w0 s))) as [Hd|Hd];
        [exists 0; eexists; reflexivity|].
      fold (started_fast s args w0).
      destruct (ends_loop_slots (List.length (s_slots (w_sg (started_fast s args w0) s)))
        (w_nxt w0) s 0 args (started_fast s args w0) Ho)
        as (n & [w2 r2] & Hn).
      * destruct HF as (F1 & F2 & F3 & F4). split; [|split; [|split]].
        { eapply membered_static; [|exact F1]. intros x. now apply (kept_started_fast s args w0). }
        { exact F2. }
        { intros x c r Hx Hc. apply (F3 x c r Hx).
          now rewrite (proj1 (proj2 (proj2 (kept_started_fast s args w0 x)))) in Hc. }
        { exact F4. }
      * eapply Nat.lt_le_trans; [|exact Hk]. apply (deeper_room s); auto;
          [intros x; now apply (kept_started_fast s args w0)|]. now apply (kept_started_fast s args w0 0).
      * lia.
      * exists n. rewrite Hn. destruct r2; eexists; reflexivity.
    + destruct Ho as [Hs Hrd]. unfold do_resume. set (w1 := upd s (set_paused false) w).
      assert (HK : kept w w1) by (apply kept_upd; auto).
      assert (HF1 : fine w1) by (eapply kept_fine; eauto).
      assert (Hk1 : room w1 <= k) by (pose proof (kept_room _ _ HK); lia).
      destruct (s_args (w_sg w1 s)) as [|a0 al]; [exists 0; eexists; reflexivity|].
      destruct (s_slots (w_sg w1 s)); [exists 0; eexists; reflexivity|].
      destruct r as [|f|f i]; [congruence| |].
      * destruct (f (a0 :: al)) as [a|e]; [|exists 0; eexists; reflexivity].
        destruct (ends_run_emit_loop s a w1 Hs HF1 Hk1) as (n & [w2 r2] & Hn).
        exists n. rewrite Hn. destruct r2; eexists; reflexivity.
      * destruct (apply_reducer f i (a0 :: al)) as [a|e]; [|exists 0; eexists; reflexivity].
        destruct (ends_run_emit_loop s a w1 Hs HF1 Hk1) as (n & [w2 r2] & Hn).
        exists n. rewrite Hn. destruct r2; eexists; reflexivity.
    + unfold do_relay. destruct (s_members (w_sg w r)); [|exists 0; eexists; reflexivity].
      destruct (w_cur w) as [em|]; [|exists 0; eexists; reflexivity].
      destruct (s_slots (w_sg w em)); [exists 0; eexists; reflexivity|].
      now apply ends_run_emit_loop.
    + destruct Ho as [Hh ->]. eapply ends_drain; eauto.
Qed.
End Level.

Theorem ends : forall k p w, prog_all (tame M S home) p -> fine w -> room w <= k ->
  exists n x, exec E n p w = Some x.
Proof.
  induction k as [k IHk] using lt_wf_ind. intros p.
  assert (below : forall p w, prog_all (tame M S home) p -> fine w -> room w < k ->
            exists n x, exec E n p w = Some x).
  { intros q w Hq HF Hr. exact (IHk (room w) Hr q w Hq HF (Nat.le_refl _)). }
  induction p as [v|e| |f IH|o f IH]; intros w Hp HF Hk.
  - exists 1. eexists; reflexivity.
  - exists 1. eexists; reflexivity.
  - exists 1. eexists; reflexivity.
  - destruct (IH (w_usr w) w (Hp (w_usr w)) HF Hk) as (n & x & Hn). exists (Datatypes.S n), x. exact Hn.
  - destruct Hp as [Ho Hf]. destruct (ends_step k below o w Ho HF Hk) as (n & [w1 r1] & Hn).
    assert (HX : forall y, (r1 = match y with inl v => Ok v | inr e => Err e end) ->
              exists m x, exec E m (f y) w1 = Some x).
    { intros y Hy. assert (HK : kept w w1).
      { eapply step_kept; [exact Ho|apply HF| |exact Hn]. subst r1. destruct y; discriminate. }
      apply (IH y w1 (Hf y)); [eapply kept_fine; eauto|]. pose proof (kept_room _ _ HK). lia. }
    destruct r1 as [v|e|].
    + destruct (HX (inl v) eq_refl) as (m & x & Hm). exists (Datatypes.S (n + m)), x. cbn [exec].
      rewrite (step_lift E n (n + m) o w _ (Nat.le_add_r n m) Hn).
      eapply exec_mono; [|exact Hm]. lia.
    + destruct (HX (inr e) eq_refl) as (m & x & Hm). exists (Datatypes.S (n + m)), x. cbn [exec].
      rewrite (step_lift E n (n + m) o w _ (Nat.le_add_r n m) Hn).
      eapply exec_mono; [|exact Hm]. lia.
    + exists (Datatypes.S n), (w1, Halted). cbn [exec]. now rewrite Hn.
Qed.
End Ends.
