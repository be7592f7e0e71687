(** How API calls change connections, decomposed into single additions and removals.
    Proof infrastructure; models no code. *)

From Coq Require Export Relations.
From Verif Require Import Base Core Spec Frame Fuel.

(** The connections, the weak references and the dead objects are the same. *)
Definition conn_same {U} (w w' : world U) : Prop :=
  (forall s, s_slots (w_sg w' s) = s_slots (w_sg w s)
             /\ s_prio (w_sg w' s) = s_prio (w_sg w s)
             /\ s_members (w_sg w' s) = s_members (w_sg w s))
  /\ w_refs w' = w_refs w
  /\ (forall o, w_dead w' o = w_dead w o)
  /\ w_nxt w <= w_nxt w'.

Lemma conn_same_refl : forall {U} (w : world U), conn_same w w.
Proof. repeat split; auto. Qed.
Lemma conn_same_trans : forall {U} (a b c : world U),
  conn_same a b -> conn_same b c -> conn_same a c.
Proof.
  intros U a b c (H1 & H2 & H3 & H4) (K1 & K2 & K3 & K4).
  split; [|repeat split; try congruence; try lia; intros; rewrite K3; apply H3].
  intros s. destruct (H1 s) as (A1 & A2 & A3), (K1 s) as (B1 & B2 & B3).
  repeat split; congruence.
Qed.

Definition reg {U} (s : sid) (c : wcb) (w : world U) : world U :=
  match w_ref c with
  | Some o => set_refs ((o, s, w_key c) :: w_refs w) w
  | None => w
  end.

(** The object a callback of key [k] belongs to, and the weak reference it holds. *)
Definition key_obj (k : key) : option oid :=
  match k with
  | KFunc _ | KRelay _ => None
  | KObj o => Some o
  | KBound o _ | KSetattr o _ | KSetitem o _ => Some o
  end.
Definition ref_of {U} (E : env U) (k : key) : option oid :=
  match key_obj k with Some o => if e_weakref E o then Some o else None | None => None end.

(** [kb]: whether objects may die. *)
Inductive cstep {U} (E : env U) (kb : bool) : world U -> world U -> Prop :=
| cs_same : forall w w', conn_same w w' -> cstep E kb w w'
| cs_add : forall s c w, w_uid c = w_nxt w ->
    (forall o, w_ref c = Some o -> w_dead w o = false) -> w_ref c = ref_of E (w_key c) ->
    cstep E kb w (upd s (append_slot_base c) (reg s c (set_nxt (S (w_nxt w)) w)))
| cs_remove : forall s k l w, remove_first k (s_slots (w_sg w s)) = Some l ->
    cstep E kb w (upd s (set_slots l) w)
| cs_clear : forall s w, cstep E kb w (upd s (set_slots []) w)
| cs_kill : forall o w, kb = true ->
    cstep E kb w (set_refs (filter (fun x => negb (Nat.eqb (fst (fst x)) o)) (w_refs w))
              (set_dead (fun x => if Nat.eqb x o then true else w_dead w x) w)).

Definition csteps {U} (E : env U) (kb : bool) := clos_refl_trans (world U) (cstep E kb).

Lemma csteps_refl : forall {U} (E : env U) (kb : bool) (w : world U), csteps E kb w w.
Proof. intros; apply rt_refl. Qed.
Lemma csteps_trans : forall {U} (E : env U) (kb : bool) (a b c : world U), csteps E kb a b -> csteps E kb b c -> csteps E kb a c.
Proof. intros; eapply rt_trans; eauto. Qed.
Lemma csteps_one : forall {U} (E : env U) (kb : bool) (a b : world U), cstep E kb a b -> csteps E kb a b.
Proof. intros; now apply rt_step. Qed.
Lemma csteps_same : forall {U} (E : env U) (kb : bool) (a b : world U), conn_same a b -> csteps E kb a b.
Proof. intros; apply rt_step; now apply cs_same. Qed.

Lemma conn_same_upd : forall {U} s f (w : world U),
  (s_slots (f (w_sg w s)) = s_slots (w_sg w s)) ->
  (s_prio (f (w_sg w s)) = s_prio (w_sg w s)) ->
  (s_members (f (w_sg w s)) = s_members (w_sg w s)) ->
  conn_same w (upd s f w).
Proof.
  intros U s f w H1 H2 H3. split; [|repeat split; auto].
  intros x. destruct (Nat.eq_dec x s) as [->|Hx].
  - rewrite upd_same. auto.
  - rewrite upd_other by exact Hx. auto.
Qed.

Lemma connect_relay_csteps : forall {U} (E : env U) (kb : bool) r ms (w : world U), csteps E kb w (connect_relay r ms w).
Proof.
  intros U E kb r ms. unfold connect_relay. induction ms as [|[n m] ms IH]; intros w; cbn [fold_left].
  - apply csteps_refl.
  - eapply csteps_trans; [|apply IH]. cbn [snd]. unfold connect_relay1.
    destruct (has_key _ _); [apply csteps_refl|]. apply csteps_one.
    apply (cs_add E kb m (Wcb (w_nxt w) (KRelay r) (TRelay r) None 0%Z None None) w);
      [reflexivity|discriminate|reflexivity].
Qed.

Lemma disconnect_relay_csteps : forall {U} (E : env U) (kb : bool) r ms (w : world U), csteps E kb w (disconnect_relay r ms w).
Proof.
  intros U E kb r ms. unfold disconnect_relay. induction ms as [|[n m] ms IH]; intros w; cbn [fold_left].
  - apply csteps_refl.
  - eapply csteps_trans; [|apply IH]. cbn [snd]. unfold disconnect_relay1.
    destruct (remove_first _ _) eqn:HR; [|apply csteps_refl]. apply csteps_one.
    eapply cs_remove; eauto.
Qed.

Lemma after_remove_csteps : forall {U} (E : env U) (kb : bool) s (w : world U), csteps E kb w (after_remove s w).
Proof.
  intros U E kb s w. unfold after_remove.
  destruct (s_members (w_sg w s)); [|apply csteps_refl].
  destruct (s_slots (w_sg w s)); [|apply csteps_refl]. apply disconnect_relay_csteps.
Qed.

Lemma remove_all_csteps : forall {U} (E : env U) (kb : bool) s (w : world U), csteps E kb w (remove_all s w).
Proof.
  intros. unfold remove_all. eapply csteps_trans; [apply csteps_one; apply cs_clear|].
  apply after_remove_csteps.
Qed.

Lemma remove_key_csteps : forall {U} (E : env U) (kb : bool) s k (w w' : world U),
  remove_key s k w = Some w' -> csteps E kb w w'.
Proof.
  intros U E kb s k w w' H. unfold remove_key in H.
  destruct (remove_first _ _) eqn:HR; [|discriminate]. injection H as <-.
  eapply csteps_trans; [apply csteps_one; eapply cs_remove; eauto|]. apply after_remove_csteps.
Qed.

Lemma try_discard_csteps : forall {U} (E : env U) (kb : bool) s k mo (w : world U),
  csteps E kb w (fst (try_discard s k mo w)).
Proof.
  intros. unfold try_discard. destruct (remove_key s k w) eqn:HR.
  - eapply remove_key_csteps; eauto.
  - apply csteps_refl.
Qed.

Lemma add_wcb_csteps : forall {U} (E : env U) (kb : bool) s c (w : world U),
  w_uid c = w_nxt w -> (forall o, w_ref c = Some o -> w_dead w o = false) ->
  w_ref c = ref_of E (w_key c) -> csteps E kb w (add_wcb s c w).
Proof.
  intros U E kb s c w Hu Hd Hr. unfold add_wcb, append_slot.
  change (match w_ref c with
          | Some o => set_refs ((o, s, w_key c) :: w_refs (set_nxt (S (w_nxt w)) w))
                               (set_nxt (S (w_nxt w)) w)
          | None => set_nxt (S (w_nxt w)) w end) with (reg s c (set_nxt (S (w_nxt w)) w)).
  eapply csteps_trans; [apply csteps_one; apply (cs_add E kb s c); assumption|].
  destruct (s_members _); [|apply csteps_refl].
  destruct (Nat.eqb _ _); [apply connect_relay_csteps|apply csteps_refl].
Qed.

(** What [weak_callback] may return. *)
Lemma weak_callback_uid : forall {U} (E : env U) c m r p uid x,
  weak_callback E c m r p uid = inl x -> w_uid x = uid.
Proof.
  intros U E c m r p uid x H. unfold weak_callback, weak_setattr, weak_setitem, try_ref in H.
  repeat match type of H with context [match ?x with _ => _ end] => destruct x; try discriminate end;
    injection H as <-; reflexivity.
Qed.

(** Destruct an innermost match of a hypothesis. *)
Ltac dm H :=
  match type of H with
  | context [match ?x with _ => _ end] =>
      lazymatch x with
      | context [match _ with _ => _ end] => fail
      | _ => destruct x eqn:?
      end
  end.

Lemma weak_callback_alive : forall {U} (E : env U) c m r p uid x (w : world U) o,
  weak_callback E c m r p uid = inl x -> callable_dead w c = false ->
  w_ref x = Some o -> w_dead w o = false.
Proof.
  intros U E c m r p uid x w o H Hd Ho.
  unfold weak_callback, weak_setattr, weak_setitem, try_ref in H. unfold callable_dead in Hd.
  destruct (callable_base c); repeat (dm H; try discriminate);
    injection H as <-; cbn in Ho; try discriminate; injection Ho as <-; exact Hd.
Qed.

Lemma weak_callback_ref : forall {U} (E : env U) c m r p uid x,
  weak_callback E c m r p uid = inl x -> w_ref x = ref_of E (w_key x).
Proof.
  intros U E c m r p uid x H.
  unfold weak_callback, weak_setattr, weak_setitem, try_ref in H.
  destruct (callable_base c); repeat (dm H; try discriminate);
    injection H as <-; unfold ref_of; cbn;
    repeat match goal with HH : e_weakref _ _ = _ |- _ => rewrite HH; clear HH end; reflexivity.
Qed.

Lemma connect_csteps : forall {U} (E : env U) (kb : bool) s c o (w w' : world U) r,
  connect E s c o w = (w', r) -> csteps E kb w w'.
Proof.
  intros U E kb s c o w w' r H. unfold connect in H.
  destruct (callable_dead w c) eqn:Hd; [injection H as <- _; apply csteps_refl|].
  repeat (match type of H with
          | context [match ?x with _ => _ end] => 
              lazymatch x with
              | weak_callback _ _ _ _ _ _ => fail
              | _ => destruct x
              end
          end; try (injection H as <- _; apply csteps_refl)).
  all: destruct (weak_callback _ _ _ _ _ _) as [x|] eqn:HW;
    [|injection H as <- _; apply csteps_refl].
  all: injection H as <- _; apply add_wcb_csteps; cbn;
    [eapply weak_callback_uid; eauto|intros; eapply weak_callback_alive; eauto
    |eapply weak_callback_ref; eauto].
Qed.

Lemma disconnect_base_csteps : forall {U} (E : env U) (kb : bool) s r mo (w w' : world U) o,
  disconnect_base E s r mo w = (w', o) -> csteps E kb w w'.
Proof.
  intros U E kb s r mo w w' o H. unfold disconnect_base in H.
  destruct r as [r|]; [|injection H as <- _; apply remove_all_csteps].
  destruct (key_of_ref E r); [|injection H as <- _; apply csteps_refl].
  destruct (remove_key _ _ _) eqn:HR; injection H as <- _;
    [eapply remove_key_csteps; eauto|apply csteps_refl].
Qed.

Lemma conn_same_block_member : forall {U} r excl (w : world U) nm,
  conn_same w (block_member r excl w nm).
Proof.
  intros U r excl w [n m]. unfold block_member.
  destruct (excluded n m excl); [apply conn_same_refl|].
  eapply conn_same_trans; apply conn_same_upd; reflexivity.
Qed.
Lemma conn_same_fold : forall {U B} (f : world U -> B -> world U) l (w : world U),
  (forall w b, conn_same w (f w b)) -> conn_same w (fold_left f l w).
Proof.
  intros U B f l w Hf. revert w; induction l as [|b l IH]; intros w; cbn; [apply conn_same_refl|].
  eapply conn_same_trans; [apply Hf|apply IH].
Qed.
Lemma conn_same_block : forall {U} s excl (w : world U), conn_same w (block s excl w).
Proof.
  intros U s excl w. unfold block.
  assert (H : conn_same w (upd s (set_blocked true) w)) by (apply conn_same_upd; reflexivity).
  destruct (s_members (w_sg w s)); [|exact H].
  eapply conn_same_trans; [exact H|]. apply conn_same_fold. intros; apply conn_same_block_member.
Qed.
Lemma conn_same_unblock : forall {U} s (w : world U), conn_same w (unblock s w).
Proof.
  intros U s w. unfold unblock.
  assert (H : conn_same w (upd s (set_blocked false) w)) by (apply conn_same_upd; reflexivity).
  destruct (s_members (w_sg w s)); [|exact H].
  eapply conn_same_trans; [exact H|]. apply conn_same_fold. intros w1 [n m]. unfold unblock_member.
  destruct (match assoc_get _ _ with Some b => b | None => false end).
  - apply conn_same_upd; reflexivity.
  - eapply conn_same_trans; apply conn_same_upd; reflexivity.
Qed.

Lemma kill_csteps : forall {U} (E : env U) o (w : world U), csteps E true w (kill o w).
Proof.
  intros U E o w. unfold kill. destruct (w_dead w o); [apply csteps_refl|].
  eapply csteps_trans; [apply csteps_one; apply (cs_kill E true o); reflexivity|].
  match goal with |- csteps E true ?a (fold_left finalize1 ?l _) => generalize a; generalize l end.
  clear w. intros l. induction l as [|x l IH]; intros w; cbn [fold_left]; [apply csteps_refl|].
  eapply csteps_trans; [|apply IH]. unfold finalize1. apply try_discard_csteps.
Qed.

Definition is_kill {U} (o : op U) : bool := match o with OKill _ => true | _ => false end.
Lemma csteps_true : forall {U} (E : env U) kb (w w' : world U), csteps E kb w w' -> csteps E true w w'.
Proof.
  intros U E kb w w' H. induction H; [|apply rt_refl|eapply rt_trans; eauto].
  apply rt_step. inversion H; subst;
    [now apply cs_same|now apply cs_add|eapply cs_remove; eauto|apply cs_clear|now apply cs_kill].
Qed.

Theorem pure_csteps : forall {U} (E : env U) o (w w' : world U) r,
  is_pure o = true -> pure_step E o w = Some (w', r) -> csteps E (is_kill o) w w'.
Proof.
  intros U E o w w' r Hp H. destruct o; try discriminate Hp; unfold pure_step in H;
    cbn [step] in H; unfold lift in H;
    try (injection H as <- <-; apply csteps_refl).
  - injection H as H. eapply connect_csteps; eauto.
  - injection H as H. unfold connect_direct in H.
    destruct (s_members (w_sg w r0)) as [ms|]; [|injection H as <- _; apply csteps_refl].
    remember (Copts _ _ _ _ _ _ _) as oo. clear Heqoo. revert w H.
    induction ms as [|[nm m] ms IH]; intros w H; cbn in H.
    + injection H as <- _; apply csteps_refl.
    + destruct (connect E m c oo w) as [w1 [v|e|]] eqn:EC; apply (connect_csteps E false) in EC.
      * eapply csteps_trans; [exact EC|]. now apply IH.
      * injection H as <- _. exact EC.
      * injection H as <- _. exact EC.
  - injection H as H. unfold connect_setattr, weak_setattr, try_ref in H.
    destruct (w_dead w ob) eqn:Hd; [injection H as <- _; apply csteps_refl|].
    destruct (negb _); [injection H as <- _; apply csteps_refl|].
    destruct (e_weakref E ob) eqn:Hwr; [injection H as <- _|destruct r0; injection H as <- _];
      try apply csteps_refl; apply add_wcb_csteps; try reflexivity;
      try (cbn; unfold ref_of; cbn; now rewrite Hwr); cbn; intros o Ho;
      try discriminate; now injection Ho as <-.
  - injection H as H. unfold connect_setitem, weak_setitem, try_ref in H.
    destruct (w_dead w ob) eqn:Hd; [injection H as <- _; apply csteps_refl|].
    destruct (negb _); [injection H as <- _; apply csteps_refl|].
    destruct (e_weakref E ob) eqn:Hwr; [injection H as <- _|destruct r0; injection H as <- _];
      try apply csteps_refl; apply add_wcb_csteps; try reflexivity;
      try (cbn; unfold ref_of; cbn; now rewrite Hwr); cbn; intros o Ho;
      try discriminate; now injection Ho as <-.
  - injection H as H. unfold disconnect in H.
    destruct (s_members (w_sg w s)) as [ms|]; [|eapply disconnect_base_csteps; eauto].
    assert (HE : forall ms w w' r1, disconnect_each E ms r0 missing_ok w = (w', r1) -> csteps E false w w').
    { clear. induction ms as [|[nm m] ms IH]; intros w w' r1 HS; cbn in HS.
      - injection HS as <- _; apply csteps_refl.
      - destruct (disconnect_base E m r0 missing_ok w) as [w1 [v|e|]] eqn:EB;
          apply (disconnect_base_csteps E false) in EB.
        + eapply csteps_trans; [exact EB|]. eapply IH; eauto.
        + injection HS as <- _; exact EB.
        + injection HS as <- _; exact EB. }
    destruct (disconnect_each E ms r0 missing_ok w) as [w1 [v|e|]] eqn:EB; apply HE in EB.
    + eapply csteps_trans; [exact EB|]. eapply disconnect_base_csteps; eauto.
    + injection H as <- _; exact EB.
    + injection H as <- _; exact EB.
  - injection H as H. pose proof (try_discard_csteps E false s (KSetattr ob a) missing_ok w) as HT.
    rewrite H in HT. exact HT.
  - destruct (e_hasattr E ob "__setitem__").
    + injection H as H. pose proof (try_discard_csteps E false s (KSetitem ob k) missing_ok w) as HT.
      rewrite H in HT. exact HT.
    + injection H as <- _; apply csteps_refl.
  - injection H as <- _. apply csteps_same, conn_same_block.
  - injection H as <- _. apply csteps_same, conn_same_unblock.
  - injection H as <- _. apply csteps_same, conn_same_upd; reflexivity.
  - injection H as <- _. apply kill_csteps.
  - injection H as <- _. apply csteps_same. repeat split; auto.
  - injection H as <- _. apply csteps_same. repeat split; auto.
  - destruct (f (w_usr w)) as [u [v|e]]; injection H as <- _; apply csteps_same; repeat split; auto.
Qed.

Lemma conn_same_upd_r : forall {U} s f (a b : world U), conn_same a b ->
  (forall st, s_slots (f st) = s_slots st) -> (forall st, s_prio (f st) = s_prio st) ->
  (forall st, s_members (f st) = s_members st) -> conn_same a (upd s f b).
Proof. intros. eapply conn_same_trans; [eassumption|]. apply conn_same_upd; auto. Qed.
Lemma conn_same_cur_r : forall {U} c (a b : world U), conn_same a b -> conn_same a (set_cur c b).
Proof. intros U c a b (H1 & H2 & H3 & H4). repeat split; auto; apply H1. Qed.
Lemma conn_same_nxt_r : forall {U} (a b : world U) n, conn_same a b -> w_nxt b <= n ->
  conn_same a (set_nxt n b).
Proof. intros U a b n (H1 & H2 & H3 & H4) Hn. repeat split; auto; try apply H1. cbn; lia. Qed.
Lemma conn_same_log : forall {U} e (w : world U), conn_same w (log e w).
Proof. intros; repeat split; auto. Qed.
Lemma conn_same_started : forall {U} s args (w : world U), conn_same w (started s args w).
Proof.
  intros U s args w.
  assert (H : conn_same w (entered s args w)).
  { unfold entered, enter. eapply conn_same_trans; [|apply conn_same_log].
    apply conn_same_cur_r, conn_same_upd_r; try reflexivity.
    apply conn_same_nxt_r; [|cbn; lia]. apply conn_same_upd_r; try reflexivity.
    apply conn_same_refl. }
  unfold started. destruct (s_mode _); [|exact H|];
    (apply conn_same_upd_r; [exact H|reflexivity..]).
Qed.
Lemma conn_same_started_fast : forall {U} s args (w : world U),
  conn_same w (started_fast s args w).
Proof.
  intros U s args w. unfold started_fast. eapply conn_same_trans; [|apply conn_same_log].
  apply conn_same_upd_r; try reflexivity. apply conn_same_nxt_r; [apply conn_same_refl|lia].
Qed.
Lemma conn_same_leave : forall {U} s prev (w : world U), conn_same w (leave s prev w).
Proof.
  intros U s prev w. unfold leave.
  eapply conn_same_trans with (b := set_cur prev w); [repeat split; auto|].
  apply conn_same_upd; cbn; destruct (Nat.leb _ _); reflexivity.
Qed.
Lemma conn_same_left_fast : forall {U} s (w : world U), conn_same w (left_fast s w).
Proof.
  intros U s w. unfold left_fast. apply conn_same_upd; cbn; destruct (s_depth (w_sg w s)); reflexivity.
Qed.

(** A property of connections that single steps preserve holds throughout every run. *)
Lemma framed_conn : forall {U} (E : env U) (A : op U -> Prop) (I : world U -> Prop),
  (forall w w', conn_same w w' -> I w -> I w') ->
  (forall o w w' r, A o -> is_pure o = true -> pure_step E o w = Some (w', r) -> I w -> I w') ->
  framed E A (fun _ => True) (fun w w' _ => I w -> I w') (fun _ _ w w' _ => I w -> I w').
Proof.
  intros U E A I HS HP. constructor; intros; auto.
  - eapply HP; eauto.
  - eapply HS; [|exact H0]. apply conn_same_log.
  - eapply HS; [|exact H1]. apply conn_same_upd; reflexivity.
  - eapply HS; [|exact H0]. apply conn_same_log.
  - eapply HS; [|exact H2]. eapply conn_same_trans; [|apply conn_same_log].
    apply conn_same_upd; reflexivity.
  - assert (HI : I w -> I w') by (intros; apply H2; eapply HS; [apply conn_same_started|assumption]).
    destruct r; auto; intros; (eapply HS; [|apply HI; assumption]);
      (eapply conn_same_trans; [apply conn_same_log|apply conn_same_leave]).
  - assert (HI : I w -> I w')
      by (intros; apply H1; eapply HS; [apply conn_same_started_fast|assumption]).
    destruct r; auto; intros; (eapply HS; [|apply HI; assumption]);
      (eapply conn_same_trans; [apply conn_same_log|apply conn_same_left_fast]).
  - assert (HI : I w -> I w') by (intros; apply H0; eapply HS; [apply conn_same_log|assumption]).
    destruct r; auto; intros; (eapply HS; [|apply HI; assumption]); apply conn_same_log.
  - assert (HI : I w -> I w') by (intros; apply H0; eapply HS; [apply conn_same_log|assumption]).
    destruct r; auto; intros; (eapply HS; [|apply HI; assumption]); apply conn_same_log.
  - eapply HS; [|exact H2]. repeat split; auto.
  - eapply HS; [|exact H1]. apply conn_same_upd; reflexivity.
  - eapply HS; [|exact H1]. apply conn_same_upd; reflexivity.
  - eapply HS; [|exact H0]. repeat split; auto.
Qed.

Lemma csteps_inv : forall {U} (E : env U) (kb : bool) (I : world U -> Prop),
  (forall w w', cstep E kb w w' -> I w -> I w') -> forall w w', csteps E kb w w' -> I w -> I w'.
Proof. intros U E kb I H w w' HS. induction HS; eauto. Qed.

Theorem conn_invariant : forall {U} (E : env U) (I : world U -> Prop),
  (forall w w', cstep E true w w' -> I w -> I w') ->
  forall p w w' r, runs E p w w' r -> I w -> I w'.
Proof.
  intros U E I H p w w' r HR.
  refine (frame_runs E (fun _ => True) (fun _ => True) (fun w w' _ => I w -> I w') _ _ _ _ _ _ _ _ HR).
  - apply framed_conn.
    + intros; eapply H; [apply cs_same|]; eauto.
    + intros. eapply csteps_inv; [exact H| |eauto]. eapply csteps_true, pure_csteps; eauto.
  - apply env_all_true.
  - apply prog_all_true.
Qed.

Theorem reachable_inv : forall {U} (E : env U) (I : world U -> Prop),
  (forall w w', cstep E true w w' -> I w -> I w') ->
  (forall cfg u, (forall s, fresh_sig (cfg s)) -> I (init_world cfg u)) ->
  forall w, reachable E w -> I w.
Proof.
  intros U E I H1 H2 w (cfg & u & p & r & Hc & _ & HR). eapply conn_invariant; eauto.
Qed.
