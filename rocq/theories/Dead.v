(** Receivers that have been garbage collected (C21).  Proofs only. *)

From Verif Require Import Base Core Frame Fuel Conn Keep Spec Trace Inv.

Section Dead.
Context {U : Type} (E : env U).
Implicit Types w : world U.

Definition kcount (k : key) (l : list wcb) : nat :=
  List.length (filter (fun c => key_eqb (w_key c) k) l).
Definition ref_eqb (x y : oid * sid * key) : bool :=
  Nat.eqb (fst (fst x)) (fst (fst y)) && Nat.eqb (snd (fst x)) (snd (fst y))
  && key_eqb (snd x) (snd y).
Definition rcount (x : oid * sid * key) (l : list (oid * sid * key)) : nat :=
  List.length (filter (ref_eqb x) l).

Lemma ref_eqb_eq : forall x y, ref_eqb x y = true <-> x = y.
Proof.
  intros [[a b] c] [[a' b'] c']. unfold ref_eqb; cbn. rewrite !andb_true_iff, !Nat.eqb_eq, key_eqb_eq.
  split; [intros [[-> ->] ->]; auto|intros H; injection H; auto].
Qed.

(** [pend]: finalizers still to run because [dy] is dying. *)
Record live (pend : list (oid * sid * key)) (dy : option oid) (w : world U) : Prop := {
  lv_ref : forall s c, In c (s_slots (w_sg w s)) -> w_ref c = ref_of E (w_key c);
  lv_alive : forall s c o, In c (s_slots (w_sg w s)) -> w_ref c = Some o ->
    w_dead w o = false \/ dy = Some o;
  lv_count : forall s k o, ref_of E k = Some o ->
    kcount k (s_slots (w_sg w s)) <= rcount (o, s, k) (w_refs w ++ pend);
  lv_refs : forall o s k, In (o, s, k) (w_refs w ++ pend) -> ref_of E k = Some o
}.

Lemma kcount_append : forall k c st,
  kcount k (s_slots (append_slot_base c st)) =
  (if key_eqb (w_key c) k then 1 else 0) + kcount k (s_slots st).
Proof.
  intros k c st.
  assert (HI : forall l, kcount k (insert_prio c l) = (if key_eqb (w_key c) k then 1 else 0) + kcount k l).
  { induction l as [|x l IH]; unfold kcount in *; cbn.
    - destruct (key_eqb _ _); reflexivity.
    - destruct (Z.ltb _ _); cbn; [destruct (key_eqb (w_key c) k), (key_eqb (w_key x) k); reflexivity|].
      destruct (key_eqb (w_key x) k); cbn; rewrite IH; lia. }
  unfold append_slot_base. destruct (negb _); [|apply HI]. destruct (Z.eqb _ _); [|apply HI].
  cbn. unfold kcount. rewrite filter_app, app_length. cbn. destruct (key_eqb _ _); cbn; lia.
Qed.
Lemma append_In : forall c st x, In x (s_slots (append_slot_base c st)) <-> x = c \/ In x (s_slots st).
Proof.
  intros c st x. unfold append_slot_base.
  destruct (negb _); [|apply insert_prio_In]. destruct (Z.eqb _ _); [|apply insert_prio_In].
  cbn. rewrite in_app_iff. cbn. intuition.
Qed.
Lemma remove_first_kcount : forall k k' l l', remove_first k l = Some l' ->
  kcount k' l = (if key_eqb k k' then 1 else 0) + kcount k' l'.
Proof.
  induction l as [|x l IH]; intros l' H; cbn in H; [discriminate|].
  destruct (key_eqb (w_key x) k) eqn:Hk.
  - injection H as <-. apply key_eqb_eq in Hk. unfold kcount; cbn. rewrite Hk.
    destruct (key_eqb k k'); reflexivity.
  - destruct (remove_first k l) as [r|]; [|discriminate]. injection H as <-.
    specialize (IH _ eq_refl). unfold kcount in *; cbn.
    destruct (key_eqb (w_key x) k'); cbn; lia.
Qed.
Lemma remove_first_none : forall k l, remove_first k l = None <-> kcount k l = 0.
Proof.
  induction l as [|x l IH]; unfold kcount in *; cbn; [tauto|].
  destruct (key_eqb (w_key x) k); cbn; [split; discriminate|].
  destruct (remove_first k l); rewrite <- IH; split; congruence.
Qed.

Lemma live_same : forall pend dy w w', conn_same w w' -> live pend dy w -> live pend dy w'.
Proof.
  intros pend dy w w' (Hs & Hr & Hd & _) [H1 H2 H3 H4].
  constructor.
  - intros s c. rewrite (proj1 (Hs s)). apply H1.
  - intros s c o. rewrite (proj1 (Hs s)), Hd. apply H2.
  - intros s k o. rewrite (proj1 (Hs s)), Hr. apply H3.
  - rewrite Hr. exact H4.
Qed.
Lemma live_remove : forall pend dy w s k l,
  remove_first k (s_slots (w_sg w s)) = Some l -> live pend dy w -> live pend dy (upd s (set_slots l) w).
Proof.
  intros pend dy w s k l HR [H1 H2 H3 H4]. constructor.
  - intros x c. dec_sid x s; [rewrite upd_same|rewrite upd_other by assumption; apply H1].
    cbn. intros HI. apply (H1 s). eapply remove_first_In; eauto.
  - intros x c o. dec_sid x s; [rewrite upd_same|rewrite upd_other by assumption; apply H2].
    cbn. intros HI. apply (H2 s). eapply remove_first_In; eauto.
  - intros x k' o Ho. change (w_refs (upd s (set_slots l) w)) with (w_refs w).
    dec_sid x s; [rewrite upd_same|rewrite upd_other by assumption; now apply H3].
    cbn [s_slots set_slots]. specialize (H3 s k' o Ho). rewrite (remove_first_kcount _ k' _ _ HR) in H3. lia.
  - exact H4.
Qed.
Lemma live_clear : forall pend dy w s, live pend dy w -> live pend dy (upd s (set_slots []) w).
Proof.
  intros pend dy w s [H1 H2 H3 H4]. constructor.
  - intros x c. dec_sid x s; [rewrite upd_same; intros []|rewrite upd_other by assumption; apply H1].
  - intros x c o. dec_sid x s; [rewrite upd_same; intros []|rewrite upd_other by assumption; apply H2].
  - intros x k' o Ho. change (w_refs (upd s (set_slots []) w)) with (w_refs w).
    dec_sid x s; [rewrite upd_same|rewrite upd_other by assumption; now apply H3].
    apply Nat.le_0_l.
  - exact H4.
Qed.
Lemma live_add : forall w s c, (forall o, w_ref c = Some o -> w_dead w o = false) ->
  w_ref c = ref_of E (w_key c) -> live [] None w ->
  live [] None (upd s (append_slot_base c) (reg s c (set_nxt (S (w_nxt w)) w))).
Proof.
  intros w s c Ha Hr [H1 H2 H3 H4].
  assert (Hsg : forall x, w_sg (reg s c (set_nxt (S (w_nxt w)) w)) x = w_sg w x)
    by (intros; unfold reg; destruct (w_ref c); reflexivity).
  assert (Hdd : w_dead (reg s c (set_nxt (S (w_nxt w)) w)) = w_dead w)
    by (unfold reg; destruct (w_ref c); reflexivity).
  constructor.
  - intros x d. dec_sid x s; [rewrite upd_same|rewrite upd_other by assumption]; rewrite Hsg.
    + rewrite append_In. intros [->|HI]; [exact Hr|eapply H1; eauto].
    + apply H1.
  - intros x d o. cbn [w_dead upd set_sg]. rewrite Hdd.
    dec_sid x s; [rewrite upd_same|rewrite upd_other by assumption]; rewrite Hsg.
    + rewrite append_In. intros [->|HI] Ho; [left; now apply Ha|eapply H2; eauto].
    + apply H2.
  - intros x k o Ho. unfold reg. rewrite Hr. specialize (H3 x k o Ho).
    rewrite app_nil_r in *.
    assert (HC : kcount k (s_slots (w_sg (upd s (append_slot_base c)
                   (reg s c (set_nxt (S (w_nxt w)) w))) x))
              = (if Nat.eqb x s && key_eqb (w_key c) k then 1 else 0) + kcount k (s_slots (w_sg w x))).
    { dec_sid x s; [rewrite upd_same|rewrite upd_other by assumption]; rewrite Hsg.
      - rewrite kcount_append, Nat.eqb_refl. reflexivity.
      - destruct (Nat.eqb_spec x s); [congruence|]. reflexivity. }
    unfold reg in HC. rewrite Hr in HC. rewrite HC. clear HC.
    destruct (ref_of E (w_key c)) as [o'|] eqn:Hrc.
    + cbn [w_refs set_refs set_nxt upd set_sg]. unfold rcount. cbn [filter].
      destruct (Nat.eqb_spec x s) as [->|Hx]; cbn [andb].
      * destruct (key_eqb (w_key c) k) eqn:Hk.
        -- apply key_eqb_eq in Hk. rewrite Hk in Hrc. assert (o' = o) by congruence; subst.
           assert (ref_eqb (o, s, w_key c) (o, s, w_key c) = true) as -> by now apply ref_eqb_eq.
           cbn. unfold rcount in H3. lia.
        -- destruct (ref_eqb _ _); cbn; unfold rcount in H3; lia.
      * destruct (ref_eqb _ _); cbn; unfold rcount in H3; lia.
    + cbn [w_refs set_refs set_nxt upd set_sg].
      destruct (Nat.eqb_spec x s) as [->|Hx]; cbn [andb]; [|lia].
      destruct (key_eqb (w_key c) k) eqn:Hk; [|lia]. apply key_eqb_eq in Hk. congruence.
  - intros o x k. cbn [w_refs upd set_sg]. rewrite app_nil_r in *. unfold reg.
    destruct (w_ref c) as [o'|] eqn:Hrc; cbn.
    + intros [Hx|HI]; [injection Hx as -> -> <-; congruence|eapply H4; eauto].
    + apply H4.
Qed.

Lemma live_disconnect_relay : forall pend dy r ms w, live pend dy w -> live pend dy (disconnect_relay r ms w).
Proof.
  intros pend dy r ms. unfold disconnect_relay. induction ms as [|[n m] ms IH]; intros w H; cbn [fold_left]; [exact H|].
  apply IH. cbn [snd]. unfold disconnect_relay1. destruct (remove_first _ _) eqn:HR; [|exact H].
  eapply live_remove; eauto.
Qed.
Lemma live_after_remove : forall pend dy s w, live pend dy w -> live pend dy (after_remove s w).
Proof.
  intros pend dy s w H. unfold after_remove. destruct (s_members _); [|exact H].
  destruct (s_slots _); [now apply live_disconnect_relay|exact H].
Qed.

Lemma kcount_disconnect_relay : forall r ms w s k, (forall x, k <> KRelay x) ->
  kcount k (s_slots (w_sg (disconnect_relay r ms w) s)) = kcount k (s_slots (w_sg w s)).
Proof.
  intros r ms. unfold disconnect_relay. induction ms as [|[n m] ms IH]; intros w s k Hk; cbn [fold_left]; [reflexivity|].
  rewrite IH by exact Hk. cbn [snd]. unfold disconnect_relay1.
  destruct (remove_first _ _) eqn:HR; [|reflexivity].
  dec_sid s m; [rewrite upd_same|now rewrite upd_other]. cbn.
  rewrite (remove_first_kcount _ k _ _ HR). destruct (key_eqb (KRelay r) k) eqn:Hq; [|reflexivity].
  apply key_eqb_eq in Hq. exfalso; eapply Hk; eauto.
Qed.
Lemma disconnect_relay_refs : forall r ms w, w_refs (disconnect_relay r ms w) = w_refs w
  /\ w_dead (disconnect_relay r ms w) = w_dead w.
Proof.
  intros r ms. unfold disconnect_relay. induction ms as [|[n m] ms IH]; intros w; cbn [fold_left]; [auto|].
  destruct (IH (disconnect_relay1 r (snd (n, m)) w)) as [-> ->]. unfold disconnect_relay1.
  destruct (remove_first _ _); auto.
Qed.
Lemma after_remove_refs : forall s w, w_refs (after_remove s w) = w_refs w
  /\ w_dead (after_remove s w) = w_dead w.
Proof.
  intros s w. unfold after_remove. destruct (s_members _); [|auto].
  destruct (s_slots _); [apply disconnect_relay_refs|auto].
Qed.
Lemma kcount_after_remove : forall s0 w s k, (forall x, k <> KRelay x) ->
  kcount k (s_slots (w_sg (after_remove s0 w) s)) = kcount k (s_slots (w_sg w s)).
Proof.
  intros s0 w s k Hk. unfold after_remove. destruct (s_members _); [|auto].
  destruct (s_slots (w_sg w s0)) eqn:?; [|auto]. now apply kcount_disconnect_relay.
Qed.

Lemma ref_of_not_relay : forall k o, ref_of E k = Some o -> forall x, k <> KRelay x.
Proof. intros k o H x ->. discriminate. Qed.

Lemma live_finalize1 : forall pend dy x w, live (x :: pend) dy w -> live pend dy (finalize1 w x).
Proof.
  intros pend dy [[o s] k] w HL.
  assert (HL' : live ((o, s, k) :: pend) dy (finalize1 w (o, s, k))).
  { unfold finalize1, try_discard, remove_key. cbn [fst snd].
    destruct (remove_first k (s_slots (w_sg w s))) as [l|] eqn:HR; cbn [fst]; [|exact HL].
    apply live_after_remove. eapply live_remove; eauto. }
  assert (Hk : ref_of E k = Some o).
  { apply (lv_refs _ _ _ HL o s). apply in_or_app. right. now left. }
  assert (Hrc : forall y l1 l2, rcount y (l1 ++ (o, s, k) :: l2) =
     (if ref_eqb y (o, s, k) then 1 else 0) + rcount y (l1 ++ l2)).
  { intros y l1 l2. unfold rcount. rewrite !filter_app, !app_length. cbn [filter].
    destruct (ref_eqb y (o, s, k)); cbn; lia. }
  assert (Hrefs : w_refs (finalize1 w (o, s, k)) = w_refs w).
  { unfold finalize1, try_discard, remove_key. cbn [fst snd].
    destruct (remove_first k (s_slots (w_sg w s))); cbn [fst]; [|reflexivity].
    rewrite (proj1 (after_remove_refs _ _)). reflexivity. }
  destruct HL' as [H1 H2 H3 H4]. constructor; auto.
  - intros x k' o' Ho'. rewrite Hrefs. specialize (H3 x k' o' Ho').
    rewrite Hrefs, Hrc in H3.
    destruct (ref_eqb (o', x, k') (o, s, k)) eqn:He; [|lia].
    apply ref_eqb_eq in He. injection He as -> -> ->.
    pose proof (lv_count _ _ _ HL s k o Hk) as HC. rewrite Hrc in HC.
    replace (ref_eqb (o, s, k) (o, s, k)) with true in HC by (symmetry; now apply ref_eqb_eq).
    unfold finalize1, try_discard, remove_key. cbn [fst snd].
    destruct (remove_first k (s_slots (w_sg w s))) as [l|] eqn:HR; cbn [fst].
    + rewrite kcount_after_remove by (eapply ref_of_not_relay; eauto).
      rewrite upd_same. cbn [s_slots set_slots].
      rewrite (remove_first_kcount _ k _ _ HR), key_eqb_refl in HC. lia.
    + apply remove_first_none in HR. lia.
  - intros o' x k' HI. apply H4 with (s := x). apply in_app_iff in HI. apply in_app_iff. cbn. tauto.
Qed.

Lemma live_finalize_all : forall dy pend w, live pend dy w -> live [] dy (fold_left finalize1 pend w).
Proof.
  induction pend as [|x pend IH]; intros w H; cbn [fold_left]; [exact H|].
  apply IH, live_finalize1, H.
Qed.

Lemma finalize_refs : forall pend w, w_refs (fold_left finalize1 pend w) = w_refs w
  /\ w_dead (fold_left finalize1 pend w) = w_dead w.
Proof.
  induction pend as [|x pend IH]; intros w; cbn [fold_left]; [auto|].
  destruct (IH (finalize1 w x)) as [-> ->].
  unfold finalize1, try_discard, remove_key.
  destruct (remove_first _ _); cbn [fst]; [|auto].
  destruct (after_remove_refs (snd (fst x)) (upd (snd (fst x)) (set_slots l) w)) as [-> ->]. auto.
Qed.

Lemma rcount_filter_self : forall o s k l,
  rcount (o, s, k) (filter (fun x => negb (Nat.eqb (fst (fst x)) o)) l) = 0.
Proof.
  intros o s k l. unfold rcount. induction l as [|[[a b] c] l IH]; cbn; [reflexivity|].
  destruct (Nat.eqb_spec a o) as [->|Ha]; cbn; [exact IH|].
  unfold ref_eqb at 1. cbn. destruct (Nat.eqb_spec o a); [congruence|]. cbn. exact IH.
Qed.

Lemma rcount_split : forall (f : oid * sid * key -> bool) y l,
  rcount y l = rcount y (filter (fun x => negb (f x)) l ++ filter f l).
Proof.
  intros f y l. unfold rcount. rewrite filter_app, app_length.
  induction l as [|x l IH]; cbn; [reflexivity|].
  destruct (f x); cbn; destruct (ref_eqb y x); cbn; lia.
Qed.

Lemma live_kill : forall o w, live [] None w -> live [] None (kill o w).
Proof.
  intros o w H. unfold kill. destruct (w_dead w o) eqn:Hdead; [exact H|].
  set (mine := filter (fun x => Nat.eqb (fst (fst x)) o) (w_refs w)).
  set (others := filter (fun x => negb (Nat.eqb (fst (fst x)) o)) (w_refs w)).
  set (w1 := set_refs others _).
  assert (H1 : live mine (Some o) w1).
  { destruct H as [A B C D]. constructor.
    - exact A.
    - intros s c o' HI Ho'. cbn. destruct (Nat.eqb_spec o' o) as [->|Hn]; [now right|].
      destruct (B s c o' HI Ho') as [Hx|Hx]; [now left|discriminate].
    - intros s k o' Ho'. cbn [w_refs w1 set_refs w_sg set_dead]. specialize (C s k o' Ho').
      rewrite app_nil_r in C.
      rewrite (rcount_split (fun x => Nat.eqb (fst (fst x)) o)) in C. exact C.
    - intros o' s k HI. apply D with (s := s). rewrite app_nil_r.
      apply in_app_iff in HI as [HI|HI]; apply filter_In in HI; apply HI. }
  apply live_finalize_all in H1.
  destruct (finalize_refs mine w1) as [R1 R2].
  destruct H1 as [A B C D]. constructor; auto.
  intros s c o' HI Ho'. left. destruct (B s c o' HI Ho') as [Hx|Hx]; [exact Hx|].
  exfalso. injection Hx as ->.
  pose proof (A s c HI) as Hrc. rewrite Ho' in Hrc.
  specialize (C s (w_key c) o' (eq_sym Hrc)). rewrite R1, app_nil_r in C. cbn [w_refs w1 set_refs] in C.
  unfold others in C. rewrite rcount_filter_self in C.
  assert (Hin : In c (filter (fun c0 => key_eqb (w_key c0) (w_key c))
     (s_slots (w_sg (fold_left finalize1 mine w1) s)))).
  { apply filter_In. split; [exact HI|apply key_eqb_refl]. }
  unfold kcount in C.
  match type of Hin with In _ ?l => destruct l; [destruct Hin|cbn in C; lia] end.
Qed.

(** ** Every API call keeps the bookkeeping intact. *)

Lemma live_connect_relay : forall r ms w, live [] None w -> live [] None (connect_relay r ms w).
Proof.
  intros r ms. unfold connect_relay. induction ms as [|[n m] ms IH]; intros w H; cbn [fold_left]; [exact H|].
  apply IH. cbn [snd]. unfold connect_relay1. destruct (has_key _ _); [exact H|].
  apply (live_add w m (Wcb (w_nxt w) (KRelay r) (TRelay r) None 0%Z None None));
    [discriminate|reflexivity|exact H].
Qed.
Lemma live_cstep : forall w w', cstep E false w w' -> live [] None w -> live [] None w'.
Proof.
  intros w w' HS H. inversion HS; subst.
  - eapply live_same; eauto.
  - now apply live_add.
  - eapply live_remove; eauto.
  - now apply live_clear.
  - discriminate.
Qed.
Lemma live_pure : forall o w w' r, is_pure o = true -> pure_step E o w = Some (w', r) ->
  live [] None w -> live [] None w'.
Proof.
  intros o w w' r Hp H HL. destruct (is_kill o) eqn:Hk.
  - destruct o; try discriminate Hk. injection H as <- _. now apply live_kill.
  - apply pure_csteps in H; [|exact Hp]. rewrite Hk in H.
    revert HL. eapply csteps_inv; [apply live_cstep|exact H].
Qed.
Theorem runs_live : forall p w w' r, runs E p w w' r -> live [] None w -> live [] None w'.
Proof.
  intros p w w' r HR.
  refine (frame_runs E (fun _ => True) (fun _ => True)
            (fun w w' _ => live [] None w -> live [] None w') _ _ _ _ _ _ _ _ HR).
  - apply framed_conn; [intros; eapply live_same; eauto|intros; eapply live_pure; eauto].
  - apply env_all_true.
  - apply prog_all_true.
Qed.
Theorem reachable_live : forall w, reachable E w -> live [] None w.
Proof.
  intros w (cfg & u & p & r & Hc & _ & HR). eapply runs_live; [exact HR|].
  constructor; cbn; intros; try contradiction.
  - destruct (Hc s) as (Hs & _). rewrite Hs in H. destruct H.
  - destruct (Hc s) as (Hs & _). rewrite Hs in H. destruct H.
  - destruct (Hc s) as (Hs & _). rewrite Hs. apply Nat.le_0_l.
Qed.
Corollary reachable_alive : forall w s c o, reachable E w -> In c (s_slots (w_sg w s)) ->
  w_ref c = Some o -> w_dead w o = false.
Proof.
  intros w s c o HR HI Ho. destruct (lv_alive _ _ _ (reachable_live w HR) s c o HI Ho) as [H|H];
    [exact H|discriminate].
Qed.

(** ** The death of an object removes its callbacks and nothing else. *)

Definition of_obj (o : oid) (c : wcb) : bool :=
  match w_ref c with Some x => Nat.eqb x o | None => false end.
Definition is_relay_cb (c : wcb) : bool := match w_key c with KRelay _ => true | _ => false end.

Lemma remove_first_filter : forall (p : wcb -> bool) k l l', remove_first k l = Some l' ->
  (forall c, In c l -> w_key c = k -> p c = false) -> filter p l' = filter p l.
Proof.
  induction l as [|x l IH]; intros l' H Hp; cbn in H; [discriminate|].
  destruct (key_eqb (w_key x) k) eqn:Hk.
  - injection H as <-. cbn. rewrite Hp; [reflexivity|now left|now apply key_eqb_eq].
  - destruct (remove_first k l) as [r|]; [|discriminate]. injection H as <-.
    cbn. rewrite (IH r); auto. intros; apply Hp; auto. now right.
Qed.
Lemma filter_disconnect_relay : forall (p : wcb -> bool) r ms w s,
  (forall c, is_relay_cb c = true -> p c = false) ->
  filter p (s_slots (w_sg (disconnect_relay r ms w) s)) = filter p (s_slots (w_sg w s)).
Proof.
  intros p r ms. unfold disconnect_relay. induction ms as [|[n m] ms IH]; intros w s Hp; cbn [fold_left]; [reflexivity|].
  rewrite IH by exact Hp. cbn [snd]. unfold disconnect_relay1.
  destruct (remove_first _ _) eqn:HR; [|reflexivity].
  dec_sid s m; [rewrite upd_same|now rewrite upd_other]. cbn.
  eapply remove_first_filter; [exact HR|]. intros c _ Hc. apply Hp. unfold is_relay_cb. now rewrite Hc.
Qed.
Lemma disconnect_relay_other : forall r ms w s, ~ In s (map snd ms) ->
  w_sg (disconnect_relay r ms w) s = w_sg w s.
Proof.
  intros r ms. unfold disconnect_relay. induction ms as [|[n m] ms IH]; intros w s Hs; cbn [fold_left]; [reflexivity|].
  cbn in Hs. rewrite IH by tauto. unfold disconnect_relay1; cbn [snd].
  destruct (remove_first _ _); [|reflexivity]. apply upd_other. intuition.
Qed.
Lemma disconnect_relay_members : forall r ms w s,
  s_members (w_sg (disconnect_relay r ms w) s) = s_members (w_sg w s).
Proof.
  intros r ms. unfold disconnect_relay. induction ms as [|[n m] ms IH]; intros w s; cbn [fold_left]; [reflexivity|].
  rewrite IH. unfold disconnect_relay1. destruct (remove_first _ _); [|reflexivity].
  dec_sid s (snd (n, m)); [now rewrite upd_same|now rewrite upd_other].
Qed.
Lemma finalize1_members : forall w x s, s_members (w_sg (finalize1 w x) s) = s_members (w_sg w s).
Proof.
  intros w [[o t] k] s. unfold finalize1, try_discard, remove_key. cbn [fst snd].
  destruct (remove_first _ _); cbn [fst]; [|reflexivity].
  unfold after_remove. destruct (s_members (w_sg (upd t (set_slots l) w) t));
    [destruct (s_slots (w_sg (upd t (set_slots l) w) t)) eqn:?|];
    try rewrite disconnect_relay_members; (dec_sid s t; [now rewrite upd_same|now rewrite upd_other]).
Qed.

Lemma finalize_filter : forall (p : wcb -> bool) s pend dy w, live pend dy w ->
  (forall o t k c, In (o, t, k) pend -> t = s -> w_ref c = ref_of E (w_key c) -> w_key c = k -> p c = false) ->
  ((forall c, is_relay_cb c = true -> p c = false) \/ (forall r, ~ In s (members_of w r))) ->
  filter p (s_slots (w_sg (fold_left finalize1 pend w) s)) = filter p (s_slots (w_sg w s)).
Proof.
  intros p s. induction pend as [|[[o t] k] pend IH]; intros dy w HL Hp Hm; cbn [fold_left]; [reflexivity|].
  rewrite (IH dy).
  - clear IH. unfold finalize1, try_discard, remove_key. cbn [fst snd].
    destruct (remove_first k (s_slots (w_sg w t))) as [l|] eqn:HR; cbn [fst]; [|reflexivity].
    set (w1 := upd t (set_slots l) w).
    assert (H1 : filter p (s_slots (w_sg w1 s)) = filter p (s_slots (w_sg w s))).
    { unfold w1. dec_sid s t; [rewrite upd_same|now rewrite upd_other]. cbn.
      eapply remove_first_filter; [exact HR|]. intros c HI Hc.
      eapply Hp; [now left|reflexivity| |exact Hc]. eapply lv_ref; eauto. }
    assert (HM : forall r, members_of w1 r = members_of w r).
    { intros r. unfold members_of, w1. dec_sid r t; [now rewrite upd_same|now rewrite upd_other]. }
    unfold after_remove. destruct (s_members (w_sg w1 t)) as [ms|] eqn:Hms; [|exact H1].
    destruct (s_slots (w_sg w1 t)); [|exact H1].
    destruct Hm as [Hm|Hm].
    + rewrite filter_disconnect_relay by exact Hm. exact H1.
    + rewrite disconnect_relay_other; [exact H1|]. specialize (Hm t). rewrite <- HM in Hm.
      unfold members_of in Hm. now rewrite Hms in Hm.
  - now apply live_finalize1.
  - intros o' t' k' c Hin. apply (Hp o' t' k' c). now right.
  - destruct Hm as [Hm|Hm]; [now left|right]. intros r. unfold members_of.
    rewrite finalize1_members. apply Hm.
Qed.

Lemma filter_all : forall {A} (p : A -> bool) l, (forall x, In x l -> p x = true) -> filter p l = l.
Proof.
  induction l as [|x l IH]; intros H; cbn; [reflexivity|]. rewrite (H x) by now left.
  f_equal. apply IH. intros; apply H; now right.
Qed.

(** [p] is a way of looking at callbacks that does not see those of [o]. *)
Lemma kill_filter : forall o w s (q : wcb -> bool), live [] None w ->
  ((forall c, is_relay_cb c = true -> q c = false) \/ (forall r, ~ In s (members_of w r))) ->
  filter q (s_slots (w_sg (kill o w) s)) =
  filter (fun c => q c && negb (of_obj o c)) (s_slots (w_sg w s)).
Proof.
  intros o w s q HL Hm.
  assert (HK := live_kill o w HL).
  assert (Hno : w_dead (kill o w) o = true).
  { unfold kill. destruct (w_dead w o) eqn:Hd; [exact Hd|].
    rewrite (proj2 (finalize_refs _ _)). cbn. now rewrite Nat.eqb_refl. }
  assert (H1 : filter q (s_slots (w_sg (kill o w) s)) =
               filter (fun c => q c && negb (of_obj o c)) (s_slots (w_sg (kill o w) s))).
  { apply filter_ext_in. intros c HI. destruct (of_obj o c) eqn:Ho; cbn [negb]; [|now rewrite andb_true_r].
    exfalso. unfold of_obj in Ho. destruct (w_ref c) as [x|] eqn:Hr; [|discriminate].
    apply Nat.eqb_eq in Ho; subst x.
    destruct (lv_alive _ _ _ HK s c o HI Hr); congruence. }
  rewrite H1. clear H1.
  unfold kill. destruct (w_dead w o) eqn:Hdead; [reflexivity|].
  set (mine := filter (fun x => Nat.eqb (fst (fst x)) o) (w_refs w)).
  set (others := filter (fun x => negb (Nat.eqb (fst (fst x)) o)) (w_refs w)).
  set (w1 := set_refs others _).
  assert (HL1 : live mine (Some o) w1).
  { destruct HL as [A B C D]. constructor.
    - exact A.
    - intros s' c o' HI Ho'. cbn. destruct (Nat.eqb_spec o' o) as [->|Hn]; [now right|].
      destruct (B s' c o' HI Ho') as [Hx|Hx]; [now left|discriminate].
    - intros s' k o' Ho'. cbn [w_refs w1 set_refs w_sg set_dead]. specialize (C s' k o' Ho').
      rewrite app_nil_r in C.
      rewrite (rcount_split (fun x => Nat.eqb (fst (fst x)) o)) in C. exact C.
    - intros o' s' k HI. apply D with (s := s'). rewrite app_nil_r.
      apply in_app_iff in HI as [HI|HI]; apply filter_In in HI; apply HI. }
  rewrite (finalize_filter _ s mine (Some o) w1 HL1).
  - reflexivity.
  - intros o' t k c HI _ Hr Hk. apply filter_In in HI as [HI Ho']. cbn in Ho'.
    apply Nat.eqb_eq in Ho'; subst o'.
    assert (Hk' : ref_of E k = Some o).
    { apply (lv_refs _ _ _ HL o t). rewrite app_nil_r. exact HI. }
    unfold of_obj. rewrite Hr, Hk, Hk', Nat.eqb_refl. apply andb_false_r.
  - destruct Hm as [Hm|Hm]; [left; intros c Hc; now rewrite Hm|right; exact Hm].
Qed.
End Dead.
