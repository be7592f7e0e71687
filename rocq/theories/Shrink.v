(** Calls that only remove connections, and what adding one does.
    Proof infrastructure. *)

From Verif Require Import Base Core Frame Fuel Conn Keep Spec Trace Inv Dead Rest Quiet Gone.

Inductive subseq {A} : list A -> list A -> Prop :=
| sq_nil : forall l, subseq [] l
| sq_keep : forall x a b, subseq a b -> subseq (x :: a) (x :: b)
| sq_drop : forall x a b, subseq a b -> subseq a (x :: b).

Lemma subseq_refl : forall {A} (l : list A), subseq l l.
Proof. induction l; constructor; auto. Qed.
Lemma subseq_trans : forall {A} (a b c : list A), subseq a b -> subseq b c -> subseq a c.
Proof.
  intros A a b c H1 H2. revert a H1. induction H2; intros z H1.
  - inversion H1; constructor.
  - inversion H1; subst; constructor; auto.
  - constructor; auto.
Qed.
Lemma subseq_In : forall {A} (a b : list A) x, subseq a b -> In x a -> In x b.
Proof. intros A a b x H; induction H; cbn; intuition. Qed.
Lemma subseq_NoDup : forall {A B} (f : A -> B) a b, subseq a b -> NoDup (map f b) -> NoDup (map f a).
Proof.
  intros A B f a b H; induction H; cbn; intros HN.
  - constructor.
  - inversion HN; subst. constructor; auto. intros HI. apply in_map_iff in HI as (y & Hy & HI).
    apply H2. rewrite <- Hy. apply in_map. eapply subseq_In; eauto.
  - inversion HN; auto.
Qed.
Lemma remove_first_subseq : forall k l l', remove_first k l = Some l' -> subseq l' l.
Proof.
  induction l as [|x l IH]; intros l' H; cbn in H; [discriminate|].
  destruct (key_eqb (w_key x) k).
  - injection H as <-. constructor. apply subseq_refl.
  - destruct (remove_first k l) as [r|]; [|discriminate]. injection H as <-. constructor. auto.
Qed.

(** The first callback of [l] with key [k] is taken out. *)
Lemma remove_first_spec : forall k l l', remove_first k l = Some l' <->
  exists a x b, l = a ++ x :: b /\ l' = a ++ b /\ w_key x = k /\ (forall y, In y a -> w_key y <> k).
Proof.
  induction l as [|x l IH]; intros l'; cbn.
  - split; [discriminate|]. intros ([|y a] & z & b & H & _); discriminate.
  - destruct (key_eqb (w_key x) k) eqn:Hk.
    + apply key_eqb_eq in Hk. split.
      * intros H. injection H as <-. exists [], x, l. repeat split; auto.
      * intros ([|y a] & z & b & H1 & H2 & H3 & H4); cbn in *.
        { injection H1 as <- <-. congruence. }
        { injection H1 as <- ->. exfalso. apply (H4 x); auto. }
    + assert (Hne : w_key x <> k) by (intros Hx; apply key_eqb_eq in Hx; congruence).
      destruct (remove_first k l) as [r|] eqn:HR.
      * split.
        { intros H. injection H as <-. destruct (proj1 (IH r) eq_refl) as (a & z & b & H1 & H2 & H3 & H4).
          exists (x :: a), z, b. subst. repeat split; auto. intros y [<-|Hy]; auto. }
        { intros ([|y a] & z & b & H1 & H2 & H3 & H4); cbn in *.
          - injection H1 as <- <-. congruence.
          - injection H1 as <- ->. f_equal.
            assert (Some r = Some (a ++ b)).
            { apply IH. exists a, z, b. repeat split; auto. }
            injection H as ->. now subst. }
      * split; [discriminate|]. intros ([|y a] & z & b & H1 & H2 & H3 & H4); cbn in *.
        { injection H1 as <- <-. congruence. }
        { injection H1 as <- ->. exfalso.
          assert (None = Some (a ++ b)); [|discriminate].
          apply IH. exists a, z, b. repeat split; auto. }
Qed.
Lemma remove_first_none : forall k l, remove_first k l = None <-> (forall y, In y l -> w_key y <> k).
Proof.
  induction l as [|x l IH]; cbn; [split; auto; contradiction|].
  destruct (key_eqb (w_key x) k) eqn:Hk.
  - apply key_eqb_eq in Hk. split; [discriminate|]. intros H. exfalso. now apply (H x); auto.
  - assert (Hne : w_key x <> k) by (intros Hx; apply key_eqb_eq in Hx; congruence).
    destruct (remove_first k l) as [r|]; (split; [try discriminate|auto]).
    + intros H. assert (Some r = None); [|discriminate]. apply IH. intros y Hy. apply H. now right.
    + intros _ y [<-|Hy]; auto. now apply IH.
Qed.
Lemma has_key_spec : forall k l, has_key k l = true <-> exists y, In y l /\ w_key y = k.
Proof.
  intros k l. unfold has_key. rewrite existsb_exists. split; intros (y & H1 & H2); exists y; split; auto;
    now apply key_eqb_eq.
Qed.
Lemma insert_prio_split : forall c l, exists a b, l = a ++ b /\ insert_prio c l = a ++ c :: b.
Proof.
  induction l as [|x l IH]; cbn; [exists [], []; auto|].
  destruct (Z.ltb _ _).
  - exists [], (x :: l); auto.
  - destruct IH as (a & b & -> & ->). exists (x :: a), b; auto.
Qed.
Lemma append_split : forall c st, exists a b, s_slots st = a ++ b
  /\ s_slots (append_slot_base c st) = a ++ c :: b.
Proof.
  intros c st. unfold append_slot_base. destruct (negb (s_prio st)).
  - destruct (Z.eqb (w_prio c) 0); cbn.
    + exists (s_slots st), []. now rewrite app_nil_r.
    + apply insert_prio_split.
  - cbn. apply insert_prio_split.
Qed.

Section Shrink.
Context {U : Type} (E : env U).
Implicit Types w : world U.

(** Connections only disappear. *)
Definition shrinks w w' : Prop := forall s, subseq (s_slots (w_sg w' s)) (s_slots (w_sg w s)).
Lemma shrinks_refl : forall w, shrinks w w.
Proof. intros w s. apply subseq_refl. Qed.
Lemma shrinks_trans : forall a b c, shrinks a b -> shrinks b c -> shrinks a c.
Proof. intros a b c H1 H2 s. eapply subseq_trans; eauto. Qed.
Lemma shrinks_set : forall s l w, subseq l (s_slots (w_sg w s)) -> shrinks w (upd s (set_slots l) w).
Proof.
  intros s l w H x. dec_sid x s; [rewrite upd_same; exact H|rewrite upd_other by assumption; apply subseq_refl].
Qed.
Lemma disconnect_relay_shrinks : forall r ms w, shrinks w (disconnect_relay r ms w).
Proof.
  intros r ms. unfold disconnect_relay. induction ms as [|[n m] ms IH]; intros w; cbn [fold_left].
  - apply shrinks_refl.
  - eapply shrinks_trans; [|apply IH]. unfold disconnect_relay1. cbn [snd].
    destruct (remove_first _ _) eqn:HR; [|apply shrinks_refl].
    apply shrinks_set. eapply remove_first_subseq; eauto.
Qed.
Lemma after_remove_shrinks : forall s w, shrinks w (after_remove s w).
Proof.
  intros s w. unfold after_remove. destruct (s_members (w_sg w s)); [|apply shrinks_refl].
  destruct (s_slots (w_sg w s)) eqn:?; [apply disconnect_relay_shrinks|apply shrinks_refl].
Qed.
Lemma remove_all_shrinks : forall s w, shrinks w (remove_all s w).
Proof.
  intros. unfold remove_all. eapply shrinks_trans; [|apply after_remove_shrinks].
  apply shrinks_set. constructor.
Qed.
Lemma remove_key_shrinks : forall s k w w', remove_key s k w = Some w' -> shrinks w w'.
Proof.
  intros s k w w' H. unfold remove_key in H. destruct (remove_first _ _) eqn:HR; [|discriminate].
  injection H as <-. eapply shrinks_trans; [|apply after_remove_shrinks].
  apply shrinks_set. eapply remove_first_subseq; eauto.
Qed.
Lemma try_discard_shrinks : forall s k mo w, shrinks w (fst (try_discard s k mo w)).
Proof.
  intros. unfold try_discard. destruct (remove_key s k w) eqn:HR; [|apply shrinks_refl].
  eapply remove_key_shrinks; eauto.
Qed.
Lemma disconnect_base_shrinks : forall s r mo w w' o, disconnect_base E s r mo w = (w', o) -> shrinks w w'.
Proof.
  intros s r mo w w' o H. unfold disconnect_base in H. destruct r as [r|].
  - destruct (key_of_ref E r); [|injection H as <- _; apply shrinks_refl].
    destruct (remove_key _ _ _) eqn:HR; injection H as <- _;
      [eapply remove_key_shrinks; eauto|apply shrinks_refl].
  - injection H as <- _. apply remove_all_shrinks.
Qed.
Lemma disconnect_each_shrinks : forall ms r mo w w' o, disconnect_each E ms r mo w = (w', o) -> shrinks w w'.
Proof.
  induction ms as [|[n m] ms IH]; intros r mo w w' o H; cbn in H.
  - injection H as <- _. apply shrinks_refl.
  - destruct (disconnect_base E m r mo w) as [w1 [v|e|]] eqn:HB; apply disconnect_base_shrinks in HB;
      [eapply shrinks_trans; eauto|injection H as <- _; exact HB|injection H as <- _; exact HB].
Qed.
Lemma disconnect_shrinks : forall s r mo w w' o, disconnect E s r mo w = (w', o) -> shrinks w w'.
Proof.
  intros s r mo w w' o H. unfold disconnect in H. destruct (s_members (w_sg w s)) as [ms|].
  - destruct (disconnect_each E ms r mo w) as [w1 [v|e|]] eqn:HD; apply disconnect_each_shrinks in HD;
      [|injection H as <- _; exact HD|injection H as <- _; exact HD].
    apply disconnect_base_shrinks in H. eapply shrinks_trans; eauto.
  - eapply disconnect_base_shrinks; eauto.
Qed.
Lemma finalize_shrinks : forall l w, shrinks w (fold_left finalize1 l w).
Proof.
  induction l as [|x l IH]; intros w; cbn [fold_left]; [apply shrinks_refl|].
  eapply shrinks_trans; [|apply IH]. apply try_discard_shrinks.
Qed.
Lemma kill_shrinks : forall o w, shrinks w (kill o w).
Proof.
  intros o w. unfold kill. destruct (w_dead w o); [apply shrinks_refl|].
  eapply shrinks_trans; [|apply finalize_shrinks]. intros s. apply subseq_refl.
Qed.

(** A callback of a dead object never comes back. *)
Lemma kill_gone : forall o w s c, reachable E w -> In c (s_slots (w_sg w s)) -> w_ref c = Some o ->
  gone (w_uid c) (kill o w).
Proof.
  intros o w s c HR HI Ho. destruct (reachable_distinct E w HR) as [HD HY].
  pose proof (live_kill E o w (reachable_live E w HR)) as HL.
  assert (HS : steps E (OKill o) w (kill o w) (Ok VNone)) by (exists 0; reflexivity).
  pose proof (bg_nxt _ _ _ _ (steps_based _ _ _ _ _ HS)) as HN. split.
  - specialize (HY s c HI). lia.
  - intros x d Hd Hu.
    destruct (HD x s d c) as [-> ->]; auto.
    { eapply subseq_In; [apply (kill_shrinks o w)|exact Hd]. }
    destruct (lv_alive _ _ _ _ HL s c o Hd Ho) as [Hx|Hx]; [|discriminate].
    assert (w_dead (kill o w) o = true); [|congruence].
    unfold kill. destruct (w_dead w o) eqn:Hdd; [exact Hdd|].
    rewrite (proj2 (finalize_refs _ _)). cbn. now rewrite Nat.eqb_refl.
Qed.

(** ** Adding a connection *)

Lemma connect_relay_none : forall r ms w x, ~ In x (map snd ms) -> w_sg (connect_relay r ms w) x = w_sg w x.
Proof. intros. now apply connect_relay_other. Qed.

(** At [s]: exactly one new callback. *)
Lemma add_wcb_self : forall s c w, flat w -> exists a b,
  s_slots (w_sg w s) = a ++ b /\ s_slots (w_sg (add_wcb s c w) s) = a ++ c :: b.
Proof.
  intros s c w HF. unfold add_wcb, append_slot.
  set (w2 := match w_ref c with Some _ => _ | None => _ end).
  assert (H2 : w_sg w2 = w_sg w) by (unfold w2; destruct (w_ref c); reflexivity).
  destruct (append_split c (w_sg w s)) as (a & b & Ha & Hb).
  set (w3 := upd s (append_slot_base c) w2).
  assert (H3 : s_slots (w_sg w3 s) = a ++ c :: b) by (unfold w3; rewrite upd_same, H2; exact Hb).
  assert (HM : s_members (w_sg w3 s) = s_members (w_sg w s)).
  { unfold w3. now rewrite upd_same, append_members, H2. }
  exists a, b. split; [exact Ha|]. rewrite HM.
  destruct (s_members (w_sg w s)) as [ms|] eqn:Hms; [|exact H3].
  destruct (Nat.eqb _ 1); [|exact H3].
  rewrite connect_relay_none; [exact H3|].
  intros HI. apply in_map_iff in HI as ([n m] & Hm & HI). cbn in Hm. subst m.
  specialize (HF s ms n s Hms HI). congruence.
Qed.
(** At a member of the group [s]: at most the group's own listener. *)
Definition relay_added (r : sid) (l l' : list wcb) : Prop :=
  l' = l \/ (has_key (KRelay r) l = false /\ exists a b x, l = a ++ b /\ l' = a ++ x :: b /\ w_key x = KRelay r).
Lemma connect_relay_each : forall r ms w x, relay_added r (s_slots (w_sg w x)) (s_slots (w_sg (connect_relay r ms w) x)).
Proof.
  intros r ms. unfold connect_relay. induction ms as [|[n m] ms IH]; intros w x; cbn [fold_left]; [now left|].
  cbn [snd]. unfold connect_relay1 at 2. destruct (has_key (KRelay r) (s_slots (w_sg w m))) eqn:HK; [apply IH|].
  set (c := Wcb (w_nxt w) (KRelay r) (TRelay r) None 0%Z None None).
  set (w1 := upd m (append_slot_base c) (set_nxt (S (w_nxt w)) w)). specialize (IH w1 x).
  destruct (Nat.eq_dec x m) as [->|Hx].
  - unfold w1 in IH at 1. rewrite upd_same in IH. change (w_sg (set_nxt (S (w_nxt w)) w)) with (w_sg w) in IH.
    destruct (append_split c (w_sg w m)) as (a & b & Ha & Hb). rewrite Hb in IH.
    right. split; [exact HK|]. exists a, b, c. split; [exact Ha|]. split; [|reflexivity].
    destruct IH as [IH|[IH _]]; [exact IH|]. exfalso.
    assert (has_key (KRelay r) (a ++ c :: b) = true); [|congruence].
    apply has_key_spec. exists c. split; [|reflexivity]. apply in_or_app. right; now left.
  - unfold w1 in IH at 1. rewrite upd_other in IH by exact Hx. exact IH.
Qed.
Lemma add_wcb_member : forall s c w x, x <> s ->
  relay_added s (s_slots (w_sg w x)) (s_slots (w_sg (add_wcb s c w) x)).
Proof.
  intros s c w x Hx. unfold add_wcb, append_slot.
  set (w2 := match w_ref c with Some _ => _ | None => _ end).
  assert (H2 : w_sg w2 = w_sg w) by (unfold w2; destruct (w_ref c); reflexivity).
  set (w3 := upd s (append_slot_base c) w2).
  assert (H3 : w_sg w3 x = w_sg w x) by (unfold w3; rewrite upd_other by exact Hx; now rewrite H2).
  destruct (s_members (w_sg w3 s)) as [ms|]; [|rewrite H3; now left].
  destruct (Nat.eqb _ 1); [|rewrite H3; now left].
  rewrite <- H3. apply connect_relay_each.
Qed.

(** Possible results of connect. *)
Lemma connect_cases : forall s c o w w' r, connect E s c o w = (w', r) ->
  (w' = w /\ (exists e, r = Err e))
  \/ (w' = w /\ r = Ok VNone /\ c_unique o = UTrue
      /\ exists k, key_of E c = inl k /\ has_key k (s_slots (w_sg w s)) = true)
  \/ (r = Ok VNone /\ exists x, w' = add_wcb s x w /\ key_of E c = inl (w_key x) /\ w_uid x = w_nxt w
      /\ w_prio x = c_prio o /\ w_thread x = resolve_thread w (c_thread o)
      /\ (c_unique o <> UFalse -> has_key (w_key x) (s_slots (w_sg w s)) = false)).
Proof.
  intros s c o w w' r H. unfold connect in H.
  destruct (callable_dead w c); [injection H as <- <-; left; eauto|].
  destruct (match c_unique o with UFalse => inl false | _ => _ end) as [al|e] eqn:HA;
    [|injection H as <- <-; left; eauto].
  destruct al.
  { destruct (c_unique o) eqn:HU; [discriminate| |injection H as <- <-; left; eauto].
    right; left. injection H as <- <-. destruct (key_of E c) as [k|]; [|discriminate].
    injection HA as HA. repeat split; auto. exists k; auto. }
  destruct (match (match c_check_nargs o with Some b => b | None => _ end), c_max o with
            | true, None => _ | _, _ => _ end) as [[mx onref]|e];
    [|injection H as <- <-; left; eauto].
  destruct (if (match c_check_types o with Some b => b | None => _ end) then _ else _) as [[|]|e];
    try (injection H as <- <-; left; eauto; fail).
  destruct (weak_callback E c mx onref (c_prio o) (w_nxt w)) as [x|e] eqn:HW;
    [|injection H as <- <-; left; eauto].
  right; right. injection H as <- <-. split; [reflexivity|].
  exists (set_thread (resolve_thread w (c_thread o)) x). split; [reflexivity|].
  assert (HKey : key_of E c = inl (w_key x)).
  { unfold key_of. clear - HW. unfold weak_callback, weak_setattr, weak_setitem, try_ref in *.
    destruct (callable_base c); repeat (dm HW; try discriminate); injection HW as <-; reflexivity. }
  assert (HP : w_prio x = c_prio o).
  { clear - HW. unfold weak_callback, weak_setattr, weak_setitem, try_ref in *.
    destruct (callable_base c); repeat (dm HW; try discriminate); injection HW as <-; reflexivity. }
  split; [exact HKey|]. split; [exact (weak_callback_uid E _ _ _ _ _ _ HW)|]. split; [exact HP|]. split; [reflexivity|].
  intros HU. cbn [w_key set_thread]. rewrite HKey in HA. destruct (c_unique o); [congruence| |];
    now injection HA as HA.
Qed.
End Shrink.
