(** The internal connections of a group to its members (C23).  Proof infrastructure;
    models no code. *)

From Coq Require Import Permutation.
From Verif Require Import Base Core Frame Fuel Conn Keep Spec Trace Inv Dead Rest Quiet Deliver Emission SpecGroup.

Local Arguments key_eqb : simpl never.

Section Relay.
Context {U : Type} (E : env U).
Implicit Types w : world U.
Context (r : sid).

Definition rel (l : list wcb) : list wcb := filter (fun c => key_eqb (w_key c) (KRelay r)) l.

Lemma key_other : forall k, k <> KRelay r -> key_eqb k (KRelay r) = false.
Proof. intros k H. destruct (key_eqb k (KRelay r)) eqn:K; [|reflexivity]. now apply key_eqb_eq in K. Qed.
Lemma key_own : key_eqb (KRelay r) (KRelay r) = true.
Proof. now apply key_eqb_eq. Qed.

Lemma rel_insert : forall c l, w_key c <> KRelay r -> rel (insert_prio c l) = rel l.
Proof.
  intros c l H. apply key_other in H. induction l as [|x l IH]; cbn; [now rewrite H|].
  destruct (Z.ltb _ _); cbn; [now rewrite H|]. fold (rel (insert_prio c l)). now rewrite IH.
Qed.
Lemma rel_app : forall a b, rel (a ++ b) = rel a ++ rel b.
Proof. intros. apply filter_app. Qed.
Lemma rel_append : forall c st, w_key c <> KRelay r ->
  rel (s_slots (append_slot_base c st)) = rel (s_slots st).
Proof.
  intros c st H. unfold append_slot_base. destruct (s_prio st); cbn; [now apply rel_insert|].
  destruct (Z.eqb _ _); cbn; [|now apply rel_insert].
  rewrite rel_app. cbn. rewrite (key_other _ H). apply app_nil_r.
Qed.
Lemma rel_insert_own : forall c l, w_key c = KRelay r -> rel l = [] -> rel (insert_prio c l) = [c].
Proof.
  intros c l H. induction l as [|x l IH]; cbn; intros HL; [now rewrite H, key_own|].
  destruct (key_eqb (w_key x) (KRelay r)) eqn:K; [discriminate|].
  destruct (Z.ltb _ _); cbn; rewrite ?K, ?H, ?key_own.
  - fold (rel l) in *. now rewrite HL.
  - now apply IH.
Qed.
Lemma rel_append_own : forall c st, w_key c = KRelay r -> rel (s_slots st) = [] ->
  rel (s_slots (append_slot_base c st)) = [c].
Proof.
  intros c st H HL. unfold append_slot_base. destruct (s_prio st); cbn; [now apply rel_insert_own|].
  destruct (Z.eqb _ _); cbn; [|now apply rel_insert_own].
  rewrite rel_app, HL. cbn. now rewrite H, key_own.
Qed.
Lemma rel_remove : forall k l l', k <> KRelay r -> remove_first k l = Some l' -> rel l' = rel l.
Proof.
  intros k l. induction l as [|x l IH]; intros l' Hk H; cbn in H; [discriminate|].
  destruct (key_eqb (w_key x) k) eqn:K.
  - injection H as <-. apply key_eqb_eq in K. cbn. now rewrite (key_other (w_key x)) by congruence.
  - destruct (remove_first k l) as [l1|] eqn:R; [|discriminate]. injection H as <-. cbn.
    fold (rel l1). fold (rel l). now rewrite (IH _ Hk eq_refl).
Qed.
Lemma rel_remove_own : forall l l', remove_first (KRelay r) l = Some l' -> rel l' = tl (rel l).
Proof.
  induction l as [|x l IH]; intros l' H; cbn in H; [discriminate|]. cbn.
  destruct (key_eqb (w_key x) (KRelay r)) eqn:K; [now injection H as <-|].
  destruct (remove_first _ l) as [l1|]; [|discriminate]. injection H as <-. cbn. rewrite K. now apply IH.
Qed.
Lemma rel_remove_none : forall l, remove_first (KRelay r) l = None -> rel l = [].
Proof.
  induction l as [|x l IH]; intros H; cbn in H; [reflexivity|]. cbn.
  destruct (key_eqb (w_key x) (KRelay r)); [discriminate|].
  destruct (remove_first _ l); [discriminate|]. now apply IH.
Qed.
Lemma rel_has : forall l, has_key (KRelay r) l = false -> rel l = [].
Proof.
  induction l as [|x l IH]; intros H; cbn in *; [reflexivity|].
  destruct (key_eqb (w_key x) (KRelay r)); [discriminate|]. now apply IH.
Qed.
Lemma has_rel : forall l, has_key (KRelay r) l = true -> rel l <> [].
Proof.
  induction l as [|x l IH]; intros H; cbn in *; [discriminate|].
  destruct (key_eqb (w_key x) (KRelay r)); [discriminate|]. now apply IH.
Qed.

Lemma insert_prio_length : forall c l, List.length (insert_prio c l) = S (List.length l).
Proof. intros c l. induction l as [|x l IH]; cbn; [reflexivity|]. destruct (Z.ltb _ _); cbn; lia. Qed.

(** What the members of [r] hold. *)
Definition held w m := rel (s_slots (w_sg w m)).
Definition ok_held w m := held w m = [] \/ exists c, held w m = [c] /\ link r c.
Definition one_held w m := exists c, held w m = [c] /\ link r c.

Lemma held_upd : forall s f w m, rel (s_slots (f (w_sg w s))) = rel (s_slots (w_sg w s)) ->
  held (upd s f w) m = held w m.
Proof.
  intros s f w m H. unfold held. dec_sid m s; [now rewrite upd_same|now rewrite upd_other].
Qed.

Lemma connect_relay_held : forall x ms w m, x <> r -> held (connect_relay x ms w) m = held w m.
Proof.
  intros x ms. induction ms as [|[n y] ms IH]; intros w m Hx; [reflexivity|].
  unfold connect_relay. cbn [fold_left snd]. fold (connect_relay x ms (connect_relay1 x y w)).
  rewrite IH by exact Hx. unfold connect_relay1. destruct (has_key _ _); [reflexivity|].
  transitivity (held (set_nxt (S (w_nxt w)) w) m); [|reflexivity].
  apply held_upd. apply rel_append. cbn. congruence.
Qed.
Lemma disconnect_relay_held : forall x ms w m, x <> r -> held (disconnect_relay x ms w) m = held w m.
Proof.
  intros x ms. induction ms as [|[n y] ms IH]; intros w m Hx; [reflexivity|].
  unfold disconnect_relay. cbn [fold_left snd]. fold (disconnect_relay x ms (disconnect_relay1 x y w)).
  rewrite IH by exact Hx. unfold disconnect_relay1.
  destruct (remove_first _ _) as [l|] eqn:R; [|reflexivity].
  apply held_upd. cbn. eapply rel_remove; [|exact R]. congruence.
Qed.

Lemma connect_relay_own : forall ms w, (forall m, In m (map snd ms) -> ok_held w m) ->
  forall m, (In m (map snd ms) -> one_held (connect_relay r ms w) m)
    /\ (one_held w m -> one_held (connect_relay r ms w) m).
Proof.
  intros ms. induction ms as [|[n y] ms IH]; intros w H m.
  - split; [intros []|auto].
  - unfold connect_relay. cbn [fold_left snd]. fold (connect_relay r ms (connect_relay1 r y w)).
    set (w1 := connect_relay1 r y w).
    assert (Hy : one_held w1 y).
    { unfold w1, connect_relay1. destruct (has_key _ _) eqn:K.
      - destruct (H y (or_introl eq_refl)) as [H0|H1]; [|exact H1].
        apply has_rel in K. now unfold held in H0.
      - eexists. split; [unfold held; rewrite upd_same; apply rel_append_own;
          [reflexivity|now apply rel_has]|]. repeat split. }
    assert (Ho : forall z, z <> y -> held w1 z = held w z).
    { intros z Hz. unfold w1, connect_relay1. destruct (has_key _ _); [reflexivity|].
      unfold held. now rewrite upd_other by congruence. }
    assert (H1 : forall z, In z (map snd ms) -> ok_held w1 z).
    { intros z Hz. destruct (Nat.eq_dec z y) as [->|Hn]; [now right|].
      unfold ok_held. rewrite (Ho z Hn). apply H. now right. }
    destruct (IH w1 H1 m) as [A B]. cbn [map snd]. split.
    + intros [<-|Hm]; [|now apply A]. destruct (IH w1 H1 y) as [_ B']. now apply B'.
    + intros Hm. destruct (Nat.eq_dec m y) as [->|Hn]; [now apply B|].
      apply B. unfold one_held. now rewrite (Ho m Hn).
Qed.
Lemma disconnect_relay_own : forall ms w, (forall m, In m (map snd ms) -> ok_held w m) ->
  forall m, (In m (map snd ms) -> held (disconnect_relay r ms w) m = [])
    /\ (held w m = [] -> held (disconnect_relay r ms w) m = []).
Proof.
  intros ms. induction ms as [|[n y] ms IH]; intros w H m.
  - split; [intros []|auto].
  - unfold disconnect_relay. cbn [fold_left snd]. fold (disconnect_relay r ms (disconnect_relay1 r y w)).
    set (w1 := disconnect_relay1 r y w).
    assert (Hy : held w1 y = []).
    { unfold w1, disconnect_relay1. destruct (remove_first _ _) as [l|] eqn:K.
      - unfold held. rewrite upd_same. change (s_slots (set_slots l (w_sg w y))) with l.
        rewrite (rel_remove_own _ _ K).
        destruct (H y (or_introl eq_refl)) as [H0|(c & H0 & _)]; unfold held in H0; now rewrite H0.
      - now apply rel_remove_none. }
    assert (Ho : forall z, z <> y -> held w1 z = held w z).
    { intros z Hz. unfold w1, disconnect_relay1. destruct (remove_first _ _); [|reflexivity].
      unfold held. now rewrite upd_other by congruence. }
    assert (H1 : forall z, In z (map snd ms) -> ok_held w1 z).
    { intros z Hz. destruct (Nat.eq_dec z y) as [->|Hn]; [now left|].
      unfold ok_held. rewrite (Ho z Hn). apply H. now right. }
    destruct (IH w1 H1 m) as [A B]. cbn [map snd]. split.
    + intros [<-|Hm]; [|now apply A]. destruct (IH w1 H1 y) as [_ B']. now apply B'.
    + intros Hm. destruct (Nat.eq_dec m y) as [->|Hn]; [now apply B|].
      apply B. now rewrite (Ho m Hn).
Qed.

(** ** The invariant *)

Record managed w : Prop := {
  mg_flat : flat w;
  mg_refs : forall o s k, In (o, s, k) (w_refs w) -> k <> KRelay r;
  mg_on : s_slots (w_sg w r) <> [] -> forall m, In m (members_of w r) -> one_held w m;
  mg_off : s_slots (w_sg w r) = [] -> forall m, In m (members_of w r) -> held w m = []
}.

Lemma managed_ok : forall w, managed w -> forall m, In m (members_of w r) -> ok_held w m.
Proof.
  intros w H m Hm. destruct (s_slots (w_sg w r)) eqn:K.
  - left. now apply (mg_off w H).
  - right. apply (mg_on w H); [congruence|exact Hm].
Qed.

Lemma managed_same : forall w w', conn_same w w' -> managed w -> managed w'.
Proof.
  intros w w' (H1 & H2 & _) [A B C D].
  assert (HM : members_of w' r = members_of w r)
    by (unfold members_of; now rewrite (proj2 (proj2 (H1 r)))).
  assert (HH : forall m, held w' m = held w m) by (intros m; unfold held; now rewrite (proj1 (H1 m))).
  constructor.
  - intros x ms n m Hx Hi. rewrite (proj2 (proj2 (H1 m))). rewrite (proj2 (proj2 (H1 x))) in Hx.
    eapply A; eauto.
  - rewrite H2. exact B.
  - rewrite HM, (proj1 (H1 r)). intros K m Hm. unfold one_held. rewrite HH. now apply C.
  - rewrite HM, (proj1 (H1 r)). intros K m Hm. rewrite HH. now apply D.
Qed.

(** A group's members never include a group. *)
Lemma no_nested : forall w x m, flat w -> In m (members_of w r) -> ~ In r (members_of w x).
Proof.
  intros w x m HF Hm Hx. pose proof (flat_members w HF x r Hx) as K. rewrite K in Hm. destruct Hm.
Qed.

(** Changes at another signal that touch neither [r]'s callbacks nor its links. *)
Lemma managed_elsewhere : forall w w', managed w -> flat w' ->
  (forall o s k, In (o, s, k) (w_refs w') -> k <> KRelay r) ->
  members_of w' r = members_of w r ->
  (forall m, In m (members_of w r) -> s_slots (w_sg w' r) = s_slots (w_sg w r) /\ held w' m = held w m) ->
  managed w'.
Proof.
  intros w w' [A B C D] HF HR HM HS. constructor; [exact HF|exact HR| |].
  - rewrite HM. intros K m Hm. destruct (HS m Hm) as [S H]. rewrite S in K. unfold one_held. rewrite H.
    now apply C.
  - rewrite HM. intros K m Hm. destruct (HS m Hm) as [S H]. rewrite S in K. rewrite H. now apply D.
Qed.

Lemma add_wcb_refs : forall s c w, w_refs (add_wcb s c w) =
  match w_ref c with Some o => (o, s, w_key c) :: w_refs w | None => w_refs w end.
Proof.
  intros s c w. unfold add_wcb, append_slot.
  assert (HC : forall x ms w0, w_refs (connect_relay x ms w0) = w_refs w0).
  { intros x ms. unfold connect_relay. induction ms as [|[n y] ms IH]; intros w0; [reflexivity|].
    cbn [fold_left snd]. rewrite IH. unfold connect_relay1. destruct (has_key _ _); reflexivity. }
  destruct (w_ref c); (destruct (s_members _); [destruct (Nat.eqb _ _); rewrite ?HC; reflexivity|reflexivity]).
Qed.
Lemma remove_key_refs : forall s k w w', remove_key s k w = Some w' -> w_refs w' = w_refs w.
Proof.
  intros s k w w' H. unfold remove_key in H. destruct (remove_first _ _); [|discriminate].
  injection H as <-. unfold after_remove. destruct (s_members _); [|reflexivity].
  destruct (s_slots _); [|reflexivity].
  assert (HC : forall x ms w0, w_refs (disconnect_relay x ms w0) = w_refs w0).
  { intros x ms. unfold disconnect_relay. induction ms as [|[n y] ms IH]; intros w0; [reflexivity|].
    cbn [fold_left snd]. rewrite IH. unfold disconnect_relay1. destruct (remove_first _ _); reflexivity. }
  rewrite HC. reflexivity.
Qed.

Lemma keeps_flat : forall w w', keeps w w' -> flat w -> flat w'.
Proof. intros w w' (H & _). apply flat_static. intros s. apply H. Qed.

Lemma managed_add : forall s c w, w_key c <> KRelay r -> managed w -> managed (add_wcb s c w).
Proof.
  intros s c w Hc HW. pose proof (keeps_add_wcb s c w) as HK.
  assert (HR : forall o x k, In (o, x, k) (w_refs (add_wcb s c w)) -> k <> KRelay r).
  { intros o x k. rewrite add_wcb_refs. destruct (w_ref c); [|apply (mg_refs w HW)].
    intros [K|K]; [injection K as _ _ <-; exact Hc|eapply mg_refs; eauto]. }
  assert (HM := keeps_members _ _ HK r).
  assert (HF := keeps_flat _ _ HK (mg_flat w HW)).
  assert (Hw2 : exists w2, w_sg w2 = w_sg w /\ add_wcb s c w = append_slot s c w2).
  { unfold add_wcb. destruct (w_ref c); eexists; (split; [|reflexivity]); reflexivity. }
  destruct Hw2 as (w2 & S2 & HA).
  assert (HM2 : members_of w2 r = members_of w r) by (unfold members_of; now rewrite S2).
  assert (HH2 : forall m, held w2 m = held w m) by (intros; unfold held; now rewrite S2).
  destruct (Nat.eq_dec s r) as [->|Hs].
  - (* the group itself *)
    assert (Hoth : forall m, In m (members_of w r) -> m <> r).
    { intros m Hm ->. exact (no_nested w r r (mg_flat w HW) Hm Hm). }
    rewrite HA in *. unfold append_slot in *.
    set (w1 := upd r (append_slot_base c) w2) in *.
    assert (HH1 : forall m, In m (members_of w r) -> held w1 m = held w m).
    { intros m Hm. unfold w1, held. rewrite upd_other by (apply Hoth; exact Hm). now rewrite S2. }
    assert (HS1 : s_slots (w_sg w1 r) = s_slots (append_slot_base c (w_sg w r)))
      by (unfold w1; now rewrite upd_same, S2).
    assert (HL1 : List.length (s_slots (w_sg w1 r)) = S (List.length (s_slots (w_sg w r)))).
    { rewrite HS1. unfold append_slot_base. destruct (s_prio _); cbn;
        [apply insert_prio_length|]. destruct (Z.eqb _ _); cbn; [|apply insert_prio_length].
      rewrite app_length. cbn. lia. }
    assert (HMw : s_members (w_sg w1 r) = s_members (w_sg w r)).
    { unfold w1. rewrite upd_same, append_members, S2. reflexivity. }
    rewrite HMw in *.
    destruct (s_members (w_sg w r)) as [ms|] eqn:Hms.
    2: { assert (HN : members_of w r = []) by (unfold members_of; now rewrite Hms).
         constructor; [exact HF|exact HR| |]; intros _ m Hm; rewrite HM, HN in Hm; destruct Hm. }
    assert (HN : members_of w r = map snd ms) by (unfold members_of; now rewrite Hms).
    rewrite HL1 in *. destruct (Nat.eqb_spec (S (List.length (s_slots (w_sg w r)))) 1) as [K|K].
    + assert (H0 : s_slots (w_sg w r) = []) by (destruct (s_slots (w_sg w r)); [reflexivity|cbn in K; lia]).
      assert (HO : forall m, In m (map snd ms) -> ok_held w1 m).
      { intros m Hm. left. rewrite HH1 by (now rewrite HN). apply (mg_off w HW H0). now rewrite HN. }
      assert (HSr : s_slots (w_sg (connect_relay r ms w1) r) = s_slots (w_sg w1 r)).
      { f_equal. apply connect_relay_other. rewrite <- HN. intros Hr. exact (Hoth r Hr eq_refl). }
      constructor; [exact HF|exact HR| |]; rewrite HSr, HM, HN.
      * intros _ m Hm. exact (proj1 (connect_relay_own ms w1 HO m) Hm).
      * intros Hz. rewrite Hz in HL1. discriminate.
    + assert (H0 : s_slots (w_sg w r) <> []) by (intros H0; rewrite H0 in K; cbn in K; lia).
      constructor; [exact HF|exact HR| |]; rewrite HM.
      * intros _ m Hm. unfold one_held. rewrite HH1 by exact Hm. now apply (mg_on w HW).
      * intros Hz. rewrite Hz in HL1. discriminate.
  - apply (managed_elsewhere w); auto. intros m Hm. rewrite HA.
    assert (Hn : ~ In r (members_of w s)) by (eapply no_nested; [apply (mg_flat w HW)|exact Hm]).
    split.
    + rewrite <- HA. apply add_wcb_other; [exact Hs|exact Hn].
    + unfold append_slot. set (w1 := upd s (append_slot_base c) w2).
      assert (H1 : held w1 m = held w m).
      { rewrite <- HH2. apply held_upd. now apply rel_append. }
      destruct (s_members _); [destruct (Nat.eqb _ _)|]; rewrite ?connect_relay_held by exact Hs; exact H1.
Qed.

Lemma managed_remove_key : forall s k w w', k <> KRelay r -> remove_key s k w = Some w' ->
  managed w -> managed w'.
Proof.
  intros s k w w' Hk H HW. pose proof (keeps_remove_key _ _ _ _ H) as HK.
  assert (HR : forall o x k, In (o, x, k) (w_refs w') -> k <> KRelay r).
  { rewrite (remove_key_refs _ _ _ _ H). apply (mg_refs w HW). }
  assert (HM := keeps_members _ _ HK r).
  assert (HF := keeps_flat _ _ HK (mg_flat w HW)).
  pose proof H as H'. unfold remove_key in H'.
  destruct (remove_first k (s_slots (w_sg w s))) as [l|] eqn:HRf; [|discriminate].
  injection H' as Hw'. set (w1 := upd s (set_slots l) w) in *.
  assert (HH1 : forall m, held w1 m = held w m).
  { intros m. apply held_upd. cbn. eapply rel_remove; eauto. }
  destruct (Nat.eq_dec s r) as [->|Hs].
  - assert (HS1 : s_slots (w_sg w1 r) = l) by (unfold w1; now rewrite upd_same).
    assert (Hne : s_slots (w_sg w r) <> []) by (intros Hz; rewrite Hz in HRf; discriminate).
    unfold after_remove in Hw'. rewrite HS1 in Hw'.
    assert (HMw : s_members (w_sg w1 r) = s_members (w_sg w r)) by (unfold w1; now rewrite upd_same).
    rewrite HMw in Hw'. destruct (s_members (w_sg w r)) as [ms|] eqn:Hms.
    2: { assert (HN : members_of w r = []) by (unfold members_of; now rewrite Hms).
         constructor; [exact HF|exact HR| |]; intros _ m Hm; rewrite HM, HN in Hm; destruct Hm. }
    assert (HN : members_of w r = map snd ms) by (unfold members_of; now rewrite Hms).
    destruct l as [|c l].
    + assert (HO : forall m, In m (map snd ms) -> ok_held w1 m).
      { intros m Hm. unfold ok_held. rewrite HH1. apply managed_ok; [exact HW|now rewrite HN]. }
      constructor; [exact HF|exact HR| |]; rewrite HM, HN.
      * intros Hnz m Hm. exfalso. apply Hnz. rewrite <- Hw'.
        transitivity (s_slots (w_sg w1 r)); [|exact HS1].
        f_equal. apply disconnect_relay_other. rewrite <- HN. intros Hr.
        exact (no_nested w r r (mg_flat w HW) Hr Hr).
      * intros _ m Hm. rewrite <- Hw'. exact (proj1 (disconnect_relay_own ms w1 HO m) Hm).
    + rewrite <- Hw' in *.
      constructor; [exact HF|exact HR| |]; rewrite HM, HS1.
      * intros _ m Hm. unfold one_held. rewrite HH1. now apply (mg_on w HW).
      * discriminate.
  - apply (managed_elsewhere w); auto. intros m Hm.
    assert (Hn : ~ In r (members_of w s)) by (eapply no_nested; [apply (mg_flat w HW)|exact Hm]).
    split.
    + f_equal. eapply remove_key_other; eauto.
    + rewrite <- HH1, <- Hw'. unfold after_remove.
      destruct (s_members (w_sg w1 s)); [|reflexivity].
      destruct (s_slots (w_sg w1 s)); [|reflexivity]. now apply disconnect_relay_held.
Qed.

Lemma weak_callback_key : forall c m rc p uid x, weak_callback E c m rc p uid = inl x ->
  callable_base c <> BRelay r -> w_key x <> KRelay r.
Proof.
  intros c m rc p uid x H Hc. unfold weak_callback, weak_setattr, weak_setitem in H.
  destruct (callable_base c) eqn:HB; repeat
    match type of H with
    | (match ?t with _ => _ end) = _ => destruct t; try discriminate
    end; try (injection H as <-; cbn; congruence).
Qed.
Lemma key_of_other : forall c k, key_of E c = inl k -> callable_base c <> BRelay r -> k <> KRelay r.
Proof.
  intros c k H Hc. unfold key_of in H. destruct (weak_callback _ _ _ _ _ _) eqn:K; [|discriminate].
  injection H as <-. eapply weak_callback_key; eauto.
Qed.

Lemma managed_connect : forall s c o w w' x, callable_base c <> BRelay r ->
  connect E s c o w = (w', x) -> managed w -> managed w'.
Proof.
  intros s c o w w' x Hc H HW. unfold connect in H.
  repeat match type of H with
    | (match ?t with _ => _ end) = _ => destruct t eqn:?; try (injection H as <- _; exact HW)
    | (if ?t then _ else _) = _ => destruct t eqn:?; try (injection H as <- _; exact HW)
    end; injection H as <- _; apply managed_add; auto; cbn; eapply weak_callback_key; eauto.
Qed.
Lemma managed_connect_each : forall ms c o w w' x, callable_base c <> BRelay r ->
  connect_each E ms c o w = (w', x) -> managed w -> managed w'.
Proof.
  intros ms c o. induction ms as [|[n m] ms IH]; intros w w' x Hc H HW; cbn in H.
  - now injection H as <- _.
  - destruct (connect E m c o w) as [w1 [v|e|]] eqn:K;
      pose proof (managed_connect _ _ _ _ _ _ Hc K HW); try (injection H as <- _; assumption). eauto.
Qed.

(** Disconnecting something else than a link. *)
Definition other_ref (rf : slotref) : Prop :=
  match rf with RCallable c => callable_base c <> BRelay r | RHandle k => k <> KRelay r end.
Lemma managed_base : forall s rf mo w w' x, other_ref rf ->
  disconnect_base E s (Some rf) mo w = (w', x) -> managed w -> managed w'.
Proof.
  intros s rf mo w w' x Hr H HW. unfold disconnect_base in H.
  destruct (key_of_ref E rf) as [k|e] eqn:K; [|now injection H as <- _].
  assert (Hk : k <> KRelay r).
  { destruct rf; cbn in *; [eapply key_of_other; eauto|congruence]. }
  destruct (remove_key s k w) as [w1|] eqn:HR; injection H as <- _; [|exact HW].
  eapply managed_remove_key; eauto.
Qed.
Lemma managed_each : forall ms rf mo w w' x, other_ref rf ->
  disconnect_each E ms (Some rf) mo w = (w', x) -> managed w -> managed w'.
Proof.
  intros ms rf mo. induction ms as [|[n m] ms IH]; intros w w' x Hr H HW; cbn [disconnect_each] in H.
  - now injection H as <- _.
  - destruct (disconnect_base E m (Some rf) mo w) as [w1 [v|e|]] eqn:K;
      pose proof (managed_base _ _ _ _ _ _ Hr K HW); try (injection H as <- _; assumption). eauto.
Qed.

Lemma remove_all_refs : forall s w, w_refs (remove_all s w) = w_refs w.
Proof.
  intros s w. unfold remove_all, after_remove. destruct (s_members _); [|reflexivity].
  destruct (s_slots _); [|reflexivity].
  assert (HC : forall x ms w0, w_refs (disconnect_relay x ms w0) = w_refs w0).
  { intros x ms. unfold disconnect_relay. induction ms as [|[n y] ms IH]; intros w0; [reflexivity|].
    cbn [fold_left snd]. rewrite IH. unfold disconnect_relay1. destruct (remove_first _ _); reflexivity. }
  rewrite HC. reflexivity.
Qed.
Lemma each_all_refs : forall ms mo w w' x, disconnect_each E ms None mo w = (w', x) ->
  w_refs w' = w_refs w /\ exists v, x = Ok v.
Proof.
  intros ms mo. induction ms as [|[n m] ms IH]; intros w w' x H; cbn in H.
  - injection H as <- <-. eauto.
  - apply IH in H as [A B]. split; [|exact B]. rewrite A. apply remove_all_refs.
Qed.
(** Clearing signals unrelated to [r]. *)
Lemma managed_all : forall s mo w w' x, s <> r -> ~ In s (members_of w r) ->
  (forall m, In m (members_of w s) -> ~ In m (members_of w r)) ->
  disconnect E s None mo w = (w', x) -> managed w -> managed w'.
Proof.
  intros s mo w w' x Hs Hsm Hms H HW.
  pose proof (keeps_disconnect _ _ _ _ _ _ _ H) as HK.
  assert (Hsl : forall m, (m = r /\ ~ In r (members_of w s)) \/ In m (members_of w r) ->
                  s_slots (w_sg w' m) = s_slots (w_sg w m)).
  { intros m Hm.
    assert (Hm1 : s <> m /\ ~ In m (members_of w s)).
    { destruct Hm as [[-> Hm]|Hm]; [auto|]. split; [congruence|]. intros K. exact (Hms m K Hm). }
    destruct Hm1 as [Hm1 Hm2]. f_equal. unfold disconnect in H.
    destruct (s_members (w_sg w s)) as [ms|] eqn:Hmm.
    2: { eapply disconnect_base_other; [exact Hm1|exact Hm2|exact H]. }
    assert (HN : members_of w s = map snd ms) by (unfold members_of; now rewrite Hmm).
    destruct (disconnect_each E ms None mo w) as [w1 y] eqn:HE.
    pose proof (keeps_members _ _ (keeps_disconnect_each _ _ _ _ _ _ _ HE)) as HKm.
    assert (H1 : w_sg w1 m = w_sg w m).
    { eapply disconnect_each_other; [|exact HE]. intros y0 Hy0. rewrite <- HN in Hy0.
      rewrite (flat_members w (mg_flat w HW) _ _ Hy0).
      split; [congruence|intros []]. }
    destruct y; try (injection H as <- _; exact H1).
    rewrite <- H1. eapply disconnect_base_other; [exact Hm1|now rewrite HKm|exact H]. }
  apply (managed_elsewhere w); auto.
  - eapply keeps_flat; [exact HK|apply (mg_flat w HW)].
  - assert (HR : w_refs w' = w_refs w).
    { unfold disconnect in H. destruct (s_members (w_sg w s)).
      - destruct (disconnect_each E _ None mo w) as [w1 y] eqn:HE.
        destruct (each_all_refs _ _ _ _ _ HE) as (HR & v & ->). cbn in H. injection H as <- _.
        now rewrite remove_all_refs.
      - cbn in H. injection H as <- _. apply remove_all_refs. }
    rewrite HR. apply (mg_refs w HW).
  - now apply keeps_members.
  - intros m Hm. split.
    + apply Hsl. left. split; [reflexivity|]. eapply no_nested; [apply (mg_flat w HW)|exact Hm].
    + unfold held. rewrite Hsl; [reflexivity|]. now right.
Qed.

(** Clearing the group itself. *)
Lemma remove_all_held : forall s w m, held w m = [] -> (s = r -> s_members (w_sg w r) <> None ->
   forall y, In y (members_of w r) -> held w y = []) -> held (remove_all s w) m = [].
Proof.
  intros s w m H0 H1. unfold remove_all.
  assert (H2 : forall y, held w y = [] -> held (upd s (set_slots []) w) y = []).
  { intros y Hy. unfold held. dec_sid y s; [now rewrite upd_same|now rewrite upd_other]. }
  unfold after_remove. destruct (s_members (w_sg (upd s (set_slots []) w) s)) as [ms|] eqn:K; [|now apply H2].
  destruct (s_slots _); [|now apply H2].
  destruct (Nat.eq_dec s r) as [->|Hs].
  - rewrite upd_same in K. cbn in K.
    apply disconnect_relay_own; [|now apply H2].
    intros y Hy. left. apply H2. apply H1; [reflexivity|congruence|]. unfold members_of. now rewrite K.
  - rewrite disconnect_relay_held by exact Hs. now apply H2.
Qed.
Lemma each_all_held : forall ms mo w w' x, flat w -> disconnect_each E ms None mo w = (w', x) ->
  (forall y, In y (map snd ms) -> In y (members_of w r)) ->
  forall m, (In m (map snd ms) \/ held w m = []) -> held w' m = [].
Proof.
  intros ms mo. induction ms as [|[n y] ms IH]; intros w w' x HF H Hin m Hm; cbn in H.
  - injection H as <- _. destruct Hm as [[]|Hm]; exact Hm.
  - assert (Hy : members_of w y = []) by (eapply flat_members; [exact HF|apply Hin; now left]).
    assert (HK := keeps_remove_all y w).
    assert (Hym : s_members (w_sg w y) = None).
    { unfold members_of in Hy. destruct (s_members (w_sg w y)) as [z|] eqn:Z; [|reflexivity].
      specialize (Hin y (or_introl eq_refl)). unfold members_of in Hin.
      destruct (s_members (w_sg w r)) as [zz|] eqn:ZZ; [|destruct Hin].
      apply in_map_iff in Hin as ([n' y'] & <- & Hi). cbn in Z. rewrite (HF _ _ _ _ ZZ Hi) in Z. discriminate. }
    assert (HA : remove_all y w = upd y (set_slots []) w).
    { unfold remove_all, after_remove. rewrite upd_same. cbn. now rewrite Hym. }
    eapply IH; [eapply keeps_flat; eauto|exact H| |].
    { intros z Hz. rewrite (keeps_members _ _ HK). apply Hin. now right. }
    destruct (Nat.eq_dec m y) as [->|Hn].
    + right. rewrite HA. unfold held. now rewrite upd_same.
    + destruct Hm as [[Hm|Hm]|Hm]; [cbn in Hm; congruence|now left|right].
      rewrite HA. unfold held. now rewrite upd_other by congruence.
Qed.
Lemma managed_clear : forall mo w w' x, disconnect E r None mo w = (w', x) -> managed w -> managed w'.
Proof.
  intros mo w w' x H HW.
  pose proof (keeps_disconnect _ _ _ _ _ _ _ H) as HK.
  assert (HF := keeps_flat _ _ HK (mg_flat w HW)).
  unfold disconnect in H. destruct (s_members (w_sg w r)) as [ms|] eqn:Hms.
  - assert (HN : members_of w r = map snd ms) by (unfold members_of; now rewrite Hms).
    destruct (disconnect_each E ms None mo w) as [w1 y] eqn:HE.
    pose proof (keeps_disconnect_each _ _ _ _ _ _ _ HE) as HK1.
    destruct (each_all_refs _ _ _ _ _ HE) as (HR & v & ->). cbn in H. injection H as <- _.
    assert (H1 : forall m, In m (members_of w r) -> held w1 m = []).
    { intros m Hm. eapply each_all_held; [apply (mg_flat w HW)|exact HE| |left; now rewrite <- HN].
      intros z Hz. now rewrite HN. }
    constructor; [exact HF|rewrite remove_all_refs, HR; apply (mg_refs w HW)| |];
      rewrite (keeps_members _ _ HK).
    + intros Hn. exfalso. apply Hn. unfold remove_all.
      rewrite after_remove_other; [now rewrite upd_same|].
      rewrite members_upd, (keeps_members _ _ HK1) by reflexivity.
      intros Hr. exact (no_nested w r r (mg_flat w HW) Hr Hr).
    + intros _ m Hm. apply remove_all_held; [now apply H1|].
      intros _ _ z Hz. apply H1. now rewrite (keeps_members _ _ HK1) in Hz.
  - assert (HN : members_of w r = []) by (unfold members_of; now rewrite Hms).
    cbn in H. injection H as <- _.
    constructor; [exact HF|rewrite remove_all_refs; apply (mg_refs w HW)| |];
      rewrite (keeps_members _ _ HK), HN; intros _ m [].
Qed.

Lemma managed_kill : forall o w, managed w -> managed (kill o w).
Proof.
  intros o w HW. unfold kill. destruct (w_dead w o); [exact HW|].
  set (w1 := set_refs _ _).
  assert (H1 : managed w1).
  { destruct HW as [A B C D]. constructor; auto. intros x s k Hi. unfold w1 in Hi. cbn in Hi.
    apply filter_In in Hi as [Hi _]. eapply B; eauto. }
  assert (HR : forall x, In x (filter (fun x => Nat.eqb (fst (fst x)) o) (w_refs w)) -> snd x <> KRelay r).
  { intros [[x s] k] Hi. apply filter_In in Hi as [Hi _]. cbn. exact (mg_refs w HW _ _ _ Hi). }
  clearbody w1. revert w1 H1. induction (filter _ _) as [|[[x s] k] l IH]; intros w1 H1; [exact H1|].
  cbn [fold_left]. apply IH; [intros y Hy; apply HR; now right|].
  unfold finalize1, try_discard. cbn. destruct (remove_key s k w1) as [w2|] eqn:K; [|exact H1].
  cbn. eapply managed_remove_key; [|exact K|exact H1]. exact (HR _ (or_introl eq_refl)).
Qed.

Context (M : sid -> list sid).
Lemma managed_pure : forall o w w' x, manages M r o -> is_pure o = true ->
  pure_step E o w = Some (w', x) -> (forall s, members_of w s = M s) -> managed w -> managed w'.
Proof.
  intros o w w' x HA Hp H HM HW. destruct o; try discriminate Hp; cbn in HA; unfold pure_step in H;
    cbn [step] in H; unfold lift in H; try (injection H as <- _; exact HW).
  - injection H as H. eapply managed_connect; eauto.
  - injection H as H. unfold connect_direct in H. destruct (s_members (w_sg w r0)); [|now injection H as <- _].
    eapply managed_connect_each; eauto.
  - injection H as H. unfold connect_setattr in H.
    destruct (w_dead w ob); [now injection H as <- _|].
    destruct (negb _); [now injection H as <- _|].
    destruct (weak_setattr _ _ _ _ _ _ _) eqn:HWk; injection H as <- _; [|exact HW].
    apply managed_add; [|exact HW]. unfold weak_setattr in HWk.
    destruct (try_ref _ _ _); [|discriminate]. injection HWk as <-. discriminate.
  - injection H as H. unfold connect_setitem in H.
    destruct (w_dead w ob); [now injection H as <- _|].
    destruct (negb _); [now injection H as <- _|].
    destruct (weak_setitem _ _ _ _ _ _ _) eqn:HWk; injection H as <- _; [|exact HW].
    apply managed_add; [|exact HW]. unfold weak_setitem in HWk.
    destruct (try_ref _ _ _); [|discriminate]. injection HWk as <-. discriminate.
  - injection H as H. destruct r0 as [rf|].
    + assert (Hrf : other_ref rf) by (destruct rf; exact HA).
      unfold disconnect in H. destruct (s_members (w_sg w s)); [|eapply managed_base; eauto].
      destruct (disconnect_each E _ _ _ w) as [w1 [v|e|]] eqn:K;
        pose proof (managed_each _ _ _ _ _ _ Hrf K HW); try (injection H as <- _; assumption).
      eapply managed_base; eauto.
    + destruct (Nat.eq_dec s r) as [->|Hs]; [eapply managed_clear; eauto|].
      destruct HA as [HA|[HA1 HA2]]; [congruence|].
      eapply managed_all; eauto; rewrite ?HM; auto.
  - injection H as H. unfold try_discard in H. destruct (remove_key _ _ w) eqn:K; injection H as <- _; [|exact HW].
    eapply managed_remove_key; [|exact K|exact HW]. discriminate.
  - destruct (e_hasattr E ob "__setitem__"); [|now injection H as <- _].
    injection H as H. unfold try_discard in H. destruct (remove_key _ _ w) eqn:K; injection H as <- _; [|exact HW].
    eapply managed_remove_key; [|exact K|exact HW]. discriminate.
  - injection H as <- _. eapply managed_same; [apply conn_same_block|exact HW].
  - injection H as <- _. eapply managed_same; [apply conn_same_unblock|exact HW].
  - injection H as <- _. eapply managed_same; [|exact HW]. apply conn_same_upd; reflexivity.
  - injection H as <- _. now apply managed_kill.
  - injection H as <- _. eapply managed_same; [|exact HW]. repeat split; auto.
  - injection H as <- _. eapply managed_same; [|exact HW]. repeat split; auto.
  - destruct (f (w_usr w)) as [u [v|e]]; injection H as <- _; (eapply managed_same; [|exact HW]); repeat split; auto.
Qed.

Lemma framed_managed : framed E (manages M r) (fun _ => True)
  (fun w w' _ => (forall s, members_of w s = M s) /\ managed w -> (forall s, members_of w' s = M s) /\ managed w')
  (fun _ _ w w' _ => (forall s, members_of w s = M s) /\ managed w -> (forall s, members_of w' s = M s) /\ managed w').
Proof.
  apply framed_conn with (I := fun w => (forall s, members_of w s = M s) /\ managed w).
  - intros w w' HS [HM HW]. split; [|eapply managed_same; eauto].
    intros s. rewrite <- HM. unfold members_of. now rewrite (proj2 (proj2 (proj1 HS s))).
  - intros o w w' x HA Hp H [HM HW]. split; [|eapply managed_pure; eauto].
    intros s. rewrite <- HM. apply keeps_members. eapply pure_keeps; eauto.
Qed.

End Relay.

(** Reachable states in which group [r] was left alone. *)
Theorem reachable_managed : forall {U} (E : env U) r w,
  reachable_by (manages (members_of w) r) E w -> managed r w.
Proof.
  intros U E r w (HE & cfg & u & p & x & Hf & Hflat & Hp & HR).
  assert (HM0 : forall s, members_of (init_world cfg u) s = members_of w s).
  { intros s. unfold members_of. rewrite (static_members (w_sg (init_world cfg u) s) (w_sg w s)); [reflexivity|].
    apply (runs_based _ _ _ _ _ HR). }
  pose proof (frame_runs E _ _ _ _ (framed_managed E r (members_of w)) HE p _ _ _ Hp HR) as H.
  apply H. split; [exact HM0|].
  constructor; [exact Hflat|intros ? ? ? []| |]; cbn.
  - intros K. exfalso. apply K. apply (Hf r).
  - intros _ m _. unfold held. cbn. now rewrite (proj1 (Hf m)).
Qed.

Lemma held_linked : forall {U} r m (w : world U), one_held r w m <-> linked r m w.
Proof.
  intros U r m w. unfold one_held, held, linked. generalize (s_slots (w_sg w m)) as l. intros l. split.
  - intros (c & H & HL). induction l as [|x l IH]; cbn in H; [discriminate|].
    destruct (key_eqb (w_key x) (KRelay r)) eqn:K.
    + injection H as -> H. exists [], c, l. split; [reflexivity|]. split; [exact HL|].
      intros y Hy Hk. assert (In y (filter (fun c => key_eqb (w_key c) (KRelay r)) l)).
      { apply filter_In. split; [exact Hy|]. now apply key_eqb_eq. }
      rewrite H in *. contradiction.
    + destruct (IH H) as (l1 & d & l2 & -> & HL' & HN). exists (x :: l1), d, l2.
      split; [reflexivity|]. split; [exact HL'|]. intros y [<-|Hy]; [|now apply HN].
      intros Hk. apply key_eqb_eq in Hk. congruence.
  - intros (l1 & c & l2 & -> & HL & HN). exists c. split; [|exact HL].
    assert (HZ : forall l, (forall y, In y l -> w_key y <> KRelay r) -> rel r l = []).
    { intros l0 H0. induction l0 as [|y l0 IH0]; [reflexivity|]. cbn.
      rewrite key_other by (apply H0; now left). apply IH0. intros z Hz. apply H0. now right. }
    rewrite rel_app. cbn. destruct HL as (-> & _). rewrite key_own. fold (rel r l2).
    rewrite !HZ; [reflexivity| |]; intros y Hy; apply HN, in_or_app; auto.
Qed.
Lemma held_unlinked : forall {U} r m (w : world U), held r w m = [] -> unlinked r m w.
Proof.
  intros U r m w H x Hx Hk.
  assert (K : In x (held r w m)) by (apply filter_In; split; [exact Hx|now apply key_eqb_eq]).
  rewrite H in K. destruct K.
Qed.

(** ** Identities are unique *)

Lemma insert_prio_uids : forall c l, Permutation (insert_prio c l) (c :: l).
Proof.
  intros c l. induction l as [|x l IH]; cbn; [reflexivity|]. destruct (Z.ltb _ _); [reflexivity|].
  rewrite IH. apply perm_swap.
Qed.
Lemma append_uids : forall c st, Permutation (s_slots (append_slot_base c st)) (c :: s_slots st).
Proof.
  intros c st. unfold append_slot_base. destruct (s_prio st); cbn; [apply insert_prio_uids|].
  destruct (Z.eqb _ _); cbn; [|apply insert_prio_uids]. symmetry. apply Permutation_cons_append.
Qed.
Lemma remove_uids : forall k l l', remove_first k l = Some l' -> exists c, Permutation l (c :: l').
Proof.
  intros k l. induction l as [|x l IH]; intros l' H; cbn in H; [discriminate|].
  destruct (key_eqb (w_key x) k); [injection H as <-; now exists x|].
  destruct (remove_first k l) as [l1|]; [|discriminate]. injection H as <-.
  destruct (IH _ eq_refl) as (c & P). exists c. rewrite P. apply perm_swap.
Qed.
Definition uids_ok {U} (w : world U) : Prop := forall s,
  NoDup (map w_uid (s_slots (w_sg w s))) /\ Forall (fun c => w_uid c < w_nxt w) (s_slots (w_sg w s)).
Lemma uids_cstep : forall {U} (E : env U) (w w' : world U), cstep E true w w' -> uids_ok w -> uids_ok w'.
Proof.
  intros U E w w' H HW s. destruct H.
  - destruct H as (H1 & _ & _ & H4). rewrite (proj1 (H1 s)). destruct (HW s) as [A B]. split; [exact A|].
    eapply Forall_impl; [|exact B]. cbn. intros; lia.
  - assert (Hsg : forall x, w_sg (reg s0 c (set_nxt (S (w_nxt w)) w)) x = w_sg w x)
      by (intros; unfold reg; destruct (w_ref c); reflexivity).
    assert (Hnx : w_nxt (upd s0 (append_slot_base c) (reg s0 c (set_nxt (S (w_nxt w)) w))) = S (w_nxt w))
      by (unfold reg; destruct (w_ref c); reflexivity).
    rewrite Hnx. destruct (HW s) as [A B].
    assert (B' : Forall (fun c => w_uid c < S (w_nxt w)) (s_slots (w_sg w s)))
      by (eapply Forall_impl; [|exact B]; cbn; intros; lia).
    dec_sid s s0.
    + rewrite upd_same, Hsg. pose proof (append_uids c (w_sg w s0)) as P. split.
      * eapply Permutation_NoDup; [apply Permutation_map, Permutation_sym, P|]. cbn. constructor; [|exact A].
        intros Hi. apply in_map_iff in Hi as (x & Hu & Hx).
        rewrite Forall_forall in B. specialize (B x Hx). lia.
      * eapply Permutation_Forall; [apply Permutation_sym, P|]. constructor; [lia|exact B'].
    + rewrite upd_other, Hsg by assumption. auto.
  - destruct (HW s) as [A B]. dec_sid s s0; [|rewrite upd_other by assumption; auto].
    rewrite upd_same. cbn. destruct (remove_uids _ _ _ H) as (c & P). split.
    + apply (Permutation_map w_uid) in P. apply (Permutation_NoDup P) in A. now inversion A.
    + apply (Permutation_Forall P) in B. now inversion B.
  - dec_sid s s0; [|rewrite upd_other by assumption; apply HW]. rewrite upd_same. cbn. split; constructor.
  - apply (HW s).
Qed.
Theorem reachable_uids : forall {U} (E : env U) w, reachable E w -> forall s,
  NoDup (map w_uid (s_slots (w_sg w s))).
Proof.
  intros U E w HR s.
  assert (H : uids_ok w).
  { eapply (reachable_inv E uids_ok); [apply uids_cstep| |exact HR].
    intros cfg u Hf x. cbn. rewrite (proj1 (Hf x)). split; constructor. }
  apply H.
Qed.

(** ** One emission of a member *)

Section Tell.
Context {U : Type} (E : env U) (M : sid -> list sid) (m r : sid).
Implicit Types w : world U.
Context (HF : forall x y, In y (M x) -> M y = []).
Context (Hm : env_all (allows M m None) E) (Hr : env_all (allows M r None) E).
Context (Hne : M r <> []).

(** What must hold when the link is called. *)
Record apt w : Prop := {
  ap_m : fits E M None m w;
  ap_r : fits E M None r w;
  ap_cur : w_cur w = Some m;
  ap_mode : s_mode (w_sg w r) = Immediate;
  ap_depth : s_depth (w_sg w r) < RECURSION_LIMIT;
  ap_eq : s_eq (w_sg w r) = []
}.

Let Hself : forall s, (@None Z) <> None -> ~ In s (M s) := fun s H => False_ind _ (H eq_refl).

(** The history of a link being called: one emission of the group. *)
Definition told (eid u : nat) (me : thr) (sl : list wcb) (args : list val) (x : out) (t : list (event U)) : Prop :=
  exists eid' t' called uncalled,
    t = ECall eid m u args :: EStart eid' r [VInfo m args] :: t' ++ EEnd eid' r
         :: [ERet eid m u (match x with Err e => Some e | _ => None end)]
    /\ sl = called ++ uncalled
    /\ notices eid' t' = map (due me [VInfo m args]) called
    /\ match x with
       | Err e' => called <> [] /\ exists e, raised eid' t' = [e] /\ surfaces r e e'
       | _ => uncalled = [] /\ raised eid' t' = []
       end.

Lemma apt_moves : forall own w w' x, based_gen own w w' x -> done x ->
  (fits E M None m w -> fits E M None m w') -> (fits E M None r w -> fits E M None r w') ->
  apt w -> apt w'.
Proof.
  intros own w w' x [B1 _ (t & _ & _ & D)] Hd Fm Fr [A1 A2 A3 A4 A5 A6]. specialize (D Hd).
  constructor; auto.
  - now rewrite (be_cur _ _ _ D).
  - specialize (B1 r). unfold static in B1. injection B1 as B1 _ _ _ _. congruence.
  - now rewrite (be_depth _ _ _ D).
  - rewrite (be_eq _ _ _ D), A6. reflexivity.
Qed.

Lemma call_link : forall n eid c args w w' x,
  call_slot (exec E n) E eid m c args w = Some (w', x) -> done x -> link r c -> apt w ->
  s_slots (w_sg w m) <> [] ->
  exists t, w_tr w' = w_tr w ++ t /\ told eid (w_uid c) (w_me w) (s_slots (w_sg w r)) args x t.
Proof.
  intros n eid c args w w' x H Hd (L1 & L2 & L3 & L4 & L5) HA Hs.
  unfold call_slot in H. rewrite L4 in H. unfold invoke in H. rewrite L5 in H.
  assert (Hcb : cb_args c args = args) by (unfold cb_args, cut_args; rewrite L2, L3; reflexivity).
  rewrite Hcb, L2 in H. cbn [body_of ev_call ev_ret] in H.
  set (w1 := log (ECall eid m (w_uid c) args) w) in H.
  destruct (exec E n _ w1) as [[w2 y]|] eqn:HX; [|discriminate].
  assert (HXr : exists k, run_emit_loop (exec E k) E k r [VInfo m args] w1 = Some (w2, y)).
  { destruct n as [|n]; [discriminate|]. cbn [exec] in HX.
    destruct (step (exec E n) E n (ORelay r args) w1) as [[w3 z]|] eqn:HS; [|discriminate].
    exists n. cbn [step] in HS. unfold do_relay in HS.
    assert (Hmr : s_members (w_sg w1 r) <> None).
    { intros K. apply Hne. rewrite <- (ft_members _ _ _ _ _ (ap_r w HA) r). unfold members_of.
      change (w_sg w r) with (w_sg w1 r). now rewrite K. }
    destruct (s_members (w_sg w1 r)); [|congruence].
    change (w_cur w1) with (w_cur w) in HS. rewrite (ap_cur w HA) in HS.
    change (w_sg w1 m) with (w_sg w m) in HS. destruct (s_slots (w_sg w m)); [congruence|].
    rewrite HS. destruct z as [v|e|]; [| |exact HX]; destruct n; try discriminate HX; cbn [exec] in HX; congruence. }
  destruct HXr as (k & HL).
  apply emit_loop_inv in HL; [|exact (ap_depth w HA)|exact (ap_eq w HA)].
  destruct HL as (w3 & r3 & HLp & HZ).
  assert (Hy : y <> Halted) by (intros ->; now injection H as _ <-).
  destruct HZ as [(_ & _ & K)|(Hr3 & -> & ->)]; [congruence|].
  change (s_mode (w_sg w1 r)) with (s_mode (w_sg w r)) in HLp. rewrite (ap_mode w HA) in HLp.
  cbn [loop_of] in HLp.
  destruct (started_w r [VInfo m args] w1) as (W1 & W2 & W3 & W4 & W5 & _).
  assert (Hfit : fits E M None r (started r [VInfo m args] w1)).
  { destruct (ap_r w HA) as [F1 F2 F3]. constructor.
    - intros z. unfold members_of. rewrite (proj2 (proj2 (proj1 (conn_same_started r [VInfo m args] w1) z))). apply F1.
    - intros p Hp. discriminate Hp.
    - eapply live_same; [apply conn_same_started|]. eapply live_same; [apply conn_same_log|exact F3]. }
  destruct (loop_slots_delivers E M None r HF (Hself r) Hr _ _ _ _ _ _ _ _ HLp Hfit)
    as (t & pre & rest & T & HMv & S3 & N3 & K).
  { rewrite W1. lia. }
  destruct (proj2 HMv Hfit) as (F3 & G3 & M3). apply grows_none in G3.
  assert (Hsl : s_slots (w_sg w3 r) = s_slots (w_sg w r)) by (rewrite G3, started_slots; reflexivity).
  assert (HW : w' = log (ERet eid m (w_uid c) (match x with Err e => Some e | _ => None end))
                      (leave r (w_cur w1) (log (EEnd (w_nxt w1) r) w3))
               /\ x = loop_out r (s_depth (w_sg w3 r) - 1) r3).
  { destruct r3 as [v|e|]; cbn [loop_out] in *; injection H as <- <-; auto; congruence. }
  destruct HW as [-> Hx].
  exists (ECall eid m (w_uid c) args :: EStart (w_nxt w1) r [VInfo m args] :: t ++ EEnd (w_nxt w1) r
          :: [ERet eid m (w_uid c) (match x with Err e => Some e | _ => None end)]).
  split. { cbn. rewrite T, W2. cbn. rewrite <- !app_assoc. reflexivity. }
  exists (w_nxt w1), t, pre, rest. split; [reflexivity|].
  split; [rewrite <- Hsl; exact S3|]. split; [rewrite N3, W5; reflexivity|].
  rewrite Hx. destruct r3 as [v|e|]; cbn [loop_out]; [exact K| |congruence].
  destruct K as [K1 K2]. split; [exact K1|]. exists e. split; [exact K2|apply wrap_surfaces].
Qed.

(** A pass through the member's callbacks, ahead of the link. *)
Lemma loop_link : forall n f eid i args w w' x c k,
  loop_slots (exec E n) E f eid m i args w = Some (w', x) -> done x -> apt w -> eid < w_nxt w ->
  nth_error (s_slots (w_sg w m)) k = Some c -> link r c -> i <= k ->
  exists t1 t2 t3 y, w_tr w' = w_tr w ++ t1 ++ t2 ++ t3
    /\ notices eid t1 = map (due (w_me w) args) (firstn (List.length (notices eid t1)) (skipn i (s_slots (w_sg w m))))
    /\ ((told eid (w_uid c) (w_me w) (s_slots (w_sg w r)) args y t2
         /\ List.length (notices eid t1) = k - i
         /\ match y with Ok _ => True | _ => t3 = [] /\ x = y end)
        \/ (t2 = [] /\ t3 = [] /\ exists e, x = Err e)).
Proof.
  intros n. induction f as [|f IH]; intros eid i args w w' x c k H Hd HA Hlt Hk Hl Hi;
    cbn [loop_slots] in H; [discriminate|].
  destruct (nth_error (s_slots (w_sg w m)) i) as [d|] eqn:Hn.
  2: { apply nth_error_None in Hn. assert (k < List.length (s_slots (w_sg w m)))
         by (apply nth_error_Some; congruence). lia. }
  destruct (call_slot (exec E n) E eid m d args w) as [[w1 r1]|] eqn:HC; [|discriminate].
  pose proof (ap_m w HA) as HW.
  destruct (call_slot_delivers E M None m HF (Hself m) Hm _ _ _ _ _ _ _ HC HW (nth_error_In _ _ Hn) Hlt)
    as (t1 & T1 & HM1 & N1 & R1 & X1).
  destruct (proj2 HM1 HW) as (F1 & G1 & M1). apply grows_none in G1.
  destruct (Nat.eq_dec i k) as [->|Hik].
  - assert (d = c) by congruence. subst d.
    assert (Hr1 : done r1) by (intros ->; injection H as _ <-; congruence).
    destruct (call_link _ _ _ _ _ _ _ HC Hr1 Hl HA) as (t2 & T2 & HT).
    { intros K. rewrite K in Hn. destruct k; discriminate Hn. }
    assert (H3 : exists t3, w_tr w' = w_tr w1 ++ t3 /\ match r1 with Ok _ => True | _ => t3 = [] /\ x = r1 end).
    { destruct r1; try (injection H as <- <-; exists []; rewrite app_nil_r; auto).
      destruct (frame_both E _ _ _ _ (framed_based E) (env_all_true E) n) as [H1 H2].
      pose proof (frame_loop_slots E _ _ _ _ (framed_based E) _ (env_all_true E) _ H1 H2 _ _ _ _ _ _ _ _ H) as HB.
      destruct HB as [_ _ (t3 & T3 & _)]; [pose proof (bg_nxt _ _ _ _ (proj1 HM1)); lia|]. exists t3. auto. }
    destruct H3 as (t3 & T3 & HT3).
    exists [], t2, t3, r1. split; [rewrite T3, T2, <- app_assoc; reflexivity|]. split; [reflexivity|].
    left. split; [exact HT|]. split; [cbn; lia|exact HT3].
  - destruct r1 as [v|e|].
    + assert (HA1 : apt w1).
      { eapply apt_moves; [apply (proj1 HM1)|discriminate|intros; exact F1| |exact HA]. intros HWr.
        destruct HWr as [R2 R3 R4].
        assert (HQ : fits E M None r w1).
        { constructor.
          - intros z. exact (ft_members _ _ _ _ _ F1 z).
          - intros p Hp. discriminate Hp.
          - exact (ft_live _ _ _ _ _ F1). }
        exact HQ. }
      assert (Hsr : s_slots (w_sg w1 r) = s_slots (w_sg w r)).
      { destruct (frame_both E _ _ _ _ (framed_quiet E M None r HF (Hself r)) Hr n) as [H1 H2].
        pose proof (frame_call_slot E _ _ _ _ (framed_quiet E M None r HF (Hself r)) _ Hr _ H1 H2 _ _ _ _ _ _ _ HC) as HQ.
        destruct (ap_r w HA) as [R2 R3 R4]. destruct (HQ (nth_error_In _ _ Hn) R2 R3) as (_ & G & _). now apply grows_none in G. }
      destruct (IH eid (S i) args w1 w' x c k H Hd HA1) as (ta & tb & tc & y & T & N & K); auto; try lia.
      { pose proof (bg_nxt _ _ _ _ (proj1 HM1)). lia. }
      { now rewrite G1. }
      exists (t1 ++ ta), tb, tc, y. rewrite T, T1, <- !app_assoc. split; [reflexivity|].
      rewrite M1, G1 in N. rewrite M1, Hsr in K.
      split.
      * rewrite notices_app, N1. cbn [List.length app]. rewrite (skipn_nth _ _ _ Hn).
        cbn [firstn map]. now rewrite <- N.
      * destruct K as [(K1 & K2 & K3)|K]; [|right; exact K]. left. split; [exact K1|].
        split; [|exact K3]. rewrite notices_app, N1. cbn [List.length app]. rewrite K2. lia.
    + injection H as <- <-. exists t1, [], [], (Ok VNone). rewrite !app_nil_r. split; [exact T1|].
      split.
      * rewrite N1. cbn [List.length]. rewrite (skipn_nth _ _ _ Hn). reflexivity.
      * right. eauto.
    + injection H as <- <-. congruence.
Qed.
End Tell.
