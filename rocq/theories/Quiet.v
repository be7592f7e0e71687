(** What API calls do to the callbacks of one signal.  Proof infrastructure. *)

From Verif Require Import Base Core Frame Fuel Conn Keep Spec Trace Inv Dead Rest.

(** The call connects a new callback to [s] with priority [p]. *)
Definition connects_at {U} (s : sid) (p : Z) (o : op U) : Prop :=
  match o with
  | OConnect x _ op => x = s /\ c_prio op = p
  | OConnectSetattr x _ _ _ _ q | OConnectSetitem x _ _ _ _ q => x = s /\ q = p
  | _ => False
  end.
(** The call leaves the callbacks of [s] alone, or (when [q = Some p]) connects a new
    one with priority [p]. *)
Definition allows {U} (M : sid -> list sid) (s : sid) (q : option Z) (o : op U) : Prop :=
  leaves_alone M s o \/ match q with Some p => connects_at s p o | None => False end.

Section Q.
Context {U : Type} (E : env U).
Implicit Types w : world U.

Lemma connect_relay_other : forall r ms w s, ~ In s (map snd ms) ->
  w_sg (connect_relay r ms w) s = w_sg w s.
Proof.
  intros r ms. unfold connect_relay. induction ms as [|[n m] ms IH]; intros w s Hs; cbn [fold_left]; [reflexivity|].
  cbn in Hs. rewrite IH by tauto. unfold connect_relay1; cbn [snd].
  destruct (has_key _ _); [reflexivity|]. rewrite upd_other by intuition. reflexivity.
Qed.
Lemma members_upd : forall x f w r, (forall st, s_members (f st) = s_members st) ->
  members_of (upd x f w) r = members_of w r.
Proof.
  intros x f w r Hf. unfold members_of. dec_sid r x; [rewrite upd_same, Hf|rewrite upd_other by assumption]; reflexivity.
Qed.
Lemma append_members : forall c st, s_members (append_slot_base c st) = s_members st.
Proof.
  intros. unfold append_slot_base. destruct (negb _); [|reflexivity].
  destruct (Z.eqb _ _); reflexivity.
Qed.

Lemma add_wcb_other : forall x c w s, x <> s -> ~ In s (members_of w x) ->
  s_slots (w_sg (add_wcb x c w) s) = s_slots (w_sg w s).
Proof.
  intros x c w s Hx Hm. unfold add_wcb, append_slot.
  set (w2 := match w_ref c with Some _ => _ | None => _ end).
  assert (H2 : forall y, w_sg w2 y = w_sg w y) by (intros; unfold w2; destruct (w_ref c); reflexivity).
  set (w3 := upd x _ w2).
  assert (H3 : s_slots (w_sg w3 s) = s_slots (w_sg w s)).
  { unfold w3. rewrite upd_other by congruence. now rewrite H2. }
  destruct (s_members (w_sg w3 x)) as [ms|] eqn:Hms; [|exact H3].
  destruct (Nat.eqb _ 1); [|exact H3]. rewrite connect_relay_other; [exact H3|].
  unfold members_of in Hm. unfold w3 in Hms. rewrite upd_same, append_members, H2 in Hms.
  now rewrite Hms in Hm.
Qed.
Lemma after_remove_other : forall x w s, ~ In s (members_of w x) ->
  w_sg (after_remove x w) s = w_sg w s.
Proof.
  intros x w s Hm. unfold after_remove, members_of in *.
  destruct (s_members (w_sg w x)); [|reflexivity].
  destruct (s_slots (w_sg w x)) eqn:?; [now apply disconnect_relay_other|reflexivity].
Qed.
Lemma remove_all_other : forall x w s, x <> s -> ~ In s (members_of w x) ->
  w_sg (remove_all x w) s = w_sg w s.
Proof.
  intros x w s Hx Hm. unfold remove_all. rewrite after_remove_other.
  - apply upd_other; congruence.
  - rewrite members_upd; auto.
Qed.
Lemma remove_key_other : forall x k w w' s, x <> s -> ~ In s (members_of w x) ->
  remove_key x k w = Some w' -> w_sg w' s = w_sg w s.
Proof.
  intros x k w w' s Hx Hm H. unfold remove_key in H. destruct (remove_first _ _); [|discriminate].
  injection H as <-. rewrite after_remove_other.
  - apply upd_other; congruence.
  - rewrite members_upd; auto.
Qed.
Lemma try_discard_other : forall x k mo w s, x <> s -> ~ In s (members_of w x) ->
  w_sg (fst (try_discard x k mo w)) s = w_sg w s.
Proof.
  intros. unfold try_discard. destruct (remove_key x k w) eqn:HR; [|reflexivity].
  eapply remove_key_other; eauto.
Qed.
Lemma disconnect_base_other : forall x r mo w w' o s, x <> s -> ~ In s (members_of w x) ->
  disconnect_base E x r mo w = (w', o) -> w_sg w' s = w_sg w s.
Proof.
  intros x r mo w w' o s Hx Hm H. unfold disconnect_base in H.
  destruct r as [r|]; [|injection H as <- _; now apply remove_all_other].
  destruct (key_of_ref E r); [|now injection H as <- _].
  destruct (remove_key _ _ _) eqn:HR; injection H as <- _; [eapply remove_key_other; eauto|reflexivity].
Qed.
Lemma connect_other : forall x c o w w' r s, x <> s -> ~ In s (members_of w x) ->
  connect E x c o w = (w', r) -> s_slots (w_sg w' s) = s_slots (w_sg w s).
Proof.
  intros x c o w w' r s Hx Hm H. unfold connect in H.
  repeat (match type of H with
          | context [match ?x with _ => _ end] => destruct x
          end; try (injection H as <- _; reflexivity)).
  all: injection H as <- _; now apply add_wcb_other.
Qed.
Lemma keeps_members : forall w w', keeps w w' -> forall r, members_of w' r = members_of w r.
Proof.
  intros w w' (H & _) r. unfold members_of. destruct (H r) as [Hs _]. unfold static in Hs.
  now injection Hs as _ _ _ _ ->.
Qed.
Lemma connect_each_other : forall ms c o w w' r s,
  (forall m, In m (map snd ms) -> m <> s /\ ~ In s (members_of w m)) ->
  connect_each E ms c o w = (w', r) -> s_slots (w_sg w' s) = s_slots (w_sg w s).
Proof.
  induction ms as [|[nm m] ms IH]; intros c o w w' r s Hm H; cbn in H.
  - now injection H as <- _.
  - destruct (Hm m) as [Hx Hy]; [now left|].
    destruct (connect E m c o w) as [w1 [v|e|]] eqn:EC.
    + transitivity (s_slots (w_sg w1 s)); [|eapply connect_other; eauto].
      eapply IH; [|exact H].
      { intros y Hy'. destruct (Hm y) as [A B]; [now right|]. split; [exact A|].
        rewrite (keeps_members w w1); [exact B|]. eapply keeps_connect; eauto. }
    + injection H as <- _. eapply connect_other; eauto.
    + injection H as <- _. eapply connect_other; eauto.
Qed.
Lemma disconnect_each_other : forall ms rf mo w w' r s,
  (forall m, In m (map snd ms) -> m <> s /\ ~ In s (members_of w m)) ->
  disconnect_each E ms rf mo w = (w', r) -> w_sg w' s = w_sg w s.
Proof.
  induction ms as [|[nm m] ms IH]; intros rf mo w w' r s Hm H; cbn in H.
  - now injection H as <- _.
  - destruct (Hm m) as [Hx Hy]; [now left|].
    destruct (disconnect_base E m rf mo w) as [w1 [v|e|]] eqn:EC.
    + transitivity (w_sg w1 s); [|eapply disconnect_base_other; eauto].
      eapply IH; [|exact H].
      { intros y Hy'. destruct (Hm y) as [A B]; [now right|]. split; [exact A|].
        rewrite (keeps_members w w1); [exact B|]. eapply keeps_disconnect_base; eauto. }
    + injection H as <- _. eapply disconnect_base_other; eauto.
    + injection H as <- _. eapply disconnect_base_other; eauto.
Qed.

(** ** Growth of the callbacks of one signal *)

Definition grows (q : option Z) (s : sid) (w w' : world U) : Prop :=
  exists l, s_slots (w_sg w' s) = s_slots (w_sg w s) ++ l
            /\ Forall (fun c => q = Some (w_prio c)) l.
(** New callbacks of priority [q] go to the end. *)
Definition low (q : option Z) (s : sid) (w : world U) : Prop :=
  forall p, q = Some p -> Forall (fun c => (p <= w_prio c)%Z) (s_slots (w_sg w s)).

Lemma grows_refl : forall q s w, grows q s w w.
Proof. intros. exists []. rewrite app_nil_r. auto. Qed.
Lemma grows_eq : forall q s w w', s_slots (w_sg w' s) = s_slots (w_sg w s) -> grows q s w w'.
Proof. intros q s w w' H. exists []. rewrite app_nil_r. auto. Qed.
Lemma grows_trans : forall q s a b c, grows q s a b -> grows q s b c -> grows q s a c.
Proof.
  intros q s a b c (l1 & H1 & F1) (l2 & H2 & F2). exists (l1 ++ l2).
  rewrite H2, H1, <- app_assoc. split; [reflexivity|]. now apply Forall_app.
Qed.
Lemma grows_low : forall q s w w', grows q s w w' -> low q s w -> low q s w'.
Proof.
  intros q s w w' (l & H & F) HL p Hp. rewrite H. apply Forall_app. split; [now apply HL|].
  eapply Forall_impl; [|exact F]. cbn. intros c Hc. rewrite Hp in Hc. injection Hc as ->. lia.
Qed.

Lemma insert_prio_end : forall c l, Forall (fun x => (w_prio c <= w_prio x)%Z) l ->
  insert_prio c l = l ++ [c].
Proof.
  induction l as [|x l IH]; intros H; cbn; [reflexivity|].
  inversion H as [|? ? Hx Hl]; subst. destruct (Z.ltb_spec (w_prio x) (w_prio c)); [lia|].
  now rewrite IH.
Qed.
Lemma append_low : forall c st, Forall (fun x => (w_prio c <= w_prio x)%Z) (s_slots st) ->
  s_slots (append_slot_base c st) = s_slots st ++ [c].
Proof.
  intros c st H. unfold append_slot_base. destruct (negb _); [destruct (Z.eqb _ _)|]; cbn;
    rewrite ?insert_prio_end; auto.
Qed.
Lemma add_wcb_grows : forall p s c w, w_prio c = p -> low (Some p) s w -> ~ In s (members_of w s) ->
  grows (Some p) s w (add_wcb s c w).
Proof.
  intros p s c w Hp HL Hm. unfold add_wcb, append_slot.
  set (w2 := match w_ref c with Some _ => _ | None => _ end).
  assert (H2 : forall y, w_sg w2 y = w_sg w y) by (intros; unfold w2; destruct (w_ref c); reflexivity).
  set (w3 := upd s _ w2).
  assert (H3 : grows (Some p) s w w3).
  { exists [c]. unfold w3. rewrite upd_same, H2. split.
    - apply append_low. rewrite Hp. now apply HL.
    - constructor; [now rewrite Hp|constructor]. }
  destruct (s_members (w_sg w3 s)) as [ms|] eqn:Hms; [|exact H3].
  destruct (Nat.eqb _ 1); [|exact H3]. eapply grows_trans; [exact H3|]. apply grows_eq.
  rewrite connect_relay_other; [reflexivity|].
  unfold members_of in Hm. unfold w3 in Hms. rewrite upd_same, append_members, H2 in Hms.
  now rewrite Hms in Hm.
Qed.
Lemma weak_callback_prio : forall c m r p uid x,
  weak_callback E c m r p uid = inl x -> w_prio x = p.
Proof.
  intros c m r p uid x H. unfold weak_callback, weak_setattr, weak_setitem, try_ref in H.
  repeat match type of H with context [match ?x with _ => _ end] => destruct x; try discriminate end;
    injection H as <-; reflexivity.
Qed.
Lemma connect_grows : forall p s c o w w' r, c_prio o = p -> low (Some p) s w ->
  ~ In s (members_of w s) -> connect E s c o w = (w', r) -> grows (Some p) s w w'.
Proof.
  intros p s c o w w' r Hp HL Hm H. unfold connect in H.
  repeat (match type of H with
          | context [match ?x with _ => _ end] =>
              lazymatch x with weak_callback _ _ _ _ _ _ => fail | _ => destruct x end
          end; try (injection H as <- _; apply grows_refl)).
  all: destruct (weak_callback _ _ _ _ _ _) as [x|] eqn:HW;
    [|injection H as <- _; apply grows_refl].
  all: injection H as <- _; apply add_wcb_grows; auto; cbn;
    rewrite (weak_callback_prio _ _ _ _ _ _ HW); exact Hp.
Qed.

Lemma block_slots : forall x excl w s, s_slots (w_sg (block x excl w) s) = s_slots (w_sg w s).
Proof. intros. apply (conn_same_block x excl w). Qed.
Lemma unblock_slots : forall x w s, s_slots (w_sg (unblock x w) s) = s_slots (w_sg w s).
Proof. intros. apply (conn_same_unblock x w). Qed.

Lemma pure_grows : forall M q s o w w' r,
  (forall x, members_of w x = M x) -> (forall x m, In m (M x) -> M m = []) ->
  allows M s q o -> low q s w -> (q <> None -> ~ In s (M s)) ->
  is_pure o = true -> pure_step E o w = Some (w', r) -> grows q s w w' /\ w_me w' = w_me w.
Proof.
  intros M q s o w w' r HM HF HA HL Hself Hp H. split.
  2: { eapply pure_me; [exact Hp| |exact H].
       destruct o; try reflexivity. destruct HA as [[]|HA]. destruct q; destruct HA. }
  assert (HMs : forall x, ~ In s (M x) -> ~ In s (members_of w x)) by (intros; now rewrite HM).
  assert (HMm : forall x, ~ In s (M x) -> forall m, In m (members_of w x) ->
                  m <> s /\ ~ In s (members_of w m)).
  { intros x Hx m Hm. rewrite HM in Hm. split; [congruence|]. rewrite HM, (HF _ _ Hm). auto. }
  destruct HA as [HA|HA].
  - destruct o; try discriminate Hp; cbn in HA; unfold pure_step in H; cbn [step] in H;
      unfold lift in H; try (injection H as <- _; apply grows_refl); try contradiction;
      apply grows_eq.
    + injection H as H. destruct HA. eapply connect_other; eauto.
    + injection H as H. unfold connect_direct in H.
      destruct (s_members (w_sg w r0)) as [ms|] eqn:Hms; [|now injection H as <- _].
      eapply connect_each_other; [|exact H]. intros m Hm. apply (HMm r0); auto.
      unfold members_of. now rewrite Hms.
    + injection H as H. destruct HA. unfold connect_setattr in H.
      destruct (w_dead w ob); [now injection H as <- _|].
      destruct (negb _); [now injection H as <- _|].
      destruct (weak_setattr _ _ _ _ _ _ _); injection H as <- _; [|reflexivity].
      apply add_wcb_other; auto.
    + injection H as H. destruct HA. unfold connect_setitem in H.
      destruct (w_dead w ob); [now injection H as <- _|].
      destruct (negb _); [now injection H as <- _|].
      destruct (weak_setitem _ _ _ _ _ _ _); injection H as <- _; [|reflexivity].
      apply add_wcb_other; auto.
    + injection H as H. destruct HA as [HA1 HA2]. f_equal. unfold disconnect in H.
      destruct (s_members (w_sg w s0)) as [ms|] eqn:Hms;
        [|eapply disconnect_base_other; [exact HA1|apply HMs; exact HA2|exact H]].
      assert (Hms' : forall m, In m (map snd ms) -> m <> s /\ ~ In s (members_of w m)).
      { intros m Hm. apply (HMm s0); auto. unfold members_of. now rewrite Hms. }
      destruct (disconnect_each E ms r0 missing_ok w) as [w1 [v|e|]] eqn:EB.
      * pose proof (keeps_members _ _ (keeps_disconnect_each _ _ _ _ _ _ _ EB)) as HK.
        apply disconnect_each_other with (s := s) in EB; [|exact Hms'].
        transitivity (w_sg w1 s); [|exact EB].
        eapply disconnect_base_other; [exact HA1| |exact H].
        rewrite HK. now apply HMs.
      * injection H as <- _. eapply disconnect_each_other; eauto.
      * injection H as <- _. eapply disconnect_each_other; eauto.
    + injection H as H. destruct HA. f_equal.
      pose proof (try_discard_other s0 (KSetattr ob a) missing_ok w s) as HT.
      rewrite H in HT. apply HT; auto.
    + destruct (e_hasattr E ob "__setitem__"); [|now injection H as <- _].
      injection H as H. destruct HA. f_equal.
      pose proof (try_discard_other s0 (KSetitem ob k) missing_ok w s) as HT.
      rewrite H in HT. apply HT; auto.
    + injection H as <- _. apply block_slots.
    + injection H as <- _. apply unblock_slots.
    + injection H as <- _. dec_sid s s0; [now rewrite upd_same|now rewrite upd_other].
    + now injection H as <- _.
    + destruct (f (w_usr w)) as [u [v|e]]; now injection H as <- _.
  - destruct q as [p|]; [|contradiction].
    assert (Hsf : ~ In s (members_of w s)) by (apply HMs, Hself; discriminate).
    destruct o; cbn in HA; try contradiction; destruct HA as [-> HA]; unfold pure_step in H;
      cbn [step] in H; unfold lift in H; injection H as H.
    + eapply connect_grows; eauto.
    + unfold connect_setattr in H.
      destruct (w_dead w ob); [injection H as <- _; apply grows_refl|].
      destruct (negb _); [injection H as <- _; apply grows_refl|].
      destruct (weak_setattr _ _ _ _ _ _ _) eqn:HW; injection H as <- _; [|apply grows_refl].
      apply add_wcb_grows; auto. unfold weak_setattr in HW.
      destruct (try_ref _ _ _); [|discriminate]. now injection HW as <-.
    + unfold connect_setitem in H.
      destruct (w_dead w ob); [injection H as <- _; apply grows_refl|].
      destruct (negb _); [injection H as <- _; apply grows_refl|].
      destruct (weak_setitem _ _ _ _ _ _ _) eqn:HW; injection H as <- _; [|apply grows_refl].
      apply add_wcb_grows; auto. unfold weak_setitem in HW.
      destruct (try_ref _ _ _); [|discriminate]. now injection HW as <-.
Qed.

(** ** The frame *)

Definition quiet (M : sid -> list sid) (q : option Z) (s : sid) (w w' : world U) : Prop :=
  (forall x, members_of w x = M x) -> low q s w ->
  (forall x, members_of w' x = M x) /\ grows q s w w' /\ w_me w' = w_me w.

Lemma quiet_eq : forall M q s w w', (forall x, s_members (w_sg w' x) = s_members (w_sg w x)) ->
  s_slots (w_sg w' s) = s_slots (w_sg w s) -> w_me w' = w_me w -> quiet M q s w w'.
Proof.
  intros M q s w w' H1 H2 H3 HM HL. split; [|split; [now apply grows_eq|exact H3]].
  intros x. rewrite <- HM. unfold members_of. now rewrite H1.
Qed.
Lemma quiet_same : forall M q s w w', conn_same w w' -> w_me w' = w_me w -> quiet M q s w w'.
Proof. intros M q s w w' (H & _) Hm. apply quiet_eq; auto; intros; apply H. Qed.
Lemma quiet_trans : forall M q s a b c, quiet M q s a b -> quiet M q s b c -> quiet M q s a c.
Proof.
  intros M q s a b c H1 H2 HM HL. destruct (H1 HM HL) as (A & B & C).
  destruct (H2 A) as (A' & B' & C'); [eapply grows_low; eauto|].
  split; [exact A'|]. split; [eapply grows_trans; eauto|congruence].
Qed.

Lemma framed_quiet : forall M q s, (forall x m, In m (M x) -> M m = []) ->
  (q <> None -> ~ In s (M s)) ->
  framed E (allows M s q) (fun _ => True) (fun w w' _ => quiet M q s w w')
    (fun _ _ w w' _ => quiet M q s w w').
Proof.
  intros M q s HF Hself.
  assert (HR : forall w, quiet M q s w w) by (intros; apply quiet_eq; auto).
  constructor; intros; auto.
  - eapply quiet_trans; eauto.
  - eapply quiet_trans; eauto.
  - intros HM HL. destruct (pure_grows M q s o w w' r HM HF H HL Hself H0 H1) as [A B].
    split; [|split; auto]. intros x. rewrite <- HM. apply keeps_members. eapply pure_keeps; eauto.
  - apply quiet_same; [apply conn_same_log|reflexivity].
  - apply quiet_same; [apply conn_same_upd; reflexivity|reflexivity].
  - apply quiet_same; [apply conn_same_log|reflexivity].
  - apply quiet_same; [|reflexivity]. eapply conn_same_trans; [|apply conn_same_log].
    apply conn_same_upd; reflexivity.
  - assert (HI : quiet M q s w w').
    { eapply quiet_trans; [|exact H2]. apply quiet_same; [apply conn_same_started|].
      apply started_w. }
    destruct r; auto; (eapply quiet_trans; [exact HI|]); apply quiet_same; try reflexivity;
      (eapply conn_same_trans; [apply conn_same_log|apply conn_same_leave]).
  - assert (HI : quiet M q s w w').
    { eapply quiet_trans; [|exact H1]. apply quiet_same; [apply conn_same_started_fast|reflexivity]. }
    destruct r; auto; (eapply quiet_trans; [exact HI|]); apply quiet_same; try reflexivity;
      (eapply conn_same_trans; [apply conn_same_log|apply conn_same_left_fast]).
  - assert (HI : quiet M q s w w') by (eapply quiet_trans; [|exact H0]; apply quiet_same; [apply conn_same_log|reflexivity]).
    destruct r; auto; (eapply quiet_trans; [exact HI|]); apply quiet_same; try reflexivity; apply conn_same_log.
  - assert (HI : quiet M q s w w') by (eapply quiet_trans; [|exact H0]; apply quiet_same; [apply conn_same_log|reflexivity]).
    destruct r; auto; (eapply quiet_trans; [exact HI|]); apply quiet_same; try reflexivity; apply conn_same_log.
  - apply quiet_eq; reflexivity.
  - apply quiet_same; [apply conn_same_upd; reflexivity|reflexivity].
  - apply quiet_same; [apply conn_same_upd; reflexivity|reflexivity].
  - apply quiet_eq; reflexivity.
Qed.
End Q.
