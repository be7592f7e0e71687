(** Programs whose listeners use the object that emits and do not catch exceptions, as long as nothing raises and nothing is
    disconnected: whatever runs changes the data and the calls of emit so far along [R], and the signals [C] keep a callback.
    Proof infrastructure; models no code. *)

From Verif Require Import Base Core Spec Frame Fuel Conn Keep Trace Client Prog Calm SpecModelUse.

(** Signals with a callback keep one. *)
Definition grows {U} (w w' : world U) : Prop := forall s, s_slots (w_sg w s) <> [] -> s_slots (w_sg w' s) <> [].

Lemma grows_refl : forall {U} (w : world U), grows w w.
Proof. intros U w s H. exact H. Qed.
Lemma grows_trans : forall {U} (a b c : world U), grows a b -> grows b c -> grows a c.
Proof. intros U a b c H1 H2 s H. auto. Qed.
Lemma grows_same : forall {U} (w w' : world U), (forall s, s_slots (w_sg w' s) = s_slots (w_sg w s)) -> grows w w'.
Proof. intros U w w' H s. now rewrite H. Qed.
Lemma grows_conn : forall {U} (w w' : world U), conn_same w w' -> grows w w'.
Proof. intros U w w' [H _]. apply grows_same. intros s. apply H. Qed.
Lemma insert_prio_some : forall c l, insert_prio c l <> [].
Proof. intros c l. destruct l as [|x l]; cbn; [discriminate|]. destruct (Z.ltb _ _); discriminate. Qed.
Lemma append_some : forall c st, s_slots (append_slot_base c st) <> [].
Proof.
  intros c st. unfold append_slot_base. destruct (negb _); [|apply insert_prio_some].
  destruct (Z.eqb _ _); cbn; [|apply insert_prio_some]. now destruct (s_slots st).
Qed.
Lemma grows_append : forall {U} s c (w : world U), grows w (upd s (append_slot_base c) w).
Proof.
  intros U s c w x H. destruct (Nat.eq_dec x s) as [->|Hx]; [rewrite upd_same; apply append_some|now rewrite upd_other].
Qed.
Lemma grows_fold : forall {U B} (f : world U -> B -> world U) l (w : world U), (forall w x, grows w (f w x)) -> grows w (fold_left f l w).
Proof.
  intros U B f l. induction l as [|x l IH]; intros w H; cbn; [apply grows_refl|]. eapply grows_trans; [apply H|]. now apply IH.
Qed.
Lemma grows_add_wcb : forall {U} s c (w : world U), grows w (add_wcb s c w).
Proof.
  intros U s c w. unfold add_wcb, append_slot.
  match goal with |- grows w ?g => set (goal := g) end.
  set (w2 := match w_ref c with Some _ => _ | None => _ end) in goal.
  assert (H2 : grows w w2) by (unfold w2; destruct (w_ref c); apply grows_same; reflexivity).
  assert (H3 : grows w (upd s (append_slot_base c) w2)) by (eapply grows_trans; [exact H2|apply grows_append]).
  unfold goal. destruct (s_members _); [|exact H3]. destruct (Nat.eqb _ _); [|exact H3].
  eapply grows_trans; [exact H3|]. unfold connect_relay. apply grows_fold. intros w1 [n m]; cbn. unfold connect_relay1.
  destruct (has_key _ _); [apply grows_refl|]. eapply grows_trans; [|apply grows_append]. apply grows_same; reflexivity.
Qed.
Lemma grows_connect : forall {U} (E : env U) s c o (w w' : world U) r, connect E s c o w = (w', r) -> grows w w'.
Proof.
  intros U E s c o w w' r H. unfold connect in H.
  repeat (match type of H with
          | context [match ?x with _ => _ end] => destruct x
          end; try (injection H as <- _; apply grows_refl)).
  all: injection H as <- _; apply grows_add_wcb.
Qed.
Lemma grows_connect_each : forall {U} (E : env U) ms c o (w w' : world U) r, connect_each E ms c o w = (w', r) -> grows w w'.
Proof.
  induction ms as [|[nm m] ms IH]; intros c o w w' r H; cbn in H.
  - injection H as <- _; apply grows_refl.
  - destruct (connect E m c o w) as [w1 [v|e|]] eqn:EB; apply grows_connect in EB.
    + eapply grows_trans; [exact EB|]. eapply IH; eauto.
    + injection H as <- _; exact EB.
    + injection H as <- _; exact EB.
Qed.
Lemma pure_grows : forall {U} (E : env U) o (w w' : world U) r,
  is_pure o = true -> severs o = false -> pure_step E o w = Some (w', r) -> grows w w'.
Proof.
  intros U E o w w' r Hp Hs H. destruct o; try discriminate Hp; try discriminate Hs; unfold pure_step in H;
    cbn [step] in H; unfold lift in H;
    try (injection H as <- <-; apply grows_refl).
  - injection H as H. eapply grows_connect; eauto.
  - injection H as H. unfold connect_direct in H.
    destruct (s_members (w_sg w r0)) as [ms|]; [|injection H as <- _; apply grows_refl].
    eapply grows_connect_each; eauto.
  - injection H as H. unfold connect_setattr in H.
    destruct (w_dead w ob); [injection H as <- _; apply grows_refl|].
    destruct (negb _); [injection H as <- _; apply grows_refl|].
    destruct (weak_setattr _ _ _ _ _ _ _); injection H as <- _; [apply grows_add_wcb|apply grows_refl].
  - injection H as H. unfold connect_setitem in H.
    destruct (w_dead w ob); [injection H as <- _; apply grows_refl|].
    destruct (negb _); [injection H as <- _; apply grows_refl|].
    destruct (weak_setitem _ _ _ _ _ _ _); injection H as <- _; [apply grows_add_wcb|apply grows_refl].
  - injection H as <- _. apply grows_conn, conn_same_block.
  - injection H as <- _. apply grows_conn, conn_same_unblock.
  - injection H as <- _. apply grows_conn, conn_same_upd; reflexivity.
  - injection H as <- _. apply grows_same; reflexivity.
  - injection H as <- _. apply grows_same; reflexivity.
  - destruct (f (w_usr w)) as [u [v|e]]; injection H as <- _; apply grows_same; reflexivity.
Qed.

Section Heed.
Notation hist U := (list (sid * list val * U)).
Context {U : Type} (E : env U) (C : sid -> bool) (B : U -> Prop) (R : U -> hist U -> U -> hist U -> Prop).
Notation hear := (heard (fun _ => true)).
Hypothesis R_refl : forall u h, R u h u h.
Hypothesis R_trans : forall a h b i c j, R a h b i -> R b i c j -> R a h c j.
Hypothesis R_B : forall a h b i, B a -> R a h b i -> B b.

(** Whatever [p] does starting in [u], after [h], if it returns then [Q] holds. *)
Fixpoint hwp (p : prog U) (u : U) (h : hist U) (Q : U -> hist U -> val -> Prop) : Prop :=
  match p with
  | Ret v => Q u h v
  | Throw e => True
  | Halt => True
  | Look k => hwp (k u) u h Q
  | Do (OUsr f) k => hwp (k (snd (f u))) (fst (f u)) h Q
  | Do (OLen s) k => forall z, (C s = true -> (0 < z)%Z) -> hwp (k (inl (VInt z))) u h Q
  | Do (OEmit s a _ _) k | Do (OEmitFast s a) k =>
      (forall x, fails (k x)) \/ (B u /\ (forall u' h' v, R u (h ++ [(s, a, u)]) u' h' -> hwp (k (inl v)) u' h' Q) /\ forall e, fails (k (inr e)))
  | Do o k => (forall x, fails (k x))
      \/ ((B u /\ severs o = false) /\ (forall u' h' v, R u h u' h' -> hwp (k (inl v)) u' h' Q) /\ forall e, fails (k (inr e)))
  end.
Definition sound (p : prog U) : Prop := forall u h, B u -> hwp p u h (fun u' h' _ => R u h u' h').

Lemma hwp_mono : forall p u h (Q Q' : U -> hist U -> val -> Prop), (forall u h v, Q u h v -> Q' u h v) -> hwp p u h Q -> hwp p u h Q'.
Proof.
  intros p; induction p as [v|e| |k IH|o k IH]; intros u h Q Q' HQ H; cbn in *; auto.
  - eapply IH; eauto.
  - destruct o; 
      try (destruct H as [H|(H0 & H1 & H2)]; [now left|right; split; [exact H0|split; [intros; eapply IH; eauto|exact H2]]]).
    + intros z Hz. eapply IH; eauto.
    + eapply IH; eauto.
Qed.
Lemma hwp_bind : forall p k u h (Q : U -> hist U -> val -> Prop), hwp p u h (fun u1 h1 v => hwp (k v) u1 h1 Q) -> hwp (bind p k) u h Q.
Proof.
  intros p; induction p as [v|e| |f IH|o f IH]; intros k u h Q H; cbn in *; auto.
  destruct o; 
    try (destruct H as [H|(H0 & H1 & H2)]; [left; intros; now apply fails_bind|right; split; [exact H0|split; [intros; apply IH; auto|intros; apply fails_bind; auto]]]); auto.
Qed.
Lemma hwp_fails : forall p u h (Q : U -> hist U -> val -> Prop), fails p -> hwp p u h Q.
Proof.
  intros p; induction p as [v|e| |k IH|o k IH]; intros u h Q H; cbn in *; auto; try contradiction.
  destruct o; auto.
Qed.
(** finally *)
Lemma hwp_catch : forall p k u h (Q : U -> hist U -> val -> Prop), (forall e, fails (k (inr e))) ->
  hwp p u h (fun u1 h1 v => hwp (k (inl v)) u1 h1 Q) -> hwp (catch p k) u h Q.
Proof.
  intros p k u h Q Hk. revert u h; induction p as [v|e| |f IH|o f IH]; intros u h H; cbn in *; auto.
  { now apply hwp_fails. }
  destruct o; 
    try (destruct H as [H|(H0 & H1 & H2)]; [left; intros; now apply fails_catch|right; split; [exact H0|split; [intros; apply IH; auto|intros; apply fails_catch; auto]]]); auto.
Qed.
Lemma hwp_seq : forall p q u h (Q : U -> hist U -> val -> Prop), hwp p u h (fun u1 h1 _ => hwp q u1 h1 Q) -> hwp (p ;; q) u h Q.
Proof. intros. now apply hwp_bind. Qed.

(** ** Soundness *)
Definition populated (w : world U) : Prop := forall s, C s = true -> s_slots (w_sg w s) <> [].
Definition P (w w' : world U) (r : out) : Prop :=
  match r with
  | Ok _ => populated w -> B (w_usr w) -> populated w' /\ exists t, w_tr w' = w_tr w ++ t /\ forall h, R (w_usr w) h (w_usr w') (h ++ hear t)
  | _ => True
  end.
Lemma P_quiet : forall w w' r t, grows w w' -> w_usr w' = w_usr w -> w_tr w' = w_tr w ++ t -> hear t = [] -> P w w' r.
Proof.
  intros w w' r t Hg Hu T HT. destruct r; cbn; auto. intros HW HB. split; [intros s Hs; apply Hg; now apply HW|].
  exists t. split; [exact T|]. intros h. rewrite HT, app_nil_r, Hu. apply R_refl.
Qed.
Lemma P_same : forall w w' r, grows w w' -> w_usr w' = w_usr w -> w_tr w' = w_tr w -> P w w' r.
Proof. intros w w' r Hg Hu T. apply (P_quiet _ _ _ []); auto. now rewrite app_nil_r. Qed.
Lemma P_refl : forall w r, P w w r.
Proof. intros w r. apply P_same; auto. apply grows_refl. Qed.
Lemma P_trans : forall a b c r r', P a b r -> worse r r' -> P b c r' -> P a c r'.
Proof.
  intros a b c r r' H1 Hw H2. unfold P in *. destruct r, r'; cbn in *; try contradiction; auto.
  intros Ha HB. destruct (H1 Ha HB) as (Hb & t & T & Hr). destruct (H2 Hb (R_B _ _ _ _ HB (Hr []))) as (Hc & t' & T' & Hr'). split; [exact Hc|].
  exists (t ++ t'). split; [now rewrite T', T, app_assoc|]. intros h. rewrite heard_app, app_assoc. eauto.
Qed.
Lemma P_weaken : forall a b r r', P a b r -> worse r r' -> P a b r'.
Proof. intros a b r r' H Hw. eapply P_trans; [exact H|exact Hw|]. apply P_refl. Qed.
Definition mute (e : event U) : Prop := match e with EEmit _ _ _ => False | _ => True end.
Lemma mute_hear : forall e, mute e -> hear [e] = [].
Proof. intros e H. destruct e; cbn in *; auto; contradiction. Qed.
Lemma P_after : forall a b c r r' e, P a b r -> worse r r' -> grows b c -> w_usr c = w_usr b -> w_tr c = w_tr b ++ [e] -> mute e -> P a c r'.
Proof. intros a b c r r' e H Hr Hg Hu T He. eapply P_trans; [exact H|exact Hr|]. eapply P_quiet; eauto. now apply mute_hear. Qed.
Lemma P_before : forall a b c r e, P b c r -> grows a b -> w_usr b = w_usr a -> w_tr b = w_tr a ++ [e] -> mute e -> P a c r.
Proof. intros a b c r e H Hg Hu T He. eapply P_trans with (r := Ok VNone); [|exact Logic.I|exact H]. eapply P_quiet; eauto. now apply mute_hear. Qed.
Ltac still := apply grows_same; intros ?x; cbn;
  repeat (match goal with |- context [Nat.eqb ?a ?b] => destruct (Nat.eqb_spec a b); subst | |- context [Nat.leb ?a ?b] => destruct (Nat.leb a b) | |- context [match ?x with _ => _ end] => destruct x end; cbn);
  try reflexivity.

Hypothesis HE : (forall t a w, sound (e_body E t a w)) /\ (forall m a, sound (e_lib E m a)).
Section Step.
Variable ex : prog U -> world U -> option (world U * out).
Hypothesis Hex : forall p w w' r, sound p -> ex p w = Some (w', r) -> P w w' r.
Hypothesis Hrelay : forall r args w w' o,
  ex (Do (ORelay r args) (fun x => match x with inl v => Ret v | inr e => Throw e end)) w = Some (w', o) -> P w w' o.

Lemma g_body : forall t a w w1 w' r, ex (body_of E t a w) w1 = Some (w', r) -> P w1 w' r.
Proof.
  intros t a w w1 w' r Hx. unfold body_of in Hx. destruct t; try (eapply Hex; [|exact Hx]; apply HE). eapply Hrelay; exact Hx.
Qed.
Lemma g_invoke : forall b eid s c args w w' r, invoke ex E b eid s c args w = Some (w', r) -> P w w' r.
Proof.
  intros b eid s c args w w' r H. unfold invoke in H.
  destruct (match w_ref c with Some o => w_dead w o | None => false end); [injection H as <- <-; apply P_refl|].
  destruct (ex _ _) as [[w2 r2]|] eqn:Hx; [|discriminate]. apply g_body in Hx.
  assert (H0 : P w w2 r2) by (destruct b; (eapply P_before; [exact Hx|still|reflexivity|reflexivity|exact Logic.I])).
  destruct r2; injection H as <- <-; [| |exact H0]; (destruct b; (eapply P_after; [exact H0|exact Logic.I|still|reflexivity|reflexivity|exact Logic.I])).
Qed.
Lemma g_call_slot : forall eid s c args w w' r, call_slot ex E eid s c args w = Some (w', r) -> P w w' r.
Proof.
  intros eid s c args w w' r H. unfold call_slot in H. destruct (w_thread c) as [t|]; [|eapply g_invoke; eauto].
  destruct (Nat.eqb t (w_me w)); [eapply g_invoke; eauto|]. injection H as <- <-.
  eapply P_quiet; [still|reflexivity|reflexivity|]. reflexivity.
Qed.
Lemma g_loop_slots : forall fuel eid s i args w w' r, loop_slots ex E fuel eid s i args w = Some (w', r) -> P w w' r.
Proof.
  induction fuel as [|f IH]; intros eid s i args w w' r H; cbn [loop_slots] in H; [discriminate|].
  destruct (nth_error _ i) as [c|]; [|injection H as <- <-; apply P_refl].
  destruct (call_slot ex E eid s c args w) as [[w1 [v|e|]]|] eqn:HC; try discriminate; apply g_call_slot in HC.
  - eapply P_trans; [exact HC|exact Logic.I|eapply IH; eauto].
  - injection H as <- <-; exact HC.
  - injection H as <- <-; exact HC.
Qed.
Lemma g_loop_latest : forall fuel eid s i args w w' r, loop_latest ex E fuel eid s i args w = Some (w', r) -> P w w' r.
Proof.
  induction fuel as [|f IH]; intros eid s i args w w' r H; cbn [loop_latest] in H; [discriminate|].
  destruct (nth_error _ i) as [c|]; [|injection H as <- <-; apply P_refl].
  destruct (Nat.ltb _ _). { injection H as <- <-. apply P_refl. }
  destruct (call_slot ex E eid s c args w) as [[w1 [v|e|]]|] eqn:HC; try discriminate; apply g_call_slot in HC.
  - eapply P_trans; [exact HC|exact Logic.I|eapply IH; eauto].
  - injection H as <- <-; exact HC.
  - injection H as <- <-; exact HC.
Qed.
Lemma g_loop_qslots : forall fuel eid s i args w w' r, loop_qslots ex E fuel eid s i args w = Some (w', r) -> P w w' r.
Proof.
  induction fuel as [|f IH]; intros eid s i args w w' r H; cbn [loop_qslots] in H; [discriminate|].
  destruct (nth_error _ i) as [c|]; [|injection H as <- <-; apply P_refl].
  destruct (call_slot ex E eid s c args w) as [[w1 [v|e|]]|] eqn:HC; try discriminate; apply g_call_slot in HC.
  - destruct (Nat.ltb _ _); [injection H as <- <-; eapply P_weaken; [exact HC|exact Logic.I]|].
    eapply P_trans; [exact HC|exact Logic.I|eapply IH; eauto].
  - injection H as <- <-; exact HC.
  - injection H as <- <-; exact HC.
Qed.
Lemma g_loop_queue : forall fuel eid s i w w' r, loop_queue ex E fuel eid s i w = Some (w', r) -> P w w' r.
Proof.
  induction fuel as [|f IH]; intros eid s i w w' r H; cbn [loop_queue] in H; [discriminate|].
  destruct (nth_error _ i) as [a|]; [|injection H as <- <-; apply P_refl].
  destruct (loop_qslots ex E f eid s 0 a w) as [[w1 [v|e|]]|] eqn:HC; try discriminate; apply g_loop_qslots in HC.
  - eapply P_trans; [exact HC|exact Logic.I|eapply IH; eauto].
  - injection H as <- <-; exact HC.
  - injection H as <- <-; exact HC.
Qed.
Lemma g_run : forall fuel s args w w' r, run_emit_loop ex E fuel s args w = Some (w', r) -> P w w' r.
Proof.
  intros fuel s args w w' r H. unfold run_emit_loop in H.
  destruct (Nat.leb RECURSION_LIMIT (s_depth (w_sg w s))). { injection H as <- <-. apply P_refl. }
  destruct (Nat.ltb 1 _). { injection H as <- <-. eapply P_quiet; [still|reflexivity|reflexivity|]. reflexivity. }
  set (w2 := log _ _) in H. assert (H2 : P w w2 (Ok VNone)).
  { unfold w2. eapply P_quiet; [still|reflexivity|reflexivity|]. reflexivity. }
  assert (HI : forall w3 r3, inner_loop ex E fuel (w_nxt (upd s (fun st => set_eq (s_eq st ++ [args]) st) w)) s w2 = Some (w3, r3) -> P w w3 r3).
  { intros w3 r3 HI. eapply P_trans; [exact H2|exact Logic.I|]. clearbody w2. unfold inner_loop in HI. destruct (s_mode (w_sg w2 s)).
    - destruct (s_eq _) as [|a q]; [injection HI as <- <-; apply P_refl|]. apply g_loop_slots in HI.
      eapply P_trans with (r := Ok VNone); [|exact Logic.I|exact HI]. apply P_same; [still|reflexivity..].
    - eapply g_loop_queue; eauto.
    - destruct (s_eq _) as [|a q]; [injection HI as <- <-; apply P_refl|]. apply g_loop_latest in HI.
      eapply P_trans with (r := Ok VNone); [|exact Logic.I|exact HI]. apply P_same; [still|reflexivity..]. }
  cbv zeta in H. destruct (inner_loop _ _ _ _ _ _) as [[w3 r3]|] eqn:HI0; [|discriminate]. specialize (HI _ _ eq_refl).
  destruct r3; injection H as <- <-; [| |exact HI]; (eapply P_after; [exact HI|exact Logic.I|still|reflexivity|reflexivity|exact Logic.I]).
Qed.
Lemma g_do_emit : forall fuel s args cn ct w w' r, do_emit ex E fuel s args cn ct w = Some (w', r) -> P (log (EEmit s args (w_usr w)) w) w' r.
Proof.
  intros fuel s args cn ct w w' r H. unfold do_emit in H. set (w0 := log (EEmit s args (w_usr w)) w) in *.
  clearbody w0.
  destruct (s_blocked _). { injection H as <- <-. apply P_refl. }
  destruct (cn && _). { injection H as <- <-. apply P_refl. }
  destruct (if ct then _ else _) as [[|]|e]; try (injection H as <- <-; apply P_refl).
  destruct (s_paused _). { injection H as <- <-. apply P_same; [still|reflexivity..]. }
  destruct (w_hook w0) as [h|]; [|eapply g_run; eauto].
  destruct (ex _ _) as [[w2 r2]|] eqn:Hx; [|discriminate].
  assert (HPx : P w0 w2 r2).
  { eapply P_before; [eapply Hex; [|exact Hx]; apply HE|still|reflexivity|reflexivity|exact Logic.I]. }
  destruct r2; [|injection H as <- <-; exact HPx|injection H as <- <-; exact HPx].
  eapply P_trans; [exact HPx|exact Logic.I|]. eapply g_run; eauto.
Qed.
Lemma g_do_emit_fast : forall fuel s args w w' r, do_emit_fast ex E fuel s args w = Some (w', r) -> P (log (EEmit s args (w_usr w)) w) w' r.
Proof.
  intros fuel s args w w' r H. unfold do_emit_fast in H. set (w0 := log (EEmit s args (w_usr w)) w) in *.
  clearbody w0.
  destruct (s_blocked _). { injection H as <- <-. apply P_refl. }
  destruct (s_paused _). { injection H as <- <-. apply P_same; [still|reflexivity..]. }
  destruct (Nat.leb _ _). { injection H as <- <-. apply P_refl. }
  destruct (loop_slots _ _ _ _ _ _ _ _) as [[w2 r2]|] eqn:HI; [|discriminate]. apply g_loop_slots in HI.
  assert (H2 : P w0 w2 r2) by (eapply P_before; [exact HI|still|reflexivity|reflexivity|exact Logic.I]).
  destruct r2; injection H as <- <-; [| |exact H2]; (eapply P_after; [exact H2|exact Logic.I|still|reflexivity|reflexivity|exact Logic.I]).
Qed.
Lemma g_do_relay : forall fuel r args w w' o, do_relay ex E fuel r args w = Some (w', o) -> P w w' o.
Proof.
  intros fuel r args w w' o H. unfold do_relay in H. destruct (s_members (w_sg w r)); [|injection H as <- <-; apply P_refl].
  destruct (w_cur w) as [em|]; [|injection H as <- <-; apply P_refl].
  destruct (s_slots (w_sg w em)); [injection H as <- <-; apply P_refl|]. eapply g_run; exact H.
Qed.
Lemma g_replay : forall fuel s i w w' r, replay ex E fuel s i w = Some (w', r) -> P w w' r.
Proof.
  induction fuel as [|f IH]; intros s i w w' r H; cbn [replay] in H; [discriminate|].
  destruct (nth_error _ i) as [a|]; [|injection H as <- <-; apply P_refl].
  destruct (run_emit_loop ex E f s a w) as [[w1 [v|e|]]|] eqn:HC; try discriminate; apply g_run in HC.
  - eapply P_trans; [exact HC|exact Logic.I|eapply IH; eauto].
  - injection H as <- <-; exact HC.
  - injection H as <- <-; exact HC.
Qed.
Lemma g_do_resume : forall fuel s rd w w' r, do_resume ex E fuel s rd w = Some (w', r) -> P w w' r.
Proof.
  intros fuel s rd w w' r H. unfold do_resume in H. set (w1 := upd s (set_paused false) w) in *.
  assert (H0 : P w w1 (Ok VNone)) by (apply P_same; [still|reflexivity..]).
  eapply P_trans; [exact H0|exact Logic.I|]. clearbody w1. clear H0.
  destruct (s_args (w_sg w1 s)) as [|a0 al]. { injection H as <- <-. apply P_refl. }
  destruct (s_slots (w_sg w1 s)). { injection H as <- <-. apply P_same; [still|reflexivity..]. }
  set (body := match rd with RNone => _ | ROne _ => _ | RTwo _ _ => _ end) in H.
  assert (HB : forall w2 r2, body = Some (w2, r2) -> P w1 w2 r2).
  { intros w2 r2 HB. unfold body in HB. destruct rd as [|f|f i].
    - eapply g_replay; eauto.
    - destruct (f (a0 :: al)); [eapply g_run; eauto|]. injection HB as <- <-. apply P_refl.
    - destruct (apply_reducer f i (a0 :: al)); [eapply g_run; eauto|]. injection HB as <- <-. apply P_refl. }
  destruct body as [[w2 [v|e|]]|]; try discriminate.
  - injection H as <- <-. eapply P_trans; [apply HB; reflexivity|exact Logic.I|]. apply P_same; [still|reflexivity..].
  - injection H as <- <-. now apply HB.
  - injection H as <- <-. now apply HB.
Qed.
Lemma g_drain : forall fuel t w w' r, drain ex E fuel t w = Some (w', r) -> P w w' r.
Proof.
  induction fuel as [|f IH]; intros t w w' r H; cbn [drain] in H; [discriminate|].
  destruct (w_tq w t) as [|[[[eid s] c] args] q]. { injection H as <- <-. apply P_refl. }
  destruct (invoke ex E true eid s c args _) as [[w1 [v|e|]]|] eqn:HC; try discriminate; apply g_invoke in HC.
  - eapply P_trans with (r := Ok v); [|exact Logic.I|eapply IH; eauto].
    eapply (P_before w _ _ _ (EPop t eid s (w_uid c) args)); [exact HC|still|reflexivity|reflexivity|exact Logic.I].
  - injection H as <- <-. exact Logic.I.
  - injection H as <- <-. exact Logic.I.
Qed.
Lemma g_step : forall n o w w' r, severs o = false -> match o with OUsr _ | OEmit _ _ _ _ | OEmitFast _ _ => False | _ => True end ->
  step ex E n o w = Some (w', r) -> P w w' r.
Proof.
  intros n o w w' r HS HA H. destruct (is_pure o) eqn:Hpure.
  - rewrite step_pure in H by exact Hpure. pose proof (pure_keeps _ _ _ _ _ Hpure H) as (_ & _ & K3 & _).
    apply P_same; [eapply pure_grows; eauto| |exact K3]. eapply usame_pure; eauto. destruct o; auto; contradiction.
  - destruct o; try discriminate Hpure; try contradiction; cbn [step] in H.
    + eapply g_do_resume; eauto.
    + eapply g_do_relay; eauto.
    + eapply g_drain; eauto.
    + eapply Hex; [|exact H]. apply HE.
Qed.
End Step.

Lemma g_both : forall n,
  (forall p w w' v h Q, exec E n p w = Some (w', Ok v) -> populated w -> hwp p (w_usr w) h Q ->
     populated w' /\ exists t, w_tr w' = w_tr w ++ t /\ Q (w_usr w') (h ++ hear t) v)
  /\ (forall r args w w' o,
      exec E n (Do (ORelay r args) (fun x => match x with inl v => Ret v | inr e => Throw e end)) w = Some (w', o) -> P w w' o).
Proof.
  induction n as [|n [IH1 IH2]]; [split; intros; discriminate|].
  assert (HX : forall p w w' r, sound p -> exec E n p w = Some (w', r) -> P w w' r).
  { intros p0 w0 w0' [v0|e0|] HS Hx; [|exact Logic.I..]. intros HW HB. destruct (IH1 _ _ _ _ [] _ Hx HW (HS _ [] HB)) as (HW' & t & T & _).
    split; [exact HW'|]. exists t. split; [exact T|]. intros h. destruct (IH1 _ _ _ _ h _ Hx HW (HS _ h HB)) as (_ & t' & T' & K).
    rewrite T in T'. apply app_inv_head in T' as <-. exact K. }
  split.
  - intros p w w' v h Q H HW H0. pose proof (fails_exec E _ _ _ _ _ H) as HF. destruct p as [v'|e| |k|o k]; cbn [exec] in H; try discriminate.
    + injection H as <- <-. split; [exact HW|]. exists []. cbn. now rewrite !app_nil_r.
    + exact (IH1 _ _ _ _ _ _ H HW H0).
    + destruct (step (exec E n) E n o w) as [[w1 r1]|] eqn:HS; [|discriminate].
      assert (K : match r1 with
        | Ok v => populated w1 /\ exists t, w_tr w1 = w_tr w ++ t /\ hwp (k (inl v)) (w_usr w1) (h ++ hear t) Q
        | Err e => fails (k (inr e)) \/ (populated w1 /\ exists t, w_tr w1 = w_tr w ++ t /\ hwp (k (inr e)) (w_usr w1) (h ++ hear t) Q)
        | Halted => True end).
      { assert (Go : B (w_usr w) -> P w w1 r1 -> (forall u' h' v, R (w_usr w) h u' h' -> hwp (k (inl v)) u' h' Q) -> (forall e, fails (k (inr e))) ->
          match r1 with
          | Ok v => populated w1 /\ exists t, w_tr w1 = w_tr w ++ t /\ hwp (k (inl v)) (w_usr w1) (h ++ hear t) Q
          | Err e => fails (k (inr e)) \/ (populated w1 /\ exists t, w_tr w1 = w_tr w ++ t /\ hwp (k (inr e)) (w_usr w1) (h ++ hear t) Q)
          | Halted => True end).
        { intros HB HP Hk Hf. destruct r1; auto. destruct (HP HW HB) as (HW' & t & T & HR). split; [exact HW'|]. exists t. split; [exact T|]. apply Hk, HR. }
        assert (Ge : forall s a, B (w_usr w) -> P (log (EEmit s a (w_usr w)) w) w1 r1 -> (forall u' h' v, R (w_usr w) (h ++ [(s, a, w_usr w)]) u' h' -> hwp (k (inl v)) u' h' Q) ->
          (forall e, fails (k (inr e))) ->
          match r1 with
          | Ok v => populated w1 /\ exists t, w_tr w1 = w_tr w ++ t /\ hwp (k (inl v)) (w_usr w1) (h ++ hear t) Q
          | Err e => fails (k (inr e)) \/ (populated w1 /\ exists t, w_tr w1 = w_tr w ++ t /\ hwp (k (inr e)) (w_usr w1) (h ++ hear t) Q)
          | Halted => True end).
        { intros s a HB HP Hk Hf. destruct r1; auto. destruct (HP HW HB) as (HW' & t & T & HR). split; [exact HW'|].
          exists (EEmit s a (w_usr w) :: t). split; [rewrite T; cbn; now rewrite <- app_assoc|]. apply Hk. cbn [heard].
          specialize (HR (h ++ [(s, a, w_usr w)])). now rewrite <- app_assoc in HR. }
        destruct o; cbn [hwp] in H0;
          try (destruct H0 as [H0|([HB H00] & H1 & H2)]; [destruct (HF H0)|]; apply Go; [exact HB| |exact H1|exact H2]; refine (g_step _ HX IH2 _ _ _ _ _ H00 Logic.I HS)).
        - destruct H0 as [H0|(HB & H1 & H2)]; [destruct (HF H0)|]. eapply Ge; [exact HB| |exact H1|exact H2]. cbn [step] in HS. eapply g_do_emit; eauto.
        - destruct H0 as [H0|(HB & H1 & H2)]; [destruct (HF H0)|]. eapply Ge; [exact HB| |exact H1|exact H2]. cbn [step] in HS. eapply g_do_emit_fast; eauto.
        - cbn [step] in HS. injection HS as <- <-. split; [exact HW|]. exists []. cbn [heard]. rewrite !app_nil_r. split; [reflexivity|].
          apply H0. intros HC. specialize (HW _ HC). destruct (s_slots (w_sg w s)); [contradiction|]. cbn. lia.
        - cbn [step] in HS. match type of HS with context [?g (w_usr w)] => destruct (g (w_usr w)) as [u [y|y]] end; injection HS as <- <-; cbn [fst snd] in H0.
          + split; [exact HW|]. exists []. cbn [heard]. rewrite !app_nil_r. split; [reflexivity|exact H0].
          + right. split; [exact HW|]. exists []. cbn [heard]. rewrite !app_nil_r. split; [reflexivity|exact H0]. }
      assert (KK : forall p0 w0 v0 t, w_tr w1 = w_tr w ++ t -> populated w1 -> exec E n p0 w1 = Some (w0, Ok v0) -> hwp p0 (w_usr w1) (h ++ hear t) Q ->
        populated w0 /\ exists t, w_tr w0 = w_tr w ++ t /\ Q (w_usr w0) (h ++ hear t) v0).
      { intros p0 w0 v0 t T HW1 Hx HG. destruct (IH1 _ _ _ _ _ _ Hx HW1 HG) as (HW0 & t' & T' & K1). split; [exact HW0|].
        exists (t ++ t'). rewrite T', T, app_assoc. split; [reflexivity|]. now rewrite heard_app, app_assoc. }
      destruct r1 as [v1|e1|]; [| |discriminate].
      * destruct K as (HW1 & t & T & K). eapply KK; eauto.
      * destruct K as [K|(HW1 & t & T & K)]; [|eapply KK; eauto]. destruct (fails_exec E _ _ _ _ _ H K).
  - intros r args w w' o H. cbn [exec step] in H. destruct (do_relay (exec E n) E n r args w) as [[w1 r1]|] eqn:HS; [|discriminate].
    assert (HK : P w w1 r1) by (eapply g_do_relay; eauto).
    destruct r1 as [v|e|]; [| |injection H as <- <-; exact HK].
    + destruct n; [discriminate|]. injection H as <- <-. exact HK.
    + destruct n; [discriminate|]. injection H as <- <-. exact Logic.I.
Qed.
Theorem heed_sound : forall p w w' v, runs E p w w' (Ok v) -> sound p -> populated w -> B (w_usr w) ->
  exists t, w_tr w' = w_tr w ++ t /\ R (w_usr w) [] (w_usr w') (hear t).
Proof.
  intros p w w' v [n H] Hp HW HB. destruct (g_both n) as [G _]. destruct (G _ _ _ _ [] _ H HW (Hp _ [] HB)) as (_ & t & T & K). eauto.
Qed.

(** Rules for programs. *)
Lemma hwp_act : forall f u h v (Q : U -> hist U -> val -> Prop), snd (f u) = inl v -> Q (fst (f u)) h v -> hwp (act f) u h Q.
Proof. intros f u h v Q Hv HQ. cbn. rewrite Hv. exact HQ. Qed.
Lemma hwp_say : forall s a u h (Q : U -> hist U -> val -> Prop), B u -> (forall u' h' v, R u (h ++ [(s, a, u)]) u' h' -> Q u' h' v) -> hwp (say s a) u h Q.
Proof. intros s a u h Q HB HQ. cbn. right. auto. Qed.
Lemma hwp_sound : forall p u h (Q : U -> hist U -> val -> Prop), sound p -> B u -> (forall u' h' v, R u h u' h' -> Q u' h' v) -> hwp p u h Q.
Proof. intros p u h Q HS HB HQ. eapply hwp_mono; [|exact (HS u h HB)]. cbn. auto. Qed.
Lemma sound_bind : forall p k, sound p -> (forall v, sound (k v)) -> sound (bind p k).
Proof.
  intros p k Hp Hk u h HB. apply hwp_bind. apply hwp_sound; auto. intros u' h' v HR. apply hwp_sound; [apply Hk|eauto|]. eauto.
Qed.
Lemma sound_each : forall {A} (f : A -> prog U) l, (forall x, In x l -> sound (f x)) -> sound (each f l).
Proof.
  intros A f l; induction l as [|x l IH]; intros H; cbn; [intros u h HB; cbn; auto|]. apply sound_bind; [apply H; now left|].
  intros _. apply IH. intros y Hy. apply H. now right.
Qed.
Lemma sound_ret : forall v, sound (Ret v).
Proof. intros v u h HB. cbn. auto. Qed.
Lemma sound_throw : forall e, sound (Throw e).
Proof. intros e u h HB. exact Logic.I. Qed.
Lemma sound_look : forall k, (forall u, sound (k u)) -> sound (Look k).
Proof. intros k H u h HB. cbn. now apply H. Qed.
Lemma sound_call : forall o, severs o = false -> match o with OUsr _ | OEmit _ _ _ _ | OEmitFast _ _ => False | _ => True end -> sound (call o).
Proof. intros o Hs Ho u h HB. unfold call. destruct o; try contradiction; try discriminate Hs; cbn; auto. Qed.
Lemma sound_paused : forall s r p, sound p -> sound (with_paused s r p).
Proof.
  intros s r p Hp. apply sound_bind; [now apply sound_call|]. intros was. apply sound_bind; [now apply sound_call|]. intros _.
  set (fin := match was with VBool true => _ | _ => _ end).
  assert (HF : sound fin) by (unfold fin; destruct was; try (now apply sound_call); destruct b; [exact (sound_ret _)|now apply sound_call]).
  clearbody fin. intros u h HB. apply hwp_catch.
  - intros e. clear. induction fin; cbn; auto.
  - apply hwp_sound; [exact Hp|exact HB|]. intros u1 h1 v HR1. apply hwp_bind. apply hwp_sound; [exact HF|eauto|].
    intros u2 h2 v2 HR2. cbn. eauto.
Qed.
End Heed.
