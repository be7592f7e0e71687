(** Programs whose listeners use the object that emits and do not catch exceptions, as long as nothing raises: [B] holds whenever
    something else may run, and whatever runs changes the data only along [R].  Proof infrastructure; models no code. *)

From Verif Require Import Base Core Spec Frame Fuel Conn Keep Trace Client Prog.

(** Never returns normally. *)
Fixpoint fails {U} (p : prog U) : Prop :=
  match p with
  | Ret _ => False
  | Throw _ | Halt => True
  | Look k => forall u, fails (k u)
  | Do _ k => forall x, fails (k x)
  end.
Lemma fails_bind : forall {U} (p : prog U) k, fails p -> fails (bind p k).
Proof. intros U p k; induction p as [v|e| |f IH|o f IH]; cbn; auto. contradiction. Qed.
Lemma fails_then : forall {U} (p : prog U) k, (forall v, fails (k v)) -> fails (bind p k).
Proof. intros U p k H; induction p as [v|e| |f IH|o f IH]; cbn; auto. Qed.
Lemma fails_catch : forall {U} (p : prog U) k, (forall e, fails (k (inr e))) -> fails p -> fails (catch p k).
Proof. intros U p k Hk; induction p as [v|e| |f IH|o f IH]; cbn; auto. contradiction. Qed.

Section Calm.
Context {U : Type} (E : env U) (B : U -> Prop) (R : U -> U -> Prop).
Hypothesis R_refl : forall u, R u u.
Hypothesis R_trans : forall a b c, R a b -> R b c -> R a c.

Fixpoint cwp (p : prog U) (u : U) (Q : U -> val -> Prop) : Prop :=
  match p with
  | Ret v => Q u v
  | Throw e => True
  | Halt => True
  | Look k => cwp (k u) u Q
  | Do (OUsr f) k => cwp (k (snd (f u))) (fst (f u)) Q
  | Do _ k => (forall x, fails (k x)) \/ (B u /\ (forall u' v, B u' -> R u u' -> cwp (k (inl v)) u' Q) /\ forall e, fails (k (inr e)))
  end.
Definition sound (p : prog U) : Prop := forall u, B u -> cwp p u (fun u' _ => B u' /\ R u u').

Lemma cwp_mono : forall p u (Q Q' : U -> val -> Prop), (forall u v, Q u v -> Q' u v) -> cwp p u Q -> cwp p u Q'.
Proof.
  intros p; induction p as [v|e| |k IH|o k IH]; intros u Q Q' HQ H; cbn in *; auto.
  - eapply IH; eauto.
  - destruct o; try (destruct H as [H|(HB & H1 & H2)]; [now left|right; split; [exact HB|split; [intros; eapply IH; eauto|exact H2]]]). eapply IH; eauto.
Qed.
Lemma cwp_bind : forall p k u (Q : U -> val -> Prop), cwp p u (fun u1 v => cwp (k v) u1 Q) -> cwp (bind p k) u Q.
Proof.
  intros p; induction p as [v|e| |f IH|o f IH]; intros k u Q H; cbn in *; auto.
  destruct o; try (destruct H as [H|(HB & H1 & H2)]; [left; intros; now apply fails_bind|right; split; [exact HB|split; [intros; apply IH; now apply H1|intros; apply fails_bind; now apply H2]]]).
  now apply IH.
Qed.
Lemma cwp_fails : forall p u (Q : U -> val -> Prop), fails p -> cwp p u Q.
Proof.
  intros p; induction p as [v|e| |k IH|o k IH]; intros u Q H; cbn in *; auto; try contradiction.
  destruct o; try (left; exact H). now apply IH.
Qed.
(** finally *)
Lemma cwp_catch : forall p k u (Q : U -> val -> Prop), (forall e, fails (k (inr e))) -> cwp p u (fun u1 v => cwp (k (inl v)) u1 Q) -> cwp (catch p k) u Q.
Proof.
  intros p k u Q Hk. revert u; induction p as [v|e| |f IH|o f IH]; intros u H; cbn in *; auto.
  - now apply cwp_fails.
  - destruct o; try (destruct H as [H|(HB & H1 & H2)]; [left; intros; now apply fails_catch|right; split; [exact HB|split; [intros; apply IH; now apply H1|intros; apply fails_catch; auto]]]).
    now apply IH.
Qed.
Lemma cwp_seq : forall p q u (Q : U -> val -> Prop), cwp p u (fun u1 _ => cwp q u1 Q) -> cwp (p ;; q) u Q.
Proof. intros. now apply cwp_bind. Qed.

(** ** Soundness *)
Definition P (w w' : world U) (r : out) : Prop :=
  match r with Ok _ => B (w_usr w) -> B (w_usr w') /\ R (w_usr w) (w_usr w') | _ => True end.
Lemma P_same : forall w w' r, w_usr w' = w_usr w -> P w w' r.
Proof. intros w w' r Hu. destruct r; cbn; auto. rewrite Hu. auto. Qed.
Lemma P_refl : forall w r, P w w r.
Proof. intros w r. now apply P_same. Qed.
Definition worse (r r' : out) : Prop := match r, r' with Ok _, _ => True | _, Ok _ => False | _, _ => True end.
Lemma P_trans : forall a b c r r', P a b r -> worse r r' -> P b c r' -> P a c r'.
Proof.
  intros a b c r r' H1 Hw H2. unfold P in *. destruct r, r'; cbn in *; try contradiction; auto.
  intros Ha. destruct (H1 Ha) as [Hb Hr]. destruct (H2 Hb) as [Hc Hr']. eauto.
Qed.
Lemma P_weaken : forall a b r r', P a b r -> worse r r' -> P a b r'.
Proof. intros a b r r' H Hw. eapply P_trans; [exact H|exact Hw|]. apply P_refl. Qed.
Lemma P_after : forall a b c r r', P a b r -> worse r r' -> w_usr c = w_usr b -> P a c r'.
Proof. intros a b c r r' H Hr Hu. eapply P_trans; [exact H|exact Hr|]. now apply P_same. Qed.
Lemma P_before : forall a b c r, P b c r -> w_usr b = w_usr a -> P a c r.
Proof. intros a b c r H Hu. eapply P_trans with (r := Ok VNone); [|exact Logic.I|exact H]. now apply P_same. Qed.

Hypothesis HE : (forall t a w, sound (e_body E t a w)) /\ (forall m a, sound (e_lib E m a)).
Section Step.
Variable ex : prog U -> world U -> option (world U * out).
Hypothesis Hex : forall p w w' r, sound p -> ex p w = Some (w', r) -> P w w' r.
Hypothesis Hrelay : forall r args w w' o,
  ex (Do (ORelay r args) (fun x => match x with inl v => Ret v | inr e => Throw e end)) w = Some (w', o) -> P w w' o.

Lemma g_body : forall t a w w1 w' r, ex (body_of E t a w) w1 = Some (w', r) -> P w1 w' r.
Proof.
  intros t a w w1 w' r Hx. unfold body_of in Hx. destruct t; try (eapply Hex; [|exact Hx]; apply HE). eapply Hrelay; exact Hx.
Qed.
Lemma g_invoke : forall b eid s c args w w' r, invoke ex E b eid s c args w = Some (w', r) -> P w w' r.
Proof.
  intros b eid s c args w w' r H. unfold invoke in H.
  destruct (match w_ref c with Some o => w_dead w o | None => false end); [injection H as <- <-; apply P_refl|].
  destruct (ex _ _) as [[w2 r2]|] eqn:Hx; [|discriminate]. apply g_body in Hx.
  assert (H0 : P w w2 r2) by (destruct b; (eapply P_before; [exact Hx|reflexivity])).
  destruct r2; injection H as <- <-; [| |exact H0]; (destruct b; (eapply P_after; [exact H0|exact Logic.I|reflexivity])).
Qed.
Lemma g_call_slot : forall eid s c args w w' r, call_slot ex E eid s c args w = Some (w', r) -> P w w' r.
Proof.
  intros eid s c args w w' r H. unfold call_slot in H. destruct (w_thread c) as [t|]; [|eapply g_invoke; eauto].
  destruct (Nat.eqb t (w_me w)); [eapply g_invoke; eauto|]. injection H as <- <-.
  apply P_same; reflexivity.
Qed.
Lemma g_loop_slots : forall fuel eid s i args w w' r, loop_slots ex E fuel eid s i args w = Some (w', r) -> P w w' r.
Proof.
  induction fuel as [|f IH]; intros eid s i args w w' r H; cbn [loop_slots] in H; [discriminate|].
  destruct (nth_error _ i) as [c|]; [|injection H as <- <-; apply P_refl].
  destruct (call_slot ex E eid s c args w) as [[w1 [v|e|]]|] eqn:HC; try discriminate; apply g_call_slot in HC.
  - eapply P_trans; [exact HC|exact Logic.I|eapply IH; eauto].
  - injection H as <- <-; exact HC.
  - injection H as <- <-; exact HC.
Qed.
Lemma g_loop_latest : forall fuel eid s i args w w' r, loop_latest ex E fuel eid s i args w = Some (w', r) -> P w w' r.
Proof.
  induction fuel as [|f IH]; intros eid s i args w w' r H; cbn [loop_latest] in H; [discriminate|].
  destruct (nth_error _ i) as [c|]; [|injection H as <- <-; apply P_refl].
  destruct (Nat.ltb _ _). { injection H as <- <-. apply P_refl. }
  destruct (call_slot ex E eid s c args w) as [[w1 [v|e|]]|] eqn:HC; try discriminate; apply g_call_slot in HC.
  - eapply P_trans; [exact HC|exact Logic.I|eapply IH; eauto].
  - injection H as <- <-; exact HC.
  - injection H as <- <-; exact HC.
Qed.
Lemma g_loop_qslots : forall fuel eid s i args w w' r, loop_qslots ex E fuel eid s i args w = Some (w', r) -> P w w' r.
Proof.
  induction fuel as [|f IH]; intros eid s i args w w' r H; cbn [loop_qslots] in H; [discriminate|].
  destruct (nth_error _ i) as [c|]; [|injection H as <- <-; apply P_refl].
  destruct (call_slot ex E eid s c args w) as [[w1 [v|e|]]|] eqn:HC; try discriminate; apply g_call_slot in HC.
  - destruct (Nat.ltb _ _); [injection H as <- <-; eapply P_weaken; [exact HC|exact Logic.I]|].
    eapply P_trans; [exact HC|exact Logic.I|eapply IH; eauto].
  - injection H as <- <-; exact HC.
  - injection H as <- <-; exact HC.
Qed.
Lemma g_loop_queue : forall fuel eid s i w w' r, loop_queue ex E fuel eid s i w = Some (w', r) -> P w w' r.
Proof.
  induction fuel as [|f IH]; intros eid s i w w' r H; cbn [loop_queue] in H; [discriminate|].
  destruct (nth_error _ i) as [a|]; [|injection H as <- <-; apply P_refl].
  destruct (loop_qslots ex E f eid s 0 a w) as [[w1 [v|e|]]|] eqn:HC; try discriminate; apply g_loop_qslots in HC.
  - eapply P_trans; [exact HC|exact Logic.I|eapply IH; eauto].
  - injection H as <- <-; exact HC.
  - injection H as <- <-; exact HC.
Qed.
Lemma g_run : forall fuel s args w w' r, run_emit_loop ex E fuel s args w = Some (w', r) -> P w w' r.
Proof.
  intros fuel s args w w' r H. unfold run_emit_loop in H.
  destruct (Nat.leb RECURSION_LIMIT (s_depth (w_sg w s))). { injection H as <- <-. apply P_refl. }
  destruct (Nat.ltb 1 _). { injection H as <- <-. apply P_same; reflexivity. }
  set (w2 := log _ _) in H. assert (H2 : P w w2 (Ok VNone)).
  { unfold w2. apply P_same; reflexivity. }
  assert (HI : forall w3 r3, inner_loop ex E fuel (w_nxt (upd s (fun st => set_eq (s_eq st ++ [args]) st) w)) s w2 = Some (w3, r3) -> P w w3 r3).
  { intros w3 r3 HI. eapply P_trans; [exact H2|exact Logic.I|]. clearbody w2. unfold inner_loop in HI. destruct (s_mode (w_sg w2 s)).
    - destruct (s_eq _) as [|a q]; [injection HI as <- <-; apply P_refl|]. apply g_loop_slots in HI.
      eapply P_trans with (r := Ok VNone); [|exact Logic.I|exact HI]. apply P_same; reflexivity.
    - eapply g_loop_queue; eauto.
    - destruct (s_eq _) as [|a q]; [injection HI as <- <-; apply P_refl|]. apply g_loop_latest in HI.
      eapply P_trans with (r := Ok VNone); [|exact Logic.I|exact HI]. apply P_same; reflexivity. }
  cbv zeta in H. destruct (inner_loop _ _ _ _ _ _) as [[w3 r3]|] eqn:HI0; [|discriminate]. specialize (HI _ _ eq_refl).
  destruct r3; injection H as <- <-; [| |exact HI]; (eapply P_after; [exact HI|exact Logic.I|reflexivity]).
Qed.
Lemma g_do_emit : forall fuel s args cn ct w w' r, do_emit ex E fuel s args cn ct w = Some (w', r) -> P w w' r.
Proof.
  intros fuel s args cn ct w w' r H. unfold do_emit in H. set (w0 := log (EEmit s args (w_usr w)) w) in *.
  apply (P_before w w0); [|reflexivity]. clearbody w0.
  destruct (s_blocked _). { injection H as <- <-. apply P_refl. }
  destruct (cn && _). { injection H as <- <-. apply P_refl. }
  destruct (if ct then _ else _) as [[|]|e]; try (injection H as <- <-; apply P_refl).
  destruct (s_paused _). { injection H as <- <-. apply P_same; reflexivity. }
  destruct (w_hook w0) as [h|]; [|eapply g_run; eauto].
  destruct (ex _ _) as [[w2 r2]|] eqn:Hx; [|discriminate].
  assert (HPx : P w0 w2 r2).
  { eapply P_before; [eapply Hex; [|exact Hx]; apply HE|reflexivity]. }
  destruct r2; [|injection H as <- <-; exact HPx|injection H as <- <-; exact HPx].
  eapply P_trans; [exact HPx|exact Logic.I|]. eapply g_run; eauto.
Qed.
Lemma g_do_emit_fast : forall fuel s args w w' r, do_emit_fast ex E fuel s args w = Some (w', r) -> P w w' r.
Proof.
  intros fuel s args w w' r H. unfold do_emit_fast in H. set (w0 := log (EEmit s args (w_usr w)) w) in *.
  apply (P_before w w0); [|reflexivity]. clearbody w0.
  destruct (s_blocked _). { injection H as <- <-. apply P_refl. }
  destruct (s_paused _). { injection H as <- <-. apply P_same; reflexivity. }
  destruct (Nat.leb _ _). { injection H as <- <-. apply P_refl. }
  destruct (loop_slots _ _ _ _ _ _ _ _) as [[w2 r2]|] eqn:HI; [|discriminate]. apply g_loop_slots in HI.
  assert (H2 : P w0 w2 r2) by (eapply P_before; [exact HI|reflexivity]).
  destruct r2; injection H as <- <-; [| |exact H2]; (eapply P_after; [exact H2|exact Logic.I|reflexivity]).
Qed.
Lemma g_do_relay : forall fuel r args w w' o, do_relay ex E fuel r args w = Some (w', o) -> P w w' o.
Proof.
  intros fuel r args w w' o H. unfold do_relay in H. destruct (s_members (w_sg w r)); [|injection H as <- <-; apply P_refl].
  destruct (w_cur w) as [em|]; [|injection H as <- <-; apply P_refl].
  destruct (s_slots (w_sg w em)); [injection H as <- <-; apply P_refl|]. eapply g_run; exact H.
Qed.
Lemma g_replay : forall fuel s i w w' r, replay ex E fuel s i w = Some (w', r) -> P w w' r.
Proof.
  induction fuel as [|f IH]; intros s i w w' r H; cbn [replay] in H; [discriminate|].
  destruct (nth_error _ i) as [a|]; [|injection H as <- <-; apply P_refl].
  destruct (run_emit_loop ex E f s a w) as [[w1 [v|e|]]|] eqn:HC; try discriminate; apply g_run in HC.
  - eapply P_trans; [exact HC|exact Logic.I|eapply IH; eauto].
  - injection H as <- <-; exact HC.
  - injection H as <- <-; exact HC.
Qed.
Lemma g_do_resume : forall fuel s rd w w' r, do_resume ex E fuel s rd w = Some (w', r) -> P w w' r.
Proof.
  intros fuel s rd w w' r H. unfold do_resume in H. set (w1 := upd s (set_paused false) w) in *.
  assert (H0 : P w w1 (Ok VNone)) by (apply P_same; reflexivity).
  eapply P_trans; [exact H0|exact Logic.I|]. clearbody w1. clear H0.
  destruct (s_args (w_sg w1 s)) as [|a0 al]. { injection H as <- <-. apply P_refl. }
  destruct (s_slots (w_sg w1 s)). { injection H as <- <-. apply P_same; reflexivity. }
  set (body := match rd with RNone => _ | ROne _ => _ | RTwo _ _ => _ end) in H.
  assert (HB : forall w2 r2, body = Some (w2, r2) -> P w1 w2 r2).
  { intros w2 r2 HB. unfold body in HB. destruct rd as [|f|f i].
    - eapply g_replay; eauto.
    - destruct (f (a0 :: al)); [eapply g_run; eauto|]. injection HB as <- <-. apply P_refl.
    - destruct (apply_reducer f i (a0 :: al)); [eapply g_run; eauto|]. injection HB as <- <-. apply P_refl. }
  destruct body as [[w2 [v|e|]]|]; try discriminate.
  - injection H as <- <-. eapply P_trans; [apply HB; reflexivity|exact Logic.I|]. apply P_same; reflexivity.
  - injection H as <- <-. now apply HB.
  - injection H as <- <-. now apply HB.
Qed.
Lemma g_drain : forall fuel t w w' r, drain ex E fuel t w = Some (w', r) -> P w w' r.
Proof.
  induction fuel as [|f IH]; intros t w w' r H; cbn [drain] in H; [discriminate|].
  destruct (w_tq w t) as [|[[[eid s] c] args] q]. { injection H as <- <-. apply P_refl. }
  destruct (invoke ex E true eid s c args _) as [[w1 [v|e|]]|] eqn:HC; try discriminate; apply g_invoke in HC.
  all: assert (HD := P_before w _ _ _ HC eq_refl); clear HC; rename HD into HC.
  - eapply P_trans; [exact HC|exact Logic.I|eapply IH; eauto].
  - injection H as <- <-. eapply P_weaken; [exact HC|exact Logic.I].
  - injection H as <- <-. exact HC.
Qed.
Lemma g_step : forall n o w w' r, match o with OUsr _ => False | _ => True end ->
  step ex E n o w = Some (w', r) -> P w w' r.
Proof.
  intros n o w w' r HA H. destruct (is_pure o) eqn:Hpure.
  - rewrite step_pure in H by exact Hpure. apply P_same. eapply usame_pure; eauto. destruct o; auto; contradiction.
  - destruct o; try discriminate Hpure; try contradiction; cbn [step] in H.
    + eapply g_do_emit; eauto.
    + eapply g_do_emit_fast; eauto.
    + eapply g_do_resume; eauto.
    + eapply g_do_relay; eauto.
    + eapply g_drain; eauto.
    + eapply Hex; [|exact H]. apply HE.
Qed.
End Step.


Lemma fails_exec : forall n p w w' r, exec E n p w = Some (w', r) -> fails p -> match r with Ok _ => False | _ => True end.
Proof.
  induction n as [|n IH]; intros p w w' r H Hf; [discriminate|]. destruct p as [v|e| |k|o k]; cbn [exec] in H; cbn in Hf.
  - contradiction.
  - injection H as <- <-; exact Logic.I.
  - injection H as <- <-; exact Logic.I.
  - eapply IH; eauto.
  - destruct (step _ _ _ _ _) as [[w1 [v|e|]]|]; try discriminate; [eapply IH; eauto..|]. injection H as <- <-; exact Logic.I.
Qed.
Lemma g_both : forall n,
  (forall p w w' v Q, exec E n p w = Some (w', Ok v) -> cwp p (w_usr w) Q -> Q (w_usr w') v)
  /\ (forall r args w w' o,
      exec E n (Do (ORelay r args) (fun x => match x with inl v => Ret v | inr e => Throw e end)) w = Some (w', o) -> P w w' o).
Proof.
  induction n as [|n [IH1 IH2]]; [split; intros; discriminate|].
  assert (HX : forall p w w' r, sound p -> exec E n p w = Some (w', r) -> P w w' r).
  { intros p0 w0 w0' [v0|e0|] HS Hx; [|exact Logic.I..]. intros HB. exact (IH1 _ _ _ _ _ Hx (HS _ HB)). }
  split.
  - intros p w w' v Q H H0. pose proof (fails_exec _ _ _ _ _ H) as HF. destruct p as [v'|e| |k|o k]; cbn [exec] in H; try discriminate.
    + injection H as <- <-. exact H0.
    + exact (IH1 _ _ _ _ _ H H0).
    + destruct (step (exec E n) E n o w) as [[w1 r1]|] eqn:HS; [|discriminate].
      assert (G : match o with OUsr _ => False | _ => True end -> P w w1 r1) by (intros Ho; eapply g_step; eauto).
      assert (K : match r1 with Ok v => cwp (k (inl v)) (w_usr w1) Q | Err e => fails (k (inr e)) \/ cwp (k (inr e)) (w_usr w1) Q | Halted => True end).
      { destruct o; cbn [cwp] in H0; try (specialize (G Logic.I); destruct H0 as [H0|(HB & H1 & H2)]; [destruct (HF H0)|]; destruct r1; cbn in G; auto; destruct (G HB); auto).
        cbn [step] in HS. match type of HS with context [?g (w_usr w)] => destruct (g (w_usr w)) as [u [y|y]] end; injection HS as <- <-; cbn [fst snd] in H0; auto. }
      destruct r1 as [v1|e1|]; [eapply IH1; eauto| |discriminate]. destruct K as [K|K]; [|eapply IH1; eauto].
      destruct (fails_exec _ _ _ _ _ H K).
  - intros r args w w' o H. cbn [exec step] in H. destruct (do_relay (exec E n) E n r args w) as [[w1 r1]|] eqn:HS; [|discriminate].
    assert (HK : P w w1 r1) by (eapply g_do_relay; eauto).
    destruct r1 as [v|e|]; [| |injection H as <- <-; exact HK].
    + destruct n; [discriminate|]. injection H as <- <-. exact HK.
    + destruct n; [discriminate|]. injection H as <- <-. exact HK.
Qed.
Theorem calm_sound : forall p w w' v, runs E p w w' (Ok v) -> sound p -> B (w_usr w) -> B (w_usr w') /\ R (w_usr w) (w_usr w').
Proof. intros p w w' v [n H] Hp HB. destruct (g_both n) as [G _]. exact (G _ _ _ _ _ H (Hp _ HB)). Qed.

(** Rules for programs. *)
Lemma cwp_say : forall s a u (Q : U -> val -> Prop), B u -> (forall u' v, B u' -> R u u' -> Q u' v) -> cwp (say s a) u Q.
Proof. intros s a u Q HB HQ. cbn. right. auto. Qed.
Lemma cwp_act : forall f u v (Q : U -> val -> Prop), snd (f u) = inl v -> Q (fst (f u)) v -> cwp (act f) u Q.
Proof. intros f u v Q Hv HQ. cbn. rewrite Hv. exact HQ. Qed.
Lemma cwp_sound : forall p u (Q : U -> val -> Prop), sound p -> B u -> (forall u' v, B u' -> R u u' -> Q u' v) -> cwp p u Q.
Proof. intros p u Q HS HB HQ. eapply cwp_mono; [|exact (HS u HB)]. cbn. intros u' v [H1 H2]. auto. Qed.
Lemma sound_bind : forall p k, sound p -> (forall v, sound (k v)) -> sound (bind p k).
Proof.
  intros p k Hp Hk u HB. apply cwp_bind. apply cwp_sound; auto. intros u' v HB' HR. apply cwp_sound; [apply Hk|exact HB'|].
  intros u2 v2 HB2 HR2. split; [exact HB2|]. eapply R_trans; eauto.
Qed.
Lemma sound_each : forall {A} (f : A -> prog U) l, (forall x, In x l -> sound (f x)) -> sound (each f l).
Proof.
  intros A f l; induction l as [|x l IH]; intros H; cbn; [intros u HB; cbn; auto|]. apply sound_bind; [apply H; now left|].
  intros _. apply IH. intros y Hy. apply H. now right.
Qed.
Lemma sound_ret : forall v, sound (Ret v).
Proof. intros v u HB. cbn. auto. Qed.
Lemma sound_throw : forall e, sound (Throw e).
Proof. intros e u HB. exact Logic.I. Qed.
Lemma sound_look : forall k, (forall u, sound (k u)) -> sound (Look k).
Proof. intros k H u HB. cbn. now apply H. Qed.
Lemma sound_call : forall o, match o with OUsr _ => False | _ => True end -> sound (call o).
Proof. intros o Ho u HB. unfold call. destruct o; try contradiction; cbn; auto. Qed.
Lemma sound_paused : forall s r p, sound p -> sound (with_paused s r p).
Proof.
  intros s r p Hp. apply sound_bind; [now apply sound_call|]. intros was. apply sound_bind; [now apply sound_call|]. intros _.
  set (fin := match was with VBool true => _ | _ => _ end).
  assert (HF : sound fin) by (unfold fin; destruct was; try (now apply sound_call); destruct b; [exact (sound_ret _)|now apply sound_call]).
  clearbody fin. intros u HB. apply cwp_catch.
  - intros e. clear. induction fin; cbn; auto.
  - apply cwp_sound; [exact Hp|exact HB|]. intros u1 v HB1 HR1. apply cwp_bind. apply cwp_sound; [exact HF|exact HB1|].
    intros u2 v2 HB2 HR2. cbn. split; [exact HB2|]. eapply R_trans; eauto.
Qed.
End Calm.
