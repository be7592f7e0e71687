(** Programs whose listeners use the object that emits: if an invariant [I] of the data and of the emissions [h] of the signals
    [C] so far holds whenever something else may run, it always does.  Proof infrastructure; models no code. *)

From Verif Require Import Base Core Spec Frame Fuel Conn Keep Trace Client Prog.

Section Guard.
Context {U : Type} (E : env U) (C : sid -> bool) (I : U -> list (sid * list val * U) -> Prop).
Notation hist := (list (sid * list val * U)).

(** Whatever [p] does starting in [u], after [h], [Q] holds in the end.  Calls may run listeners, which keep [I]. *)
Fixpoint gwp (p : prog U) (u : U) (h : hist) (Q : U -> hist -> val + exn -> Prop) : Prop :=
  match p with
  | Ret v => Q u h (inl v)
  | Throw e => Q u h (inr e)
  | Halt => I u h
  | Look k => gwp (k u) u h Q
  | Do (OUsr f) k => gwp (k (snd (f u))) (fst (f u)) h Q
  | Do (OEmit s a _ _) k | Do (OEmitFast s a) k =>
      I u (if C s then h ++ [(s, a, u)] else h) /\ forall u' h' x, I u' h' -> gwp (k x) u' h' Q
  | Do _ k => I u h /\ forall u' h' x, I u' h' -> gwp (k x) u' h' Q
  end.
Definition sound (p : prog U) : Prop := forall u h, I u h -> gwp p u h (fun u' h' _ => I u' h').

Lemma gwp_mono : forall p u h (Q Q' : U -> hist -> val + exn -> Prop), (forall u h x, Q u h x -> Q' u h x) -> gwp p u h Q -> gwp p u h Q'.
Proof.
  intros p; induction p as [v|e| |k IH|o k IH]; intros u h Q Q' HQ H; cbn in *; auto.
  - eapply IH; eauto.
  - destruct o; intuition eauto.
Qed.
Lemma gwp_bind : forall p k u h Q,
  gwp p u h (fun u1 h1 x => match x with inl v => gwp (k v) u1 h1 Q | inr e => Q u1 h1 (inr e) end) -> gwp (bind p k) u h Q.
Proof. intros p; induction p as [v|e| |f IH|o f IH]; intros k u h Q H; cbn in *; auto. destruct o; intuition auto. Qed.
Lemma gwp_catch : forall p k u h Q, gwp p u h (fun u1 h1 x => gwp (k x) u1 h1 Q) -> gwp (catch p k) u h Q.
Proof. intros p; induction p as [v|e| |f IH|o f IH]; intros k u h Q H; cbn in *; auto. destruct o; intuition auto. Qed.

(** ** Soundness *)
Definition P (w w' : world U) (r : out) : Prop :=
  forall h, I (w_usr w) h -> exists t, w_tr w' = w_tr w ++ t /\ I (w_usr w') (h ++ heard C t).
Lemma P_quiet : forall w w' r t, w_usr w' = w_usr w -> w_tr w' = w_tr w ++ t -> heard C t = [] -> P w w' r.
Proof. intros w w' r t Hu T HT h H. exists t. rewrite Hu, HT, app_nil_r. auto. Qed.
Lemma P_same : forall w w' r, w_usr w' = w_usr w -> w_tr w' = w_tr w -> P w w' r.
Proof. intros w w' r Hu T. apply (P_quiet _ _ _ []); auto. now rewrite app_nil_r. Qed.
Lemma P_refl : forall w r, P w w r.
Proof. intros w r. now apply P_same. Qed.
Lemma P_trans : forall a b c r r', P a b r -> r <> Halted -> P b c r' -> P a c r'.
Proof.
  intros a b c r r' H1 Hr H2 h Ha. destruct (H1 h Ha) as (t & T & Hb). destruct (H2 _ Hb) as (t' & T' & Hc).
  exists (t ++ t'). rewrite T', T, app_assoc. split; [reflexivity|]. now rewrite (heard_app C), app_assoc.
Qed.
Lemma P_weaken : forall a b r r', P a b r -> r <> Halted -> P a b r'.
Proof. intros a b r r' H Hr. exact H. Qed.
(** Events other than calls of emit. *)
Definition mute (e : event U) : Prop := match e with EEmit _ _ _ => False | _ => True end.
Lemma mute_heard : forall e, mute e -> heard C [e] = [].
Proof. intros e H. destruct e; cbn in *; auto; contradiction. Qed.
Lemma P_after : forall a b c r r' e, P a b r -> r <> Halted -> w_usr c = w_usr b -> w_tr c = w_tr b ++ [e] -> mute e -> P a c r'.
Proof. intros a b c r r' e H Hr Hu T He. eapply P_trans; [exact H|exact Hr|]. eapply P_quiet; eauto. now apply mute_heard. Qed.
Lemma P_before : forall a b c r e, P b c r -> w_usr b = w_usr a -> w_tr b = w_tr a ++ [e] -> mute e -> P a c r.
Proof. intros a b c r e H Hu T He. eapply P_trans with (r := Ok VNone); [|discriminate|exact H]. eapply P_quiet; eauto. now apply mute_heard. Qed.
(** After a call of emit. *)
Lemma P_emit : forall s a w w0 w' r h, w0 = log (EEmit s a (w_usr w)) w -> I (w_usr w) (if C s then h ++ [(s, a, w_usr w)] else h) -> P w0 w' r ->
  exists t, w_tr w' = w_tr w ++ t /\ I (w_usr w') (h ++ heard C t).
Proof.
  intros s a w w0 w' r h -> HI H. destruct (H _ HI) as (t & T & HT). exists (EEmit s a (w_usr w) :: t).
  split; [rewrite T; cbn; now rewrite <- app_assoc|]. cbn. destruct (C s); [|exact HT]. now rewrite <- app_assoc in HT.
Qed.

Hypothesis HE : (forall t a w, sound (e_body E t a w)) /\ (forall m a, sound (e_lib E m a)).
Section Step.
Variable ex : prog U -> world U -> option (world U * out).
Hypothesis Hex : forall p w w' r, sound p -> ex p w = Some (w', r) -> P w w' r.
Hypothesis Hrelay : forall r args w w' o,
  ex (Do (ORelay r args) (fun x => match x with inl v => Ret v | inr e => Throw e end)) w = Some (w', o) -> P w w' o.

Lemma g_body : forall t a w w1 w' r, ex (body_of E t a w) w1 = Some (w', r) -> P w1 w' r.
Proof.
  intros t a w w1 w' r Hx. unfold body_of in Hx. destruct t; try (eapply Hex; [|exact Hx]; apply HE). eapply Hrelay; exact Hx.
Qed.
Lemma g_invoke : forall b eid s c args w w' r, invoke ex E b eid s c args w = Some (w', r) -> P w w' r.
Proof.
  intros b eid s c args w w' r H. unfold invoke in H.
  destruct (match w_ref c with Some o => w_dead w o | None => false end); [injection H as <- <-; apply P_refl|].
  destruct (ex _ _) as [[w2 r2]|] eqn:Hx; [|discriminate]. apply g_body in Hx.
  assert (H0 : P w w2 r2) by (destruct b; (eapply P_before; [exact Hx|reflexivity|reflexivity|exact Logic.I])).
  destruct r2; injection H as <- <-; [| |exact H0]; (destruct b; (eapply P_after; [exact H0|discriminate|reflexivity|reflexivity|exact Logic.I])).
Qed.
Lemma g_call_slot : forall eid s c args w w' r, call_slot ex E eid s c args w = Some (w', r) -> P w w' r.
Proof.
  intros eid s c args w w' r H. unfold call_slot in H. destruct (w_thread c) as [t|]; [|eapply g_invoke; eauto].
  destruct (Nat.eqb t (w_me w)); [eapply g_invoke; eauto|]. injection H as <- <-.
  eapply P_quiet; [reflexivity|reflexivity|]. reflexivity.
Qed.
Lemma g_loop_slots : forall fuel eid s i args w w' r, loop_slots ex E fuel eid s i args w = Some (w', r) -> P w w' r.
Proof.
  induction fuel as [|f IH]; intros eid s i args w w' r H; cbn [loop_slots] in H; [discriminate|].
  destruct (nth_error _ i) as [c|]; [|injection H as <- <-; apply P_refl].
  destruct (call_slot ex E eid s c args w) as [[w1 [v|e|]]|] eqn:HC; try discriminate; apply g_call_slot in HC.
  - eapply P_trans; [exact HC|discriminate|eapply IH; eauto].
  - injection H as <- <-; exact HC.
  - injection H as <- <-; exact HC.
Qed.
Lemma g_loop_latest : forall fuel eid s i args w w' r, loop_latest ex E fuel eid s i args w = Some (w', r) -> P w w' r.
Proof.
  induction fuel as [|f IH]; intros eid s i args w w' r H; cbn [loop_latest] in H; [discriminate|].
  destruct (nth_error _ i) as [c|]; [|injection H as <- <-; apply P_refl].
  destruct (Nat.ltb _ _). { injection H as <- <-. apply P_refl. }
  destruct (call_slot ex E eid s c args w) as [[w1 [v|e|]]|] eqn:HC; try discriminate; apply g_call_slot in HC.
  - eapply P_trans; [exact HC|discriminate|eapply IH; eauto].
  - injection H as <- <-; exact HC.
  - injection H as <- <-; exact HC.
Qed.
Lemma g_loop_qslots : forall fuel eid s i args w w' r, loop_qslots ex E fuel eid s i args w = Some (w', r) -> P w w' r.
Proof.
  induction fuel as [|f IH]; intros eid s i args w w' r H; cbn [loop_qslots] in H; [discriminate|].
  destruct (nth_error _ i) as [c|]; [|injection H as <- <-; apply P_refl].
  destruct (call_slot ex E eid s c args w) as [[w1 [v|e|]]|] eqn:HC; try discriminate; apply g_call_slot in HC.
  - destruct (Nat.ltb _ _); [injection H as <- <-; eapply P_weaken; [exact HC|discriminate]|].
    eapply P_trans; [exact HC|discriminate|eapply IH; eauto].
  - injection H as <- <-; exact HC.
  - injection H as <- <-; exact HC.
Qed.
Lemma g_loop_queue : forall fuel eid s i w w' r, loop_queue ex E fuel eid s i w = Some (w', r) -> P w w' r.
Proof.
  induction fuel as [|f IH]; intros eid s i w w' r H; cbn [loop_queue] in H; [discriminate|].
  destruct (nth_error _ i) as [a|]; [|injection H as <- <-; apply P_refl].
  destruct (loop_qslots ex E f eid s 0 a w) as [[w1 [v|e|]]|] eqn:HC; try discriminate; apply g_loop_qslots in HC.
  - eapply P_trans; [exact HC|discriminate|eapply IH; eauto].
  - injection H as <- <-; exact HC.
  - injection H as <- <-; exact HC.
Qed.
Lemma g_run : forall fuel s args w w' r, run_emit_loop ex E fuel s args w = Some (w', r) -> P w w' r.
Proof.
  intros fuel s args w w' r H. unfold run_emit_loop in H.
  destruct (Nat.leb RECURSION_LIMIT (s_depth (w_sg w s))). { injection H as <- <-. apply P_refl. }
  destruct (Nat.ltb 1 _). { injection H as <- <-. eapply P_quiet; [reflexivity|reflexivity|]. reflexivity. }
  set (w2 := log _ _) in H. assert (H2 : P w w2 (Ok VNone)).
  { unfold w2. eapply P_quiet; [reflexivity|reflexivity|]. reflexivity. }
  assert (HI : forall w3 r3, inner_loop ex E fuel (w_nxt (upd s (fun st => set_eq (s_eq st ++ [args]) st) w)) s w2 = Some (w3, r3) -> P w w3 r3).
  { intros w3 r3 HI. eapply P_trans; [exact H2|discriminate|]. clearbody w2. unfold inner_loop in HI. destruct (s_mode (w_sg w2 s)).
    - destruct (s_eq _) as [|a q]; [injection HI as <- <-; apply P_refl|]. apply g_loop_slots in HI.
      eapply P_trans with (r := Ok VNone); [|discriminate|exact HI]. apply P_same; reflexivity.
    - eapply g_loop_queue; eauto.
    - destruct (s_eq _) as [|a q]; [injection HI as <- <-; apply P_refl|]. apply g_loop_latest in HI.
      eapply P_trans with (r := Ok VNone); [|discriminate|exact HI]. apply P_same; reflexivity. }
  cbv zeta in H. destruct (inner_loop _ _ _ _ _ _) as [[w3 r3]|] eqn:HI0; [|discriminate]. specialize (HI _ _ eq_refl).
  destruct r3; injection H as <- <-; [| |exact HI]; (eapply P_after; [exact HI|discriminate|reflexivity|reflexivity|exact Logic.I]).
Qed.
Lemma g_do_emit : forall fuel s args cn ct w w' r, do_emit ex E fuel s args cn ct w = Some (w', r) -> P (log (EEmit s args (w_usr w)) w) w' r.
Proof.
  intros fuel s args cn ct w w' r H. unfold do_emit in H. set (w0 := log (EEmit s args (w_usr w)) w) in *.
  clearbody w0.
  destruct (s_blocked _). { injection H as <- <-. apply P_refl. }
  destruct (cn && _). { injection H as <- <-. apply P_refl. }
  destruct (if ct then _ else _) as [[|]|e]; try (injection H as <- <-; apply P_refl).
  destruct (s_paused _). { injection H as <- <-. apply P_same; reflexivity. }
  destruct (w_hook w0) as [h|]; [|eapply g_run; eauto].
  destruct (ex _ _) as [[w2 r2]|] eqn:Hx; [|discriminate].
  assert (HPx : P w0 w2 r2).
  { eapply P_before; [eapply Hex; [|exact Hx]; apply HE|reflexivity|reflexivity|exact Logic.I]. }
  destruct r2; [|injection H as <- <-; exact HPx|injection H as <- <-; exact HPx].
  eapply P_trans; [exact HPx|discriminate|]. eapply g_run; eauto.
Qed.
Lemma g_do_emit_fast : forall fuel s args w w' r, do_emit_fast ex E fuel s args w = Some (w', r) -> P (log (EEmit s args (w_usr w)) w) w' r.
Proof.
  intros fuel s args w w' r H. unfold do_emit_fast in H. set (w0 := log (EEmit s args (w_usr w)) w) in *.
  clearbody w0.
  destruct (s_blocked _). { injection H as <- <-. apply P_refl. }
  destruct (s_paused _). { injection H as <- <-. apply P_same; reflexivity. }
  destruct (Nat.leb _ _). { injection H as <- <-. apply P_refl. }
  destruct (loop_slots _ _ _ _ _ _ _ _) as [[w2 r2]|] eqn:HI; [|discriminate]. apply g_loop_slots in HI.
  assert (H2 : P w0 w2 r2) by (eapply P_before; [exact HI|reflexivity|reflexivity|exact Logic.I]).
  destruct r2; injection H as <- <-; [| |exact H2]; (eapply P_after; [exact H2|discriminate|reflexivity|reflexivity|exact Logic.I]).
Qed.
Lemma g_do_relay : forall fuel r args w w' o, do_relay ex E fuel r args w = Some (w', o) -> P w w' o.
Proof.
  intros fuel r args w w' o H. unfold do_relay in H. destruct (s_members (w_sg w r)); [|injection H as <- <-; apply P_refl].
  destruct (w_cur w) as [em|]; [|injection H as <- <-; apply P_refl].
  destruct (s_slots (w_sg w em)); [injection H as <- <-; apply P_refl|]. eapply g_run; exact H.
Qed.
Lemma g_replay : forall fuel s i w w' r, replay ex E fuel s i w = Some (w', r) -> P w w' r.
Proof.
  induction fuel as [|f IH]; intros s i w w' r H; cbn [replay] in H; [discriminate|].
  destruct (nth_error _ i) as [a|]; [|injection H as <- <-; apply P_refl].
  destruct (run_emit_loop ex E f s a w) as [[w1 [v|e|]]|] eqn:HC; try discriminate; apply g_run in HC.
  - eapply P_trans; [exact HC|discriminate|eapply IH; eauto].
  - injection H as <- <-; exact HC.
  - injection H as <- <-; exact HC.
Qed.
Lemma g_do_resume : forall fuel s rd w w' r, do_resume ex E fuel s rd w = Some (w', r) -> P w w' r.
Proof.
  intros fuel s rd w w' r H. unfold do_resume in H. set (w1 := upd s (set_paused false) w) in *.
  assert (H0 : P w w1 (Ok VNone)) by (apply P_same; reflexivity).
  eapply P_trans; [exact H0|discriminate|]. clearbody w1. clear H0.
  destruct (s_args (w_sg w1 s)) as [|a0 al]. { injection H as <- <-. apply P_refl. }
  destruct (s_slots (w_sg w1 s)). { injection H as <- <-. apply P_same; reflexivity. }
  set (body := match rd with RNone => _ | ROne _ => _ | RTwo _ _ => _ end) in H.
  assert (HB : forall w2 r2, body = Some (w2, r2) -> P w1 w2 r2).
  { intros w2 r2 HB. unfold body in HB. destruct rd as [|f|f i].
    - eapply g_replay; eauto.
    - destruct (f (a0 :: al)); [eapply g_run; eauto|]. injection HB as <- <-. apply P_refl.
    - destruct (apply_reducer f i (a0 :: al)); [eapply g_run; eauto|]. injection HB as <- <-. apply P_refl. }
  destruct body as [[w2 [v|e|]]|]; try discriminate.
  - injection H as <- <-. eapply P_trans; [apply HB; reflexivity|discriminate|]. apply P_same; reflexivity.
  - injection H as <- <-. now apply HB.
  - injection H as <- <-. now apply HB.
Qed.
Lemma g_drain : forall fuel t w w' r, drain ex E fuel t w = Some (w', r) -> P w w' r.
Proof.
  induction fuel as [|f IH]; intros t w w' r H; cbn [drain] in H; [discriminate|].
  destruct (w_tq w t) as [|[[[eid s] c] args] q]. { injection H as <- <-. apply P_refl. }
  destruct (invoke ex E true eid s c args _) as [[w1 [v|e|]]|] eqn:HC; try discriminate; apply g_invoke in HC.
  all: assert (HD := P_before w _ _ _ (EPop t eid s (w_uid c) args) HC eq_refl eq_refl Logic.I); clear HC; rename HD into HC.
  - eapply P_trans; [exact HC|discriminate|eapply IH; eauto].
  - injection H as <- <-. eapply P_weaken; [exact HC|discriminate].
  - injection H as <- <-. exact HC.
Qed.
Lemma g_step : forall n o w w' r, match o with OUsr _ | OEmit _ _ _ _ | OEmitFast _ _ => False | _ => True end ->
  step ex E n o w = Some (w', r) -> P w w' r.
Proof.
  intros n o w w' r HA H. destruct (is_pure o) eqn:Hpure.
  - rewrite step_pure in H by exact Hpure. pose proof (pure_keeps _ _ _ _ _ Hpure H) as (_ & _ & K3 & _).
    apply P_same; [|exact K3]. eapply usame_pure; eauto. destruct o; auto; contradiction.
  - destruct o; try discriminate Hpure; try contradiction; cbn [step] in H.
    + eapply g_do_resume; eauto.
    + eapply g_do_relay; eauto.
    + eapply g_drain; eauto.
    + eapply Hex; [|exact H]. apply HE.
Qed.
End Step.

Lemma g_both : forall n,
  (forall p w w' r h Q, exec E n p w = Some (w', r) -> gwp p (w_usr w) h Q ->
     exists t, w_tr w' = w_tr w ++ t
     /\ let h' := h ++ heard C t in match r with Ok v => Q (w_usr w') h' (inl v) | Err e => Q (w_usr w') h' (inr e) | Halted => I (w_usr w') h' end)
  /\ (forall r args w w' o,
      exec E n (Do (ORelay r args) (fun x => match x with inl v => Ret v | inr e => Throw e end)) w = Some (w', o) -> P w w' o).
Proof.
  induction n as [|n [IH1 IH2]]; [split; intros; discriminate|].
  assert (HX : forall p w w' r, sound p -> exec E n p w = Some (w', r) -> P w w' r).
  { intros p0 w0 w0' r0 HS Hx h HI. destruct (IH1 _ _ _ _ _ _ Hx (HS _ _ HI)) as (t & T & K). exists t. split; [exact T|].
    destruct r0; exact K. }
  split.
  - intros p w w' r h Q H H0. destruct p as [v|e| |k|o k]; cbn [exec] in H.
    + injection H as <- <-. exists []. cbn. now rewrite !app_nil_r.
    + injection H as <- <-. exists []. cbn. now rewrite !app_nil_r.
    + injection H as <- <-. exists []. cbn. now rewrite !app_nil_r.
    + exact (IH1 _ _ _ _ _ _ H H0).
    + destruct (step (exec E n) E n o w) as [[w1 r1]|] eqn:HS; [|discriminate].
      assert (K : exists t, w_tr w1 = w_tr w ++ t
        /\ let h' := h ++ heard C t in match r1 with Ok v => gwp (k (inl v)) (w_usr w1) h' Q | Err e => gwp (k (inr e)) (w_usr w1) h' Q | Halted => I (w_usr w1) h' end).
      { assert (Go : (exists t, w_tr w1 = w_tr w ++ t /\ I (w_usr w1) (h ++ heard C t)) -> (forall u' h' x, I u' h' -> gwp (k x) u' h' Q) ->
          exists t, w_tr w1 = w_tr w ++ t
          /\ let h' := h ++ heard C t in match r1 with Ok v => gwp (k (inl v)) (w_usr w1) h' Q | Err e => gwp (k (inr e)) (w_usr w1) h' Q | Halted => I (w_usr w1) h' end).
        { intros (t & T & HI) Hk. exists t. split; [exact T|]. cbn. destruct r1; auto. }
        destruct o; cbn [gwp] in H0; try (destruct H0 as [HI Hk]; apply Go; [|exact Hk]; refine (g_step _ HX IH2 _ _ _ _ _ _ HS h HI); exact Logic.I).
        - destruct H0 as [HI Hk]; apply Go; [|exact Hk]. cbn [step] in HS. eapply P_emit; [reflexivity|exact HI|]. eapply g_do_emit; eauto.
        - destruct H0 as [HI Hk]; apply Go; [|exact Hk]. cbn [step] in HS. eapply P_emit; [reflexivity|exact HI|]. eapply g_do_emit_fast; eauto.
        - cbn [step] in HS. exists []. cbn. rewrite !app_nil_r.
          match type of HS with context [?g (w_usr w)] => destruct (g (w_usr w)) as [u [y|y]] end; injection HS as <- <-; cbn [fst snd] in H0; (split; [reflexivity|exact H0]). }
      destruct K as (t & T & K).
      assert (KK : forall p0 w0 r0, exec E n p0 w1 = Some (w0, r0) -> gwp p0 (w_usr w1) (h ++ heard C t) Q ->
        exists t, w_tr w0 = w_tr w ++ t
        /\ let h' := h ++ heard C t in match r0 with Ok v => Q (w_usr w0) h' (inl v) | Err e => Q (w_usr w0) h' (inr e) | Halted => I (w_usr w0) h' end).
      { intros p0 w0 r0 Hx HG. destruct (IH1 _ _ _ _ _ _ Hx HG) as (t' & T' & K1).
        exists (t ++ t'). rewrite T', T, app_assoc. split; [reflexivity|]. now rewrite (heard_app C), app_assoc. }
      cbn in K. destruct r1 as [v|e|]; [eapply KK; eauto|eapply KK; eauto|]. injection H as <- <-. eauto.
  - intros r args w w' o H. cbn [exec step] in H. destruct (do_relay (exec E n) E n r args w) as [[w1 r1]|] eqn:HS; [|discriminate].
    assert (HK : P w w1 r1) by (eapply g_do_relay; eauto).
    destruct r1 as [v|e|]; [| |injection H as <- <-; exact HK].
    + eapply P_trans; [exact HK|discriminate|]. eapply HX; [|exact H]. intros u h Hu. exact Hu.
    + eapply P_trans; [exact HK|discriminate|]. eapply HX; [|exact H]. intros u h Hu. exact Hu.
Qed.
Theorem guard_sound : forall p w w' r h, runs E p w w' r -> sound p -> I (w_usr w) h ->
  exists t, w_tr w' = w_tr w ++ t /\ I (w_usr w') (h ++ heard C t).
Proof.
  intros p w w' r h [n H] Hp HI. destruct (g_both n) as [G _]. destruct (G _ _ _ _ _ _ H (Hp _ _ HI)) as (t & T & K). exists t. split; [exact T|].
  destruct r; exact K.
Qed.

(** Rules for programs. *)
Lemma gwp_say : forall s a u h (Q : U -> hist -> val + exn -> Prop), I u (if C s then h ++ [(s, a, u)] else h) ->
  (forall u' h' x, I u' h' -> Q u' h' x) -> gwp (say s a) u h Q.
Proof. intros s a u h Q HI HQ. cbn. split; [exact HI|]. intros u' h' [v|e] H; cbn; auto. Qed.
Lemma gwp_act : forall f u h (Q : U -> hist -> val + exn -> Prop), Q (fst (f u)) h (snd (f u)) -> gwp (act f) u h Q.
Proof. intros f u h Q H. cbn. destruct (snd (f u)); exact H. Qed.
Lemma gwp_seq : forall p q u h Q,
  gwp p u h (fun u1 h1 x => match x with inl _ => gwp q u1 h1 Q | inr e => Q u1 h1 (inr e) end) -> gwp (p ;; q) u h Q.
Proof. intros. now apply gwp_bind. Qed.
Lemma gwp_sound : forall p u h (Q : U -> hist -> val + exn -> Prop), sound p -> I u h -> (forall u' h' x, I u' h' -> Q u' h' x) -> gwp p u h Q.
Proof. intros p u h Q HS HI HQ. eapply gwp_mono; [|exact (HS u h HI)]. cbn. auto. Qed.
Lemma sound_bind : forall p k, sound p -> (forall v, sound (k v)) -> sound (bind p k).
Proof.
  intros p k Hp Hk u h HI. apply gwp_bind. apply gwp_sound; auto. intros u' h' [v|e] HI'; [|exact HI'].
  eapply Hk; exact HI'.
Qed.
Lemma sound_catch : forall p k, sound p -> (forall x, sound (k x)) -> sound (catch p k).
Proof. intros p k Hp Hk u h HI. apply gwp_catch. apply gwp_sound; auto. intros u' h' x HI'. eapply Hk; exact HI'. Qed.
Lemma sound_each : forall {A} (f : A -> prog U) l, (forall x, In x l -> sound (f x)) -> sound (each f l).
Proof.
  intros A f l; induction l as [|x l IH]; intros H; cbn; [intros u h HI; exact HI|]. apply sound_bind; [apply H; now left|].
  intros _. apply IH. intros y Hy. apply H. now right.
Qed.
Lemma sound_ret : forall v, sound (Ret v).
Proof. intros v u h HI; exact HI. Qed.
Lemma sound_throw : forall e, sound (Throw e).
Proof. intros v u h HI; exact HI. Qed.
Lemma sound_look : forall k, (forall u, sound (k u)) -> sound (Look k).
Proof. intros k H u h HI. cbn. now apply H. Qed.
Lemma sound_call : forall o, match o with OUsr _ | OEmit _ _ _ _ | OEmitFast _ _ => False | _ => True end -> sound (call o).
Proof.
  intros o Ho u h HI. unfold call.
  destruct o; try contradiction; cbn; (split; [exact HI|]); intros u' h' [v|e] HI'; exact HI'.
Qed.
Lemma sound_paused : forall s r p, sound p -> sound (with_paused s r p).
Proof.
  intros s r p Hp. apply sound_bind; [now apply sound_call|]. intros was. apply sound_bind; [now apply sound_call|]. intros _.
  apply sound_catch; [exact Hp|]. intros x. apply sound_bind; [|intros _; destruct x; [exact (sound_ret _)|exact (sound_throw _)]].
  destruct was; try (now apply sound_call). destruct b; [exact (sound_ret _)|now apply sound_call].
Qed.
End Guard.
