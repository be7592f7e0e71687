(** Proof principles for the engine of Core.v: a frame rule for relations between the
    state before and after a run, fuel monotonicity, and inversion of [runs].
    Nothing here models code. *)

From Verif Require Import Base Core Spec.

(** Calls that run no callback. *)
Definition is_pure {U} (o : op U) : bool :=
  match o with
  | OEmit _ _ _ _ | OEmitFast _ _ | OResume _ _ | ORelay _ _ | OEmitQueued _
  | OCall _ _ => false
  | _ => true
  end.
Definition pure_step {U} (E : env U) (o : op U) (w : world U) : option (world U * out) :=
  step (fun _ _ => None) E 0 o w.

Lemma step_pure : forall {U} (E : env U) ex n o w,
  is_pure o = true -> step ex E n o w = pure_step E o w.
Proof. intros U E ex n o w H; destruct o; try discriminate H; reflexivity. Qed.

Lemma pure_not_halted : forall {U} (E : env U) o w w' r,
  is_pure o = true -> pure_step E o w = Some (w', r) -> r <> Halted.
Proof.
  intros U E o w w' r H HS; destruct o; try discriminate H; unfold pure_step in HS;
    cbn [step lift] in HS; unfold lift in HS;
    try (injection HS as HS1 HS2; subst r; discriminate).
  - injection HS as HS. unfold connect in HS.
    repeat match type of HS with context [match ?x with _ => _ end] => destruct x end;
      injection HS as _ <-; discriminate.
  - injection HS as HS. unfold connect_direct in HS.
    destruct (s_members (w_sg w r0)) as [ms|]; [|injection HS as _ <-; discriminate].
    remember (Copts _ _ _ _ _ _ _) as oo. clear Heqoo. revert w HS.
    induction ms as [|[nm m] ms IH]; intros w HS; cbn in HS.
    + injection HS as _ <-; discriminate.
    + destruct (connect E m c oo w) as [w1 [v|e|]] eqn:EC.
      * eapply IH, HS.
      * injection HS as _ <-; discriminate.
      * exfalso. clear HS. unfold connect in EC.
        repeat match type of EC with context [match ?x with _ => _ end] => destruct x end;
          discriminate.
  - injection HS as HS. unfold connect_setattr in HS.
    repeat match type of HS with context [match ?x with _ => _ end] => destruct x end;
      injection HS as _ <-; discriminate.
  - injection HS as HS. unfold connect_setitem in HS.
    repeat match type of HS with context [match ?x with _ => _ end] => destruct x end;
      injection HS as _ <-; discriminate.
  - injection HS as HS. unfold disconnect in HS.
    assert (HB : forall m w w' r3, disconnect_base E m r0 missing_ok w = (w', r3) -> r3 <> Halted).
    { intros m w1 w2 r1 HB; unfold disconnect_base in HB.
      repeat match type of HB with context [match ?x with _ => _ end] => destruct x end;
        injection HB as _ <-; discriminate. }
    destruct (s_members (w_sg w s)) as [ms|]; [|eapply HB, HS].
    assert (HE : forall ms w w' r3, disconnect_each E ms r0 missing_ok w = (w', r3) -> r3 <> Halted).
    { clear - HB. induction ms as [|[nm m] ms IH]; intros w w' r3 HS; cbn in HS.
      - injection HS as _ <-; discriminate.
      - destruct (disconnect_base E m r0 missing_ok w) as [w1 [v|e|]] eqn:EB.
        + eapply IH, HS.
        + injection HS as _ <-; discriminate.
        + exfalso; eapply HB; [exact EB|reflexivity]. }
    destruct (disconnect_each E ms r0 missing_ok w) as [w1 [v|e|]] eqn:EB.
    + eapply HB, HS.
    + injection HS as _ <-; discriminate.
    + exfalso; eapply HE; [exact EB|reflexivity].
  - injection HS as HS. unfold try_discard in HS.
    repeat match type of HS with context [match ?x with _ => _ end] => destruct x end;
      injection HS as _ <-; discriminate.
  - destruct (e_hasattr E ob "__setitem__").
    + injection HS as HS. unfold try_discard in HS.
      repeat match type of HS with context [match ?x with _ => _ end] => destruct x end;
        injection HS as _ <-; discriminate.
    + injection HS as _ <-; discriminate.
  - destruct (key_of E c); injection HS as _ <-; discriminate.
  - destruct (f (w_usr w)) as [u [v|e]]; injection HS as _ <-; discriminate.
Qed.

(** The state in which the slots are first looked at by an emission loop. *)
Definition entered {U} (s : sid) (args : list val) (w : world U) : world U :=
  let w1 := upd s (fun st => set_eq (s_eq st ++ [args]) st) w in
  log (EStart (w_nxt w) s args) (enter s (set_nxt (S (w_nxt w)) w1)).
Definition started {U} (s : sid) (args : list val) (w : world U) : world U :=
  match s_mode (w_sg w s) with
  | Queued => entered s args w
  | _ => upd s (set_eq []) (entered s args w)
  end.
Definition started_fast {U} (s : sid) (args : list val) (w : world U) : world U :=
  log (EStart (w_nxt w) s args)
    (upd s (fun st => set_depth (S (s_depth st)) st) (set_nxt (S (w_nxt w)) w)).
Definition left_fast {U} (s : sid) (w : world U) : world U :=
  upd s (fun st => if Nat.ltb 0 (s_depth st) then set_depth (s_depth st - 1) st else st) w.

(** Result of an emission, from the result of its loop. *)
Definition loop_out (s : sid) (d : nat) (r : out) : out :=
  match r with Err e => Err (wrap_err s d e) | _ => r end.

Lemma upd_same : forall {U} s f (w : world U), w_sg (upd s f w) s = f (w_sg w s).
Proof. intros; unfold upd; cbn. now rewrite Nat.eqb_refl. Qed.
Lemma upd_other : forall {U} s s' f (w : world U), s' <> s -> w_sg (upd s f w) s' = w_sg w s'.
Proof. intros U s s' f w H; unfold upd; cbn. destruct (Nat.eqb_spec s' s); congruence. Qed.

(** Relations between initial state, final state and result that are compatible with
    everything the engine does: [P] for programs, [Q eid s] for the part of the
    emission loop [eid] of [s] that goes through the slots.
    [L] are the signals the program may emit. *)
Record framed {U} (E : env U) (A : op U -> Prop) (L : sid -> Prop)
  (P : world U -> world U -> out -> Prop)
  (Q : nat -> sid -> world U -> world U -> out -> Prop) : Prop := {
  fr_refl : forall w r, P w w r;
  fr_trans : forall a b c r r', P a b r -> r <> Halted -> P b c r' -> P a c r';
  fr_qrefl : forall eid s w r, Q eid s w w r;
  fr_qtrans : forall eid s a b c r r',
    Q eid s a b r -> r <> Halted -> Q eid s b c r' -> Q eid s a c r';
  fr_pure : forall o w w' r, A o -> is_pure o = true ->
    pure_step E o w = Some (w', r) -> P w w' r;
  fr_live : forall s args cn ct, A (OEmit s args cn ct) -> L s;
  fr_live_fast : forall s args, A (OEmitFast s args) -> L s;
  fr_live_resume : forall s rd, A (OResume s rd) -> L s;
  fr_emit : forall s args w r, L s -> P w (log (EEmit s args (w_usr w)) w) r;
  fr_pause : forall s args w r, L s -> s_paused (w_sg w s) = true ->
    P w (upd s (fun st => set_args (s_args st ++ [args]) st) w) r;
  fr_hook : forall h s args w r, L s -> P w (log (EHook h s args) w) r;
  fr_queued : forall s args w r, L s \/ s_members (w_sg w s) <> None ->
    s_depth (w_sg w s) < RECURSION_LIMIT -> s_eq (w_sg w s) <> [] ->
    P w (log (EQueued s args) (upd s (fun st => set_eq (s_eq st ++ [args]) st) w)) r;
  fr_loop : forall s args w w' r, L s \/ s_members (w_sg w s) <> None ->
    s_depth (w_sg w s) < RECURSION_LIMIT -> s_eq (w_sg w s) = [] ->
    Q (w_nxt w) s (started s args w) w' r ->
    match r with
    | Halted => P w w' Halted
    | _ => P w (leave s (w_cur w) (log (EEnd (w_nxt w) s) w'))
               (loop_out s (s_depth (w_sg w' s) - 1) r)
    end;
  fr_fast : forall s args w w' r, L s ->
    s_depth (w_sg w s) < RECURSION_LIMIT ->
    Q (w_nxt w) s (started_fast s args w) w' r ->
    A (OEmitFast s args) ->
    match r with
    | Halted => P w w' Halted
    | _ => P w (left_fast s (log (EEnd (w_nxt w) s) w')) (loop_out s 0 r)
    end;
  fr_call : forall eid s c a w w' r,
    match w_ref c with Some o => w_dead w o | None => false end = false ->
    P (log (ECall eid s (w_uid c) a) w) w' r ->
    In c (s_slots (w_sg w s)) ->
    match r with
    | Halted => Q eid s w w' Halted
    | _ => Q eid s w (log (ev_ret false eid s (w_uid c) r) w') r
    end;
  fr_dcall : forall eid s c a w w' r,
    match w_ref c with Some o => w_dead w o | None => false end = false ->
    P (log (EDCall eid s (w_uid c) a) w) w' r ->
    match r with
    | Halted => P w w' Halted
    | _ => P w (log (ev_ret true eid s (w_uid c) r) w') r
    end;
  fr_defer : forall eid s c t args w r, In c (s_slots (w_sg w s)) ->
    w_thread c = Some t -> t <> w_me w ->
    Q eid s w (log (EDefer eid s (w_uid c) t args)
           (set_tq (fun x => if Nat.eqb x t then w_tq w t ++ [(eid, s, c, args)]
                             else w_tq w x) w)) r;
  fr_unpause : forall s rd w r, L s -> A (OResume s rd) -> P w (upd s (set_paused false) w) r;
  fr_clear : forall s rd w r, L s -> A (OResume s rd) -> P w (upd s (set_args []) w) r;
  fr_pop : forall t eid s c args q w r, w_tq w t = (eid, s, c, args) :: q ->
    P w (log (EPop t eid s (w_uid c) args)
           (set_tq (fun y => if Nat.eqb y t then q else w_tq w y) w)) r
}.

Section FrameRule.
  Context {U : Type} (E : env U) (A : op U -> Prop) (L : sid -> Prop).
  Context (P : world U -> world U -> out -> Prop).
  Context (Q : nat -> sid -> world U -> world U -> out -> Prop).
  Hypothesis HP : framed E A L P Q.
  (** [G]: allowed programs. *)
  Variable G : prog U -> Prop.
  Hypothesis HE : (forall t a w, G (e_body E t a w)) /\ (forall m a, G (e_lib E m a)).
  Variable ex : prog U -> world U -> option (world U * out).
  Hypothesis Hex : forall p w w' r, G p -> ex p w = Some (w', r) -> P w w' r.
  Hypothesis Hrelay : forall r args w w' o,
    ex (Do (ORelay r args) (fun x => match x with inl v => Ret v | inr e => Throw e end)) w
      = Some (w', o) -> P w w' o.

  Lemma frame_weaken : forall a b r r', P a b r -> r <> Halted -> P a b r'.
  Proof. intros a b r r' H Hr. eapply (fr_trans _ _ _ _ _ HP); eauto. apply (fr_refl _ _ _ _ _ HP). Qed.

  Lemma frame_qweaken : forall eid s a b r r', Q eid s a b r -> r <> Halted -> Q eid s a b r'.
  Proof.
    intros eid s a b r r' H Hr. eapply (fr_qtrans _ _ _ _ _ HP); eauto.
    apply (fr_qrefl _ _ _ _ _ HP).
  Qed.

  Lemma frame_body : forall t a w w1 w' r, ex (body_of E t a w) w1 = Some (w', r) -> P w1 w' r.
  Proof.
    intros t a w w1 w' r Hx. unfold body_of in Hx. destruct t;
      try (eapply Hex; [|exact Hx]; apply HE). eapply Hrelay; exact Hx.
  Qed.

  Lemma frame_invoke : forall eid s c args w w' r,
    invoke ex E false eid s c args w = Some (w', r) -> In c (s_slots (w_sg w s)) -> Q eid s w w' r.
  Proof.
    intros eid s c args w w' r H Hin. unfold invoke in H.
    destruct (match w_ref c with Some o => w_dead w o | None => false end) eqn:Hd.
    - injection H as <- <-. apply (fr_qrefl _ _ _ _ _ HP).
    - destruct (ex _ _) as [[w2 r2]|] eqn:Hx; [|discriminate]. apply frame_body in Hx.
      pose proof (fr_call _ _ _ _ _ HP _ _ _ _ _ _ _ Hd Hx Hin) as HC.
      destruct r2; injection H as <- <-; exact HC.
  Qed.

  Lemma frame_dinvoke : forall eid s c args w w' r,
    invoke ex E true eid s c args w = Some (w', r) -> P w w' r.
  Proof.
    intros eid s c args w w' r H. unfold invoke in H.
    destruct (match w_ref c with Some o => w_dead w o | None => false end) eqn:Hd.
    - injection H as <- <-. apply (fr_refl _ _ _ _ _ HP).
    - destruct (ex _ _) as [[w2 r2]|] eqn:Hx; [|discriminate]. apply frame_body in Hx.
      pose proof (fr_dcall _ _ _ _ _ HP _ _ _ _ _ _ _ Hd Hx) as HC.
      destruct r2; injection H as <- <-; exact HC.
  Qed.

  Lemma frame_call_slot : forall eid s c args w w' r,
    call_slot ex E eid s c args w = Some (w', r) -> In c (s_slots (w_sg w s)) -> Q eid s w w' r.
  Proof.
    intros eid s c args w w' r H Hin. unfold call_slot in H.
    destruct (w_thread c) as [t|] eqn:Ht; [|eapply frame_invoke; eauto].
    destruct (Nat.eqb t (w_me w)) eqn:Hm; [eapply frame_invoke; eauto|].
    injection H as <- <-. apply Nat.eqb_neq in Hm. now apply (fr_defer _ _ _ _ _ HP).
  Qed.

  Lemma frame_loop_slots : forall fuel eid s i args w w' r,
    loop_slots ex E fuel eid s i args w = Some (w', r) -> Q eid s w w' r.
  Proof.
    induction fuel as [|f IH]; intros eid s i args w w' r H; cbn [loop_slots] in H; [discriminate|].
    destruct (nth_error _ i) as [c|] eqn:Hn; [apply nth_error_In in Hn|].
    - destruct (call_slot ex E eid s c args w) as [[w1 [v|e|]]|] eqn:HC; try discriminate.
      + eapply (fr_qtrans _ _ _ _ _ HP); [eapply frame_call_slot; eauto|discriminate|eapply IH; eauto].
      + injection H as <- <-; eapply frame_call_slot; eauto.
      + injection H as <- <-; eapply frame_call_slot; eauto.
    - injection H as <- <-. apply (fr_qrefl _ _ _ _ _ HP).
  Qed.

  Lemma frame_loop_latest : forall fuel eid s i args w w' r,
    loop_latest ex E fuel eid s i args w = Some (w', r) -> Q eid s w w' r.
  Proof.
    induction fuel as [|f IH]; intros eid s i args w w' r H; cbn [loop_latest] in H; [discriminate|].
    destruct (nth_error _ i) as [c|] eqn:Hn; [apply nth_error_In in Hn|].
    - destruct (Nat.ltb _ _). { injection H as <- <-. apply (fr_qrefl _ _ _ _ _ HP). }
      destruct (call_slot ex E eid s c args w) as [[w1 [v|e|]]|] eqn:HC; try discriminate.
      + eapply (fr_qtrans _ _ _ _ _ HP); [eapply frame_call_slot; eauto|discriminate|eapply IH; eauto].
      + injection H as <- <-; eapply frame_call_slot; eauto.
      + injection H as <- <-; eapply frame_call_slot; eauto.
    - injection H as <- <-. apply (fr_qrefl _ _ _ _ _ HP).
  Qed.

  Lemma frame_loop_qslots : forall fuel eid s i args w w' r,
    loop_qslots ex E fuel eid s i args w = Some (w', r) -> Q eid s w w' r.
  Proof.
    induction fuel as [|f IH]; intros eid s i args w w' r H; cbn [loop_qslots] in H; [discriminate|].
    destruct (nth_error _ i) as [c|] eqn:Hn; [apply nth_error_In in Hn|].
    - destruct (call_slot ex E eid s c args w) as [[w1 [v|e|]]|] eqn:HC; try discriminate.
      + destruct (Nat.ltb _ _).
        * injection H as <- <-. eapply frame_qweaken; [eapply frame_call_slot; eauto|discriminate].
        * eapply (fr_qtrans _ _ _ _ _ HP); [eapply frame_call_slot; eauto|discriminate|eapply IH; eauto].
      + injection H as <- <-; eapply frame_call_slot; eauto.
      + injection H as <- <-; eapply frame_call_slot; eauto.
    - injection H as <- <-. apply (fr_qrefl _ _ _ _ _ HP).
  Qed.

  Lemma frame_loop_queue : forall fuel eid s i w w' r,
    loop_queue ex E fuel eid s i w = Some (w', r) -> Q eid s w w' r.
  Proof.
    induction fuel as [|f IH]; intros eid s i w w' r H; cbn [loop_queue] in H; [discriminate|].
    destruct (nth_error _ i) as [a|].
    - destruct (loop_qslots ex E f eid s 0 a w) as [[w1 [v|e|]]|] eqn:HC; try discriminate.
      + eapply (fr_qtrans _ _ _ _ _ HP); [eapply frame_loop_qslots; eauto|discriminate|eapply IH; eauto].
      + injection H as <- <-; eapply frame_loop_qslots; eauto.
      + injection H as <- <-; eapply frame_loop_qslots; eauto.
    - injection H as <- <-. apply (fr_qrefl _ _ _ _ _ HP).
  Qed.

  Lemma entered_eq : forall s args (w : world U), s_eq (w_sg w s) = [] ->
    s_eq (w_sg (entered s args w) s) = [args].
  Proof.
    intros s args w Hq. unfold entered, enter, log. cbn -[upd].
    rewrite upd_same. cbn -[upd]. rewrite upd_same. cbn. now rewrite Hq.
  Qed.
  Lemma entered_mode : forall s args (w : world U),
    s_mode (w_sg (entered s args w) s) = s_mode (w_sg w s).
  Proof.
    intros s args w. unfold entered, enter, log. cbn -[upd].
    rewrite upd_same. cbn -[upd]. rewrite upd_same. reflexivity.
  Qed.

  Lemma frame_run_emit_loop : forall fuel s args w w' r,
    L s \/ s_members (w_sg w s) <> None ->
    run_emit_loop ex E fuel s args w = Some (w', r) -> P w w' r.
  Proof.
    intros fuel s args w w' r HL H. unfold run_emit_loop in H.
    destruct (Nat.leb_spec RECURSION_LIMIT (s_depth (w_sg w s))) as [Hd|Hd].
    { injection H as <- <-. apply (fr_refl _ _ _ _ _ HP). }
    rewrite upd_same in H. cbn [s_eq set_eq] in H. rewrite app_length in H. cbn [List.length] in H.
    destruct (s_eq (w_sg w s)) as [|q0 q] eqn:Hq.
    2: { cbn [List.length] in H. replace (Nat.ltb 1 (S (List.length q) + 1)) with true in H
           by (symmetry; apply Nat.ltb_lt; lia).
         injection H as <- <-. apply (fr_queued _ _ _ _ _ HP); auto. rewrite Hq; discriminate. }
    cbn [List.length Nat.ltb Nat.leb Nat.add] in H.
    set (w2 := log _ _) in H.
    assert (HW2 : w2 = entered s args w) by reflexivity.
    cbn -[w2 inner_loop leave] in H.
    assert (HI : forall w3 r3, inner_loop ex E fuel (w_nxt w) s w2 = Some (w3, r3) ->
                 Q (w_nxt w) s (started s args w) w3 r3).
    { intros w3 r3 HI. unfold inner_loop in HI. rewrite HW2 in HI.
      rewrite entered_mode in HI. rewrite (entered_eq _ _ _ Hq) in HI. unfold started.
      destruct (s_mode (w_sg w s)).
      - eapply frame_loop_slots; eauto.
      - eapply frame_loop_queue; eauto.
      - eapply frame_loop_latest; eauto. }
    destruct (inner_loop ex E fuel (w_nxt w) s w2) as [[w3 r3]|] eqn:HI0; [|discriminate].
    pose proof (fr_loop _ _ _ _ _ HP s args w w3 r3 HL Hd Hq (HI _ _ eq_refl)) as HF.
    destruct r3; injection H as <- <-; exact HF.
  Qed.

  Lemma frame_do_emit : forall fuel s args cn ct w w' r, L s ->
    do_emit ex E fuel s args cn ct w = Some (w', r) -> P w w' r.
  Proof.
    intros fuel s args cn ct w w' r HL H. unfold do_emit in H.
    set (w0 := log (EEmit s args (w_usr w)) w) in *.
    assert (H0 : P w w0 (Ok VNone)) by now apply (fr_emit _ _ _ _ _ HP).
    eapply (fr_trans _ _ _ _ _ HP); [exact H0|discriminate|]. clearbody w0. clear H0.
    destruct (s_blocked _). { injection H as <- <-. apply (fr_refl _ _ _ _ _ HP). }
    destruct (cn && _). { injection H as <- <-. apply (fr_refl _ _ _ _ _ HP). }
    destruct (if ct then _ else _) as [[|]|e];
      try (injection H as <- <-; apply (fr_refl _ _ _ _ _ HP)).
    destruct (s_paused _) eqn:Hp. { injection H as <- <-. now apply (fr_pause _ _ _ _ _ HP). }
    destruct (w_hook w0) as [h|]; [|eapply frame_run_emit_loop; eauto].
    destruct (ex _ _) as [[w2 r2]|] eqn:Hx; [|discriminate].
    assert (HPx : P w0 w2 r2).
    { eapply (fr_trans _ _ _ _ _ HP) with (r := Ok VNone);
        [apply (fr_hook _ _ _ _ _ HP); exact HL|discriminate|].
      eapply Hex; [|exact Hx]. apply HE. }
    destruct r2; [|injection H as <- <-; exact HPx|injection H as <- <-; exact HPx].
    eapply (fr_trans _ _ _ _ _ HP); [exact HPx|discriminate|]. eapply frame_run_emit_loop; eauto.
  Qed.

  Lemma frame_do_emit_fast : forall fuel s args w w' r, L s -> A (OEmitFast s args) ->
    do_emit_fast ex E fuel s args w = Some (w', r) -> P w w' r.
  Proof.
    intros fuel s args w w' r HL HA H. unfold do_emit_fast in H.
    set (w0 := log (EEmit s args (w_usr w)) w) in *.
    assert (H0 : P w w0 (Ok VNone)) by now apply (fr_emit _ _ _ _ _ HP).
    eapply (fr_trans _ _ _ _ _ HP); [exact H0|discriminate|]. clearbody w0. clear H0.
    destruct (s_blocked _). { injection H as <- <-. apply (fr_refl _ _ _ _ _ HP). }
    destruct (s_paused _) eqn:Hp. { injection H as <- <-. now apply (fr_pause _ _ _ _ _ HP). }
    destruct (Nat.leb_spec RECURSION_LIMIT (s_depth (w_sg w0 s))) as [Hd|Hd].
    { injection H as <- <-. apply (fr_refl _ _ _ _ _ HP). }
    fold (started_fast s args w0) in H.
    destruct (loop_slots _ _ _ _ _ _ _ _) as [[w2 r2]|] eqn:HI; [|discriminate].
    apply frame_loop_slots in HI.
    pose proof (fr_fast _ _ _ _ _ HP s args w0 w2 r2 HL Hd HI HA) as HF.
    destruct r2; injection H as <- <-; exact HF.
  Qed.

  Lemma frame_do_relay : forall fuel r args w w' o,
    do_relay ex E fuel r args w = Some (w', o) -> P w w' o.
  Proof.
    intros fuel r args w w' o H. unfold do_relay in H.
    destruct (s_members (w_sg w r)) as [ms|] eqn:Hm.
    2: { injection H as <- <-. apply (fr_refl _ _ _ _ _ HP). }
    destruct (w_cur w) as [em|]; [|injection H as <- <-; apply (fr_refl _ _ _ _ _ HP)].
    destruct (s_slots (w_sg w em)); [injection H as <- <-; apply (fr_refl _ _ _ _ _ HP)|].
    eapply frame_run_emit_loop; [|exact H]. right; congruence.
  Qed.

  Lemma frame_replay : forall fuel s i w w' r, L s ->
    replay ex E fuel s i w = Some (w', r) -> P w w' r.
  Proof.
    induction fuel as [|f IH]; intros s i w w' r HL H; cbn [replay] in H; [discriminate|].
    destruct (nth_error _ i) as [a|].
    - destruct (run_emit_loop ex E f s a w) as [[w1 [v|e|]]|] eqn:HC; try discriminate.
      + eapply (fr_trans _ _ _ _ _ HP);
          [eapply frame_run_emit_loop; eauto|discriminate|eapply IH; eauto].
      + injection H as <- <-; eapply frame_run_emit_loop; eauto.
      + injection H as <- <-; eapply frame_run_emit_loop; eauto.
    - injection H as <- <-. apply (fr_refl _ _ _ _ _ HP).
  Qed.

  Lemma frame_do_resume : forall fuel s rd w w' r, L s -> A (OResume s rd) ->
    do_resume ex E fuel s rd w = Some (w', r) -> P w w' r.
  Proof.
    intros fuel s rd w w' r HL HA H. unfold do_resume in H.
    set (w1 := upd s (set_paused false) w) in *.
    eapply (fr_trans _ _ _ _ _ HP) with (r := Ok VNone);
      [eapply (fr_unpause _ _ _ _ _ HP); [exact HL|exact HA]|discriminate|].
    fold w1. clearbody w1.
    destruct (s_args (w_sg w1 s)) as [|a0 al] eqn:Ha.
    { injection H as <- <-. apply (fr_refl _ _ _ _ _ HP). }
    destruct (s_slots (w_sg w1 s)).
    { injection H as <- <-. eapply (fr_clear _ _ _ _ _ HP); [exact HL|exact HA]. }
    set (body := match rd with RNone => _ | ROne _ => _ | RTwo _ _ => _ end) in H.
    assert (HB : forall w2 r2, body = Some (w2, r2) -> P w1 w2 r2).
    { intros w2 r2 HB. unfold body in HB. destruct rd as [|f|f i].
      - eapply frame_replay; eauto.
      - destruct (f (a0 :: al)); [eapply frame_run_emit_loop; eauto|].
        injection HB as <- <-. apply (fr_refl _ _ _ _ _ HP).
      - destruct (apply_reducer f i (a0 :: al)); [eapply frame_run_emit_loop; eauto|].
        injection HB as <- <-. apply (fr_refl _ _ _ _ _ HP). }
    destruct body as [[w2 [v|e|]]|]; try discriminate.
    - injection H as <- <-. eapply (fr_trans _ _ _ _ _ HP); [apply HB; reflexivity|discriminate|].
      eapply (fr_clear _ _ _ _ _ HP); [exact HL|exact HA].
    - injection H as <- <-. now apply HB.
    - injection H as <- <-. now apply HB.
  Qed.

  Lemma frame_drain : forall fuel t w w' r,
    drain ex E fuel t w = Some (w', r) -> P w w' r.
  Proof.
    induction fuel as [|f IH]; intros t w w' r H; cbn [drain] in H; [discriminate|].
    destruct (w_tq w t) as [|[[[eid s] c] args] q] eqn:Hq.
    { injection H as <- <-. apply (fr_refl _ _ _ _ _ HP). }
    eapply (fr_trans _ _ _ _ _ HP) with (r := Ok VNone);
      [eapply (fr_pop _ _ _ _ _ HP); exact Hq|discriminate|].
    destruct (invoke ex E true eid s c args _) as [[w1 [v|e|]]|] eqn:HC; try discriminate.
    - eapply (fr_trans _ _ _ _ _ HP); [eapply frame_dinvoke; eauto|discriminate|eapply IH; eauto].
    - injection H as <- <-. eapply frame_weaken; [eapply frame_dinvoke; eauto|discriminate].
    - injection H as <- <-. eapply frame_dinvoke; eauto.
  Qed.

  Lemma frame_step : forall n o w w' r, A o ->
    step ex E n o w = Some (w', r) -> P w w' r.
  Proof.
    intros n o w w' r HA H. destruct (is_pure o) eqn:Hpure.
    - rewrite step_pure in H by exact Hpure. eapply (fr_pure _ _ _ _ _ HP); eauto.
    - destruct o; try discriminate Hpure; cbn [step] in H.
      + eapply frame_do_emit; eauto. eapply (fr_live _ _ _ _ _ HP); eauto.
      + eapply frame_do_emit_fast; eauto. eapply (fr_live_fast _ _ _ _ _ HP); eauto.
      + eapply frame_do_resume; eauto. eapply (fr_live_resume _ _ _ _ _ HP); eauto.
      + eapply frame_do_relay; eauto.
      + eapply frame_drain; eauto.
      + eapply Hex; [|exact H]. apply HE.
  Qed.
End FrameRule.

Lemma frame_both : forall {U} (E : env U) A L P Q,
  framed E A L P Q -> env_all A E -> forall n,
    (forall p w w' r, prog_all A p -> exec E n p w = Some (w', r) -> P w w' r) /\
    (forall r args w w' o,
      exec E n (Do (ORelay r args) (fun x => match x with inl v => Ret v | inr e => Throw e end)) w
        = Some (w', o) -> P w w' o).
Proof.
  intros U E A L P Q HP HE.
  induction n as [|n [IH1 IH2]]; split; intros.
  - discriminate.
  - discriminate.
  - destruct p as [v|e| |k|o k]; cbn [exec] in H0.
    + injection H0 as <- <-. apply (fr_refl _ _ _ _ _ HP).
    + injection H0 as <- <-. apply (fr_refl _ _ _ _ _ HP).
    + injection H0 as <- <-. apply (fr_refl _ _ _ _ _ HP).
    + eapply IH1; [|exact H0]. apply H.
    + destruct H as [HA Hk].
      destruct (step (exec E n) E n o w) as [[w1 [v|e|]]|] eqn:HS; try discriminate.
      * eapply (fr_trans _ _ _ _ _ HP);
          [eapply (frame_step E A L P Q HP (prog_all A) HE); eauto|discriminate|eapply IH1; [apply Hk|exact H0]].
      * eapply (fr_trans _ _ _ _ _ HP);
          [eapply (frame_step E A L P Q HP (prog_all A) HE); eauto|discriminate|eapply IH1; [apply Hk|exact H0]].
      * injection H0 as <- <-. eapply (frame_step E A L P Q HP (prog_all A) HE); eauto.
  - cbn [exec step] in H.
    destruct (do_relay (exec E n) E n r args w) as [[w1 [v|e|]]|] eqn:HS; try discriminate.
    + apply frame_do_relay with (A := A) (L := L) (P := P) (Q := Q) (G := prog_all A) in HS; auto.
      eapply (fr_trans _ _ _ _ _ HP); [exact HS|discriminate|].
      eapply IH1; [|exact H]. exact I.
    + apply frame_do_relay with (A := A) (L := L) (P := P) (Q := Q) (G := prog_all A) in HS; auto.
      eapply (fr_trans _ _ _ _ _ HP); [exact HS|discriminate|].
      eapply IH1; [|exact H]. exact I.
    + apply frame_do_relay with (A := A) (L := L) (P := P) (Q := Q) (G := prog_all A) in HS; auto.
      now injection H as <- <-.
Qed.

(** The frame rule: a compatible relation holds for every run of every program that
    makes only allowed calls. *)
Theorem frame_exec : forall {U} (E : env U) A L P Q,
  framed E A L P Q -> env_all A E ->
  forall n p w w' r, prog_all A p -> exec E n p w = Some (w', r) -> P w w' r.
Proof. intros U E A L P Q HP HE n. apply (frame_both E A L P Q HP HE n). Qed.

(** The same for a single call. *)
Theorem frame_step_exec : forall {U} (E : env U) A L P Q,
  framed E A L P Q -> env_all A E ->
  forall n m o w w' r, A o -> step (exec E n) E m o w = Some (w', r) -> P w w' r.
Proof.
  intros U E A L P Q HP HE n m o w w' r HA H.
  destruct (frame_both E A L P Q HP HE n). eapply (frame_step E A L P Q HP (prog_all A) HE); eauto.
Qed.
