(** Programs that do not emit a given signal, and resuming a paused signal.
    Proof infrastructure; models no code. *)

From Verif Require Import Base Core Frame Fuel Conn Keep Spec Trace Inv Dead Rest Quiet Deliver Emission Ctl.

Section Hush.
Context {U : Type} (E : env U) (s : sid).

(** The event records an emission of [s]. *)
Definition emits (e : event U) : Prop :=
  match e with EStart _ x _ | EQueued x _ | EEmit x _ _ => x = s | _ => False end.
Definition hushed (w w' : world U) (r : out) : Prop :=
  s_members (w_sg w s) = None ->
  s_members (w_sg w' s) = None /\ s_depth (w_sg w' s) = s_depth (w_sg w s)
  /\ s_max (w_sg w' s) = s_max (w_sg w s)
  /\ exists t, w_tr w' = w_tr w ++ t /\ forall e, In e t -> ~ emits e.

Lemma hushed_trans : forall a b c r r', hushed a b r -> hushed b c r' -> hushed a c r'.
Proof.
  intros a b c r r' H1 H2 Hm. destruct (H1 Hm) as (A1 & A2 & A3 & t & T & F).
  destruct (H2 A1) as (B1 & B2 & B3 & t' & T' & F'). split; [exact B1|]. split; [congruence|].
  split; [congruence|]. exists (t ++ t'). split; [rewrite T', T; now rewrite app_assoc|].
  intros e He. apply in_app_or in He as [He|He]; auto.
Qed.
Lemma hushed_log : forall e w r, ~ emits e -> hushed w (log e w) r.
Proof.
  intros e w r He Hm. repeat (split; [auto|]). exists [e]. split; [reflexivity|]. intros x [<-|[]]; exact He.
Qed.
Lemma hushed_sg : forall w w' r, w_tr w' = w_tr w -> s_members (w_sg w' s) = s_members (w_sg w s) ->
  s_depth (w_sg w' s) = s_depth (w_sg w s) -> s_max (w_sg w' s) = s_max (w_sg w s) -> hushed w w' r.
Proof.
  intros w w' r H1 H2 H3 H4 Hm. split; [congruence|]. split; [exact H3|]. split; [exact H4|].
  exists []. rewrite app_nil_r. split; [exact H1|]. intros e [].
Qed.
Lemma hushed_upd : forall x f w r, (forall st, s_members (f st) = s_members st) ->
  (forall st, s_depth (f st) = s_depth st) -> (forall st, s_max (f st) = s_max st) -> hushed w (upd x f w) r.
Proof.
  intros x f w r H1 H2 H3. apply hushed_sg; [reflexivity| | |];
    (destruct (Nat.eq_dec s x) as [->|]; [rewrite upd_same|rewrite upd_other by assumption]; auto).
Qed.

Lemma framed_hush : framed E (not_emits s) (fun x => x <> s) hushed (fun _ _ => hushed).
Proof.
  assert (HT : forall w r, hushed w w r) by (intros; apply hushed_sg; reflexivity).
  split; auto.
  - intros a b c r r' H1 _ H2. eapply hushed_trans; eauto.
  - intros _ _ a b c r r' H1 _ H2. eapply hushed_trans; eauto.
  - intros o w w' r _ Hp H. destruct (pure_keeps _ _ _ _ _ Hp H) as (K1 & _ & K3 & _).
    destruct (K1 s) as [Ks Kb]. unfold busy in Kb. injection Kb as _ _ B1 B2.
    apply hushed_sg; auto. now apply static_members.
  - intros x args w r Hx. now apply hushed_log.
  - intros x args w r _ _. now apply hushed_upd.
  - intros h x args w r _. apply hushed_log. exact (fun f => f).
  - intros x args w r Hx _ _ Hm. assert (Hne : x <> s) by (destruct Hx; congruence). revert Hm.
    eapply (hushed_trans _ _ _ r r); [|apply hushed_log; exact Hne]. now apply hushed_upd.
  - intros x args w w' r Hx _ Hq H.
    assert (H0 : s_members (w_sg w s) = None -> x <> s) by (destruct Hx; congruence).
    assert (H1 : forall r, hushed w (started x args w) r).
    { intros r0 Hm. specialize (H0 Hm). revert Hm.
      eapply hushed_trans with (r := r0) (r' := r0) (b := log (EStart (w_nxt w) x args) w); [now apply hushed_log|].
      apply hushed_sg; try (rewrite started_sg_other by congruence; reflexivity).
      destruct (started_w x args w) as (_ & -> & _). reflexivity. }
    assert (H2 : s_members (w_sg w s) = None -> forall r, hushed w' (leave x (w_cur w) (log (EEnd (w_nxt w) x) w')) r).
    { intros Hm r0. specialize (H0 Hm). eapply hushed_trans with (r := r0) (b := log (EEnd (w_nxt w) x) w'); [now apply hushed_log|].
      apply hushed_sg; try (rewrite leave_sg_other by congruence; reflexivity). reflexivity. }
    destruct r; try (eapply hushed_trans; [apply (H1 (Ok VNone))|exact H]);
      (intros Hm; pose proof (H2 Hm) as H2'; revert Hm;
       eapply (hushed_trans _ _ _ (Ok VNone) (Ok VNone)); [apply (H1 (Ok VNone))|]; eapply hushed_trans; [exact H|apply H2']).
  - intros x args w w' r Hx _ H _.
    assert (H1 : forall r, hushed w (started_fast x args w) r).
    { intros r0. eapply hushed_trans with (r := r0) (b := log (EStart (w_nxt w) x args) w); [now apply hushed_log|].
      apply hushed_sg; try (rewrite started_fast_sg_other by congruence; reflexivity). reflexivity. }
    assert (H2 : forall r, hushed w' (left_fast x (log (EEnd (w_nxt w) x) w')) r).
    { intros r0. eapply hushed_trans with (r := r0) (b := log (EEnd (w_nxt w) x) w'); [now apply hushed_log|].
      apply hushed_sg; try (rewrite left_fast_sg_other by congruence; reflexivity). reflexivity. }
    destruct r; try (eapply hushed_trans; [apply (H1 (Ok VNone))|exact H]);
      (eapply hushed_trans; [apply (H1 (Ok VNone))|]; eapply hushed_trans; [exact H|apply H2]).
  - intros eid x c a w w' r _ H _.
    assert (H0 : hushed w w' r) by (eapply hushed_trans with (r := r); [apply hushed_log|exact H]; exact (fun f => f)).
    destruct r; [| |exact H0]; (eapply hushed_trans; [exact H0|apply hushed_log; exact (fun f => f)]).
  - intros eid x c a w w' r _ H.
    assert (H0 : hushed w w' r) by (eapply hushed_trans with (r := r); [apply hushed_log|exact H]; exact (fun f => f)).
    destruct r; [| |exact H0]; (eapply hushed_trans; [exact H0|apply hushed_log; exact (fun f => f)]).
  - intros eid x c t args w r _ _ _. eapply hushed_trans with (r := r); [|apply hushed_log; exact (fun f => f)].
    apply hushed_sg; reflexivity.
  - intros x rd w r _ _. now apply hushed_upd.
  - intros x rd w r _ _. now apply hushed_upd.
  - intros t eid x c args q w r _. eapply hushed_trans with (r := r); [|apply hushed_log; exact (fun f => f)].
    apply hushed_sg; reflexivity.
Qed.

Lemma queued_on_hushed : forall t : list (event U), (forall e, In e t -> ~ emits e) -> queued_on s t = [].
Proof.
  induction t as [|e t IH]; intros H; [reflexivity|].
  assert (Ht : queued_on s t = []) by (apply IH; intros; apply H; now right).
  specialize (H e (or_introl eq_refl)). destruct e; cbn in *; auto.
  destruct (Nat.eqb_spec s0 s); [contradiction|exact Ht].
Qed.
End Hush.

(** ** Resuming *)

Section Resume.
Context {U : Type} (E : env U) (M : sid -> list sid) (s : sid).
Context (HF : forall x m, In m (M x) -> M m = []).
Context (HE : env_all (untouched M s) E).

Lemma loop_frame : forall A L P Q, framed E A L P Q -> env_all A E ->
  forall n f eid args md w w' r, loop_of (exec E n) E f eid s args md w = Some (w', r) -> Q eid s w w' r.
Proof.
  intros A L P Q HP HA n f eid args md w w' r H.
  destruct (frame_both E A L P Q HP HA n) as [H1 H2]. destruct md; cbn [loop_of] in H.
  - eapply (frame_loop_slots E A L P Q HP (prog_all A) HA); eauto.
  - eapply (frame_loop_queue E A L P Q HP (prog_all A) HA); eauto.
  - eapply (frame_loop_latest E A L P Q HP (prog_all A) HA); eauto.
Qed.

Lemma env_impl : forall (A B : op U -> Prop), (forall o, A o -> B o) -> env_all A E -> env_all B E.
Proof. intros A B H [H1 H2]. split; intros; (eapply prog_all_impl; [exact H|]); auto. Qed.
Let HEa : env_all (allows M s None) E.
Proof. eapply env_impl; [|exact HE]. intros o (H & _). now left. Qed.
Let HEn : env_all (not_emits s) E.
Proof. eapply env_impl; [|exact HE]. intros o (_ & H & _). exact H. Qed.
Let HEf : env_all (no_fast s) E.
Proof. eapply env_impl; [|exact HEn]. intros o H. destruct o; (exact I || exact H). Qed.

(** The collection of a running signal does not change. *)
Definition running (st st' : sigst) : Prop :=
  s_paused st = false -> s_paused st' = false /\ s_args st' = s_args st.
Lemma framed_running : framed E (untouched M s) (fun x => x <> s) (one s running) (fun _ _ => one s running).
Proof.
  apply framed_one.
  - intros st st' H Hp. unfold ctl in H. split; congruence.
  - intros a b c H1 H2 Hp. destruct (H1 Hp) as [A1 A2]. destruct (H2 A1) as [B1 B2]. split; congruence.
  - intros o w w' r (_ & _ & HA) Ho H Hp. destruct o; try contradiction; injection H as <- _.
    + assert (Hc : fsame (fun st => (s_paused st, s_args st)) w (block s0 excl w)).
      { unfold block. destruct (s_members (w_sg w s0)); [|now apply fsame_upd].
        eapply fsame_trans with (b := upd s0 (set_blocked true) w); [apply fsame_upd; reflexivity|]. apply fsame_fold. intros w1 [nm m]. unfold block_member.
        destruct (excluded nm m excl); [apply fsame_refl|].
        eapply fsame_trans; [|apply fsame_upd; reflexivity]; apply fsame_upd; reflexivity. }
      specialize (Hc s). injection Hc as -> ->. auto.
    + assert (Hc : fsame (fun st => (s_paused st, s_args st)) w (unblock s0 w)).
      { unfold unblock. destruct (s_members (w_sg w s0)); [|now apply fsame_upd].
        eapply fsame_trans with (b := upd s0 (set_blocked false) w); [apply fsame_upd; reflexivity|]. apply fsame_fold. intros w1 [nm m]. unfold unblock_member.
        destruct (match assoc_get _ _ with Some b => b | None => false end); [apply fsame_upd; reflexivity|].
        eapply fsame_trans; [|apply fsame_upd; reflexivity]; apply fsame_upd; reflexivity. }
      specialize (Hc s). injection Hc as -> ->. auto.
    + cbn in HA. rewrite upd_other by congruence. auto.
  - intros x args cn ct (_ & H & _). exact H.
  - intros x args (_ & H & _). exact H.
  - intros x rd (_ & H & _). exact H.
  - intros st l Hs. congruence.
  - intros st rd (_ & _ & H). now destruct H.
  - intros st rd (_ & _ & H). now destruct H.
Qed.

(** A signal that is not being emitted and can be. *)
Record still (w : world U) : Prop := {
  sl_fits : fits E M None s w;
  sl_plain : s_members (w_sg w s) = None;
  sl_eq : s_eq (w_sg w s) = [];
  sl_depth : s_depth (w_sg w s) = 0;
  sl_max : s_mode (w_sg w s) = LatestOnly -> s_max (w_sg w s) = 0;
  sl_run : s_paused (w_sg w s) = false
}.

Lemma loop_one : forall n f args w w' r,
  run_emit_loop (exec E n) E f s args w = Some (w', r) -> done r -> still w ->
  still w' /\ s_slots (w_sg w' s) = s_slots (w_sg w s) /\ w_me w' = w_me w
  /\ s_args (w_sg w' s) = s_args (w_sg w s)
  /\ exists eid t called uncalled,
       w_tr w' = w_tr w ++ EStart eid s args :: t ++ [EEnd eid s]
       /\ s_slots (w_sg w s) = called ++ uncalled
       /\ notices eid t = map (due (w_me w) args) called
       /\ match r with
          | Err e' => called <> [] /\ exists e, raised eid t = [e] /\ surfaces s e e'
          | _ => uncalled = [] /\ raised eid t = []
          end.
Proof.
  intros n f args w w' r HX Hdone [F1 F2 F3 F4 F5 F6].
  apply emit_loop_inv in HX; [|rewrite F4; unfold RECURSION_LIMIT; lia|exact F3].
  destruct HX as (w3 & r3 & HLp & [(_ & _ & Hr)|(Hr3 & -> & ->)]); [congruence|].
  destruct (started_w s args w) as (W1 & W2 & W3 & W4 & W5 & _).
  destruct (started_sg_same s args w F3) as (S1 & S2 & S3 & S4).
  assert (Hs0 : s_slots (w_sg (started s args w) s) = s_slots (w_sg w s)) by now rewrite started_slots.
  assert (F0 : fits E M None s (started s args w)).
  { destruct F1 as [G1 G2 G3]. constructor.
    - intros x. rewrite <- G1. unfold members_of. now rewrite (proj2 (proj2 (proj1 (conn_same_started s args w) x))).
    - intros p Hp; discriminate.
    - eapply live_same; [apply conn_same_started|exact G3]. }
  assert (HH : hushed s (started s args w) w3 r3).
  { eapply (loop_frame _ _ _ _ (framed_hush E s) HEn _ _ (w_nxt w)). exact HLp. }
  assert (HRn : one s running (started s args w) w3 r3).
  { eapply (loop_frame _ _ _ _ framed_running HE _ _ (w_nxt w)). exact HLp. }
  assert (Hm0 : s_members (w_sg (started s args w) s) = None).
  { now rewrite (static_members _ _ S1). }
  destruct (HH Hm0) as (H1 & H2 & H3 & t0 & T0 & N0). clear HH.
  assert (Hp0 : s_paused (w_sg (started s args w) s) = false /\ s_args (w_sg (started s args w) s) = s_args (w_sg w s)).
  { assert (HC : ctl (w_sg (started s args w) s) = ctl (w_sg w s)).
    { unfold started, entered, enter. destruct (s_mode (w_sg w s)); cbn [log w_sg set_tr set_cur];
        repeat first [rewrite upd_same | progress cbn [log w_sg set_tr set_cur set_nxt]]; reflexivity. }
    unfold ctl in HC. split; congruence. }
  destruct Hp0 as [Hp0 Ha0]. destruct (HRn Hp0) as [Hp3 Ha3]. rewrite Ha0 in Ha3. clear HRn.
  (* the loop *)
  assert (HK : fits E M None s w3 /\ s_slots (w_sg w3 s) = s_slots (w_sg w s) /\ w_me w3 = w_me w
    /\ s_mode (w_sg w3 s) = s_mode (w_sg w s)
    /\ exists called uncalled, s_slots (w_sg w s) = called ++ uncalled
       /\ notices (w_nxt w) t0 = map (due (w_me w) args) called
       /\ match r3 with
          | Err e => called <> [] /\ raised (w_nxt w) t0 = [e]
          | _ => uncalled = [] /\ raised (w_nxt w) t0 = []
          end).
  { assert (HMV : forall own, moves E M None s own (started s args w) w3 r3 ->
              fits E M None s w3 /\ s_slots (w_sg w3 s) = s_slots (w_sg w s) /\ w_me w3 = w_me w
              /\ s_mode (w_sg w3 s) = s_mode (w_sg w s)).
    { intros own [B1 B2]. destruct (B2 F0) as (C1 & C2 & C3). apply grows_none in C2.
      split; [exact C1|]. split; [congruence|]. split; [congruence|].
      pose proof (bg_static _ _ _ _ B1 s) as B3. unfold static in *. congruence. }
    destruct (s_mode (w_sg w s)) eqn:Hm; cbn [loop_of] in HLp.
    - assert (HN : @None Z <> None -> ~ In s (M s)) by congruence.
      destruct (loop_slots_delivers E M None s HF HN HEa _ _ _ _ _ _ _ _ HLp F0) as (t & pre & rest & T & MV & Sk & N & K).
      { rewrite W1. lia. }
      destruct (HMV _ MV) as (D1 & D2 & D3 & D4). rewrite T in T0. apply app_inv_head in T0. subst t0.
      cbn [skipn] in Sk. rewrite D2 in Sk. split; [exact D1|]. split; [exact D2|]. split; [exact D3|]. split; [exact D4|].
      exists pre, rest. split; [exact Sk|]. rewrite N, W5. split; [reflexivity|].
      destruct r3; [exact K|exact K|congruence].
    - destruct (loop_queue_delivers E M s HF HEa _ _ _ _ _ _ _ HLp F0) as (t & T & MV & K).
      { rewrite W1. lia. }
      { rewrite S4. discriminate. }
      { rewrite S4. cbn. lia. }
      { rewrite S4. cbn. unfold RECURSION_LIMIT. lia. }
      destruct (HMV _ MV) as (D1 & D2 & D3 & D4). rewrite T in T0. apply app_inv_head in T0. subst t0.
      split; [exact D1|]. split; [exact D2|]. split; [exact D3|]. split; [exact D4|].
      rewrite S4, Hs0, W5, (queued_on_hushed s t N0) in K. cbn [app skipn to_all flat_map] in K.
      destruct r3 as [v|e|]; [| |congruence].
      + destruct K as (K1 & K2 & _). exists (s_slots (w_sg w s)), []. rewrite app_nil_r.
        unfold to_all in K1. cbn [flat_map] in K1. rewrite app_nil_r in K1. auto.
      + destruct K as (full & a & more & pre & rest & K1 & _ & K2 & K3 & K4 & K5).
        destruct full as [|x full]; [|destruct full; discriminate K1]. injection K1 as <- <-.
        cbn [to_all flat_map app] in K4. exists pre, rest. split; [exact K2|]. split; [exact K4|].
        split; [exact K3|]. destruct K5 as [K5|(_ & _ & K5)]; [exact K5|].
        cbn [List.length] in K5. unfold RECURSION_LIMIT in K5. lia.
    - destruct (loop_latest_delivers E s M HF HEa HEf _ _ _ _ _ _ _ _ HLp F0) as (t & pre & rest & T & MV & Sk & N & K & _).
      { rewrite W1. lia. }
      { rewrite S2. lia. }
      destruct (HMV _ MV) as (D1 & D2 & D3 & D4). rewrite T in T0. apply app_inv_head in T0. subst t0.
      cbn [skipn] in Sk. rewrite Hs0 in Sk. split; [exact D1|]. split; [exact D2|]. split; [exact D3|]. split; [exact D4|].
      exists pre, rest. split; [exact Sk|]. rewrite N, W5. split; [reflexivity|].
      destruct r3 as [v|e|]; [|exact K|congruence].
      destruct K as [K1 [K2|[K2|K2]]]; auto.
      + destruct K2 as (j & a & K2). destruct (N0 _ K2). reflexivity.
      + rewrite S2, S3, F4, F5 in K2 by reflexivity. cbn in K2. lia. }
  destruct HK as (D1 & D2 & D3 & D4 & called & uncalled & K1 & K2 & K3).
  set (w4 := leave s (w_cur w) (log (EEnd (w_nxt w) s) w3)).
  assert (HCS : conn_same w3 w4) by (eapply conn_same_trans; [apply conn_same_log|apply conn_same_leave]).
  assert (Hst : w_sg w4 s = set_eq [] (set_max 0 (set_depth 0 (w_sg w3 s)))).
  { unfold w4, leave. rewrite upd_same. cbn [w_sg log set_tr set_cur].
    rewrite H2, S2, F4. reflexivity. }
  split.
  { constructor.
    - destruct D1 as [G1 G2 G3]. constructor.
      + intros x. rewrite <- G1. unfold members_of. now rewrite (proj2 (proj2 (proj1 HCS x))).
      + intros p Hp; discriminate.
      + eapply live_same; [exact HCS|exact G3].
    - rewrite Hst. exact H1.
    - now rewrite Hst.
    - now rewrite Hst.
    - intros _. now rewrite Hst.
    - rewrite Hst. exact Hp3. }
  split; [rewrite Hst; exact D2|]. split; [exact D3|]. split; [rewrite Hst; exact Ha3|].
  exists (w_nxt w), t0, called, uncalled.
  split. { unfold w4. cbn. rewrite T0, W2. cbn. rewrite <- !app_assoc. reflexivity. }
  split; [exact K1|]. split; [exact K2|].
  destruct r3 as [v|e|]; cbn [loop_out]; [exact K3| |congruence].
  destruct K3 as [K3 K4]. split; [exact K3|]. exists e. split; [exact K4|apply wrap_surfaces].
Qed.

Lemma replay_all : forall n f i w w' r,
  replay (exec E n) E f s i w = Some (w', r) -> done r -> still w ->
  still w' /\ s_slots (w_sg w' s) = s_slots (w_sg w s) /\ w_me w' = w_me w
  /\ s_args (w_sg w' s) = s_args (w_sg w s)
  /\ match r with
     | Err e' => exists full a more t1 eid t called uncalled,
         skipn i (s_args (w_sg w s)) = full ++ a :: more
         /\ emissions s (w_me w) (s_slots (w_sg w s)) full t1
         /\ w_tr w' = w_tr w ++ t1 ++ EStart eid s a :: t ++ [EEnd eid s]
         /\ s_slots (w_sg w s) = called ++ uncalled /\ called <> []
         /\ notices eid t = map (due (w_me w) a) called
         /\ exists e, raised eid t = [e] /\ surfaces s e e'
     | _ => exists t, w_tr w' = w_tr w ++ t
         /\ emissions s (w_me w) (s_slots (w_sg w s)) (skipn i (s_args (w_sg w s))) t
     end.
Proof.
  induction f as [|f IH]; intros i w w' r H Hd HW; cbn [replay] in H; [discriminate|].
  destruct (nth_error (s_args (w_sg w s)) i) as [a|] eqn:Hn.
  2: { injection H as <- <-. repeat (split; [auto|]). exists []. rewrite app_nil_r.
       rewrite skipn_all2 by (now apply nth_error_None). split; [reflexivity|constructor]. }
  rewrite (skipn_nth _ _ _ Hn).
  destruct (run_emit_loop (exec E n) E f s a w) as [[w1 r1]|] eqn:HL; [|discriminate].
  assert (Hd1 : done r1) by (destruct r1; try discriminate; injection H as _ <-; congruence).
  destruct (loop_one _ _ _ _ _ _ HL Hd1 HW) as (W1 & S1 & M1 & A1 & eid & t & cl & un & T & HS & N & K).
  destruct r1 as [v|e|]; [| |congruence].
  - destruct (IH _ _ _ _ H Hd W1) as (W2 & S2 & M2 & A2 & KK).
    destruct K as [-> K]. rewrite app_nil_r in HS.
    assert (HE1 : emission s (w_me w) (s_slots (w_sg w s)) a (EStart eid s a :: t ++ [EEnd eid s])).
    { exists eid, t. rewrite HS. auto. }
    split; [exact W2|]. split; [congruence|]. split; [congruence|]. split; [congruence|].
    rewrite A1, S1, M1 in KK. destruct r as [v2|e2|]; [| |congruence].
    + destruct KK as (t2 & T2 & E2). exists ((EStart eid s a :: t ++ [EEnd eid s]) ++ t2).
      rewrite T2, T. split; [now rewrite <- !app_assoc|]. now constructor.
    + destruct KK as (full & b & more & t1 & eid2 & t2 & cl2 & un2 & B1 & B2 & B3 & B4).
      exists (a :: full), b, more, ((EStart eid s a :: t ++ [EEnd eid s]) ++ t1), eid2, t2, cl2, un2.
      split; [cbn [app]; now rewrite B1|]. split; [now constructor|].
      split; [rewrite B3, T; now rewrite <- !app_assoc|]. exact B4.
  - injection H as <- <-. repeat (split; [auto|]).
    exists [], a, (skipn (S i) (s_args (w_sg w s))), [], eid, t, cl, un.
    split; [reflexivity|]. split; [constructor|]. split; [exact T|]. split; [exact HS|].
    destruct K as [K1 K2]. auto.
Qed.
End Resume.
