(** Exceptions of callbacks, whatever the callbacks do (C05).  Proof infrastructure. *)

From Verif Require Import Base Core Frame Fuel Conn Keep Spec Trace Inv Dead Deliver Emission.

Section Raise.
Context {U : Type} (E : env U).
Implicit Types w : world U.

Lemma framed_live_all : framed E (fun _ => True) (fun _ => True)
  (fun w w' _ => live E [] None w -> live E [] None w')
  (fun _ _ w w' _ => live E [] None w -> live E [] None w').
Proof. apply framed_conn; [intros; eapply live_same; eauto|intros; eapply live_pure; eauto]. Qed.

(** What a piece of emission [eid] tells about exceptions; [lim]: the queue limit may be hit. *)
Definition told (lim : Prop) (eid : nat) (w w' : world U) (r : out) : Prop :=
  based_gen (fun i => i = eid) w w' r /\ live E [] None w'
  /\ exists t, w_tr w' = w_tr w ++ t
     /\ match r with
        | Ok _ => raised eid t = []
        | Err e => raised eid t = [e] \/ (raised eid t = [] /\ e = ERecursion /\ lim)
        | Halted => True
        end.

Lemma call_slot_told : forall lim n eid s c args w w' r,
  call_slot (exec E n) E eid s c args w = Some (w', r) ->
  live E [] None w -> In c (s_slots (w_sg w s)) -> eid < w_nxt w -> told lim eid w w' r.
Proof.
  intros lim n eid s c args w w' r H HL Hin Hlt.
  split.
  { destruct (frame_both E _ _ _ _ (framed_based E) (env_all_true E) n) as [H1 H2].
    eapply (frame_call_slot E _ _ _ _ (framed_based E) _ (env_all_true E)); eauto. }
  split.
  { destruct (frame_both E _ _ _ _ framed_live_all (env_all_true E) n) as [H1 H2].
    refine (frame_call_slot E _ _ _ _ framed_live_all _ (env_all_true E) _ H1 H2 _ _ _ _ _ _ _ H Hin HL). }
  assert (HI : forall w1 r1, invoke (exec E n) E false eid s c args w = Some (w1, r1) ->
     exists t, w_tr w1 = w_tr w ++ t /\ match r1 with
        | Ok _ => raised eid t = []
        | Err e => raised eid t = [e] \/ (raised eid t = [] /\ e = ERecursion /\ lim)
        | Halted => True
        end).
  { clear H w' r. intros w1 r1 H. unfold invoke in H.
    assert (Hd : match w_ref c with Some o => w_dead w o | None => false end = false).
    { destruct (w_ref c) as [o|] eqn:Ho; [|reflexivity].
      destruct (lv_alive _ _ _ _ HL _ _ _ Hin Ho) as [|K]; [assumption|discriminate]. }
    rewrite Hd in H. set (w0 := log _ w) in H.
    destruct (exec E n _ w0) as [[w2 r2]|] eqn:HX; [|discriminate].
    assert (HB : based w0 w2 r2).
    { destruct (frame_both E _ _ _ _ (framed_based E) (env_all_true E) n) as [H1 H2].
      eapply frame_body; [apply env_all_true|exact H1|exact H2|exact HX]. }
    destruct HB as [_ _ (t & T & O & _)].
    assert (Hnone : Forall (fun e => emission_of e <> Some eid) t).
    { eapply Forall_impl; [|exact O]. cbn. intros e He Hi. destruct (He _ Hi) as [[|] ?]; [easy|].
      cbn in *; lia. }
    assert (T2 : w_tr w2 = w_tr w ++ ECall eid s (w_uid c) (cb_args c args) :: t)
      by (rewrite T; cbn; now rewrite <- app_assoc).
    destruct r2 as [v|e|]; injection H as <- <-.
    - exists (ECall eid s (w_uid c) (cb_args c args) :: t ++ [ERet eid s (w_uid c) None]).
      split; [cbn; rewrite T2, <- app_assoc; reflexivity|].
      cbn. rewrite raised_app, (raised_none _ _ Hnone). reflexivity.
    - exists (ECall eid s (w_uid c) (cb_args c args) :: t ++ [ERet eid s (w_uid c) (Some e)]).
      split; [cbn; rewrite T2, <- app_assoc; reflexivity|]. left.
      cbn. rewrite raised_app, (raised_none _ _ Hnone). cbn. now rewrite Nat.eqb_refl.
    - eexists. split; [exact T2|exact I]. }
  unfold call_slot in H. destruct (w_thread c) as [th|]; [|now apply HI].
  destruct (Nat.eqb th (w_me w)); [now apply HI|].
  injection H as <- <-. eexists. split; [reflexivity|reflexivity].
Qed.

Lemma told_trans : forall lim eid a b c v r, told lim eid a b (Ok v) -> told lim eid b c r -> told lim eid a c r.
Proof.
  intros lim eid a b c v r (B1 & _ & t1 & T1 & R1) (B2 & L2 & t2 & T2 & R2).
  split; [eapply based_gen_trans; [exact B1|discriminate|exact B2]|]. split; [exact L2|].
  exists (t1 ++ t2). rewrite T2, T1, <- app_assoc. split; [reflexivity|].
  rewrite raised_app, R1. exact R2.
Qed.
Lemma told_refl : forall lim eid w v, live E [] None w -> told lim eid w w (Ok v).
Proof.
  intros lim eid w v H. split; [apply based_gen_refl|]. split; [exact H|]. exists [].
  rewrite app_nil_r. auto.
Qed.
Lemma told_nxt : forall lim eid w w' r, told lim eid w w' r -> eid < w_nxt w -> eid < w_nxt w'.
Proof. intros lim eid w w' r (B & _) H. pose proof (bg_nxt _ _ _ _ B). lia. Qed.

Lemma loop_slots_told : forall n f eid s i args w w' r,
  loop_slots (exec E n) E f eid s i args w = Some (w', r) -> live E [] None w -> eid < w_nxt w ->
  told False eid w w' r.
Proof.
  induction f as [|f IH]; intros eid s i args w w' r H HL Hlt; cbn [loop_slots] in H; [discriminate|].
  destruct (nth_error (s_slots (w_sg w s)) i) as [c|] eqn:Hn.
  2: { injection H as <- <-. now apply told_refl. }
  destruct (call_slot (exec E n) E eid s c args w) as [[w1 r1]|] eqn:HC; [|discriminate].
  pose proof (call_slot_told False _ _ _ _ _ _ _ _ HC HL (nth_error_In _ _ Hn) Hlt) as HT.
  destruct r1 as [v|e|]; [|injection H as <- <-; exact HT|injection H as <- <-; exact HT].
  eapply told_trans; [exact HT|]. eapply IH; [exact H|apply HT|eapply told_nxt; eauto].
Qed.
Lemma loop_latest_told : forall n f eid s i args w w' r,
  loop_latest (exec E n) E f eid s i args w = Some (w', r) -> live E [] None w -> eid < w_nxt w ->
  told False eid w w' r.
Proof.
  induction f as [|f IH]; intros eid s i args w w' r H HL Hlt; cbn [loop_latest] in H; [discriminate|].
  destruct (nth_error (s_slots (w_sg w s)) i) as [c|] eqn:Hn.
  2: { injection H as <- <-. now apply told_refl. }
  destruct (Nat.ltb _ _). { injection H as <- <-. now apply told_refl. }
  destruct (call_slot (exec E n) E eid s c args w) as [[w1 r1]|] eqn:HC; [|discriminate].
  pose proof (call_slot_told False _ _ _ _ _ _ _ _ HC HL (nth_error_In _ _ Hn) Hlt) as HT.
  destruct r1 as [v|e|]; [|injection H as <- <-; exact HT|injection H as <- <-; exact HT].
  eapply told_trans; [exact HT|]. eapply IH; [exact H|apply HT|eapply told_nxt; eauto].
Qed.
Lemma loop_qslots_told : forall n f eid s i args w w' r,
  loop_qslots (exec E n) E f eid s i args w = Some (w', r) -> live E [] None w -> eid < w_nxt w ->
  told True eid w w' r.
Proof.
  induction f as [|f IH]; intros eid s i args w w' r H HL Hlt; cbn [loop_qslots] in H; [discriminate|].
  destruct (nth_error (s_slots (w_sg w s)) i) as [c|] eqn:Hn.
  2: { injection H as <- <-. now apply told_refl. }
  destruct (call_slot (exec E n) E eid s c args w) as [[w1 r1]|] eqn:HC; [|discriminate].
  pose proof (call_slot_told True _ _ _ _ _ _ _ _ HC HL (nth_error_In _ _ Hn) Hlt) as HT.
  destruct r1 as [v|e|]; [|injection H as <- <-; exact HT|injection H as <- <-; exact HT].
  destruct (Nat.ltb _ _).
  { injection H as <- <-. eapply told_trans; [exact HT|].
    split; [apply based_gen_refl|]. split; [apply HT|]. exists []. rewrite app_nil_r. cbn. auto. }
  eapply told_trans; [exact HT|]. eapply IH; [exact H|apply HT|eapply told_nxt; eauto].
Qed.
Lemma loop_queue_told : forall n f eid s i w w' r,
  loop_queue (exec E n) E f eid s i w = Some (w', r) -> live E [] None w -> eid < w_nxt w ->
  told True eid w w' r.
Proof.
  induction f as [|f IH]; intros eid s i w w' r H HL Hlt; cbn [loop_queue] in H; [discriminate|].
  destruct (nth_error (s_eq (w_sg w s)) i) as [a|] eqn:Hn.
  2: { injection H as <- <-. now apply told_refl. }
  destruct (loop_qslots (exec E n) E f eid s 0 a w) as [[w1 r1]|] eqn:HC; [|discriminate].
  pose proof (loop_qslots_told _ _ _ _ _ _ _ _ _ HC HL Hlt) as HT.
  destruct r1 as [v|e|]; [|injection H as <- <-; exact HT|injection H as <- <-; exact HT].
  eapply told_trans; [exact HT|]. eapply IH; [exact H|apply HT|eapply told_nxt; eauto].
Qed.

Lemma loop_of_told : forall n f eid s args md w w' r,
  loop_of (exec E n) E f eid s args md w = Some (w', r) -> live E [] None w -> eid < w_nxt w ->
  told (md = Queued) eid w w' r.
Proof.
  intros n f eid s args md w w' r H HL Hlt.
  assert (HW : forall lim lim' : Prop, (lim -> lim') -> told lim eid w w' r -> told lim' eid w w' r).
  { intros lim lim' Hi (B & L & t & T & R). split; [exact B|]. split; [exact L|]. exists t.
    split; [exact T|]. destruct r; tauto. }
  destruct md; cbn [loop_of] in H.
  - eapply HW; [|eapply loop_slots_told; eauto]. tauto.
  - eapply HW; [|eapply loop_queue_told; eauto]. tauto.
  - eapply HW; [|eapply loop_latest_told; eauto]. tauto.
Qed.
End Raise.

Section Theorems.
Context {U : Type}.

(** An emission loop of [s], started from a reachable state by emit. *)
Theorem emit_raises : forall (E0 E : env U) s w args cn ct w' r,
  reachable E0 w -> same_objects E0 E ->
  steps E (OEmit s args cn ct) w w' r -> done r ->
  goes_through E s args cn ct w -> w_hook w = None ->
  s_depth (w_sg w s) < RECURSION_LIMIT -> s_eq (w_sg w s) = [] ->
  exists eid t,
    w_tr w' = w_tr w ++ EEmit s args (w_usr w) :: EStart eid s args :: t ++ [EEnd eid s]
    /\ match r with
       | Err e' => (exists e, raised eid t = [e] /\ surfaces s e e')
                   \/ (raised eid t = [] /\ e' = ERecursion /\ s_mode (w_sg w s) = Queued)
       | _ => raised eid t = []
       end.
Proof.
  intros E0 E s w args cn ct w' r HR HO HS Hdone Hg Hh Hd Hq.
  destruct (emit_inv _ _ _ _ _ _ _ _ HS Hg Hh) as (n & HX).
  apply emit_loop_inv in HX; [|exact Hd|exact Hq].
  destruct HX as (w3 & r3 & HLp & [(_ & _ & Hr)|(Hr3 & -> & ->)]); [congruence|].
  cbn [w_sg log set_tr] in HLp.
  set (w0 := log (EEmit s args (w_usr w)) w) in *.
  destruct (started_w s args w0) as (W1 & W2 & W3 & W4 & W5 & _).
  apply loop_of_told in HLp.
  2: { eapply live_same; [apply conn_same_started|]. eapply live_same; [apply conn_same_log|].
       eapply live_objects; [exact HO|]. now apply reachable_live. }
  2: { rewrite W1. lia. }
  destruct HLp as (_ & _ & t & T & K).
  exists (w_nxt w0), t.
  split. { cbn. rewrite T, W2. cbn. rewrite <- !app_assoc. reflexivity. }
  destruct r3 as [v|e|]; cbn [loop_out]; [exact K| |congruence].
  destruct K as [K|(K & -> & Hm)]; [left|right; auto].
  exists e. split; [exact K|apply wrap_surfaces].
Qed.

Theorem emit_fast_raises : forall (E0 E : env U) s w args w' r,
  reachable E0 w -> same_objects E0 E ->
  steps E (OEmitFast s args) w w' r -> done r ->
  s_blocked (w_sg w s) = false -> s_paused (w_sg w s) = false ->
  s_depth (w_sg w s) < RECURSION_LIMIT ->
  exists eid t,
    w_tr w' = w_tr w ++ EEmit s args (w_usr w) :: EStart eid s args :: t ++ [EEnd eid s]
    /\ match r with
       | Err e' => exists e, raised eid t = [e] /\ surfaces s e e'
       | _ => raised eid t = []
       end.
Proof.
  intros E0 E s w args w' r HR HO HS Hdone Hb Hp Hd.
  destruct (fast_inv _ _ _ _ _ _ HS Hb Hp Hd) as (n & w3 & r3 & HLp & [(_ & _ & Hr)|(Hr3 & -> & ->)]);
    [congruence|].
  set (w0 := log (EEmit s args (w_usr w)) w) in *.
  apply loop_slots_told in HLp.
  2: { eapply live_same; [apply conn_same_started_fast|]. eapply live_same; [apply conn_same_log|].
       eapply live_objects; [exact HO|]. now apply reachable_live. }
  2: { cbn. lia. }
  destruct HLp as (_ & _ & t & T & K).
  exists (w_nxt w), t.
  split. { cbn. rewrite T. cbn. rewrite <- !app_assoc. reflexivity. }
  destruct r3 as [v|e|]; cbn [loop_out]; [exact K| |congruence].
  destruct K as [K|(_ & _ & [])].
  exists e. split; [exact K|apply wrap_surfaces].
Qed.
End Theorems.
