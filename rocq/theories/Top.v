(** Who calls callbacks (C22), and how deep emissions were nested (C10).
    Proof infrastructure. *)

From Verif Require Import Base Core Frame Fuel Conn Keep Spec Trace Inv Emission.

Section Top.
Context {U : Type} (E : env U).

Lemma by_innermost_app : forall (a b : list (event U)) l,
  by_innermost (a ++ b) l <-> by_innermost a l /\ by_innermost b (emitters a l).
Proof.
  induction a as [|e a IH]; intros b l; [cbn; tauto|].
  destruct e; cbn; rewrite ?IH; tauto.
Qed.

Definition top_end (w w' : world U) (r : out) (ok : list sid -> Prop) : Prop :=
  exists t, w_tr w' = w_tr w ++ t /\ (done r -> forall l, emitters t l = l)
    /\ forall l, ok l -> by_innermost t l.
Definition tops w w' r := top_end w w' r (fun _ => True).
Definition tops_loop (eid : nat) (s : sid) w w' r := top_end w w' r (fun l => hd_error l = Some s).

Lemma top_refl : forall w r ok, top_end w w r ok.
Proof. intros. exists []. rewrite app_nil_r. repeat split. Qed.
Lemma top_trans : forall a b c r r' ok, top_end a b r ok -> done r -> top_end b c r' ok -> top_end a c r' ok.
Proof.
  intros a b c r r' ok (t1 & T1 & D1 & B1) Hd (t2 & T2 & D2 & B2).
  exists (t1 ++ t2). split; [rewrite T2, T1, app_assoc; reflexivity|]. split.
  - intros Hd' l. rewrite emitters_app, (D1 Hd). now apply D2.
  - intros l Hl. apply by_innermost_app. split; [now apply B1|]. rewrite (D1 Hd). now apply B2.
Qed.
Lemma top_same : forall w w' r ok, w_tr w' = w_tr w -> top_end w w' r ok.
Proof. intros w w' r ok H. exists []. rewrite app_nil_r. repeat split. exact H. Qed.
Lemma top_log : forall e (w w' : world U) r (ok : list sid -> Prop), w_tr w' = w_tr w ++ [e] ->
  (forall l, emitters [e] l = l) -> (forall l, ok l -> by_innermost [e] l) -> top_end w w' r ok.
Proof. intros e w w' r ok H1 H2 H3. exists [e]. auto. Qed.

Lemma framed_top : framed E (fun _ => True) (fun _ => True) tops tops_loop.
Proof.
  constructor; intros; auto; try apply top_refl; try (eapply top_trans; eassumption);
    try (apply top_same; reflexivity).
  - apply top_same. now destruct (pure_keeps _ _ _ _ _ H0 H1) as (_ & _ & K3 & _).
  - eapply top_log; [reflexivity|reflexivity|cbn; auto].
  - eapply top_log; [reflexivity|reflexivity|cbn; auto].
  - eapply top_log; [reflexivity|reflexivity|cbn; auto].
  - destruct H2 as (t & T & D & B). destruct (started_w s args w) as (_ & W2 & _).
    assert (K : forall r', done r -> tops w (leave s (w_cur w) (log (EEnd (w_nxt w) s) w')) r').
    { intros r' Hr. exists (EStart (w_nxt w) s args :: t ++ [EEnd (w_nxt w) s]). split; [|split].
      - cbn. rewrite T, W2. cbn. now rewrite <- !app_assoc.
      - intros _ l. cbn. rewrite emitters_app, (D Hr). reflexivity.
      - intros l _. cbn. rewrite by_innermost_app. split; [now apply B|]. rewrite (D Hr). cbn. auto. }
    destruct r; [apply K; discriminate|apply K; discriminate|].
    exists (EStart (w_nxt w) s args :: t). split; [|split].
    + rewrite T, W2. cbn. now rewrite <- !app_assoc.
    + congruence.
    + intros l _. cbn. now apply B.
  - destruct H1 as (t & T & D & B).
    assert (K : forall r', done r -> tops w (left_fast s (log (EEnd (w_nxt w) s) w')) r').
    { intros r' Hr. exists (EStart (w_nxt w) s args :: t ++ [EEnd (w_nxt w) s]). split; [|split].
      - cbn. rewrite T. cbn. now rewrite <- !app_assoc.
      - intros _ l. cbn. rewrite emitters_app, (D Hr). reflexivity.
      - intros l _. cbn. rewrite by_innermost_app. split; [now apply B|]. rewrite (D Hr). cbn. auto. }
    destruct r; [apply K; discriminate|apply K; discriminate|].
    exists (EStart (w_nxt w) s args :: t). split; [|split].
    + rewrite T. cbn. now rewrite <- !app_assoc.
    + congruence.
    + intros l _. cbn. now apply B.
  - destruct H0 as (t & T & D & B).
    assert (K : forall e, emitters [e] = (fun l : list sid => l) -> (forall l, by_innermost [e] l) -> done r ->
              tops_loop eid s w (log e w') r).
    { intros e He He' Hr. exists (ECall eid s (w_uid c) a :: t ++ [e]). split; [|split].
      - cbn. rewrite T. cbn. now rewrite <- !app_assoc.
      - intros _ l. cbn [emitters]. rewrite emitters_app, (D Hr), He. reflexivity.
      - intros l Hl. cbn [by_innermost]. split; [exact Hl|].
        rewrite by_innermost_app. split; [now apply B|]. apply He'. }
    destruct r; [apply K; cbn; auto; discriminate|apply K; cbn; auto; discriminate|].
    exists (ECall eid s (w_uid c) a :: t). split; [|split].
    + rewrite T. cbn. now rewrite <- !app_assoc.
    + congruence.
    + intros l Hl. cbn. auto.
  - destruct H0 as (t & T & D & B).
    assert (K : forall e, emitters [e] = (fun l : list sid => l) -> (forall l, by_innermost [e] l) -> done r ->
              tops w (log e w') r).
    { intros e He He' Hr. exists (EDCall eid s (w_uid c) a :: t ++ [e]). split; [|split].
      - cbn. rewrite T. cbn. now rewrite <- !app_assoc.
      - intros _ l. cbn [emitters]. rewrite emitters_app, (D Hr), He. reflexivity.
      - intros l Hl. cbn [by_innermost].
        rewrite by_innermost_app. split; [now apply B|]. apply He'. }
    destruct r; [apply K; cbn; auto; discriminate|apply K; cbn; auto; discriminate|].
    exists (EDCall eid s (w_uid c) a :: t). split; [|split].
    + rewrite T. cbn. now rewrite <- !app_assoc.
    + congruence.
    + intros l Hl. cbn. auto.
  - eapply top_log; [reflexivity|reflexivity|cbn; auto].
  - eapply top_log; [reflexivity|reflexivity|cbn; auto].
Qed.

Theorem reachable_by_innermost : forall w, reachable E w -> by_innermost (w_tr w) [].
Proof.
  intros w (cfg & u & p & r & Hc & _ & HR).
  destruct (frame_runs E _ _ _ _ framed_top (env_all_true E) p _ _ _ (prog_all_true p) HR) as (t & T & _ & B).
  cbn in T. rewrite T. now apply B.
Qed.
End Top.

(** ** Levels of a signal on which emit_fast is not used. *)
Section Levels.
Context {U : Type} (E : env U) (s : sid).

Lemma levels_app : forall (a b : list (event U)) x, levels s (a ++ b) x = levels s b (levels s a x).
Proof. induction a as [|e a IH]; intros b x; cbn; [reflexivity|]. destruct e; apply IH. Qed.

Definition leveled (w : world U) : Prop :=
  (s_depth (w_sg w s), s_max (w_sg w s)) = levels s (w_tr w) (0, 0).

Lemma leveled_same : forall w w', s_depth (w_sg w' s) = s_depth (w_sg w s) ->
  s_max (w_sg w' s) = s_max (w_sg w s) -> w_tr w' = w_tr w -> leveled w -> leveled w'.
Proof. unfold leveled. intros w w' -> -> ->. auto. Qed.
Lemma leveled_log : forall e w, (forall x, levels s [e] x = x) -> leveled w -> leveled (log e w).
Proof. unfold leveled. intros e w He H. cbn. rewrite levels_app, He. exact H. Qed.
Lemma leveled_upd : forall x f (w : world U), (forall st, s_depth (f st) = s_depth st) ->
     (forall st, s_max (f st) = s_max st) -> leveled w -> leveled (upd x f w).
Proof.
  intros x f w H1 H2. apply leveled_same; [| |reflexivity].
  - destruct (Nat.eq_dec s x) as [<-|Hx]; [rewrite upd_same|rewrite upd_other]; auto.
  - destruct (Nat.eq_dec s x) as [<-|Hx]; [rewrite upd_same|rewrite upd_other]; auto.
Qed.

Lemma framed_levels : framed E (no_fast s) (fun _ => True)
  (fun w w' _ => leveled w -> leveled w') (fun _ _ w w' _ => leveled w -> leveled w').
Proof.
  assert (HX : forall x, x <> s -> Nat.eqb x s = false) by (intros; now apply Nat.eqb_neq).
  constructor; intros; auto.
  - revert H2. destruct (pure_keeps _ _ _ _ _ H0 H1) as (K1 & _ & K3 & _). destruct (K1 s) as [_ Hb].
    unfold busy in Hb. injection Hb as _ _ B1 B2. now apply leveled_same.
  - now apply leveled_log.
  - now apply leveled_upd.
  - now apply leveled_log.
  - apply leveled_log; [reflexivity|]. now apply leveled_upd.
  - assert (HI : leveled w -> leveled w').
    { intros Hc. apply H2. unfold leveled in *. destruct (started_w s0 args w) as (_ & W2 & _).
      rewrite W2, levels_app, <- Hc. cbn. destruct (Nat.eq_dec s s0) as [<-|Hx].
      - destruct (started_sg_same s args w H1) as (_ & S2 & S3 & _). rewrite S2, S3, Nat.eqb_refl. reflexivity.
      - rewrite started_sg_other by exact Hx. rewrite HX by congruence. reflexivity. }
    assert (HL : leveled w -> leveled (leave s0 (w_cur w) (log (EEnd (w_nxt w) s0) w'))).
    { intros Hc. specialize (HI Hc). unfold leveled in *. 
      change (w_tr (leave s0 (w_cur w) (log (EEnd (w_nxt w) s0) w'))) with (w_tr w' ++ [@EEnd U (w_nxt w) s0]).
      rewrite levels_app, <- HI. cbn [levels fst snd]. destruct (Nat.eq_dec s s0) as [<-|Hx].
      - unfold leave. rewrite upd_same. cbn [w_sg set_cur log set_tr]. cbv zeta. rewrite Nat.eqb_refl.
        destruct (Nat.leb_spec (s_depth (w_sg w' s) - 1) 0); cbn; f_equal; lia.
      - rewrite leave_sg_other by exact Hx. rewrite HX by congruence. reflexivity. }
    destruct r; auto.
  - cbn in H2.
    assert (HI : leveled w -> leveled w').
    { intros Hc. apply H1. unfold leveled in *. 
      change (w_tr (started_fast s0 args w)) with (w_tr w ++ [@EStart U (w_nxt w) s0 args]).
      rewrite levels_app, <- Hc. cbn [levels]. rewrite started_fast_sg_other by congruence.
      rewrite HX by congruence. reflexivity. }
    assert (HL : leveled w -> leveled (left_fast s0 (log (EEnd (w_nxt w) s0) w'))).
    { intros Hc. specialize (HI Hc). unfold leveled in *.
      change (w_tr (left_fast s0 (log (EEnd (w_nxt w) s0) w'))) with (w_tr w' ++ [@EEnd U (w_nxt w) s0]).
      rewrite levels_app, <- HI. cbn [levels]. rewrite left_fast_sg_other by congruence.
      rewrite HX by congruence. reflexivity. }
    destruct r; auto.
  - assert (K : leveled w -> leveled w') by (intros; apply H0; now apply leveled_log).
    destruct r; auto; intros; apply leveled_log; auto.
  - assert (K : leveled w -> leveled w') by (intros; apply H0; now apply leveled_log).
    destruct r; auto; intros; apply leveled_log; auto.
  - now apply leveled_log.
  - now apply leveled_upd.
  - now apply leveled_upd.
  - now apply leveled_log.
Qed.

Theorem reachable_leveled : forall w, reachable_by (no_fast s) E w -> leveled w.
Proof.
  intros w (HE & cfg & u & p & r & Hc & _ & Hp & HR).
  refine (frame_runs E (no_fast s) (fun _ => True) (fun w w' _ => leveled w -> leveled w') _ framed_levels
            HE _ _ _ _ Hp HR _).
  unfold leveled. cbn. destruct (Hc s) as (_ & _ & _ & _ & _ & _ & -> & -> & _). reflexivity.
Qed.

(** A queued signal that is being emitted has a non-empty queue. *)
Definition filled (w : world U) : Prop :=
  s_mode (w_sg w s) = Queued -> s_depth (w_sg w s) <> 0 -> s_eq (w_sg w s) <> [].
Lemma runs_filled : forall p w w' r, env_all (no_fast s) E -> prog_all (no_fast s) p ->
  runs E p w w' r -> filled w -> filled w'.
Proof.
  intros p w w' r HE Hp. apply (runs_seen E (no_fast s)); [| | | |exact HE|exact Hp].
  - intros own a b r0 HB Hd H Hm Hn. destruct HB as [B1 _ (t & T & _ & D)]. specialize (D Hd).
    specialize (B1 s). unfold static in B1. injection B1 as B1 _ _ _ _. rewrite B1 in Hm.
    rewrite (be_depth _ _ _ D) in Hn. specialize (H Hm Hn). rewrite (be_eq _ _ _ D).
    destruct (s_eq (w_sg a s)); cbn; congruence.
  - intros x args a Hd Hq H Hm Hn. destruct (Nat.eq_dec s x) as [<-|Hx].
    + destruct (started_sg_same s args a Hq) as (S1 & S2 & _ & S3). rewrite S3.
      unfold static in S1. injection S1 as S1 _ _ _ _. rewrite S1 in Hm. rewrite Hm. discriminate.
    + unfold filled in *. rewrite started_sg_other in * by assumption. now apply H.
  - intros x args a Hx Hd H. cbn in Hx. unfold filled in *.
    rewrite started_fast_sg_other by congruence. exact H.
  - intros dq eid x uid a0 a H. exact H.
Qed.
Theorem reachable_filled : forall w, reachable_by (no_fast s) E w -> filled w.
Proof.
  intros w (HE & cfg & u & p & r & Hc & _ & Hp & HR). eapply runs_filled; eauto.
  intros _ Hn. cbn in Hn. destruct (Hc s) as (_ & _ & _ & _ & _ & _ & H & _). congruence.
Qed.
End Levels.
