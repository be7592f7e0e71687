(** Invariants of every reachable state: callback order, recursion depth, current
    emitter, liveness of receivers.  Proofs only. *)

From Coq Require Import Sorting.Sorted.
From Verif Require Import Base Core Frame Fuel Conn Keep Spec Trace.


(** ** Order of callbacks (C01) *)

Section Order.
Definition ordered (nxt : nat) (st : sigst) : Prop :=
  StronglySorted before (s_slots st)
  /\ Forall (fun c => w_uid c < nxt) (s_slots st)
  /\ (s_prio st = false -> Forall (fun c => w_prio c = 0%Z) (s_slots st)).

Lemma remove_first_In : forall k l l' x, remove_first k l = Some l' -> In x l' -> In x l.
Proof.
  induction l as [|y l IH]; intros l' x H Hx; cbn in H; [discriminate|].
  destruct (key_eqb (w_key y) k).
  - injection H as <-. now right.
  - destruct (remove_first k l) as [r|]; [|discriminate]. injection H as <-.
    destruct Hx as [->|Hx]; [now left|right; eapply IH; eauto].
Qed.
Lemma remove_first_Forall : forall (P : wcb -> Prop) k l l',
  remove_first k l = Some l' -> Forall P l -> Forall P l'.
Proof.
  intros P k l l' H HF. apply Forall_forall. intros x Hx.
  eapply Forall_forall; [exact HF|]. eapply remove_first_In; eauto.
Qed.
Lemma remove_first_sorted : forall (R : wcb -> wcb -> Prop) k l l',
  remove_first k l = Some l' -> StronglySorted R l -> StronglySorted R l'.
Proof.
  induction l as [|y l IH]; intros l' H HS; cbn in H; [discriminate|].
  inversion HS as [|? ? HS' HF]; subst.
  destruct (key_eqb (w_key y) k).
  - now injection H as <-.
  - destruct (remove_first k l) as [r|] eqn:HR; [|discriminate]. injection H as <-.
    constructor; [now apply IH|]. eapply remove_first_Forall; eauto.
Qed.

Lemma insert_prio_In : forall c l x, In x (insert_prio c l) <-> x = c \/ In x l.
Proof.
  induction l as [|y l IH]; intros x; cbn.
  - intuition.
  - destruct (Z.ltb _ _); cbn; [|rewrite IH]; intuition.
Qed.
Lemma insert_prio_sorted : forall c l, StronglySorted before l ->
  Forall (fun x => w_uid x < w_uid c) l -> StronglySorted before (insert_prio c l).
Proof.
  induction l as [|y l IH]; intros HS HF; cbn.
  - constructor; constructor.
  - inversion HS as [|? ? HS' HB]; subst. inversion HF as [|? ? Hu HF']; subst.
    destruct (Z.ltb_spec (w_prio y) (w_prio c)) as [Hp|Hp].
    + constructor; [exact HS|]. constructor; [left; exact Hp|].
      apply Forall_forall. intros x Hx. rewrite Forall_forall in HB.
      destruct (HB x Hx) as [Hb|[Hb _]]; left; lia.
    + constructor; [now apply IH|]. apply Forall_forall. intros x Hx.
      apply insert_prio_In in Hx as [->|Hx].
      * unfold before. destruct (Z.eq_dec (w_prio y) (w_prio c)); [right; auto|left; lia].
      * rewrite Forall_forall in HB. now apply HB.
Qed.

Lemma ordered_append : forall c st, ordered (w_uid c) st -> ordered (S (w_uid c)) (append_slot_base c st).
Proof.
  intros c st (HS & HF & HP).
  assert (HI : StronglySorted before (insert_prio c (s_slots st))
               /\ Forall (fun x => w_uid x < S (w_uid c)) (insert_prio c (s_slots st))).
  { split; [now apply insert_prio_sorted|]. apply Forall_forall. intros x Hx.
    apply insert_prio_In in Hx as [->|Hx]; [lia|]. rewrite Forall_forall in HF.
    specialize (HF x Hx). lia. }
  unfold append_slot_base. destruct (s_prio st) eqn:Hpr; cbn [negb].
  - unfold ordered. cbn. split; [apply HI|split; [apply HI|congruence]].
  - destruct (Z.eqb_spec (w_prio c) 0) as [Hz|Hz].
    + unfold ordered; cbn. specialize (HP eq_refl). repeat split.
      * clear HI Hpr. induction (s_slots st) as [|y l IH]; cbn; [repeat constructor|].
        inversion HS as [|? ? HS' HB]; subst. inversion HF as [|? ? Hu HF']; subst.
        inversion HP as [|? ? Hp HP']; subst.
        constructor; [now apply IH|]. apply Forall_app; split; [exact HB|].
        constructor; [|constructor]. right. split; [congruence|exact Hu].
      * apply Forall_app; split; [eapply Forall_impl; [|exact HF]; cbn; intros; lia|].
        constructor; [lia|constructor].
      * intros _. apply Forall_app; split; [exact HP|]. constructor; [exact Hz|constructor].
    + unfold ordered; cbn. split; [apply HI|split; [apply HI|discriminate]].
Qed.
Lemma ordered_mono : forall n m st, n <= m -> ordered n st -> ordered m st.
Proof.
  intros n m st Hn (H1 & H2 & H3). split; [exact H1|split; [|exact H3]].
  eapply Forall_impl; [|exact H2]. cbn; intros; lia.
Qed.
Lemma ordered_remove : forall n k l st, remove_first k (s_slots st) = Some l ->
  ordered n st -> ordered n (set_slots l st).
Proof.
  intros n k l st HR (H1 & H2 & H3). repeat split; cbn.
  - eapply remove_first_sorted; eauto.
  - eapply remove_first_Forall; eauto.
  - intros Hp. eapply remove_first_Forall; [exact HR|]. now apply H3.
Qed.

Lemma ordered_cstep : forall {U} (E : env U) (w w' : world U), cstep E true w w' ->
  (forall s, ordered (w_nxt w) (w_sg w s)) -> (forall s, ordered (w_nxt w') (w_sg w' s)).
Proof.
  intros U E w w' HS H s. inversion HS; subst.
  - destruct H0 as (Hc & _ & _ & Hn). destruct (Hc s) as (E1 & E2 & _).
    apply (ordered_mono (w_nxt w)); [exact Hn|]. unfold ordered. rewrite E1, E2. apply H.
  - assert (Hn : w_nxt (upd s0 (append_slot_base c) (reg s0 c (set_nxt (S (w_nxt w)) w)))
                 = S (w_nxt w)) by (unfold reg; destruct (w_ref c); reflexivity).
    rewrite Hn. dec_sid s s0.
    + rewrite upd_same. rewrite <- H0. apply ordered_append. rewrite H0.
      unfold reg; destruct (w_ref c); apply H.
    + rewrite upd_other by assumption. apply (ordered_mono (w_nxt w)); [lia|].
      unfold reg; destruct (w_ref c); apply H.
  - cbn [w_nxt upd set_sg]. dec_sid s s0; [rewrite upd_same|rewrite upd_other by assumption; apply H].
    eapply ordered_remove; eauto.
  - cbn [w_nxt upd set_sg]. dec_sid s s0; [rewrite upd_same|rewrite upd_other by assumption; apply H].
    unfold ordered; cbn. repeat split; constructor.
  - apply H.
Qed.

Theorem reachable_ordered : forall {U} (E : env U) w, reachable E w ->
  forall s, ordered (w_nxt w) (w_sg w s).
Proof.
  intros U E w HR. eapply (reachable_inv E (fun w => forall s, ordered (w_nxt w) (w_sg w s)));
    [apply ordered_cstep| |exact HR].
  intros cfg u Hc s. destruct (Hc s) as (H1 & H2 & _). cbn.
  unfold ordered. rewrite H1. repeat split; constructor.
Qed.
End Order.

(** ** A frame rule for properties that callbacks see *)

Section Stack.
Context {U : Type} (E : env U).
Variable A : op U -> Prop.
Variable J : world U -> Prop.
Hypothesis Jrestore : forall own (w w' : world U) r, based_gen own w w' r -> done r -> J w -> J w'.
Hypothesis Jstart : forall s args w, s_depth (w_sg w s) < RECURSION_LIMIT ->
  s_eq (w_sg w s) = [] -> J w -> J (started s args w).
Hypothesis Jfast : forall s args w, A (OEmitFast s args) -> s_depth (w_sg w s) < RECURSION_LIMIT ->
  J w -> J (started_fast s args w).
Hypothesis Jcall : forall dq eid s uid a w, J w -> J (log (ev_call dq eid s uid a) w).

Definition seen (w w' : world U) (r : out) : Prop := based w w' r /\ (J w -> J w').
Definition seen_loop (eid : nat) (s : sid) (w w' : world U) (r : out) : Prop :=
  based_loop eid s w w' r /\ (eid < w_nxt w -> J w -> J w').

Lemma seen_done : forall w w' r, based w w' (Ok VNone) -> based w w' r -> seen w w' r.
Proof. intros w w' r H1 H2. split; [exact H2|]. eapply Jrestore; [exact H1|discriminate]. Qed.

Lemma framed_seen : framed E A (fun _ => True) seen seen_loop.
Proof.
  pose proof (framed_based E) as FB.
  constructor; intros; auto.
  - split; [apply based_gen_refl|auto].
  - destruct H as [H J1], H1 as [H1 J2]. split; [eapply (fr_trans _ _ _ _ _ FB); eauto|auto].
  - split; [apply (fr_qrefl _ _ _ _ _ FB)|auto].
  - destruct H as [H J1], H1 as [H1 J2]. split; [eapply (fr_qtrans _ _ _ _ _ FB); eauto|].
    intros Hlt Jw. pose proof (bg_nxt _ _ _ _ (H Hlt)). apply J2; [lia|auto].
  - pose proof (pure_keeps _ _ _ _ _ H0 H1) as HK.
    apply seen_done; apply based_keeps; exact HK.
  - apply seen_done; apply (fr_emit _ _ _ _ _ FB); exact I.
  - apply seen_done; apply (fr_pause _ _ _ _ _ FB); auto.
  - apply seen_done; apply (fr_hook _ _ _ _ _ FB); exact I.
  - apply seen_done; apply (fr_queued _ _ _ _ _ FB); auto.
  - destruct H2 as [HB HJ].
    pose proof (fr_loop _ _ _ _ _ FB s args w w' r H H0 H1 HB) as HL.
    destruct r.
    + split; [exact HL|]. eapply Jrestore; [exact HL|discriminate].
    + split; [exact HL|]. eapply Jrestore; [exact HL|discriminate].
    + split; [exact HL|]. intros Jw. apply HJ; [|now apply Jstart].
      rewrite (proj1 (started_w s args w)). lia.
  - destruct H1 as [HB HJ].
    pose proof (fr_fast _ _ _ _ _ FB s args w w' r H H0 HB I) as HL.
    destruct r.
    + split; [exact HL|]. eapply Jrestore; [exact HL|discriminate].
    + split; [exact HL|]. eapply Jrestore; [exact HL|discriminate].
    + split; [exact HL|]. intros Jw. apply HJ; [cbn; lia|now apply Jfast].
  - destruct H0 as [HB HJ].
    pose proof (fr_call _ _ _ _ _ FB eid s c a w w' r H HB H1) as HL.
    destruct r.
    + split; [exact HL|]. intros Hlt. eapply Jrestore; [exact (HL Hlt)|discriminate].
    + split; [exact HL|]. intros Hlt. eapply Jrestore; [exact (HL Hlt)|discriminate].
    + split; [exact HL|]. intros Hlt Jw. apply HJ. now apply (Jcall false).
  - destruct H0 as [HB HJ].
    pose proof (fr_dcall _ _ _ _ _ FB eid s c a w w' r H HB) as HL.
    destruct r.
    + split; [exact HL|]. eapply Jrestore; [exact HL|discriminate].
    + split; [exact HL|]. eapply Jrestore; [exact HL|discriminate].
    + split; [exact HL|]. intros Jw. apply HJ. now apply (Jcall true).
  - split; [now apply (fr_defer _ _ _ _ _ FB)|]. intros Hlt.
    eapply Jrestore with (r := Ok VNone); [|discriminate].
    exact (fr_defer _ _ _ _ _ FB eid s c t args w (Ok VNone) H H0 H1 Hlt).
  - apply seen_done; apply (fr_unpause _ _ _ _ _ FB); (exact rd || exact I).
  - apply seen_done; apply (fr_clear _ _ _ _ _ FB); (exact rd || exact I).
  - apply seen_done; eapply (fr_pop _ _ _ _ _ FB); eauto.
Qed.

Theorem runs_seen : forall p w w' r, env_all A E -> prog_all A p ->
  runs E p w w' r -> J w -> J w'.
Proof.
  intros p w w' r HE Hp H. eapply frame_runs in H; [|apply framed_seen|exact HE|exact Hp].
  apply H.
Qed.
End Stack.

(** ** Recursion depth (C07) *)

Section Depth.
Context {U : Type}.

Lemma nested_in_progress : forall (t : list (event U)) s, nested t -> in_progress s t = 0%Z.
Proof.
  intros t s H; induction H; cbn; auto; rewrite ?in_progress_app; cbn; try lia.
  destruct (Nat.eqb _ s); lia.
Qed.

Definition depth_ok (w : world U) : Prop :=
  forall s, s_depth (w_sg w s) <= RECURSION_LIMIT
            /\ in_progress s (w_tr w) = Z.of_nat (s_depth (w_sg w s)).

Lemma runs_depth_ok : forall (E : env U) p w w' r, runs E p w w' r -> depth_ok w -> depth_ok w'.
Proof.
  intros E p w w' r. apply (runs_seen E (fun _ => True)); [| | | |apply env_all_true|apply prog_all_true].
  - intros own a b r0 HB Hd H s. destruct HB as [_ _ (t & T & _ & D)]. specialize (D Hd).
    rewrite (be_depth _ _ _ D), T, in_progress_app, (nested_in_progress t); [|apply D].
    destruct (H s). split; lia.
  - intros s args a Hd Hq H x. destruct (started_w s args a) as (_ & W2 & _).
    rewrite W2, in_progress_app. destruct (H x) as [H1 H2]. cbn [in_progress].
    dec_sid x s.
    + rewrite (proj1 (proj2 (started_sg_same s args a Hq))), Nat.eqb_refl. lia.
    + rewrite started_sg_other by assumption.
      destruct (Nat.eqb_spec s x); [congruence|]. lia.
  - intros s args a _ Hd H x. change (w_tr (started_fast s args a))
      with (w_tr a ++ [EStart (w_nxt a) s args]).
    rewrite in_progress_app. destruct (H x) as [H1 H2]. cbn [in_progress].
    dec_sid x s.
    + rewrite started_fast_sg_same, Nat.eqb_refl. cbn [s_depth set_depth]. lia.
    + rewrite started_fast_sg_other by assumption.
      destruct (Nat.eqb_spec s x); [congruence|]. lia.
  - intros dq eid s uid a0 a H x. destruct (H x). cbn [log w_sg set_tr w_tr].
    rewrite in_progress_app. destruct dq; cbn; lia.
Qed.

Lemma reachable_depth_ok : forall (E : env U) w, reachable E w -> depth_ok w.
Proof.
  intros E w (cfg & u & p & r & Hc & _ & HR). eapply runs_depth_ok; [exact HR|].
  intros s. cbn. destruct (Hc s) as (_ & _ & _ & _ & _ & _ & -> & _). split; [lia|reflexivity].
Qed.
End Depth.

(** ** The queue of a signal that is not in queued mode is empty; so is the queue of
    a signal that is not being emitted. *)

Section Queue.
Context {U : Type}.

Definition eq_ok (w : world U) : Prop :=
  forall s, (s_mode (w_sg w s) <> Queued \/ s_depth (w_sg w s) = 0) -> s_eq (w_sg w s) = [].

Lemma runs_eq_ok : forall (E : env U) p w w' r, runs E p w w' r -> eq_ok w -> eq_ok w'.
Proof.
  intros E p w w' r. apply (runs_seen E (fun _ => True)); [| | | |apply env_all_true|apply prog_all_true].
  - intros own a b r0 HB Hd H s Hs. destruct HB as [B1 _ (t & T & _ & D)]. specialize (D Hd).
    rewrite (be_eq _ _ _ D). rewrite (be_depth _ _ _ D) in Hs.
    specialize (B1 s). unfold static in B1. injection B1 as B1 _ _ _ _. rewrite B1 in Hs.
    rewrite (H s Hs). reflexivity.
  - intros s args a Hd Hq H x Hx. dec_sid x s.
    + destruct (started_sg_same s args a Hq) as (S1 & S2 & _ & S3). rewrite S3.
      unfold static in S1. injection S1 as S1 _ _ _ _. rewrite S1, S2 in Hx.
      destruct (s_mode (w_sg a s)); auto. destruct Hx; congruence.
    + rewrite started_sg_other in * by assumption. now apply H.
  - intros s args a _ Hd H x Hx. dec_sid x s.
    + rewrite started_fast_sg_same in *. cbn in *. destruct Hx as [Hx|Hx]; [|discriminate].
      apply H. now left.
    + rewrite started_fast_sg_other in * by assumption. now apply H.
  - intros dq eid s uid a0 a H. exact H.
Qed.
Lemma reachable_eq_ok : forall (E : env U) w, reachable E w -> eq_ok w.
Proof.
  intros E w (cfg & u & p & r & Hc & _ & HR). eapply runs_eq_ok; [exact HR|].
  intros s _. cbn. apply Hc.
Qed.
End Queue.

(** ** The current emitter (C22) *)

Section Emitter.
Context {U : Type}.

(** The signals whose emit() is running, innermost first.  emit_fast does not count. *)
Lemma runs_cur : forall (E : env U) p w w' r, runs E p w w' r -> done r -> w_cur w' = w_cur w.
Proof.
  intros E p w w' r H Hd. destruct (runs_based _ _ _ _ _ H) as [_ _ (t & _ & _ & D)].
  apply D; exact Hd.
Qed.
End Emitter.

(** ** Groups stay flat. *)
Section Flat.
Context {U : Type}.

Lemma static_members : forall st st', static st' = static st -> s_members st' = s_members st.
Proof. intros st st' H. unfold static in H. now injection H as _ _ _ _ H. Qed.
Lemma flat_static : forall (w w' : world U), (forall s, static (w_sg w' s) = static (w_sg w s)) ->
  flat w -> flat w'.
Proof.
  intros w w' Hs H r ms n m Hr Hi. rewrite (static_members _ _ (Hs r)) in Hr.
  rewrite (static_members _ _ (Hs m)). eapply H; eauto.
Qed.
Lemma reachable_flat : forall (E : env U) w, reachable E w -> flat w.
Proof.
  intros E w (cfg & u & p & r & Hc & Hf & HR).
  eapply flat_static; [|exact Hf]. apply (runs_based _ _ _ _ _ HR).
Qed.
End Flat.

(** ** The current emitter *)

Section Current.
Context {U : Type}.

Lemma emitters_app : forall (a b : list (event U)) l, emitters (a ++ b) l = emitters b (emitters a l).
Proof. induction a as [|e a IH]; intros b l; cbn; [reflexivity|]. destruct e; apply IH. Qed.
Lemma nested_emitters : forall (t : list (event U)) l, nested t -> emitters t l = l.
Proof.
  intros t l H; revert l; induction H; intros l; cbn; auto; rewrite ?emitters_app; cbn;
    rewrite ?IHnested1; cbn; auto.
Qed.

Definition cur_ok (w : world U) : Prop := w_cur w = hd_error (emitters (w_tr w) []).

Lemma runs_cur_ok : forall (E : env U) p w w' r, env_all never_fast E -> prog_all never_fast p ->
  runs E p w w' r -> cur_ok w -> cur_ok w'.
Proof.
  intros E p w w' r HE Hp. apply (runs_seen E never_fast); [| | | |exact HE|exact Hp].
  - intros own a b r0 HB Hd H. destruct HB as [_ _ (t & T & _ & D)]. specialize (D Hd).
    unfold cur_ok. rewrite (be_cur _ _ _ D), T, emitters_app, nested_emitters; [exact H|apply D].
  - intros s args a Hd Hq H. destruct (started_w s args a) as (_ & W2 & W3 & _).
    unfold cur_ok. rewrite W2, W3, emitters_app. reflexivity.
  - intros s args a [].
  - intros dq eid s uid a0 a H. unfold cur_ok in *. cbn. rewrite emitters_app.
    destruct dq; exact H.
Qed.
End Current.
