(** Two runs side by side: worlds that differ only in Signal._current_emitter and in
    the _max_recursion_depth of signals that do not use it.
    Proof infrastructure; models no code. *)

From Verif Require Import Base Core Frame Fuel Spec.

(** Calls that do not ask for the current emitter. *)
Definition unasking {U} (o : op U) : Prop :=
  match o with OCurrent | ORelay _ _ => False | _ => True end.

(** The same signal up to the unused _max_recursion_depth. *)
Definition like (m : mode) (a b : sigst) : Prop :=
  set_max 0 a = set_max 0 b /\ s_members a = None /\ s_mode a = m
  /\ (m = LatestOnly -> s_max a = s_max b).

Record alike {U} (M : sid -> mode) (w v : world U) : Prop := Alike {
  al_sg : forall x, like (M x) (w_sg w x) (w_sg v x);
  al_hook : w_hook w = w_hook v;
  al_dead : w_dead w = w_dead v;
  al_refs : w_refs w = w_refs v;
  al_tq : w_tq w = w_tq v;
  al_me : w_me w = w_me v;
  al_nxt : w_nxt w = w_nxt v;
  al_tr : w_tr w = w_tr v;
  al_usr : w_usr w = w_usr v
}.

(** Results of the two runs. *)
Definition sim {U} (M : sid -> mode) (a b : option (world U * out)) : Prop :=
  match a, b with
  | Some (w, r), Some (v, r') => alike M w v /\ r = r'
  | None, None => True
  | _, _ => False
  end.
Definition sim2 {U} (M : sid -> mode) (a b : world U * out) : Prop := alike M (fst a) (fst b) /\ snd a = snd b.

Section Like.
Lemma like_proj : forall {X} (f : sigst -> X), (forall n st, f (set_max n st) = f st) ->
  forall m a b, like m a b -> f a = f b.
Proof. intros X f Hf m a b [H _]. rewrite <- (Hf 0 a), <- (Hf 0 b). now rewrite H. Qed.
Lemma like_slots : forall m a b, like m a b -> s_slots a = s_slots b.
Proof. now apply like_proj. Qed.
Lemma like_prio : forall m a b, like m a b -> s_prio a = s_prio b.
Proof. now apply like_proj. Qed.
Lemma like_blocked : forall m a b, like m a b -> s_blocked a = s_blocked b.
Proof. now apply like_proj. Qed.
Lemma like_paused : forall m a b, like m a b -> s_paused a = s_paused b.
Proof. now apply like_proj. Qed.
Lemma like_args : forall m a b, like m a b -> s_args a = s_args b.
Proof. now apply like_proj. Qed.
Lemma like_eq : forall m a b, like m a b -> s_eq a = s_eq b.
Proof. now apply like_proj. Qed.
Lemma like_depth : forall m a b, like m a b -> s_depth a = s_depth b.
Proof. now apply like_proj. Qed.
Lemma like_mode : forall m a b, like m a b -> s_mode a = s_mode b.
Proof. now apply like_proj. Qed.
Lemma like_params : forall m a b, like m a b -> s_params a = s_params b.
Proof. now apply like_proj. Qed.
Lemma like_chkn : forall m a b, like m a b -> s_chkn a = s_chkn b.
Proof. now apply like_proj. Qed.
Lemma like_chkt : forall m a b, like m a b -> s_chkt a = s_chkt b.
Proof. now apply like_proj. Qed.
Lemma like_none : forall m a b, like m a b -> s_members a = None /\ s_members b = None.
Proof.
  intros m a b H. assert (s_members a = s_members b) by (revert m a b H; now apply like_proj).
  destruct H as (_ & H1 & _). split; congruence.
Qed.
(** An update that does not look at _max_recursion_depth. *)
Lemma like_map : forall m f a b, (forall n st, f (set_max n st) = set_max n (f st)) ->
  (forall st, s_max (f st) = s_max st) -> (forall st, s_members (f st) = s_members st) ->
  (forall st, s_mode (f st) = s_mode st) ->
  like m a b -> like m (f a) (f b).
Proof.
  intros m f a b Hf Hm Hn Hd (H1 & H2 & H3 & H4). split; [|split; [|split]].
  - rewrite <- !Hf. now rewrite H1.
  - now rewrite Hn.
  - now rewrite Hd.
  - rewrite !Hm. exact H4.
Qed.
End Like.

Section Alike.
Context {U : Type}.
Implicit Types w v : world U.
Variable M : sid -> mode.
Local Notation alike := (alike M).
Local Notation sim := (sim M).
Local Notation sim2 := (sim2 M).

Lemma alike_upd : forall s f g w v, alike w v -> like (M s) (f (w_sg w s)) (g (w_sg v s)) ->
  alike (upd s f w) (upd s g v).
Proof.
  intros s f g w v H Hf. destruct H. constructor; try assumption.
  intros x. destruct (Nat.eq_dec x s) as [->|n]; [now rewrite !upd_same|now rewrite !upd_other].
Qed.
Lemma alike_upd_map : forall s f w v,
  (forall n st, f (set_max n st) = set_max n (f st)) ->
  (forall st, s_max (f st) = s_max st) -> (forall st, s_members (f st) = s_members st) ->
  (forall st, s_mode (f st) = s_mode st) ->
  alike w v -> alike (upd s f w) (upd s f v).
Proof. intros. apply alike_upd; auto. apply like_map; auto. apply al_sg; auto. Qed.
Lemma alike_log : forall e w v, alike w v -> alike (log e w) (log e v).
Proof. intros e w v []. constructor; cbn; try assumption; congruence. Qed.
Lemma alike_nxt : forall n w v, alike w v -> alike (set_nxt n w) (set_nxt n v).
Proof. intros n w v []. constructor; cbn; try assumption; congruence. Qed.
Lemma alike_cur : forall c d w v, alike w v -> alike (set_cur c w) (set_cur d v).
Proof. intros c d w v []. constructor; cbn; assumption. Qed.
Lemma alike_tq : forall q w v, alike w v -> alike (set_tq q w) (set_tq q v).
Proof. intros n w v []. constructor; cbn; try assumption; congruence. Qed.
Lemma alike_me : forall n w v, alike w v -> alike (set_me n w) (set_me n v).
Proof. intros n w v []. constructor; cbn; try assumption; congruence. Qed.
Lemma alike_hook : forall n w v, alike w v -> alike (set_hook n w) (set_hook n v).
Proof. intros n w v []. constructor; cbn; try assumption; congruence. Qed.
Lemma alike_usr : forall n w v, alike w v -> alike (set_usr n w) (set_usr n v).
Proof. intros n w v []. constructor; cbn; try assumption; congruence. Qed.
Lemma alike_dead : forall n w v, alike w v -> alike (set_dead n w) (set_dead n v).
Proof. intros n w v []. constructor; cbn; try assumption; congruence. Qed.
Lemma alike_refs : forall n w v, alike w v -> alike (set_refs n w) (set_refs n v).
Proof. intros n w v []. constructor; cbn; try assumption; congruence. Qed.

Lemma sim2_ok : forall w v r, alike w v -> sim2 (w, r) (v, r).
Proof. now split. Qed.

Lemma append_max : forall c n st, append_slot_base c (set_max n st) = set_max n (append_slot_base c st).
Proof. intros. unfold append_slot_base. cbn. destruct (s_prio st); cbn; [reflexivity|]. now destruct (Z.eqb _ _). Qed.
Lemma append_smax : forall c st, s_max (append_slot_base c st) = s_max st.
Proof. intros. unfold append_slot_base. destruct (s_prio st); cbn; [reflexivity|]. now destruct (Z.eqb _ _). Qed.
Lemma append_smem : forall c st, s_members (append_slot_base c st) = s_members st.
Proof. intros. unfold append_slot_base. destruct (s_prio st); cbn; [reflexivity|]. now destruct (Z.eqb _ _). Qed.
Lemma append_smode : forall c st, s_mode (append_slot_base c st) = s_mode st.
Proof. intros. unfold append_slot_base. destruct (s_prio st); cbn; [reflexivity|]. now destruct (Z.eqb _ _). Qed.

Lemma alike_append : forall s c w v, alike w v -> alike (append_slot s c w) (append_slot s c v).
Proof.
  intros s c w v H. unfold append_slot. cbv zeta.
  assert (K : alike (upd s (append_slot_base c) w) (upd s (append_slot_base c) v)).
  { apply alike_upd_map; auto using append_max, append_smax, append_smem, append_smode. }
  destruct (like_none _ _ _ (al_sg _ _ _ K s)) as [-> ->]. exact K.
Qed.
Lemma alike_add : forall s c w v, alike w v -> alike (add_wcb s c w) (add_wcb s c v).
Proof.
  intros s c w v H. unfold add_wcb. cbv zeta. apply alike_append.
  rewrite (al_nxt _ _ _ H ). destruct (w_ref c); [|now apply alike_nxt].
  cbn [w_refs set_nxt]. rewrite (al_refs _ _ _ H ). apply alike_refs, alike_nxt, H.
Qed.
Lemma alike_after_remove : forall s w v, alike w v -> alike (after_remove s w) (after_remove s v).
Proof.
  intros s w v H. unfold after_remove.
  destruct (like_none _ _ _ (al_sg _ _ _ H s)) as [-> ->]. exact H.
Qed.
Lemma alike_remove_all : forall s w v, alike w v -> alike (remove_all s w) (remove_all s v).
Proof. intros. apply alike_after_remove. now apply alike_upd_map. Qed.
Lemma alike_remove_key : forall s k w v, alike w v ->
  match remove_key s k w, remove_key s k v with
  | Some w', Some v' => alike w' v'
  | None, None => True
  | _, _ => False
  end.
Proof.
  intros s k w v H. unfold remove_key. rewrite <- (like_slots _ _ _ (al_sg _ _ _ H s)).
  destruct (remove_first _ _); [|exact I]. apply alike_after_remove. now apply alike_upd_map.
Qed.
Lemma alike_try_discard : forall s k mo w v, alike w v ->
  sim2 (try_discard s k mo w) (try_discard s k mo v).
Proof.
  intros s k mo w v H. unfold try_discard. pose proof (alike_remove_key s k w v H) as K.
  destruct (remove_key s k w), (remove_key s k v); try contradiction; now split.
Qed.
Lemma alike_connect : forall E s c o w v, alike w v -> sim2 (connect E s c o w) (connect E s c o v).
Proof.
  intros E s c o w v H. unfold connect. cbv zeta. pose proof (al_sg _ _ _ H s) as L.
  assert (Hd : callable_dead w c = callable_dead v c) by (unfold callable_dead; now rewrite (al_dead _ _ _ H )).
  rewrite <- (like_slots _ _ _ L), <- (like_chkn _ _ _ L), <- (like_chkt _ _ _ L), <- (like_params _ _ _ L), <- Hd,
    <- (al_nxt _ _ _ H ).
  replace (resolve_thread v (c_thread o)) with (resolve_thread w (c_thread o))
    by (unfold resolve_thread; now rewrite (al_me _ _ _ H )).
  destruct (callable_dead w c); [now apply sim2_ok|].
  repeat match goal with
  | |- sim2 (match ?t with _ => _ end) (match ?t with _ => _ end) => destruct t
  end; try now apply sim2_ok. apply sim2_ok. now apply alike_add.
Qed.
Lemma alike_disconnect : forall E s r mo w v, alike w v ->
  sim2 (disconnect E s r mo w) (disconnect E s r mo v).
Proof.
  intros E s r mo w v H. unfold disconnect. destruct (like_none _ _ _ (al_sg _ _ _ H s)) as [-> ->].
  unfold disconnect_base. destruct r as [r|]; [|apply sim2_ok; now apply alike_remove_all].
  destruct (key_of_ref E r) as [k|]; [|now apply sim2_ok].
  pose proof (alike_remove_key s k w v H) as K.
  destruct (remove_key s k w), (remove_key s k v); try contradiction; now split.
Qed.
Lemma alike_kill : forall o w v, alike w v -> alike (kill o w) (kill o v).
Proof.
  intros o w v H. unfold kill. rewrite <- (al_dead _ _ _ H ). destruct (w_dead w o); [exact H|]. cbv zeta.
  rewrite <- (al_refs _ _ _ H ).
  assert (K : forall l (a b : world U), alike a b -> alike (fold_left finalize1 l a) (fold_left finalize1 l b)).
  { clear w v H. induction l as [|x l IH]; intros a b Hab; cbn [fold_left]; [exact Hab|]. apply IH.
    exact (proj1 (alike_try_discard (snd (fst x)) (snd x) true a b Hab)). }
  apply K. apply alike_refs, alike_dead, H.
Qed.

Lemma sim_lift : forall a b : world U * out, sim2 a b -> sim (Some a) (Some b).
Proof. intros [w r] [v r'] [H1 H2]. now split. Qed.
Lemma sim_ok : forall w v r, alike w v -> sim (Some (w, r)) (Some (v, r)).
Proof. now split. Qed.

(** Taking both results apart. *)
Lemma sim_cases : forall (a b : option (world U * out)) (C : option (world U * out) -> option (world U * out) -> Prop),
  sim a b -> C None None -> (forall w v r, alike w v -> C (Some (w, r)) (Some (v, r))) -> C a b.
Proof.
  intros [[w r]|] [[v r']|] C H HN HS; cbn in H; try contradiction; [|exact HN].
  destruct H as [H ->]. now apply HS.
Qed.

Section Knot.
Variable E : env U.
Variable ex : prog U -> world U -> option (world U * out).
Hypothesis Hbody : forall t a w v, alike w v -> e_body E t a w = e_body E t a v.
Hypothesis HA : env_all unasking E.
(** Programs under [ex] are simulated. *)
Hypothesis Hex : forall p w v, prog_all unasking p -> alike w v -> sim (ex p w) (ex p v).
(** A relay slot does nothing without groups. *)
Hypothesis Hrelay : forall r args w v, alike w v ->
  sim (ex (body_of E (TRelay r) args w) w) (ex (body_of E (TRelay r) args v) v).

Lemma sim_body : forall t a w v, alike w v ->
  sim (ex (body_of E t a w) w) (ex (body_of E t a v) v).
Proof.
  intros t a w v H. destruct t; try (apply Hrelay; exact H);
    cbn [body_of]; rewrite <- (Hbody _ _ _ _ H); (apply Hex; [apply HA|exact H]).
Qed.
Lemma sim_invoke : forall dq eid s c args w v, alike w v ->
  sim (invoke ex E dq eid s c args w) (invoke ex E dq eid s c args v).
Proof.
  intros dq eid s c args w v H. unfold invoke. cbv zeta. rewrite <- (al_dead _ _ _ H ).
  destruct (match w_ref c with Some o => w_dead w o | None => false end); [now apply sim_ok|].
  pattern (ex (body_of E (w_target c) (cb_args c args) (log (ev_call dq eid s (w_uid c) (cb_args c args)) w))
             (log (ev_call dq eid s (w_uid c) (cb_args c args)) w)),
          (ex (body_of E (w_target c) (cb_args c args) (log (ev_call dq eid s (w_uid c) (cb_args c args)) v))
             (log (ev_call dq eid s (w_uid c) (cb_args c args)) v)).
  apply sim_cases; [apply sim_body, alike_log, H|exact I|].
  intros w1 v1 r H1. destruct r; apply sim_ok; try apply alike_log; exact H1.
Qed.
Lemma sim_call_slot : forall eid s c args w v, alike w v ->
  sim (call_slot ex E eid s c args w) (call_slot ex E eid s c args v).
Proof.
  intros eid s c args w v H. unfold call_slot. destruct (w_thread c) as [t|]; [|now apply sim_invoke].
  rewrite <- (al_me _ _ _ H ). destruct (Nat.eqb t (w_me w)); [now apply sim_invoke|].
  apply sim_ok. rewrite <- (al_tq _ _ _ H ). apply alike_log, alike_tq, H.
Qed.
Ltac slot H := 
  match goal with |- sim (match ?a with _ => _ end) (match ?b with _ => _ end) =>
    pattern a, b; apply sim_cases; [apply H|exact I|cbv beta] end.
Lemma sim_loop_slots : forall f eid s i args w v, alike w v ->
  sim (loop_slots ex E f eid s i args w) (loop_slots ex E f eid s i args v).
Proof.
  induction f as [|f IH]; intros eid s i args w v H; cbn [loop_slots]; [exact I|].
  rewrite <- (like_slots _ _ _ (al_sg _ _ _ H s)). destruct (nth_error _ i); [|now apply sim_ok].
  slot sim_call_slot; [exact H|]. intros w1 v1 r H1. destruct r; [now apply IH| |]; now apply sim_ok.
Qed.
Lemma sim_loop_latest : forall f eid s i args w v, M s = LatestOnly -> alike w v ->
  sim (loop_latest ex E f eid s i args w) (loop_latest ex E f eid s i args v).
Proof.
  induction f as [|f IH]; intros eid s i args w v Hm H; cbn [loop_latest]; [exact I|].
  pose proof (al_sg _ _ _ H s) as L.
  rewrite <- (like_slots _ _ _ L), <- (like_depth _ _ _ L), <- (proj2 (proj2 (proj2 L)) Hm).
  destruct (nth_error _ i) as [c|]; [|now apply sim_ok].
  destruct (Nat.ltb _ _); [now apply sim_ok|].
  slot sim_call_slot; [exact H|]. intros w1 v1 r H1. destruct r; [now apply IH| |]; now apply sim_ok.
Qed.
Lemma sim_loop_qslots : forall f eid s i args w v, alike w v ->
  sim (loop_qslots ex E f eid s i args w) (loop_qslots ex E f eid s i args v).
Proof.
  induction f as [|f IH]; intros eid s i args w v H; cbn [loop_qslots]; [exact I|].
  rewrite <- (like_slots _ _ _ (al_sg _ _ _ H s)). destruct (nth_error _ i); [|now apply sim_ok].
  slot sim_call_slot; [exact H|]. intros w1 v1 r H1. destruct r; [|now apply sim_ok|now apply sim_ok].
  rewrite <- (like_eq _ _ _ (al_sg _ _ _ H1 s)). destruct (Nat.ltb _ _); [now apply sim_ok|now apply IH].
Qed.
Lemma sim_loop_queue : forall f eid s i w v, alike w v ->
  sim (loop_queue ex E f eid s i w) (loop_queue ex E f eid s i v).
Proof.
  induction f as [|f IH]; intros eid s i w v H; cbn [loop_queue]; [exact I|].
  rewrite <- (like_eq _ _ _ (al_sg _ _ _ H s)). destruct (nth_error _ i); [|now apply sim_ok].
  slot sim_loop_qslots; [exact H|]. intros w1 v1 r H1. destruct r; [now apply IH| |]; now apply sim_ok.
Qed.
Lemma sim_inner : forall f eid s w v, alike w v -> sim (inner_loop ex E f eid s w) (inner_loop ex E f eid s v).
Proof.
  intros f eid s w v H. unfold inner_loop. pose proof (al_sg _ _ _ H s) as L.
  rewrite <- (like_mode _ _ _ L), <- (like_eq _ _ _ L).
  assert (HM : s_mode (w_sg w s) = M s) by exact (proj1 (proj2 (proj2 L))).
  destruct (s_mode (w_sg w s)); try (now apply sim_loop_queue); (destruct (s_eq (w_sg w s)); [now apply sim_ok|]).
  all: match goal with |- sim (loop_slots _ _ _ _ _ _ _ _) _ => apply sim_loop_slots
       | _ => apply sim_loop_latest; [now symmetry|] end; now apply alike_upd_map.
Qed.
Lemma sim_run : forall f s args w v, alike w v -> sim (run_emit_loop ex E f s args w) (run_emit_loop ex E f s args v).
Proof.
  intros f s args w v H. unfold run_emit_loop. cbv zeta. pose proof (al_sg _ _ _ H s) as L.
  rewrite <- (like_depth _ _ _ L). destruct (Nat.leb _ _); [now apply sim_ok|].
  assert (K : alike (upd s (fun st => set_eq (s_eq st ++ [args]) st) w)
                    (upd s (fun st => set_eq (s_eq st ++ [args]) st) v)) by now apply alike_upd_map.
  revert K. generalize (upd s (fun st => set_eq (s_eq st ++ [args]) st) w).
  generalize (upd s (fun st => set_eq (s_eq st ++ [args]) st) v). intros v1 w1 K.
  rewrite <- (like_eq _ _ _ (al_sg _ _ _ K s)). destruct (Nat.ltb _ _); [apply sim_ok, alike_log, K|].
  rewrite <- (al_nxt _ _ _ K).
  slot sim_inner.
  - apply alike_log. unfold enter. apply alike_cur, alike_upd; [apply alike_nxt, K|].
    destruct (al_sg _ _ _ K s) as (A & B & C & D). cbn [w_sg set_nxt].
    assert (Hd : s_depth (w_sg w1 s) = s_depth (w_sg v1 s)) by (eapply like_depth, (al_sg _ _ _ K s)).
    split; [|split; [|split]]; [|exact B|exact C|].
    + change (set_depth (S (s_depth (w_sg w1 s))) (set_max 0 (w_sg w1 s))
              = set_depth (S (s_depth (w_sg v1 s))) (set_max 0 (w_sg v1 s))). now rewrite A, Hd.
    + intros Hm. cbn. now rewrite (D Hm), Hd.
  - intros w2 v2 r H2. pose proof (al_sg _ _ _ H2 s) as L2.
    rewrite <- (like_depth _ _ _ L2).
    assert (K2 : alike (leave s (w_cur w1) (log (EEnd (w_nxt w1) s) w2)) (leave s (w_cur v1) (log (EEnd (w_nxt w1) s) v2))).
    { unfold leave. apply alike_upd; [apply alike_cur, alike_log, H2|]. cbn [w_sg set_cur log set_tr].
      rewrite <- (like_depth _ _ _ L2). destruct L2 as (A & B & C & D).
      destruct (Nat.leb _ _).
      - split; [|split; [|split]]; [|exact B|exact C|reflexivity].
        change (set_eq [] (set_depth 0 (set_max 0 (w_sg w2 s))) = set_eq [] (set_depth 0 (set_max 0 (w_sg v2 s)))).
        now rewrite A.
      - split; [|split; [|split]]; [|exact B|exact C|exact D].
        change (set_eq [] (set_depth (s_depth (w_sg w2 s) - 1) (set_max 0 (w_sg w2 s)))
                = set_eq [] (set_depth (s_depth (w_sg w2 s) - 1) (set_max 0 (w_sg v2 s)))).
        now rewrite A. }
    destruct r; apply sim_ok; assumption.
Qed.
Lemma sim_emit : forall f s args cn ct w v, alike w v ->
  sim (do_emit ex E f s args cn ct w) (do_emit ex E f s args cn ct v).
Proof.
  intros f s args cn ct w v H. unfold do_emit. cbv zeta.
  assert (K : alike (log (EEmit s args (w_usr w)) w) (log (EEmit s args (w_usr v)) v))
    by (rewrite <- (al_usr _ _ _ H); apply alike_log, H).
  revert K. generalize (log (EEmit s args (w_usr w)) w), (log (EEmit s args (w_usr v)) v). clear w v H.
  intros w v H. pose proof (al_sg _ _ _ H s) as L.
  rewrite <- (like_blocked _ _ _ L), <- (like_params _ _ _ L), <- (like_paused _ _ _ L), <- (al_hook _ _ _ H).
  destruct (s_blocked _); [now apply sim_ok|]. destruct (cn && _); [now apply sim_ok|].
  match goal with |- sim (match ?t with _ => _ end) _ => destruct t as [[|]|] end; try now apply sim_ok.
  destruct (s_paused _); [apply sim_ok; now apply alike_upd_map|].
  destruct (w_hook w) as [h|]; [|now apply sim_run].
  rewrite <- (Hbody _ _ _ _ (alike_log (EHook h s args) _ _ H)).
  slot Hex; [apply HA|apply alike_log, H|]. intros w1 v1 r H1. destruct r; [now apply sim_run| |]; now apply sim_ok.
Qed.
Lemma alike_after_fast : forall s w v, alike w v ->
  alike (upd s (fun st => if Nat.ltb 0 (s_depth st) then set_depth (s_depth st - 1) st else st) w)
        (upd s (fun st => if Nat.ltb 0 (s_depth st) then set_depth (s_depth st - 1) st else st) v).
Proof.
  intros. apply alike_upd_map; auto; intros; cbn [s_depth set_max]; now destruct (Nat.ltb _ _).
Qed.
Lemma sim_emit_fast : forall f s args w v, alike w v ->
  sim (do_emit_fast ex E f s args w) (do_emit_fast ex E f s args v).
Proof.
  intros f s args w v H. unfold do_emit_fast. cbv zeta.
  assert (K : alike (log (EEmit s args (w_usr w)) w) (log (EEmit s args (w_usr v)) v))
    by (rewrite <- (al_usr _ _ _ H); apply alike_log, H).
  revert K. generalize (log (EEmit s args (w_usr w)) w), (log (EEmit s args (w_usr v)) v). clear w v H.
  intros w v H. pose proof (al_sg _ _ _ H s) as L.
  rewrite <- (like_blocked _ _ _ L), <- (like_paused _ _ _ L), <- (like_depth _ _ _ L), <- (al_nxt _ _ _ H).
  destruct (s_blocked _); [now apply sim_ok|].
  destruct (s_paused _); [apply sim_ok; now apply alike_upd_map|].
  destruct (Nat.leb _ _); [now apply sim_ok|].
  slot sim_loop_slots; [apply alike_log; apply alike_upd_map; auto; now apply alike_nxt|].
  intros w1 v1 r H1. destruct r; apply sim_ok; try (apply alike_after_fast, alike_log); exact H1.
Qed.
Lemma sim_replay : forall f s i w v, alike w v -> sim (replay ex E f s i w) (replay ex E f s i v).
Proof.
  induction f as [|f IH]; intros s i w v H; cbn [replay]; [exact I|].
  rewrite <- (like_args _ _ _ (al_sg _ _ _ H s)). destruct (nth_error _ i); [|now apply sim_ok].
  slot sim_run; [exact H|]. intros w1 v1 r H1. destruct r; [now apply IH| |]; now apply sim_ok.
Qed.
Lemma sim_resume : forall f s rd w v, alike w v -> sim (do_resume ex E f s rd w) (do_resume ex E f s rd v).
Proof.
  intros f s rd w v H. unfold do_resume. cbv zeta.
  assert (K : alike (upd s (set_paused false) w) (upd s (set_paused false) v)) by now apply alike_upd_map.
  revert K. generalize (upd s (set_paused false) w), (upd s (set_paused false) v). clear w v H. intros w v H.
  pose proof (al_sg _ _ _ H s) as L. rewrite <- (like_args _ _ _ L), <- (like_slots _ _ _ L).
  destruct (s_args _); [now apply sim_ok|]. destruct (s_slots _); [apply sim_ok; now apply alike_upd_map|].
  match goal with |- sim (match ?a with _ => _ end) (match ?b with _ => _ end) =>
    pattern a, b; apply sim_cases; [|exact I|cbv beta] end.
  - destruct rd as [|g|g i].
    + now apply sim_replay.
    + destruct (g _); [now apply sim_run|now apply sim_ok].
    + destruct (apply_reducer _ _ _); [now apply sim_run|now apply sim_ok].
  - intros w1 v1 r H1. destruct r; apply sim_ok; try apply alike_upd_map; auto.
Qed.
Lemma sim_drain : forall f t w v, alike w v -> sim (drain ex E f t w) (drain ex E f t v).
Proof.
  induction f as [|f IH]; intros t w v H; cbn [drain]; [exact I|].
  rewrite <- (al_tq _ _ _ H). destruct (w_tq w t) as [|[[[eid s] c] args] q]; [now apply sim_ok|].
  slot sim_invoke; [apply alike_log, alike_tq, H|].
  intros w1 v1 r H1. destruct r; [now apply IH| |]; now apply sim_ok.
Qed.
Lemma sim_step : forall f o w v, unasking o -> alike w v -> sim (step ex E f o w) (step ex E f o v).
Proof.
  intros f o w v Ho H. pose proof (al_sg _ _ _ H) as L.
  destruct o; try contradiction; cbn [step]; unfold lift.
  - now apply sim_emit.
  - now apply sim_emit_fast.
  - apply sim_lift. now apply alike_connect.
  - apply sim_lift. unfold connect_direct. destruct (like_none _ _ _ (L r)) as [-> ->]. now apply sim2_ok.
  - apply sim_lift. unfold connect_setattr. rewrite <- (al_dead _ _ _ H), <- (al_nxt _ _ _ H).
    destruct (w_dead _ _); [now apply sim2_ok|]. destruct (negb _); [now apply sim2_ok|].
    destruct (weak_setattr _ _ _ _ _ _ _); [apply sim2_ok; now apply alike_add|now apply sim2_ok].
  - apply sim_lift. unfold connect_setitem. rewrite <- (al_dead _ _ _ H), <- (al_nxt _ _ _ H).
    destruct (w_dead _ _); [now apply sim2_ok|]. destruct (negb _); [now apply sim2_ok|].
    destruct (weak_setitem _ _ _ _ _ _ _); [apply sim2_ok; now apply alike_add|now apply sim2_ok].
  - apply sim_lift. now apply alike_disconnect.
  - apply sim_lift. now apply alike_try_discard.
  - destruct (e_hasattr _ _ _); [apply sim_lift; now apply alike_try_discard|now apply sim_ok].
  - apply sim_ok. unfold block. destruct (like_none _ _ _ (L s)) as [-> ->]. now apply alike_upd_map.
  - apply sim_ok. unfold unblock. destruct (like_none _ _ _ (L s)) as [-> ->]. now apply alike_upd_map.
  - apply sim_ok. now apply alike_upd_map.
  - now apply sim_resume.
  - rewrite <- (like_blocked _ _ _ (L s)). now apply sim_ok.
  - rewrite <- (like_paused _ _ _ (L s)). now apply sim_ok.
  - rewrite <- (like_slots _ _ _ (L s)). now apply sim_ok.
  - rewrite <- (like_slots _ _ _ (L s)). now apply sim_ok.
  - apply sim_ok. now apply alike_kill.
  - apply sim_ok. now apply alike_me.
  - rewrite <- (al_me _ _ _ H). now apply sim_drain.
  - apply sim_ok. now apply alike_hook.
  - rewrite <- (al_hook _ _ _ H). now apply sim_ok.
  - apply Hex; [apply HA|exact H].
  - rewrite <- (al_usr _ _ _ H). destruct (f0 (w_usr w)) as [u r]. apply sim_ok. now apply alike_usr.
Qed.
End Knot.

(** Without groups a relay slot only raises AttributeError. *)
Lemma sim_relay : forall E n r args w v, alike w v ->
  sim (exec E n (body_of E (TRelay r) args w) w) (exec E n (body_of E (TRelay r) args v) v).
Proof.
  intros E n r args w v H. cbn [body_of]. destruct n as [|m]; cbn [exec]; [exact I|].
  cbn [step]. unfold do_relay. destruct (like_none _ _ _ (al_sg _ _ _ H r)) as [-> ->].
  destruct m; cbn [exec]; [exact I|]. now apply sim_ok.
Qed.
(** Programs that do not ask for the current emitter do the same in both worlds. *)
Theorem sim_exec : forall E, (forall t a w v, alike w v -> e_body E t a w = e_body E t a v) ->
  env_all unasking E ->
  forall n p w v, prog_all unasking p -> alike w v -> sim (exec E n p w) (exec E n p v).
Proof.
  intros E Hb HA. induction n as [|n IH]; intros p w v Hp H; cbn [exec]; [exact I|].
  destruct p as [x|e| |k|o k]; try now apply sim_ok.
  - cbn in Hp. rewrite <- (al_usr _ _ _ H). now apply IH.
  - destruct Hp as [Ho Hk].
    match goal with |- sim (match ?a with _ => _ end) (match ?b with _ => _ end) =>
      pattern a, b; apply sim_cases; [|exact I|cbv beta] end.
    + apply sim_step; auto. intros; now apply sim_relay.
    + intros w1 v1 r H1. destruct r; [apply IH; auto|apply IH; auto|now apply sim_ok].
Qed.
End Alike.
