(** Programs of a class that owns some signals and some state (the containers, evented models):
    what they do does not depend on the listeners, as long as these do not change the state or
    emit these signals themselves.  Proof infrastructure; models no code. *)

From Verif Require Import Base Core Spec Frame Fuel Conn Keep Trace Emission Hush.

Section Usr.
Context {U : Type}.
Definition usame (w w' : world U) : Prop := w_usr w' = w_usr w.
Lemma usame_refl : forall w, usame w w.
Proof. reflexivity. Qed.
Lemma usame_trans : forall a b c, usame a b -> usame b c -> usame a c.
Proof. unfold usame. congruence. Qed.
Lemma usame_fold : forall {B} (g : world U -> B -> world U) l w,
  (forall w b, usame w (g w b)) -> usame w (fold_left g l w).
Proof.
  intros B g l w Hg. revert w; induction l as [|b l IH]; intros w; cbn; [apply usame_refl|].
  eapply usame_trans; [apply Hg|apply IH].
Qed.
Lemma usame_connect_relay : forall r ms w, usame w (connect_relay r ms w).
Proof. intros. apply usame_fold. intros w1 [n m]. unfold connect_relay1. destruct (has_key _ _); reflexivity. Qed.
Lemma usame_disconnect_relay : forall r ms w, usame w (disconnect_relay r ms w).
Proof. intros. apply usame_fold. intros w1 [n m]. unfold disconnect_relay1. destruct (remove_first _ _); reflexivity. Qed.
Lemma usame_after_remove : forall s w, usame w (after_remove s w).
Proof.
  intros s w. unfold after_remove. destruct (s_members (w_sg w s)); [|apply usame_refl].
  destruct (s_slots (w_sg w s)); [apply usame_disconnect_relay|apply usame_refl].
Qed.
Lemma usame_remove_key : forall s k w w', remove_key s k w = Some w' -> usame w w'.
Proof.
  intros s k w w' H. unfold remove_key in H. destruct (remove_first _ _); [|discriminate].
  injection H as <-. eapply usame_trans; [|apply usame_after_remove]. reflexivity.
Qed.
Lemma usame_try_discard : forall s k mo w, usame w (fst (try_discard s k mo w)).
Proof.
  intros. unfold try_discard. destruct (remove_key _ _ _) eqn:H; [|apply usame_refl].
  eapply usame_remove_key; eauto.
Qed.
Lemma usame_add_wcb : forall s c w, usame w (add_wcb s c w).
Proof.
  intros s c w. unfold add_wcb, append_slot.
  match goal with |- usame w ?g => set (goal := g) end.
  set (w2 := match w_ref c with Some _ => _ | None => _ end) in goal.
  assert (H2 : usame w w2) by (unfold w2; destruct (w_ref c); reflexivity).
  unfold goal. destruct (s_members _); [|exact H2]. destruct (Nat.eqb _ _); [|exact H2].
  eapply usame_trans; [exact H2|]. apply (usame_connect_relay s l (upd s (append_slot_base c) w2)).
Qed.
Lemma usame_connect : forall (E : env U) s c o w w' r, connect E s c o w = (w', r) -> usame w w'.
Proof.
  intros E s c o w w' r H. unfold connect in H.
  repeat (match type of H with
          | context [match ?x with _ => _ end] => destruct x
          end; try (injection H as <- _; apply usame_refl)).
  all: injection H as <- _; apply usame_add_wcb.
Qed.
Lemma usame_disconnect_base : forall (E : env U) s r mo w w' o,
  disconnect_base E s r mo w = (w', o) -> usame w w'.
Proof.
  intros E s r mo w w' o H. unfold disconnect_base in H.
  destruct r as [r|]; [|injection H as <- _; exact (usame_after_remove s (upd s (set_slots []) w))].
  destruct (key_of_ref E r); [|injection H as <- _; apply usame_refl].
  destruct (remove_key _ _ _) eqn:HR; injection H as <- _;
    [eapply usame_remove_key; eauto|apply usame_refl].
Qed.
Lemma usame_disconnect : forall (E : env U) s r mo w w' o,
  disconnect E s r mo w = (w', o) -> usame w w'.
Proof.
  assert (HE : forall (E : env U) ms r mo w w' o,
    disconnect_each E ms r mo w = (w', o) -> usame w w').
  { induction ms as [|[nm m] ms IH]; intros r mo w w' o H; cbn in H.
    - injection H as <- _; apply usame_refl.
    - destruct (disconnect_base E m r mo w) as [w1 [v|e|]] eqn:EB; apply usame_disconnect_base in EB.
      + eapply usame_trans; [exact EB|]. eapply IH; eauto.
      + injection H as <- _; exact EB.
      + injection H as <- _; exact EB. }
  intros E s r mo w w' o H. unfold disconnect in H.
  destruct (s_members (w_sg w s)) as [ms|]; [|eapply usame_disconnect_base; eauto].
  destruct (disconnect_each E ms r mo w) as [w1 [v|e|]] eqn:EB; apply HE in EB.
  + eapply usame_trans; [exact EB|]. eapply usame_disconnect_base; eauto.
  + injection H as <- _; exact EB.
  + injection H as <- _; exact EB.
Qed.
Lemma usame_kill : forall o w, usame w (kill o w).
Proof.
  intros o w. unfold kill. destruct (w_dead w o); [apply usame_refl|].
  eapply usame_trans; [|apply usame_fold; intros; unfold finalize1; apply usame_try_discard]. reflexivity.
Qed.
Lemma usame_block : forall s excl w, usame w (block s excl w).
Proof.
  intros. unfold block. destruct (s_members _); [|reflexivity].
  eapply usame_trans; [|apply usame_fold]; [reflexivity|]. intros w1 [n m]. unfold block_member.
  destruct (excluded _ _ _); reflexivity.
Qed.
Lemma usame_unblock : forall s w, usame w (unblock s w).
Proof.
  intros. unfold unblock. destruct (s_members _); [|reflexivity].
  eapply usame_trans; [|apply usame_fold]; [reflexivity|]. intros w1 [n m]. unfold unblock_member.
  destruct (assoc_get _ _) as [[|]|]; reflexivity.
Qed.
Lemma usame_pure : forall (E : env U) o w w' r, is_pure o = true ->
  match o with OUsr f => forall u, fst (f u) = u | _ => True end ->
  pure_step E o w = Some (w', r) -> usame w w'.
Proof.
  intros E o w w' r Hpu Hn H. destruct o; try discriminate Hpu; unfold pure_step in H;
    cbn [step] in H; unfold lift in H; try (injection H as <- _; reflexivity).
  - injection H as H. eapply usame_connect; eauto.
  - injection H as H. unfold connect_direct in H.
    destruct (s_members (w_sg w r0)) as [ms|]; [|injection H as <- _; apply usame_refl].
    remember (Copts _ _ _ _ _ _ _) as oo. clear Heqoo. revert w H.
    induction ms as [|[nm m] ms IH]; intros w H; cbn in H.
    + injection H as <- _; apply usame_refl.
    + destruct (connect E m c oo w) as [w1 [v|e|]] eqn:EC; apply usame_connect in EC.
      * eapply usame_trans; [exact EC|]. now apply IH.
      * injection H as <- _. exact EC.
      * injection H as <- _. exact EC.
  - injection H as H. unfold connect_setattr in H.
    destruct (w_dead w ob); [injection H as <- _; apply usame_refl|].
    destruct (negb _); [injection H as <- _; apply usame_refl|].
    destruct (weak_setattr _ _ _ _ _ _ _); injection H as <- _; [apply usame_add_wcb|apply usame_refl].
  - injection H as H. unfold connect_setitem in H.
    destruct (w_dead w ob); [injection H as <- _; apply usame_refl|].
    destruct (negb _); [injection H as <- _; apply usame_refl|].
    destruct (weak_setitem _ _ _ _ _ _ _); injection H as <- _; [apply usame_add_wcb|apply usame_refl].
  - injection H as H. eapply usame_disconnect; eauto.
  - injection H as H. pose proof (usame_try_discard s (KSetattr ob a) missing_ok w) as HT.
    rewrite H in HT. exact HT.
  - destruct (e_hasattr E ob "__setitem__").
    + injection H as H. pose proof (usame_try_discard s (KSetitem ob k) missing_ok w) as HT.
      rewrite H in HT. exact HT.
    + injection H as <- _; apply usame_refl.
  - injection H as <- _. apply usame_block.
  - injection H as <- _. apply usame_unblock.
  - injection H as <- _. apply usame_kill.
  - specialize (Hn (w_usr w)). destruct (f (w_usr w)) as [u [v|e]]; injection H as <- _; exact Hn.
Qed.
End Usr.

Section WP.
(** [E]: where the listeners come from. *)
Context {U V : Type} (E : env V) (C : sid -> bool).
(** ** Weakest precondition of a program of the owner: [Q] is to hold of the final state, what was
    heard in total and the result.  Emissions may raise anything a listener raised. *)
Definition post := U -> list (sid * list val * U) -> out -> Prop.
Fixpoint wp (p : prog U) (u : U) (h : list (sid * list val * U)) (Q : post) : Prop :=
  match p with
  | Ret v => Q u h (Ok v)
  | Throw e => Q u h (Err e)
  | Halt => True
  | Look k => wp (k u) u h Q
  | Do o k =>
      match o with
      | OUsr f => wp (k (snd (f u))) (fst (f u)) h Q
      | OEmit s args cn ct =>
          let h' := if C s then h ++ [(s, args, u)] else h in
          (forall v, wp (k (inl v)) u h' Q)
          /\ (forall e, (C s = true -> if cn then True else if ct then True else listener_raised E C e) -> wp (k (inr e)) u h' Q)
      | OResume s rd =>
          (forall v, wp (k (inl v)) u h Q)
          /\ (forall e, (C s = true -> reduces_ok rd -> listener_raised E C e) -> wp (k (inr e)) u h Q)
      | OBlock _ _ | OUnblock _ | OPause _ => wp (k (inl VNone)) u h Q
      | OIsBlocked _ | OIsPaused _ => forall b, wp (k (inl (VBool b))) u h Q
      | OConnect _ _ _ | ODisconnect _ _ _ => forall x, wp (k x) u h Q
      | _ => False
      end
  end.

Lemma wp_mono : forall p u h (Q Q' : post), (forall u h r, Q u h r -> Q' u h r) -> wp p u h Q -> wp p u h Q'.
Proof.
  intros p; induction p as [v|e| |k IH|o k IH]; intros u h Q Q' HQ H; cbn in *; auto.
  - eapply IH; eauto.
  - destruct o; try contradiction; eauto; try (destruct H as [H1 H2]; split; intros; eauto); intros; eauto.
Qed.
(** Sequencing. *)
Lemma wp_bind : forall p k u h Q,
  wp p u h (fun u1 h1 r => match r with Ok v => wp (k v) u1 h1 Q | Err e => Q u1 h1 (Err e) | Halted => True end) ->
  wp (bind p k) u h Q.
Proof.
  intros p; induction p as [v|e| |f IH|o f IH]; intros k u h Q H; cbn in *; auto.
  destruct o; try contradiction; eauto; try (destruct H as [H1 H2]; split; intros; eauto); intros; eauto.
Qed.
Lemma wp_catch : forall p k u h Q,
  wp p u h (fun u1 h1 r => match r with Ok v => wp (k (inl v)) u1 h1 Q | Err e => wp (k (inr e)) u1 h1 Q | Halted => True end) ->
  wp (catch p k) u h Q.
Proof.
  intros p; induction p as [v|e| |f IH|o f IH]; intros k u h Q H; cbn in *; auto.
  destruct o; try contradiction; eauto; try (destruct H as [H1 H2]; split; intros; eauto); intros; eauto.
Qed.

End WP.

Section Client.
Context {U : Type} (E : env U) (C : sid -> bool).

(** Nothing was emitted on the own signals, and the state did not change. *)
Definition aside (w w' : world U) (r : out) : Prop :=
  w_usr w' = w_usr w /\ exists t, w_tr w' = w_tr w ++ t /\ heard C t = [].

Lemma heard_app : forall a b : list (event U), heard C (a ++ b) = heard C a ++ heard C b.
Proof.
  induction a as [|e a IH]; intros b; [reflexivity|]. destruct e; cbn; auto.
  destruct (C s); cbn; now rewrite IH.
Qed.
Lemma aside_refl : forall w r, aside w w r.
Proof. intros w r. split; [reflexivity|]. exists []. now rewrite app_nil_r. Qed.
Lemma aside_trans : forall a b c r r', aside a b r -> aside b c r' -> aside a c r'.
Proof.
  intros a b c r r' [H1 (t & T & HT)] [K1 (t' & T' & HT')]. split; [congruence|].
  exists (t ++ t'). rewrite T', T, heard_app, HT, HT', app_assoc. auto.
Qed.
Lemma aside_log : forall e w r, heard C [e] = [] -> aside w (log e w) r.
Proof. intros e w r H. split; [reflexivity|]. exists [e]. auto. Qed.
Lemma aside_same : forall w w' r, w_usr w' = w_usr w -> w_tr w' = w_tr w -> aside w w' r.
Proof. intros w w' r H1 H2. split; [exact H1|]. exists []. now rewrite app_nil_r. Qed.
Lemma aside_next : forall a b c r r', aside a b r' -> w_usr c = w_usr b ->
  (exists e, w_tr c = w_tr b ++ [e] /\ heard C [e] = []) -> aside a c r.
Proof.
  intros a b c r r' H Hu (e & He & Hh). eapply (aside_trans a b c r' r); [exact H|]. split; [exact Hu|].
  exists [e]. auto.
Qed.

Lemma framed_aside : framed E (aloof C) (fun s => C s = false) aside (fun _ _ => aside).
Proof.
  assert (HT : forall a b c r r', aside a b r -> r <> Halted -> aside b c r' -> aside a c r')
    by (intros; eapply aside_trans; eauto).
  split; auto using aside_refl.
  - intros o w w' r HA Hp H. pose proof (pure_keeps _ _ _ _ _ Hp H) as (_ & _ & K3 & _).
    apply aside_same; [|exact K3]. eapply usame_pure; eauto. destruct o; auto.
  - intros s args w r HL. apply aside_log. cbn. now rewrite HL.
  - intros s args w r _ _. apply aside_same; reflexivity.
  - intros h s args w r _. apply aside_log. reflexivity.
  - intros s args w r _ _ _. split; [reflexivity|]. exists [EQueued s args]. auto.
  - intros s args w w' r _ _ _ H.
    assert (H0 : aside w w' r).
    { eapply aside_trans with (r := r); [|exact H]. split.
      - unfold started, entered. destruct (s_mode _); reflexivity.
      - exists [EStart (w_nxt w) s args]. split; [|reflexivity]. unfold started, entered.
        destruct (s_mode _); reflexivity. }
    destruct r; [| |exact H0]; (eapply aside_next; [exact H0|reflexivity|]; exists (EEnd (w_nxt w) s); auto).
  - intros s args w w' r _ _ H _.
    assert (H0 : aside w w' r).
    { eapply aside_trans with (r := r); [|exact H]. split; [reflexivity|].
      exists [EStart (w_nxt w) s args]. auto. }
    destruct r; [| |exact H0]; (eapply aside_next; [exact H0|reflexivity|]; exists (EEnd (w_nxt w) s); auto).
  - intros eid s c a w w' r _ H _.
    assert (H0 : aside w w' r) by (eapply aside_trans with (r := r); [apply (aside_log (ECall eid s (w_uid c) a)); reflexivity|exact H]).
    destruct r as [v|e|]; [| |exact H0];
      (eapply aside_next; [exact H0|reflexivity|]; eexists (ev_ret false eid s (w_uid c) _); split; reflexivity).
  - intros eid s c a w w' r _ H.
    assert (H0 : aside w w' r) by (eapply aside_trans with (r := r); [apply (aside_log (EDCall eid s (w_uid c) a)); reflexivity|exact H]).
    destruct r as [v|e|]; [| |exact H0];
      (eapply aside_next; [exact H0|reflexivity|]; eexists (ev_ret true eid s (w_uid c) _); split; reflexivity).
  - intros eid s c t args w r _ _ _. split; [reflexivity|]. exists [EDefer eid s (w_uid c) t args]. auto.
  - intros s rd w r _ _. apply aside_same; reflexivity.
  - intros s rd w r _ _. apply aside_same; reflexivity.
  - intros t eid s c args q w r _. split; [reflexivity|]. exists [EPop t eid s (w_uid c) args]. auto.
Qed.

Hypothesis HE : env_all (aloof C) E.

Lemma emit_loop_aside : forall n f s args w w' r,
  run_emit_loop (exec E n) E f s args w = Some (w', r) -> aside w w' r.
Proof.
  intros n f s args w w' r H.
  destruct (Nat.leb_spec RECURSION_LIMIT (s_depth (w_sg w s))) as [Hd|Hd].
  { unfold run_emit_loop in H. apply Nat.leb_le in Hd. rewrite Hd in H. injection H as <- <-. apply aside_refl. }
  destruct (s_eq (w_sg w s)) as [|q0 q] eqn:Hq.
  - apply emit_loop_inv in H; auto. destruct H as (w3 & r3 & HL & HR).
    apply (loop_frame E s _ _ _ _ framed_aside HE) in HL.
    pose proof (fr_loop _ _ _ _ _ framed_aside) as HF.
    assert (H0 : aside w w3 r3).
    { eapply aside_trans with (r := r3); [|exact HL]. split.
      - unfold started, entered. destruct (s_mode _); reflexivity.
      - exists [EStart (w_nxt w) s args]. split; [|reflexivity]. unfold started, entered.
        destruct (s_mode _); reflexivity. }
    destruct HR as [(-> & -> & ->)|(_ & -> & ->)]; [exact H0|].
    eapply aside_next; [exact H0|reflexivity|]. exists (EEnd (w_nxt w) s); auto.
  - unfold run_emit_loop in H. apply Nat.leb_gt in Hd. rewrite Hd in H.
    rewrite upd_same in H. cbn [s_eq set_eq] in H. rewrite Hq, app_length in H. cbn [List.length] in H.
    replace (Nat.ltb 1 (S (List.length q) + 1)) with true in H by (symmetry; apply Nat.ltb_lt; lia).
    injection H as <- <-. split; [reflexivity|]. exists [EQueued s args]. auto.
Qed.

(** An emission of any signal. *)
Lemma emit_heard : forall s args cn ct w w' r, steps E (OEmit s args cn ct) w w' r ->
  w_usr w' = w_usr w /\ exists t, w_tr w' = w_tr w ++ t
    /\ heard C t = if C s then [(s, args, w_usr w)] else [].
Proof.
  intros s args cn ct w w' r [n H]. cbn [step] in H. unfold do_emit in H.
  set (w0 := log (EEmit s args (w_usr w)) w) in H.
  assert (H0 : forall r0, aside w0 w' r0 -> w_usr w' = w_usr w /\ exists t, w_tr w' = w_tr w ++ t
    /\ heard C t = if C s then [(s, args, w_usr w)] else []).
  { intros r0 [A1 (t & T & HT)]. split; [exact A1|]. exists (EEmit s args (w_usr w) :: t).
    split; [unfold w0 in T; cbn in T; rewrite <- app_assoc in T; exact T|]. cbn. rewrite HT.
    now destruct (C s). }
  clearbody w0. apply (H0 r). clear H0.
  destruct (s_blocked _). { injection H as <- <-. apply aside_refl. }
  destruct (cn && _). { injection H as <- <-. apply aside_refl. }
  destruct (if ct then _ else _) as [[|]|e]; try (injection H as <- <-; apply aside_refl).
  destruct (s_paused _) eqn:Hp. { injection H as <- <-. now apply aside_same. }
  destruct (w_hook w0) as [h|]; [|eapply emit_loop_aside; eauto].
  destruct (exec E n _ _) as [[w2 r2]|] eqn:Hx; [|discriminate].
  assert (HPx : aside w0 w2 r2).
  { eapply aside_trans with (r := r2); [apply (aside_log (EHook h s args)); reflexivity|].
    eapply (frame_runs E _ _ _ _ framed_aside HE); [|exists n; exact Hx]. apply HE. }
  destruct r2; [|injection H as <- <-; exact HPx|injection H as <- <-; exact HPx].
  eapply aside_trans; [exact HPx|]. eapply emit_loop_aside; eauto.
Qed.

Lemma replay_aside : forall n f s i w w' r, replay (exec E n) E f s i w = Some (w', r) -> aside w w' r.
Proof.
  intros n f s; induction f as [|f IH]; intros i w w' r H; [discriminate|]. cbn [replay] in H.
  destruct (nth_error _ _) as [a|]; [|injection H as <- <-; apply aside_refl].
  destruct (run_emit_loop _ _ _ _ _ _) as [[w1 r1]|] eqn:HX; [|discriminate]. apply emit_loop_aside in HX.
  destruct r1; [|injection H as <- <-; exact HX|injection H as <- <-; exact HX].
  eapply aside_trans; [exact HX|]. eapply IH; eauto.
Qed.
Lemma resume_aside : forall s rd w w' r, steps E (OResume s rd) w w' r -> aside w w' r.
Proof.
  intros s rd w w' r [n H]. cbn [step] in H. unfold do_resume in H.
  set (w1 := upd s (set_paused false) w) in H.
  assert (H1 : forall o, aside w w1 o) by (intros o; now apply aside_same).
  clearbody w1. destruct (s_args (w_sg w1 s)) as [|q0 q] eqn:Hq.
  { injection H as <- <-. apply H1. }
  rewrite <- Hq in H. destruct (s_slots (w_sg w1 s)) as [|c0 l0].
  { injection H as <- <-. eapply aside_trans; [apply (H1 (Ok VNone))|now apply aside_same]. }
  match type of H with match ?b with _ => _ end = _ => set (body := b) in H end.
  assert (HB : forall w2 r2, body = Some (w2, r2) -> aside w1 w2 r2).
  { intros w2 r2 Hb. unfold body in Hb. destruct rd as [|f|f i].
    - eapply replay_aside; eauto.
    - destruct (f _); [|injection Hb as <- <-; apply aside_refl]. eapply emit_loop_aside; eauto.
    - destruct (apply_reducer _ _ _); [|injection Hb as <- <-; apply aside_refl]. eapply emit_loop_aside; eauto. }
  clearbody body. destruct body as [[w2 r2]|]; [|discriminate]. specialize (HB _ _ eq_refl).
  destruct r2; injection H as <- <-; [|eapply aside_trans; [apply (H1 (Ok VNone))|exact HB]..].
  eapply aside_trans; [apply (H1 (Ok VNone))|]. eapply aside_trans; [exact HB|]. now apply aside_same.
Qed.

Theorem wp_sound : forall p w w' r, runs E p w w' r -> done r ->
  forall h Q, wp E C p (w_usr w) h Q ->
  exists t, w_tr w' = w_tr w ++ t /\ Q (w_usr w') (h ++ heard C t) r.
Proof.
  intros p; induction p as [v|e| |k IH|o k IH]; intros w w' r H Hr h Q HQ; cbn in HQ.
  - apply runs_ret in H as [-> ->]. exists []. cbn. rewrite !app_nil_r. auto.
  - apply runs_throw in H as [-> ->]. exists []. cbn. rewrite !app_nil_r. auto.
  - apply runs_halt in H as [-> ->]. now contradiction Hr.
  - apply runs_look in H. eapply IH; eauto.
  - apply runs_do in H as (w1 & r1 & HS & H).
    assert (Seq : forall x h1, (match r1 with Ok v => x = inl v | Err e => x = inr e | Halted => False end) ->
      forall t1, w_tr w1 = w_tr w ++ t1 -> h1 = h ++ heard C t1 -> wp E C (k x) (w_usr w1) h1 Q ->
      exists t, w_tr w' = w_tr w ++ t /\ Q (w_usr w') (h ++ heard C t) r).
    { intros x h1 Hx t1 T1 -> HW.
      assert (HR : runs E (k x) w1 w' r) by (destruct r1; subst; [exact H|exact H|contradiction]).
      destruct (IH _ _ _ _ HR Hr _ _ HW) as (t2 & T2 & HQ2). exists (t1 ++ t2).
      rewrite T2, T1, heard_app, app_assoc. rewrite <- app_assoc in HQ2. auto. }
    assert (Pure : is_pure o = true -> match o with OUsr _ => False | _ => True end ->
      w_tr w1 = w_tr w ++ [] /\ w_usr w1 = w_usr w).
    { intros Hp Ho. pose proof HS as HS'. apply steps_pure in HS'; [|exact Hp].
      pose proof (pure_keeps _ _ _ _ _ Hp HS') as (_ & _ & K3 & _). split; [now rewrite app_nil_r|].
      eapply usame_pure; eauto. destruct o; (exact I || contradiction). }
    destruct r1 as [v|e|]; [| |destruct H as [-> ->]; now contradiction Hr].
    + destruct o; try contradiction.
      * destruct (emit_heard _ _ _ _ _ _ _ HS) as (Hu & t1 & T1 & H1).
        destruct HQ as [HQ _]. eapply (Seq (inl v)); [reflexivity|exact T1|reflexivity|].
        rewrite Hu, H1. specialize (HQ v). destruct (C s); [exact HQ|now rewrite app_nil_r].
      * destruct (Pure eq_refl I) as [T1 Hu]. eapply (Seq (inl v)); [reflexivity|exact T1|reflexivity|].
        cbn [heard]. rewrite Hu, app_nil_r. apply HQ.
      * destruct (Pure eq_refl I) as [T1 Hu]. eapply (Seq (inl v)); [reflexivity|exact T1|reflexivity|].
        cbn [heard]. rewrite Hu, app_nil_r. apply HQ.
      * destruct (Pure eq_refl I) as [T1 Hu]. eapply (Seq (inl v)); [reflexivity|exact T1|reflexivity|].
        cbn [heard]. rewrite Hu, app_nil_r. apply steps_pure in HS; [|reflexivity].
        unfold pure_step in HS; cbn [step] in HS. injection HS as _ <-. apply HQ.
      * destruct (Pure eq_refl I) as [T1 Hu]. eapply (Seq (inl v)); [reflexivity|exact T1|reflexivity|].
        cbn [heard]. rewrite Hu, app_nil_r. apply steps_pure in HS; [|reflexivity].
        unfold pure_step in HS; cbn [step] in HS. injection HS as _ <-. apply HQ.
      * destruct (Pure eq_refl I) as [T1 Hu]. eapply (Seq (inl v)); [reflexivity|exact T1|reflexivity|].
        cbn [heard]. rewrite Hu, app_nil_r. apply steps_pure in HS; [|reflexivity].
        unfold pure_step in HS; cbn [step] in HS. injection HS as _ <-. apply HQ.
      * destruct (resume_aside _ _ _ _ _ HS) as (Hu & t1 & T1 & H1).
        destruct HQ as [HQ _]. eapply (Seq (inl v)); [reflexivity|exact T1|reflexivity|].
        rewrite Hu, H1, app_nil_r. apply HQ.
      * destruct (Pure eq_refl I) as [T1 Hu]. eapply (Seq (inl v)); [reflexivity|exact T1|reflexivity|].
        cbn [heard]. rewrite Hu, app_nil_r. apply steps_pure in HS; [|reflexivity].
        unfold pure_step in HS; cbn [step] in HS. injection HS as _ <-. apply HQ.
      * destruct (Pure eq_refl I) as [T1 Hu]. eapply (Seq (inl v)); [reflexivity|exact T1|reflexivity|].
        cbn [heard]. rewrite Hu, app_nil_r. apply steps_pure in HS; [|reflexivity].
        unfold pure_step in HS; cbn [step] in HS. injection HS as _ <-. apply HQ.
      * apply steps_pure in HS; [|reflexivity]. unfold pure_step in HS. cbn [step] in HS.
        destruct (f (w_usr w)) as [u' x] eqn:Hf. cbn [fst snd] in HQ.
        assert (HT1 : w_tr w1 = w_tr w ++ [] /\ w_usr w1 = u' /\ x = inl v).
        { destruct x; [injection HS as <- <-|discriminate HS]. cbn. now rewrite app_nil_r. }
        destruct HT1 as (T1 & Hu & ->). eapply (Seq (inl v)); [reflexivity|exact T1|reflexivity|].
        cbn [heard]. rewrite Hu, app_nil_r. exact HQ.
    + destruct o; try contradiction.
      * destruct (emit_heard _ _ _ _ _ _ _ HS) as (Hu & t1 & T1 & H1).
        destruct HQ as [_ HQ]. eapply (Seq (inr e)); [reflexivity|exact T1|reflexivity|].
        rewrite Hu, H1. specialize (HQ e). destruct (C s) eqn:HC.
        -- apply HQ. intros _. destruct cn; [exact I|]. destruct ct; [exact I|]. exists s, (OEmit s args false false), w, w1. eauto 8.
        -- rewrite app_nil_r. apply HQ. discriminate.
      * destruct (Pure eq_refl I) as [T1 Hu]. eapply (Seq (inr e)); [reflexivity|exact T1|reflexivity|].
        cbn [heard]. rewrite Hu, app_nil_r. apply HQ.
      * destruct (Pure eq_refl I) as [T1 Hu]. eapply (Seq (inr e)); [reflexivity|exact T1|reflexivity|].
        cbn [heard]. rewrite Hu, app_nil_r. apply HQ.
      * apply steps_pure in HS; [|reflexivity]. discriminate HS.
      * apply steps_pure in HS; [|reflexivity]. discriminate HS.
      * apply steps_pure in HS; [|reflexivity]. discriminate HS.
      * destruct (resume_aside _ _ _ _ _ HS) as (Hu & t1 & T1 & H1).
        destruct HQ as [_ HQ]. eapply (Seq (inr e)); [reflexivity|exact T1|reflexivity|].
        rewrite Hu, H1, app_nil_r. apply HQ. intros HC Hrd. exists s, (OResume s r0), w, w1. eauto 9.
      * apply steps_pure in HS; [|reflexivity]. discriminate HS.
      * apply steps_pure in HS; [|reflexivity]. discriminate HS.
      * apply steps_pure in HS; [|reflexivity]. unfold pure_step in HS. cbn [step] in HS.
        destruct (f (w_usr w)) as [u' x] eqn:Hf. cbn [fst snd] in HQ.
        assert (HT1 : w_tr w1 = w_tr w ++ [] /\ w_usr w1 = u' /\ x = inr e).
        { destruct x; [discriminate HS|injection HS as <- <-]. cbn. now rewrite app_nil_r. }
        destruct HT1 as (T1 & Hu & ->). eapply (Seq (inr e)); [reflexivity|exact T1|reflexivity|].
        cbn [heard]. rewrite Hu, app_nil_r. exact HQ.
Qed.
End Client.
