(** SelectableEventedLists whose listeners use the list.  Proof infrastructure; models no code. *)

From Verif Require Import Base Core Prog PyList EList PySet ESet SpecSet SetFacts ESelect SpecSelect SelFacts SelList Calm SpecSelUse SpecSelListUse SelCalm.
Open Scope nat_scope.

Section SelListCalm.
Variable same : val -> val -> bool.
Hypothesis refl : forall x, same x x = true.
Hypothesis sym : forall x y, same x y = true -> same y x = true.
Hypothesis trans : forall x y z, same x y = true -> same y z = true -> same x z = true.
Variable n : nat.
Variable islist : val -> bool.
Variable wrap : val -> val.
Variable activate : bool.
Notation put := (fun s u => Both (b_list u) s).
Notation allowed := (fun u x => mem same x (b_list u)).
Notation B := (base same b_sel allowed).
Notation R := (R same b_sel).
Notation good := (good same b_sel allowed).
Notation cwp := (cwp B R).
Notation sound := (sound B R).
Notation lift := (lift_n same n).
Notation pick := (pick_n same n).
Notation RR := (R_refl same b_sel).
Notation RT := (R_trans same b_sel).

Lemma pick_s : forall o, sound (pick o).
Proof. intros o. apply sel_n_sound; auto. Qed.

Lemma fails_catch_map : forall (p : prog both) k k', (forall r, fails (k r) -> fails (k' r)) -> fails (catch p k) -> fails (catch p k').
Proof. intros p k k' H; induction p as [v|e| |f IH|o f IH]; cbn; auto. Qed.
Lemma cwp_catch_map : forall (p : prog both) k k' u (Q Q' : both -> val -> Prop), (forall r, fails (k r) -> fails (k' r)) ->
  (forall r u, cwp (k r) u Q -> cwp (k' r) u Q') -> cwp (catch p k) u Q -> cwp (catch p k') u Q'.
Proof.
  intros p k k' u Q Q' HF H. revert u; induction p as [v|e| |f IH|o f IH]; intros u; cbn; auto.
  destruct o; try (intros [H0|(HB & H1 & H2)]; [left; intros x; now apply (fails_catch_map _ k)|right; split; [exact HB|split; [intros; apply IH; now apply H1|intros e; now apply (fails_catch_map _ k)]]]).
  apply IH.
Qed.
Lemma lift_fails : forall p k, fails (lift p) -> fails (lift (bind p k)).
Proof.
  intros p k; induction p as [v|e| |f IH|o f IH]; cbn [lift_n bind]; intros H; [contradiction|exact H|exact H|intros u; apply IH; exact (H u)|].
  destruct (removed_item o) as [x|].
  - eapply fails_catch_map; [|exact H]. intros [v|e]; cbn; auto.
  - intros y. apply IH. exact (H y).
Qed.
Lemma lift_bind : forall p k u (Q : both -> val -> Prop), cwp (lift p) u (fun u1 v => cwp (lift (k v)) u1 Q) -> cwp (lift (bind p k)) u Q.
Proof.
  assert (D : forall o (f g : val + exn -> prog both) u (Q Q' : both -> val -> Prop),
    (forall y, fails (f y) -> fails (g y)) -> (forall y u, cwp (f y) u Q -> cwp (g y) u Q') -> cwp (Do o f) u Q -> cwp (Do o g) u Q').
  { intros o f g u Q Q' HF HQ H. destruct o; cbn in *; try (destruct H as [H|(HB & H1 & H2)]; [left; auto|right; split; [exact HB|split; auto]]). auto. }
  intros p; induction p as [v|e| |f IH|o f IH]; intros k u Q; cbn [lift_n bind]; auto.
  - cbn. apply IH.
  - destruct (removed_item o) as [x|].
    + apply cwp_catch_map.
      * intros [v|e]; [intros H y; apply lift_fails; exact (H y)|apply lift_fails].
      * intros [v|e] u1; [apply D; [intros y; apply lift_fails|intros y u2; apply IH]|apply IH].
    + apply D; [intros y; apply lift_fails|intros y u2; apply IH].
Qed.
Lemma lift_fails_catch : forall p k, (forall e, fails (lift (k (inr e)))) -> fails (lift p) -> fails (lift (catch p k)).
Proof.
  intros p k Hk; induction p as [v|e| |f IH|o f IH]; cbn [lift_n catch]; intros H; [contradiction|apply Hk|exact H|intros u; apply IH; exact (H u)|].
  destruct (removed_item o) as [x|].
  - eapply fails_catch_map; [|exact H]. intros [v|e]; cbn; auto.
  - intros y. apply IH. exact (H y).
Qed.
Lemma lift_catch : forall p k u (Q : both -> val -> Prop), (forall e, fails (lift (k (inr e)))) ->
  cwp (lift p) u (fun u1 v => cwp (lift (k (inl v))) u1 Q) -> cwp (lift (catch p k)) u Q.
Proof.
  assert (D : forall o (f g : val + exn -> prog both) u (Q Q' : both -> val -> Prop),
    (forall y, fails (f y) -> fails (g y)) -> (forall y u, cwp (f y) u Q -> cwp (g y) u Q') -> cwp (Do o f) u Q -> cwp (Do o g) u Q').
  { intros o f g u Q Q' HF HQ H. destruct o; cbn in *; try (destruct H as [H|(HB & H1 & H2)]; [left; auto|right; split; [exact HB|split; auto]]). auto. }
  intros p k u Q Hk. revert u. induction p as [v|e| |f IH|o f IH]; intros u; cbn [lift_n catch]; auto.
  - intros _. apply cwp_fails. apply Hk.
  - cbn. apply IH.
  - destruct (removed_item o) as [x|].
    + apply cwp_catch_map.
      * intros [v|e]; [intros H y; apply lift_fails_catch; [exact Hk|exact (H y)]|apply lift_fails_catch; exact Hk].
      * intros [v|e] u1; [apply D; [intros y; apply lift_fails_catch; exact Hk|intros y u2; apply IH]|apply IH].
    + apply D; [intros y; apply lift_fails_catch; exact Hk|intros y u2; apply IH].
Qed.
(** Rules for the methods of the list. *)
Lemma ls_bind : forall p k, sound (lift p) -> (forall v, sound (lift (k v))) -> sound (lift (bind p k)).
Proof.
  intros p k Hp Hk u HB. apply lift_bind. apply cwp_sound; [exact Hp|exact HB|]. intros u1 v HB1 HR1.
  apply cwp_sound; [apply Hk|exact HB1|]. intros u2 y HB2 HR2. split; [exact HB2|]. eapply RT; eauto.
Qed.
Lemma ls_each : forall {A} (f : A -> prog data) l, (forall x, sound (lift (f x))) -> sound (lift (each f l)).
Proof.
  intros A f l Hf; induction l as [|x l IH]; [exact (sound_ret B R RR _)|]. change (each f (x :: l)) with (f x ;; each f l). apply ls_bind; auto.
Qed.
Lemma ls_call : forall o, match o with OUsr _ => False | OEmit 4 [_; _] _ _ => False | _ => True end -> sound (lift (call o)).
Proof.
  intros o Ho u HB. unfold call.
  assert (HN : removed_item o = None).
  { destruct o; try reflexivity. cbn in *. do 4 (destruct s as [|s]; [reflexivity|]). destruct s as [|s]; [|reflexivity].
    destruct args as [|x [|y [|z a]]]; try reflexivity. contradiction. }
  cbn [lift_n]. rewrite HN. destruct o; try contradiction; cbn; right; split; auto; cbn; auto.
Qed.
Lemma ls_say : forall s a, s <> 4 -> sound (lift (say s a)).
Proof. intros s a Hs. apply ls_call. do 4 (destruct s as [|s]; [exact Logic.I|]). destruct s as [|s]; [congruence|exact Logic.I]. Qed.
Lemma ls_insert : forall i v, sound (lift (act (do_insert i v))).
Proof.
  intros i v u HB. cbn. split; [|left; auto]. destruct HB as [HD HA]. split; [exact HD|]. cbn. intros x Hx. rewrite insert_has. now rewrite (HA x Hx).
Qed.
Lemma pop_c : forall u i (Q : both -> val -> Prop) k, B u ->
  (forall v u', b_sel u' = b_sel u -> loose same v u' -> cwp (lift (k v)) u' Q) -> cwp (lift (bind (act (do_pop i)) k)) u Q.
Proof.
  intros u i Q k [HD HA] Hk. apply lift_bind. unfold act, call. cbn. unfold do_pop.
  destruct (list_pop (b_list u) i) as [[v l']|] eqn:Hp; cbn; [|exact Logic.I].
  apply Hk; [reflexivity|]. split; [exact HD|]. intros x Hx. cbn. rewrite <- (pop_has same x _ _ _ _ Hp). now apply HA.
Qed.
Lemma discard_loose : forall v u, loose same v u -> cwp (pick (LSet_ (SDiscard v))) u (fun u' _ => B u' /\ R u u').
Proof.
  intros v u [Hd Ha]. unfold pick_n. cbn [sel_n]. unfold bs_discard. apply cwp_bind. cbn [Calm.cwp pre_discard sel_hooks].
  change (p_items b_sel u) with (sel_items (b_sel u)). destruct (mem same v (sel_items (b_sel u))) eqn:Em; cbn [bails negb].
  - apply cwp_seq. eapply cwp_act; [reflexivity|]. cbn [fst modify]. eapply cwp_mono; [|apply emit_c; [apply upd_c; auto|]].
    + cbn. intros u' _ [H1 H2]. split; [exact H1|now right].
    + split; [cbn; now apply distinct_sdel|]. cbn. intros x Hx.
      assert (Hm : mem same x (sdel same v (sel_items (b_sel u))) = true) by (apply mem_in; auto).
      unfold p_items in Hx. rewrite mem_sdel in Hm by auto. apply andb_true_iff in Hm as [_ Hm].
      specialize (Ha x (sdel_in same v x _ Hx)). apply negb_true_iff in Hm. now rewrite Hm in Ha.
  - cbn. split; [|apply RR]. split; [exact Hd|]. intros x Hx. specialize (Ha x Hx). apply orb_true_iff in Ha as [Ha|Ha]; [|exact Ha].
    rewrite <- (mem_same same sym trans x v _ Ha) in Em. rewrite mem_in in Em; [discriminate|exact refl|exact Hx].
Qed.
Lemma del_one_s : forall i, sound (lift (del_one i)).
Proof.
  intros i. unfold del_one. apply ls_bind; [apply ls_say; discriminate|]. intros _ u HB. apply pop_c; [exact HB|].
  intros v u1 Hu1 HL. unfold say, call. cbn [lift_n removed_item]. apply cwp_catch; [intros e; exact Logic.I|].
  eapply cwp_mono; [|now apply discard_loose]. cbn. intros u2 _ [HB2 HR2]. right. split; [exact HB2|]. split; [|auto].
  intros u3 _ HB3 HR3. split; [exact HB3|]. eapply RT; [|exact HR3]. destruct HR2 as [[Hi Ha]|H2]; [|now right]. left. rewrite Hi, Ha, Hu1. auto.
Qed.
Lemma del_s : forall i, sound (lift (el_del i)).
Proof. intros i. apply sound_look. intros u. apply ls_each. apply del_one_s. Qed.
Lemma remove_s : forall v, sound (lift (el_remove same islist wrap v)).
Proof. intros v. apply sound_look. intros u. destruct (find_index _ _ _ _ _ _); [apply del_s|exact (sound_throw B R _)]. Qed.
Lemma move_s : forall a b, sound (lift (el_move a b)).
Proof.
  intros a b. apply sound_look. intros u0. cbn beta zeta. destruct (_ || _)%bool; [exact (sound_ret B R RR _)|].
  apply ls_bind; [apply ls_say; discriminate|]. intros _ u HB. apply pop_c; [exact HB|]. intros v u1 Hu1 [Hd Ha]. cbn beta zeta.
  apply lift_bind. unfold act, call. cbn [Calm.cwp lift_n removed_item lift_op fst snd do_insert finish].
  set (u2 := Both _ _).
  assert (HB2 : B u2). { split; [exact Hd|]. intros x Hx. unfold u2. cbn. rewrite insert_has. rewrite orb_comm. now apply Ha. }
  assert (HR2 : R u u2). { left. unfold u2. cbn. rewrite Hu1. auto. }
  clearbody u2. apply cwp_sound; [|exact HB2|intros u3 x HB3 HR3; split; [exact HB3|eapply RT; eauto]].
  apply ls_bind; [apply ls_say; discriminate|]. intros _. apply ls_bind; [apply ls_say; discriminate|]. intros _. exact (sound_ret B R RR _).
Qed.
Lemma reverse_s : sound (lift (el_reverse islist wrap false)).
Proof.
  unfold el_reverse. apply ls_bind.
  - intros u [HD HA]. cbn. split; [|left; auto]. split; [exact HD|]. cbn. intros x Hx. specialize (HA x Hx). cbn in HA.
    apply mem_inside in HA as (y & Hy & Hs). apply mem_inside. exists y. split; [now apply in_rev in Hy|exact Hs].
  - intros _. apply ls_bind; [apply ls_say; discriminate|]. intros _. exact (sound_ret B R RR _).
Qed.
Lemma blocked_s : forall s e p, sound (lift p) -> sound (lift (with_blocked s e p)).
Proof.
  intros s e p Hp. unfold with_blocked. apply ls_bind; [now apply ls_call|]. intros was. apply ls_bind; [now apply ls_call|]. intros _. unfold try_finally.
  set (fin := match was with VBool true => _ | _ => _ end).
  assert (HF : sound (lift fin) /\ forall f, (forall v, fails (lift (f v))) -> fails (lift (bind fin f))).
  { assert (H0 : sound (lift (call (OUnblock s))) /\ forall f, (forall v, fails (lift (f v))) -> fails (lift (bind (call (OUnblock s)) f)))
      by (split; [now apply ls_call|intros f Hf; cbn; intros [v|e']; cbn; auto]).
    unfold fin. destruct was; try exact H0. destruct b; [|exact H0]. split; [exact (sound_ret B R RR _)|intros f Hf; cbn; auto]. }
  clearbody fin. destruct HF as [HF1 HF2]. intros u HB. apply lift_catch.
  - intros e'. apply HF2. intros v. exact Logic.I.
  - apply cwp_sound; [exact Hp|exact HB|]. intros u1 v HB1 HR1. apply lift_bind. apply cwp_sound; [exact HF1|exact HB1|].
    intros u2 y HB2 HR2. cbn. split; [exact HB2|]. eapply RT; eauto.
Qed.
Lemma get_s : forall i k, (forall x, sound (k x)) -> sound (se_get islist wrap i k).
Proof. intros i k Hk. apply sound_look. intros u. destruct (at_ _ i); [apply Hk|exact (sound_throw B R _)]. Qed.
Notation bind_s := (sound_bind B R RT).
Notation ret_s := (sound_ret B R RR).
Lemma insert_s : forall i v, sound (se_insert_n same n activate i v).
Proof.
  intros i v. apply bind_s.
  - apply ls_bind; [apply ls_say; discriminate|]. intros _. apply ls_bind; [apply ls_insert|]. intros _.
    apply ls_bind; [apply ls_say; discriminate|]. intros _. exact (ret_s _).
  - intros _. destruct activate; [|exact (ret_s _)]. apply bind_s; [apply pick_s|]. intros _. exact (ret_s _).
Qed.
Lemma next_s : forall st e wr, sound (se_next_n same n islist wrap st e wr).
Proof.
  intros st e wr. apply sound_look. intros u. cbn zeta. destruct (size (b_list u) =? 0)%Z; [exact (ret_s _)|].
  match goal with |- sound (match sel_items (b_sel u) with [] => se_get _ _ ?i ?k | _ => _ end) => set (k0 := k) end.
  assert (HG : forall i, sound (se_get islist wrap i k0)).
  { intros i. apply get_s. intros x. destruct e.
    - apply bind_s; [apply pick_s|]. intros _. apply bind_s; [apply pick_s|]. intros _. exact (ret_s _).
    - apply bind_s; [apply pick_s|]. intros _. exact (ret_s _). }
  clearbody k0. destruct (sel_items (b_sel u)); [apply HG|]. destruct (find_index _ _ _ _ _ _); [apply HG|exact (sound_throw B R _)].
Qed.
Lemma remove_selected_s : sound (se_remove_selected_n same n islist wrap).
Proof.
  apply sound_look. intros u. cbn zeta.
  match goal with |- Calm.sound _ _ (?F 0%Z ?l0) => assert (HL : forall l i, sound (F i l)); [|apply HL] end. intros l.
  induction l as [|x l IH]; intros i.
  - apply sound_look. intros u1. cbn zeta. apply bind_s; [|intros _; exact (ret_s _)].
    destruct (_ <? _)%Z; [|exact (ret_s _)]. apply get_s. intros y. apply pick_s.
  - apply sound_look. intros u1. destruct (find_index _ _ _ _ _ _); [|exact (sound_throw B R _)]. apply bind_s; [apply remove_s|]. intros _. apply IH.
Qed.
Lemma selectable_n_sound : forall o, replaces o = false -> o <> EClear -> sound (selectable_n same n islist wrap activate o).
Proof.
  intros o Hr Hc. destruct o; try discriminate Hr; cbn [selectable_n].
  - apply insert_s.
  - apply sound_look. intros u. apply insert_s.
  - apply (sound_each B R RR RT). intros x _. apply sound_look. intros u. apply insert_s.
  - apply del_s.
  - apply sound_look. intros u. destruct (slice_range _ s); [|exact (sound_throw B R _)]. apply ls_each. apply del_one_s.
  - apply ls_bind; [apply sound_look; intros u; destruct (at_ _ i); [exact (ret_s _)|exact (sound_throw B R _)]|].
    intros v. apply ls_bind; [apply del_s|]. intros _. exact (ret_s _).
  - apply remove_s.
  - congruence.
  - destruct individual; [discriminate Hr|]. apply reverse_s.
  - apply move_s.
  - apply sound_look. intros u. destruct (move_plan _ _ _) as [plan|]; [|exact (sound_throw B R _)].
    apply ls_bind; [apply blocked_s; apply ls_each; intros x; apply move_s|]. intros _.
    apply ls_bind; [apply ls_say; discriminate|]. intros _. exact (ret_s _).
  - apply pick_s.
  - apply sound_look. intros u. apply pick_s.
  - apply pick_s.
  - apply next_s.
  - apply remove_selected_s.
Qed.
End SelListCalm.
