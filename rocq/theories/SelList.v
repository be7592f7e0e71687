(** Facts about SelectableEventedList.  Proof infrastructure. *)

From Verif Require Import Base Core Spec Frame Fuel Client Prog Through PyList EList PySet ESet SpecSet SetFacts ESelect SelFacts.
Open Scope nat_scope.

Section SelList.
Variable E : env both.
Notation C := selectable_signals.
Variable same : val -> val -> bool.
Hypothesis refl : forall x, same x x = true.
Hypothesis sym : forall x y, same x y = true -> same y x = true.
Hypothesis trans : forall x y z, same x y = true -> same y z = true -> same x z = true.
Notation put := (fun s u => Both (b_list u) s).
Notation allowed := (fun u x => mem same x (b_list u)).
Notation base := (base same b_sel allowed).
Notation th := (through E C).
Notation lift := (lift same).
Notation X := (fun u (_ : exn) => base u).
Notation bk := (keeps E C base X).
Variable islist : val -> bool.
Variable wrap : val -> val.

Lemma pick_k : forall o, bk (pick same o).
Proof.
  intros o. unfold pick. apply base_do; auto.
Qed.

Lemma wp_catch_inv : forall (p : prog both) k u h Q, wp E C (catch p k) u h Q ->
  wp E C p u h (fun u1 h1 r => match r with Ok v => wp E C (k (inl v)) u1 h1 Q | Err e => wp E C (k (inr e)) u1 h1 Q | Halted => True end).
Proof.
  intros p; induction p as [v|e| |f IH|o f IH]; intros k u h Q H; cbn in *; auto.
  destruct o; try contradiction; eauto; try (destruct H as [H1 H2]; split; intros; eauto); intros; eauto.
Qed.
Lemma lift_catch : forall p k u h Q,
  wp E C (lift p) u h (fun u1 h1 r => match r with Ok v => wp E C (lift (k (inl v))) u1 h1 Q | Err e => wp E C (lift (k (inr e))) u1 h1 Q | Halted => True end) ->
  wp E C (lift (catch p k)) u h Q.
Proof.
  intros p; induction p as [v|e| |f IH|o f IH]; intros k u h Q H; cbn [catch ESelect.lift] in *; auto.
  - cbn in *. now apply IH.
  - destruct (removed_item o) as [x|].
    + apply wp_catch. apply wp_catch_inv in H. eapply wp_mono; [|exact H]. cbn beta.
      intros u1 h1 [v|e|] H1; auto.
      destruct o; cbn in *; try contradiction; eauto; try (destruct H1 as [H1 H2]; split; intros; eauto); intros; eauto.
    + destruct o; cbn in *; try contradiction; eauto; try (destruct H as [H1 H2]; split; intros; eauto); intros; eauto.
Qed.
Lemma lift_bind : forall p k u h Q,
  wp E C (lift p) u h (fun u1 h1 r => match r with Ok v => wp E C (lift (k v)) u1 h1 Q | Err e => Q u1 h1 (Err e) | Halted => True end) ->
  wp E C (lift (bind p k)) u h Q.
Proof.
  intros p; induction p as [v|e| |f IH|o f IH]; intros k u h Q H; cbn [bind ESelect.lift] in *; auto.
  - cbn in *. now apply IH.
  - destruct (removed_item o) as [x|].
    + apply wp_catch. apply wp_catch_inv in H. eapply wp_mono; [|exact H]. cbn beta.
      intros u1 h1 [v|e|] H1; auto.
      destruct o; cbn in *; try contradiction; eauto; try (destruct H1 as [H1 H2]; split; intros; eauto); intros; eauto.
    + destruct o; cbn in *; try contradiction; eauto; try (destruct H as [H1 H2]; split; intros; eauto); intros; eauto.
Qed.
Lemma lt_bind : forall p k u (Q1 Q : both -> Prop), th (lift p) u Q1 X ->
  (forall u v, Q1 u -> th (lift (k v)) u Q X) -> th (lift (bind p k)) u Q X.
Proof.
  intros p k u Q1 Q Hp Hk h. apply lift_bind. eapply wp_mono; [|apply Hp].
  intros u' h' [v|e|] HH; auto. now apply Hk.
Qed.
Lemma lt_seq : forall p q u (Q1 Q : both -> Prop), th (lift p) u Q1 X ->
  (forall u, Q1 u -> th (lift q) u Q X) -> th (lift (p;; q)) u Q X.
Proof. intros p q u Q1 Q Hp Hq. unfold seq. eapply lt_bind; eauto. Qed.
Lemma lt_catch : forall p k u (Q1 Q : both -> Prop), th (lift p) u Q1 X ->
  (forall u v, Q1 u -> th (lift (k (inl v))) u Q X) -> (forall u e, base u -> th (lift (k (inr e))) u Q X) ->
  th (lift (catch p k)) u Q X.
Proof.
  intros p k u Q1 Q Hp Hq Hx h. apply lift_catch. eapply wp_mono; [|apply Hp].
  intros u' h' [v|e|] HH; auto; [now apply Hq|now apply Hx].
Qed.
Lemma lt_each : forall {A} (f : A -> prog data) l, (forall x, bk (lift (f x))) -> bk (lift (each f l)).
Proof.
  intros A f l Hf; induction l as [|x l IH]; intros u Hu; cbn [each]; [now apply th_ret|].
  eapply lt_seq; [now apply Hf|exact IH].
Qed.
Lemma lt_say : forall s a u (Q : both -> Prop), s <> 4 -> base u -> Q u -> th (lift (say s a)) u Q X.
Proof.
  intros s a u Q Hs Hb HQ h. unfold say, call. cbn [ESelect.lift].
  replace (removed_item (OEmit s a false false)) with (@None val); [cbn; auto|].
  do 4 (destruct s as [|s]; [reflexivity|]). now destruct s.
Qed.
Lemma lt_act : forall f u (Q : both -> Prop),
  match f (b_list u) with (l, inl v) => Q (Both l (b_sel u)) | (l, inr e) => base (Both l (b_sel u)) end ->
  th (lift (act f)) u Q X.
Proof. intros f u Q H h. unfold act, call. cbn. destruct (f (b_list u)) as [l [v|e]]; exact H. Qed.

(** Membership in the list. *)
Lemma insert_has : forall x l i v, mem same x (list_insert l i v) = mem same x l || same x v.
Proof.
  intros x l i v. unfold list_insert, insert_nth. set (n := Z.to_nat _).
  rewrite <- (firstn_skipn n l) at 3. rewrite !mem_app, mem_cons. destruct (same x v), (mem same x (firstn n l)), (mem same x (skipn n l)); reflexivity.
Qed.
Lemma pop_has : forall x l i y l', list_pop l i = Some (y, l') -> mem same x l = same x y || mem same x l'.
Proof.
  intros x l i y l' H. unfold list_pop in H. destruct (at_ l i) as [z|] eqn:Ez; [|discriminate]. injection H as <- <-.
  unfold at_ in Ez. destruct (valid l i); [|discriminate]. set (n := Z.to_nat (norm l i)) in *.
  apply nth_error_split in Ez as (a & b & -> & Hn). unfold remove_nth. rewrite <- Hn, firstn_app, skipn_app, Nat.sub_diag, firstn_all.
  rewrite skipn_all2 by lia. replace (S (List.length a) - List.length a)%nat with 1%nat by lia. cbn [firstn skipn].
  rewrite !mem_app, mem_cons, mem_nil. cbn [List.app]. destruct (same x z), (mem same x a), (mem same x b); reflexivity.
Qed.
Lemma base_insert : forall u i v, base u -> base (Both (list_insert (b_list u) i v) (b_sel u)).
Proof. intros u i v [Hd Ha]. split; [exact Hd|]. intros x Hx. cbn. rewrite insert_has. specialize (Ha x Hx). cbn in Ha. now rewrite Ha. Qed.

(** The item [v] was just taken out. *)
Definition loose (v : val) (u : both) : Prop :=
  distinct same (sel_items (b_sel u)) /\ forall x, In x (sel_items (b_sel u)) -> same x v || mem same x (b_list u) = true.
Lemma pop_loose : forall u i (Q : both -> Prop) k, base u -> (forall v u', loose v u' -> th (lift (k v)) u' Q X) -> th (lift (bind (act (do_pop i)) k)) u Q X.
Proof.
  intros u i Q k Hb Hk h. apply lift_bind. unfold act, call. cbn. unfold do_pop.
  destruct (list_pop (b_list u) i) as [[v l']|] eqn:Hp; cbn.
  - apply Hk. destruct Hb as [Hd Ha]. split; [exact Hd|]. intros x Hx. cbn. rewrite <- (pop_has x _ _ _ _ Hp). now apply Ha.
  - destruct u; exact Hb.
Qed.
Lemma discard_loose : forall v u, loose v u -> th (on_item_removed same v) u base X.
Proof.
  intros v u [Hd Ha]. unfold on_item_removed, pick. cbn [sel_do sel_set]. unfold sl_discard, bs_discard.
  cbn [pre_discard sel_hooks bind]. apply th_look. cbn [bind]. unfold p_items at 1.
  destruct (mem same v (sel_items (b_sel u))) eqn:Em; cbn [negb bails].
  - eapply th_seq with (Q1 := base).
    + apply th_act. cbn. split; [cbn; now apply distinct_sdel|]. cbn. intros x Hx.
      assert (Hm : mem same x (sdel same v (sel_items (b_sel u))) = true) by (apply mem_in; auto).
      unfold p_items in Hx. rewrite mem_sdel in Hm by auto. apply andb_true_iff in Hm as [_ Hm].
      specialize (Ha x (sdel_in same v x _ Hx)). apply negb_true_iff in Hm. now rewrite Hm in Ha.
    + intros u1 H1. eapply th_seq with (Q1 := base); [|intros; now apply th_ret].
      apply base_emit; [|exact H1]. apply base_upd; auto. intros w. apply base_set_active; auto.
  - apply th_ret. split; [exact Hd|]. intros x Hx. specialize (Ha x Hx). apply orb_true_iff in Ha as [Ha|Ha]; [|exact Ha].
    rewrite <- (mem_same same sym trans x v _ Ha) in Em. rewrite mem_in in Em; [discriminate|exact refl|exact Hx].
Qed.

(** The methods of the list. *)
Lemma insert_k : forall i v, bk (lift (el_insert i v)).
Proof.
  intros i v u Hu. unfold el_insert. eapply lt_seq with (Q1 := base); [apply lt_say; auto; discriminate|].
  intros u1 H1. eapply lt_seq with (Q1 := base); [apply lt_act; cbn; now apply base_insert|].
  intros u2 H2. eapply lt_seq with (Q1 := base); [apply lt_say; auto; discriminate|]. intros u3 H3. now apply th_ret.
Qed.
Lemma del_one_k : forall i, bk (lift (del_one i)).
Proof.
  intros i u Hu. unfold del_one. eapply lt_seq with (Q1 := base); [apply lt_say; auto; discriminate|].
  intros u1 H1. apply pop_loose; [exact H1|]. intros v u2 H2. unfold say, call. cbn [ESelect.lift removed_item].
  eapply th_catch; [now apply discard_loose| |]; cbn beta iota.
  - intros u3 x H3 h. cbn. auto.
  - intros u3 e H3. now apply th_throw.
Qed.
Lemma del_k : forall i, bk (lift (el_del i)).
Proof. intros i u Hu. apply th_look. apply lt_each; [apply del_one_k|exact Hu]. Qed.
Lemma del_slice_k : forall s, bk (lift (el_del_slice s)).
Proof.
  intros s u Hu. apply th_look. destruct (slice_range _ s); [|now apply th_throw]. apply lt_each; [apply del_one_k|exact Hu].
Qed.
Lemma pop_k : forall i, bk (lift (el_pop islist wrap i)).
Proof.
  intros i u Hu. unfold el_pop. eapply lt_bind with (Q1 := base).
  - apply th_look. destruct (at_ _ i); [now apply th_ret|now apply th_throw].
  - intros u1 v H1. eapply lt_seq; [now apply del_k|]. intros; now apply th_ret.
Qed.
Lemma remove_k : forall v, bk (lift (el_remove same islist wrap v)).
Proof. intros v u Hu. apply th_look. destruct (find_index _ _ _ _ _ _); [now apply del_k|now apply th_throw]. Qed.
Lemma clear_loop_k : forall n, bk (lift (clear_loop islist wrap n)).
Proof.
  induction n as [|n IH]; intros u Hu; cbn [clear_loop]; [intros h; exact Hu|].
  eapply lt_catch; [now apply pop_k|intros; now apply IH|]. intros u1 e H1. destruct e; try (now apply th_throw). now apply th_ret.
Qed.
Lemma clear_k : bk (lift (el_clear islist wrap)).
Proof. intros u Hu. apply th_look. now apply clear_loop_k. Qed.
Lemma reverse_k : bk (lift (el_reverse islist wrap false)).
Proof.
  intros u Hu. unfold el_reverse. eapply lt_seq with (Q1 := base).
  - apply lt_act. destruct Hu as [Hd Ha]. split; [exact Hd|]. intros x Hx. cbn. specialize (Ha x Hx). cbn in Ha.
    apply mem_inside in Ha as (y & Hy & Hs). apply mem_inside. exists y. split; [now apply in_rev in Hy|exact Hs].
  - intros u1 H1. eapply lt_seq with (Q1 := base); [apply lt_say; auto; discriminate|]. intros; now apply th_ret.
Qed.
Lemma move_k : forall a b, bk (lift (el_move a b)).
Proof.
  intros a b u Hu. unfold el_move. apply th_look. cbv zeta. destruct (_ || _)%bool; [now apply th_ret|].
  eapply lt_seq with (Q1 := base); [apply lt_say; auto; discriminate|].
  intros u1 H1. apply pop_loose; [exact H1|]. intros v u2 [Hd Ha].
  eapply lt_seq with (Q1 := base).
  { apply lt_act. cbn. split; [exact Hd|]. intros x Hx. cbn. rewrite insert_has. rewrite orb_comm. now apply Ha. }
  intros u3 H3. eapply lt_seq with (Q1 := base); [apply lt_say; auto; discriminate|].
  intros u4 H4. eapply lt_seq with (Q1 := base); [apply lt_say; auto; discriminate|]. intros; now apply th_ret.
Qed.
Lemma lt_quiet : forall o u (Q : both -> Prop), (exists s e, o = OBlock s e) \/ (exists s, o = OUnblock s) ->
  base u -> Q u -> th (lift (call o)) u Q X.
Proof. intros o u Q [(s & e & ->)|(s & ->)] Hb HQ h; exact HQ. Qed.
Lemma blocked_k : forall s e p, bk (lift p) -> bk (lift (with_blocked s e p)).
Proof.
  intros s e p Hp u Hu. unfold with_blocked. eapply lt_bind with (Q1 := base).
  { intros h. cbn. auto. }
  intros u1 v H1. eapply lt_bind with (Q1 := base); [apply lt_quiet; eauto|]. intros u2 _ H2. unfold try_finally.
  assert (HF : forall u x, base u -> th (lift (bind match v with VBool true => Ret VNone | _ => call (OUnblock s) end (fun _ => finish x))) u base X).
  { intros u3 x H3. eapply lt_bind with (Q1 := base).
    - assert (HU : th (lift (call (OUnblock s))) u3 base X) by (apply lt_quiet; eauto).
      destruct v as [| [|] | | | | | | |]; exact HU.
    - intros u4 _ H4. destruct x; [now apply th_ret|now apply th_throw]. }
  eapply lt_catch; [now apply Hp| |]; intros; now apply HF.
Qed.
Lemma move_multiple_k : forall a b, bk (lift (el_move_multiple a b)).
Proof.
  intros a b u Hu. unfold el_move_multiple. apply th_look. destruct (move_plan _ a b) as [plan|]; [|now apply th_throw].
  eapply lt_seq with (Q1 := base).
  - apply blocked_k; [|exact Hu]. apply lt_each. intros m. apply move_k.
  - intros u1 H1. eapply lt_seq with (Q1 := base); [apply lt_say; auto; discriminate|]. intros; now apply th_ret.
Qed.

(** The methods of SelectableEventedList. *)
Variable activate : bool.
Lemma se_insert_k : forall i v, bk (se_insert same activate i v).
Proof.
  intros i v. apply keeps_seq; [apply insert_k|]. destruct activate; [|apply keeps_ret]. apply keeps_seq; [apply pick_k|apply keeps_ret].
Qed.
Lemma se_append_k : forall v, bk (se_append same activate v).
Proof. intros v. apply keeps_look. intros u. apply se_insert_k. Qed.
Lemma se_get_k : forall i k, (forall x, bk (k x)) -> bk (se_get islist wrap i k).
Proof. intros i k Hk. apply keeps_look. intros u. destruct (at_ _ i); [apply Hk|apply keeps_throw; auto]. Qed.
Lemma se_next_k : forall st e wr, bk (se_next same islist wrap st e wr).
Proof.
  intros st e wr. apply keeps_look. intros u. cbv zeta. destruct (_ =? _)%Z; [apply keeps_ret|].
  assert (HG : forall i, bk (se_get islist wrap i (fun x => if e then pick same (LSet_ (SAdd x));; pick same (LCurrent x);; Ret VNone
                                                            else pick same (LActive x);; Ret VNone))).
  { intros i. apply se_get_k. intros x. destruct e; repeat (apply keeps_seq; [apply pick_k|]); apply keeps_ret. }
  destruct (sel_items (b_sel u)); [apply HG|]. destruct (find_index _ _ _ _ _ _); [apply HG|apply keeps_throw; auto].
Qed.
Lemma se_remove_selected_k : bk (se_remove_selected same islist wrap).
Proof.
  apply keeps_look. intros u. cbv zeta. generalize (sel_items (b_sel u)) at 1 as out. intros out.
  match goal with |- keeps _ _ _ _ (?f 0%Z _) => cut (forall i, bk (f i (sel_items (b_sel u)))); [intros H; exact (H 0%Z)|] end.
  induction (sel_items (b_sel u)) as [|x l IH]; intros i.
  - apply keeps_look. intros u1. apply keeps_seq; [|apply keeps_ret].
    destruct (_ <? _)%Z; [|apply keeps_ret]. apply se_get_k. intros x. apply pick_k.
  - apply keeps_look. intros u1. destruct (find_index _ _ _ _ _ _); [|apply keeps_throw; auto].
    apply keeps_seq; [apply remove_k|apply IH].
Qed.
Theorem selectable_k : forall o, (match o with ESet_ _ _ | ESetSlice _ _ | EReverse true => False | _ => True end) ->
  bk (selectable same islist wrap activate o).
Proof.
  intros o Ho. destruct o; cbn [selectable]; try contradiction.
  - apply se_insert_k.
  - apply se_append_k.
  - apply keeps_each. apply se_append_k.
  - apply del_k.
  - apply del_slice_k.
  - apply pop_k.
  - apply remove_k.
  - apply clear_k.
  - destruct individual; [contradiction|]. apply reverse_k.
  - apply move_k.
  - apply move_multiple_k.
  - apply pick_k.
  - apply keeps_look. intros u. apply pick_k.
  - apply pick_k.
  - apply se_next_k.
  - apply se_remove_selected_k.
Qed.
End SelList.
