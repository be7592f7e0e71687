(** The selection of a SelectableEventedList stays consistent.  Proof infrastructure. *)

From Verif Require Import Base Core Spec Frame Fuel Client Prog Through PyList EList PySet ESet SpecSet SetFacts ESelect SpecSelect SelFacts SelList.
Open Scope nat_scope.

Section SelGood.
Variable E : env both.
Notation C := selectable_signals.
Variable same : val -> val -> bool.
Hypothesis refl : forall x, same x x = true.
Hypothesis sym : forall x y, same x y = true -> same y x = true.
Hypothesis trans : forall x y z, same x y = true -> same y z = true -> same x z = true.
Notation put := (fun s u => Both (b_list u) s).
Notation allowed := (fun u x => mem same x (b_list u)).
Notation base := (base same b_sel allowed).
Notation good := (good same b_sel allowed).
Notation th := (through E C).
Notation lift := (lift same).
Notation raised := (listener_raised E C).
Notation X := (fun u (e : exn) => good u \/ blamed E e).
Notation gk := (keeps E C good X).
Variable islist : val -> bool.
Variable wrap : val -> val.
Hypothesis Hwrap : forall x, islist x = true -> same (wrap x) x = true.

Lemma allowed_same : forall u x y, same x y = true -> allowed u x = allowed u y.
Proof. intros u x y H. now apply mem_same. Qed.
Lemma pick_g : forall o u, good u -> (forall v, o = LActive v -> sel_items (b_sel u) = [] -> v = VNone \/ mem same v (b_list u) = true) -> th (pick same o) u good X.
Proof.
  intros o u Hg Ho. unfold pick. eapply th_mono; [apply (good_do E C same refl sym trans 11 12 13 eq_refl eq_refl eq_refl b_sel put allowed (fun _ _ => eq_refl) (fun _ _ _ => eq_refl) allowed_same o u Hg Ho)|auto|].
  intros u' e [[H _]|H]; [now left|right; now left].
Qed.
Lemma pick_gk : forall o, (forall v, o <> LActive v) -> gk (pick same o).
Proof. intros o Ho u Hg. apply pick_g; [exact Hg|]. intros v Hv. now destruct (Ho v). Qed.

Lemma gt_bind : forall p k u (Q1 Q : both -> Prop), th (lift p) u Q1 X ->
  (forall u v, Q1 u -> th (lift (k v)) u Q X) -> th (lift (bind p k)) u Q X.
Proof.
  intros p k u Q1 Q Hp Hk h. apply lift_bind. eapply wp_mono; [|apply Hp].
  intros u' h' [v|e|] HH; auto. now apply Hk.
Qed.
Lemma gt_seq : forall p q u (Q1 Q : both -> Prop), th (lift p) u Q1 X ->
  (forall u, Q1 u -> th (lift q) u Q X) -> th (lift (p;; q)) u Q X.
Proof. intros p q u Q1 Q Hp Hq. unfold seq. eapply gt_bind; eauto. Qed.
Lemma gt_catch : forall p k u (Q1 Q : both -> Prop), th (lift p) u Q1 X ->
  (forall u v, Q1 u -> th (lift (k (inl v))) u Q X) -> (forall u e, X u e -> th (lift (k (inr e))) u Q X) ->
  th (lift (catch p k)) u Q X.
Proof.
  intros p k u Q1 Q Hp Hq Hx h. apply lift_catch. eapply wp_mono; [|apply Hp].
  intros u' h' [v|e|] HH; auto; [now apply Hq|now apply Hx].
Qed.
Lemma gt_each : forall {A} (f : A -> prog data) l, (forall x, gk (lift (f x))) -> gk (lift (each f l)).
Proof.
  intros A f l Hf; induction l as [|x l IH]; intros u Hu; cbn [each]; [now apply th_ret|].
  eapply gt_seq; [now apply Hf|exact IH].
Qed.
Lemma gt_say : forall s a u (Q : both -> Prop), s <> 4 -> C s = true -> Q u -> th (lift (say s a)) u Q X.
Proof.
  intros s a u Q Hs Hc HQ h. unfold say, call. cbn [ESelect.lift].
  replace (removed_item (OEmit s a false false)) with (@None val).
  - pose proof (th_say E C s a u Q X HQ) as HT. unfold say, call in HT. 
    assert (Hx : forall e, (C s = true -> raised e) -> X u e) by (intros e He; right; left; auto). specialize (HT Hx h). exact HT.
  - do 4 (destruct s as [|s]; [reflexivity|]). now destruct s.
Qed.
Lemma gt_act : forall f u (Q : both -> Prop),
  match f (b_list u) with (l, inl v) => Q (Both l (b_sel u)) | (l, inr e) => good (Both l (b_sel u)) end ->
  th (lift (act f)) u Q X.
Proof. intros f u Q H h. unfold act, call. cbn. destruct (f (b_list u)) as [l [v|e]]; exact H || (left; exact H). Qed.
Lemma good_insert : forall u i v, good u -> good (Both (list_insert (b_list u) i v) (b_sel u)).
Proof. intros u i v [H1 H2]. split; [|exact H2]. now apply base_insert. Qed.

(** The item [v] was just taken out. *)
Definition gloose (v : val) (u : both) : Prop := loose same v u /\ 
  match sel_items (b_sel u) with [x] => same x (sel_active (b_sel u)) = true | _ => sel_active (b_sel u) = VNone end.
Lemma pop_gloose : forall u i (Q : both -> Prop) k, good u -> (forall v u', gloose v u' -> th (lift (k v)) u' Q X) -> th (lift (bind (act (do_pop i)) k)) u Q X.
Proof.
  intros u i Q k Hb Hk h. apply lift_bind. unfold act, call. cbn. unfold do_pop.
  destruct (list_pop (b_list u) i) as [[v l']|] eqn:Hp; cbn.
  - apply Hk. destruct Hb as [[Hd Ha] Hc]. split; [|exact Hc]. split; [exact Hd|]. intros x Hx. cbn. rewrite <- (pop_has same x _ _ _ _ Hp). now apply Ha.
  - left. destruct u; exact Hb.
Qed.
Lemma discard_gloose : forall v u, gloose v u -> th (on_item_removed same v) u good (fun u e => good u \/ raised e).
Proof.
  intros v u [[Hd Ha] Hc]. unfold on_item_removed, pick. cbn [sel_do sel_set]. unfold sl_discard, bs_discard.
  cbn [pre_discard sel_hooks bind]. apply th_look. cbn [bind]. unfold p_items at 1.
  destruct (mem same v (sel_items (b_sel u))) eqn:Em; cbn [negb bails].
  - eapply th_mono with (Q := good) (X := fine E C same b_sel allowed); [|intros u' H; exact H|intros u' e [[H _]|H]; [left; exact H|right; exact H]].
    eapply th_seq with (Q1 := base).
    + apply th_act. cbn. split; [cbn; now apply distinct_sdel|]. cbn. intros x Hx.
      assert (Hm : mem same x (sdel same v (sel_items (b_sel u))) = true) by (apply mem_in; auto).
      unfold p_items in Hx. rewrite mem_sdel in Hm by auto. apply andb_true_iff in Hm as [_ Hm].
      specialize (Ha x (sdel_in same v x _ Hx)). apply negb_true_iff in Hm. now rewrite Hm in Ha.
    + intros u1 H1. apply emit_good; auto.
  - apply th_ret. split; [|exact Hc]. split; [exact Hd|]. intros x Hx. specialize (Ha x Hx). apply orb_true_iff in Ha as [Ha|Ha]; [|exact Ha].
    rewrite <- (mem_same same sym trans x v _ Ha) in Em. rewrite mem_in in Em; [discriminate|exact refl|exact Hx].
Qed.

(** The methods of the list. *)
Lemma insert_g : forall i v u, good u -> th (lift (el_insert i v)) u (fun u' => good u' /\ mem same v (b_list u') = true) X.
Proof.
  intros i v u Hu. unfold el_insert. eapply gt_seq with (Q1 := good); [apply gt_say; auto; discriminate|].
  intros u1 H1. eapply gt_seq with (Q1 := fun u' => good u' /\ mem same v (b_list u') = true).
  { apply gt_act; cbn. split; [now apply good_insert|]. cbn. rewrite insert_has, refl. apply orb_true_r. }
  intros u2 H2. eapply gt_seq with (Q1 := fun u' => good u' /\ mem same v (b_list u') = true); [apply gt_say; [discriminate|reflexivity|exact H2]|]. intros u3 H3. now apply th_ret.
Qed.
Lemma del_one_g : forall i, gk (lift (del_one i)).
Proof.
  intros i u Hu. unfold del_one. eapply gt_seq with (Q1 := good); [apply gt_say; auto; discriminate|].
  intros u1 H1. apply pop_gloose; [exact H1|]. intros v u2 H2. unfold say, call. cbn [ESelect.lift removed_item].
  eapply th_catch; [now apply discard_gloose| |]; cbn beta iota.
  - intros u3 x H3. pose proof (th_say E C 4 [VInt i; v] u3 good X H3) as HT. unfold say, call in HT.
    apply HT. intros e He. right. left. now apply He.
  - intros u3 e H3. apply th_throw. destruct H3 as [H3|H3]; [now left|right; right; eauto].
Qed.
Lemma del_g : forall i, gk (lift (el_del i)).
Proof. intros i u Hu. apply th_look. apply gt_each; [apply del_one_g|exact Hu]. Qed.
Lemma del_slice_g : forall s, gk (lift (el_del_slice s)).
Proof.
  intros s u Hu. apply th_look. destruct (slice_range _ s); [|apply th_throw; now left]. apply gt_each; [apply del_one_g|exact Hu].
Qed.
Lemma pop_g : forall i, gk (lift (el_pop islist wrap i)).
Proof.
  intros i u Hu. unfold el_pop. eapply gt_bind with (Q1 := good).
  - apply th_look. destruct (at_ _ i); [now apply th_ret|apply th_throw; now left].
  - intros u1 v H1. eapply gt_seq; [now apply del_g|]. intros; now apply th_ret.
Qed.
Lemma remove_g : forall v, gk (lift (el_remove same islist wrap v)).
Proof. intros v u Hu. apply th_look. destruct (find_index _ _ _ _ _ _); [now apply del_g|apply th_throw; now left]. Qed.
Lemma clear_loop_g : ~ raised EIndex -> forall n, gk (lift (clear_loop islist wrap n)).
Proof.
  intros HI. induction n as [|n IH]; intros u Hu; cbn [clear_loop]; [intros h; left; exact Hu|].
  eapply gt_catch; [now apply pop_g|intros; now apply IH|]. intros u1 e H1. destruct e; try (now apply th_throw). apply th_ret.
  destruct H1 as [H1|[H1|(e & He & _)]]; [exact H1|contradiction|discriminate].
Qed.
Lemma clear_g : ~ raised EIndex -> gk (lift (el_clear islist wrap)).
Proof. intros HI u Hu. apply th_look. now apply clear_loop_g. Qed.
Lemma reverse_g : gk (lift (el_reverse islist wrap false)).
Proof.
  intros u Hu. unfold el_reverse. eapply gt_seq with (Q1 := good).
  - apply gt_act. destruct Hu as [[Hd Ha] Hc]. split; [|exact Hc]. split; [exact Hd|]. intros x Hx. cbn. specialize (Ha x Hx). cbn in Ha.
    apply mem_inside in Ha as (y & Hy & Hs). apply mem_inside. exists y. split; [now apply in_rev in Hy|exact Hs].
  - intros u1 H1. eapply gt_seq with (Q1 := good); [apply gt_say; auto; discriminate|]. intros; now apply th_ret.
Qed.
Lemma move_g : forall a b, gk (lift (el_move a b)).
Proof.
  intros a b u Hu. unfold el_move. apply th_look. cbv zeta. destruct (_ || _)%bool; [now apply th_ret|].
  eapply gt_seq with (Q1 := good); [apply gt_say; auto; discriminate|].
  intros u1 H1. apply pop_gloose; [exact H1|]. intros v u2 [[Hd Ha] Hc].
  eapply gt_seq with (Q1 := good).
  { apply gt_act. cbn. split; [|exact Hc]. split; [exact Hd|]. intros x Hx. cbn. rewrite insert_has. rewrite orb_comm. now apply Ha. }
  intros u3 H3. eapply gt_seq with (Q1 := good); [apply gt_say; auto; discriminate|].
  intros u4 H4. eapply gt_seq with (Q1 := good); [apply gt_say; auto; discriminate|]. intros; now apply th_ret.
Qed.
Lemma gt_quiet : forall o u (Q : both -> Prop), (exists s e, o = OBlock s e) \/ (exists s, o = OUnblock s) ->
  Q u -> th (lift (call o)) u Q X.
Proof. intros o u Q [(s & e & ->)|(s & ->)] HQ h; exact HQ. Qed.
Lemma blocked_g : forall s e p, gk (lift p) -> gk (lift (with_blocked s e p)).
Proof.
  intros s e p Hp u Hu. unfold with_blocked. eapply gt_bind with (Q1 := good).
  { intros h. cbn. auto. }
  intros u1 v H1. eapply gt_bind with (Q1 := good); [apply gt_quiet; eauto|]. intros u2 _ H2. unfold try_finally.
  assert (HF : forall u x (P : both -> Prop), P u -> (forall u, P u -> th (lift (finish x)) u good X) ->
    th (lift (bind match v with VBool true => Ret VNone | _ => call (OUnblock s) end (fun _ => finish x))) u good X).
  { intros u3 x P H3 Hx. eapply gt_bind with (Q1 := P).
    - assert (HU : th (lift (call (OUnblock s))) u3 P X) by (apply gt_quiet; eauto).
      destruct v as [| [|] | | | | | | |]; exact HU || now apply th_ret.
    - intros u4 _ H4. now apply Hx. }
  eapply gt_catch; [now apply Hp| |]; intros u3 x H3.
  - apply (HF u3 _ good H3). intros u4 H4. now apply th_ret.
  - apply (HF u3 _ (fun u => good u \/ blamed E x) H3). intros u4 H4. now apply th_throw.
Qed.
Lemma move_multiple_g : forall a b, gk (lift (el_move_multiple a b)).
Proof.
  intros a b u Hu. unfold el_move_multiple. apply th_look. destruct (move_plan _ a b) as [plan|]; [|apply th_throw; now left].
  eapply gt_seq with (Q1 := good).
  - apply blocked_g; [|exact Hu]. apply gt_each. intros m. apply move_g.
  - intros u1 H1. eapply gt_seq with (Q1 := good); [apply gt_say; auto; discriminate|]. intros; now apply th_ret.
Qed.

(** The methods of SelectableEventedList. *)
Variable activate : bool.
Lemma se_insert_g : forall i v, gk (se_insert same activate i v).
Proof.
  intros i v u Hu. eapply th_seq; [now apply insert_g|]. intros u1 [H1 H2]. destruct activate; [|now apply th_ret].
  eapply th_seq with (Q1 := good); [|intros; now apply th_ret]. apply pick_g; [exact H1|]. intros w [= ->] _. now right.
Qed.
Lemma se_append_g : forall v, gk (se_append same activate v).
Proof. intros v. apply keeps_look. intros u. apply se_insert_g. Qed.
Lemma se_get_g : forall i k u, good u -> (forall x, mem same x (b_list u) = true -> th (k x) u good X) -> th (se_get islist wrap i k) u good X.
Proof.
  intros i k u Hu Hk. apply th_look. destruct (at_ _ i) as [x|] eqn:Ex; [|apply th_throw; now left]. apply Hk.
  unfold at_ in Ex. destruct (valid _ i); [|discriminate]. apply nth_error_In in Ex.
  unfold seen. destruct (islist x) eqn:El; [rewrite (mem_same same sym trans _ _ _ (Hwrap x El))|]; now apply mem_in.
Qed.
Lemma se_next_g : forall st e wr, gk (se_next same islist wrap st e wr).
Proof.
  intros st e wr u Hu. apply th_look. cbv zeta. destruct (_ =? _)%Z; [now apply th_ret|].
  assert (HG : forall i, th (se_get islist wrap i (fun x => if e then pick same (LSet_ (SAdd x));; pick same (LCurrent x);; Ret VNone
                                                            else pick same (LActive x);; Ret VNone)) u good X).
  { intros i. apply se_get_g; [exact Hu|]. intros x Hx. destruct e.
    - eapply th_seq with (Q1 := good); [apply pick_gk; [discriminate|exact Hu]|]. intros u1 H1.
      eapply th_seq with (Q1 := good); [apply pick_gk; [discriminate|exact H1]|]. intros u2 H2. now apply th_ret.
    - eapply th_seq with (Q1 := good); [apply pick_g; [exact Hu|]|intros; now apply th_ret]. intros w [= ->] _. now right. }
  destruct (sel_items (b_sel u)); [apply HG|]. destruct (find_index _ _ _ _ _ _); [apply HG|apply th_throw; now left].
Qed.
Lemma se_remove_selected_g : gk (se_remove_selected same islist wrap).
Proof.
  apply keeps_look. intros u. cbv zeta. generalize (sel_items (b_sel u)) at 1 as out. intros out.
  match goal with |- keeps _ _ _ _ (?f 0%Z _) => cut (forall i, gk (f i (sel_items (b_sel u)))); [intros H; exact (H 0%Z)|] end.
  induction (sel_items (b_sel u)) as [|x l IH]; intros i.
  - apply keeps_look. intros u1. apply keeps_seq; [|apply keeps_ret].
    destruct (_ <? _)%Z; [|apply keeps_ret]. intros u2 H2. apply se_get_g; [exact H2|]. intros x _. apply pick_gk; [discriminate|exact H2].
  - apply keeps_look. intros u1. destruct (find_index _ _ _ _ _ _); [|apply keeps_throw; now left].
    apply keeps_seq; [apply remove_g|apply IH].
Qed.
Theorem selectable_g : forall o u, good u -> replaces o = false ->
  (o = EClear -> ~ raised EIndex) ->
  (forall v, o = ESelect (LActive v) -> sel_items (b_sel u) = [] -> v = VNone \/ mem same v (b_list u) = true) ->
  th (selectable same islist wrap activate o) u good X.
Proof.
  intros o u Hu Ho Hc Ha. destruct o; cbn [selectable]; try discriminate.
  - now apply se_insert_g.
  - now apply se_append_g.
  - assert (HK : gk (each (se_append same activate) vs)) by (apply keeps_each; apply se_append_g). now apply HK.
  - now apply del_g.
  - now apply del_slice_g.
  - now apply pop_g.
  - now apply remove_g.
  - apply clear_g; auto.
  - destruct individual; [discriminate|]. now apply reverse_g.
  - now apply move_g.
  - now apply move_multiple_g.
  - apply pick_g; [exact Hu|]. intros v ->. now apply Ha.
  - apply th_look. apply pick_gk; [discriminate|exact Hu].
  - apply pick_gk; [discriminate|exact Hu].
  - now apply se_next_g.
  - now apply se_remove_selected_g.
Qed.
End SelGood.
