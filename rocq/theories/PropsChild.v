(** Child events of EventedList: C57. *)

From Coq Require Import Permutation.
From Verif Require Import Base Core Spec Frame Fuel Demo Client Prog Does Through PyList EList SpecList Gather ListFacts PropsList EChild.
Open Scope Z_scope.
Open Scope list_scope.

Lemma count_perm : forall v a b, Permutation a b -> countv v a = countv v b.
Proof.
  intros v a b H. unfold countv. induction H; cbn; try congruence.
  - destruct (val_eqb x v); cbn; congruence.
  - destruct (val_eqb x v), (val_eqb y v); reflexivity.
Qed.
Lemma count_cons : forall v x l, countv v (x :: l) = ((if val_eqb x v then 1 else 0) + countv v l)%nat.
Proof. intros. unfold countv. cbn. destruct (val_eqb x v); reflexivity. Qed.
Lemma count_drop : forall v x l, In x l -> countv v l = ((if val_eqb x v then 1 else 0) + countv v (drop_first x l))%nat.
Proof.
  intros v x l; induction l as [|y l IH]; intros H; [destruct H|]. cbn [drop_first].
  destruct (val_eqb y x) eqn:Hy; rewrite count_cons.
  - apply val_eqb_eq in Hy as ->. reflexivity.
  - rewrite count_cons. destruct H as [->|H]; [rewrite (proj2 (val_eqb_eq x x) eq_refl) in Hy; discriminate|].
    rewrite (IH H). lia.
Qed.
Lemma count_in : forall v l, (0 < countv v l)%nat <-> In v l.
Proof.
  intros v l; induction l as [|x l IH]; [cbn; split; [lia|tauto]|]. rewrite count_cons. cbn [In].
  destruct (val_eqb x v) eqn:Hx.
  - apply val_eqb_eq in Hx. split; [auto|lia].
  - rewrite <- IH. split; [right; lia|]. intros [->|H]; [|lia].
    rewrite (proj2 (val_eqb_eq v v) eq_refl) in Hx. discriminate.
Qed.

(** The operations the theorem is about: all but item assignment; no item is a builtin list
    (which __getitem__ replaces by a new EventedList). *)
Definition considered (islist : val -> bool) (c : cop) : Prop :=
  match c with
  | CList (LInsert _ v) _ | CList (LAppend v) _ => islist v = false
  | CList (LExtend vs) _ | CList (LIadd vs) _ => plain islist vs
  | CList (LSet _ _) _ | CList (LSetSlice _ _) _ => False
  | _ => True
  end.
(** A history of operations, none of which ended with the exception of a listener. *)
Inductive history (E : env cdata) eqv islist wrap emits : world cdata -> world cdata -> Prop :=
| hi_none : forall w, history E eqv islist wrap emits w w
| hi_op : forall c w w1 w2 r, considered islist c ->
    runs E (perform eqv islist wrap emits c) w w1 r -> done r ->
    (forall e, r = Err e -> ~ listener_raised E list_signals e) ->
    history E eqv islist wrap emits w1 w2 -> history E eqv islist wrap emits w w2.

Section Facts.
Variable E : env cdata.
Variables (eqv : val -> val -> bool) (islist : val -> bool) (wrap : val -> val) (emits : val -> bool).
Notation C := list_signals.
Notation raised := (listener_raised E list_signals).
Definition balanced (u : cdata) : Prop :=
  plain islist (c_l u) /\ forall v, emits v = true -> countv v (c_conn u) = countv v (c_l u).
Definition fine (p : prog cdata) : Prop :=
  forall u, balanced u -> through E C p u balanced (fun u e => balanced u \/ raised e).

Lemma plain_perm : forall a b, Permutation a b -> plain islist a -> plain islist b.
Proof. intros a b H HP x Hx. apply HP. eapply Permutation_in; [apply Permutation_sym; exact H|exact Hx]. Qed.
Lemma balanced_perm : forall u l, Permutation (c_l u) l -> balanced u -> balanced (set_l l u).
Proof.
  intros u l H [HP HC]. split; [eapply plain_perm; eauto|]. intros v Hv. cbn [set_l c_conn c_l].
  rewrite (HC v Hv). now apply count_perm.
Qed.
Lemma fine_say : forall s a, C s = true -> fine (say s a).
Proof. intros s a Hs u Hu. apply th_say; auto. Qed.
Lemma fine_seq : forall p q, fine p -> fine q -> fine (p;; q).
Proof. intros p q Hp Hq u Hu. eapply th_seq; [apply Hp, Hu|]. intros u' H'. now apply Hq. Qed.
Lemma fine_each : forall {A} (f : A -> prog cdata) l, (forall x, In x l -> fine (f x)) -> fine (each f l).
Proof. intros A f l H u Hu. apply th_each; auto. intros x u' Hx Hu'. now apply H. Qed.
Lemma fine_ret : forall v, fine (Ret v).
Proof. intros v u Hu. now apply th_ret. Qed.

Lemma insert_fine : forall i v, islist v = false -> fine (ec_insert emits i v).
Proof.
  intros i v Hv u Hu. unfold ec_insert. eapply th_seq; [now apply fine_say|]. intros u1 H1. cbn beta in H1.
  eapply th_seq with (Q1 := fun u2 => u2 = set_l (list_insert (c_l u1) i v) u1).
  { apply th_act. reflexivity. } intros u2 ->.
  eapply th_seq with (Q1 := fun u2 => u2 = set_l (list_insert (c_l u1) i v) u1).
  { apply th_say; auto. } intros u2 ->.
  eapply th_seq with (Q1 := balanced); [|intros; now apply fine_ret].
  apply th_act. destruct H1 as [HP HC]. pose proof (insert_perm (c_l u1) i v) as HI. split.
  - assert (H : plain islist (list_insert (c_l u1) i v)).
    { eapply plain_perm; [exact HI|]. intros x [->|Hx]; [exact Hv|now apply HP]. }
    destruct (emits v); exact H.
  - intros x Hx. destruct (emits v) eqn:Hev; cbn [set_conn set_l c_conn c_l]; rewrite <- (count_perm x _ _ HI), count_cons.
    + rewrite count_cons, (HC x Hx). reflexivity.
    + rewrite (HC x Hx). destruct (val_eqb v x) eqn:Hvx; [|reflexivity]. apply val_eqb_eq in Hvx. congruence.
Qed.
Lemma append_fine : forall v, islist v = false -> fine (ec_append emits v).
Proof. intros v Hv u Hu. apply th_look. now apply insert_fine. Qed.
Lemma extend_fine : forall vs, plain islist vs -> fine (ec_extend emits vs).
Proof. intros vs Hvs. apply fine_each. intros x Hx. apply append_fine. now apply Hvs. Qed.

(** However a removal ends, the connections are right. *)
Definition always (p : prog cdata) : Prop := forall u, balanced u -> through E C p u balanced (fun u _ => balanced u).
Lemma always_fine : forall p, always p -> fine p.
Proof. intros p H u Hu. eapply th_mono; [apply H, Hu|auto|auto]. Qed.
Lemma always_say : forall s a, C s = true -> always (say s a).
Proof. intros s a Hs u Hu. apply th_say; auto. Qed.
Lemma always_seq : forall p q, always p -> always q -> always (p;; q).
Proof. intros p q Hp Hq u Hu. eapply th_seq; [apply Hp, Hu|]. intros u' H'. now apply Hq. Qed.
Lemma always_each : forall {A} (f : A -> prog cdata) l, (forall x, In x l -> always (f x)) -> always (each f l).
Proof. intros A f l H u Hu. apply th_each; auto. intros x u' Hx Hu'. now apply H. Qed.
Lemma always_ret : forall v, always (Ret v).
Proof. intros v u Hu. now apply th_ret. Qed.

Lemma del_one_always : forall i, always (ec_del_one islist wrap emits i).
Proof.
  intros i u Hu. unfold ec_del_one. eapply th_seq; [now apply always_say|]. intros u1 H1. cbn beta in H1.
  destruct (at_ (c_l u1) i) as [x|] eqn:Ha.
  2:{ eapply th_bind with (Q1 := fun _ => False); [|contradiction].
      unfold ec_get, el_get. cbn [zoom]. apply th_look. rewrite Ha. cbn [zoom]. apply th_throw. exact H1. }
  assert (Hx : seen islist wrap x = x).
  { unfold seen. rewrite (proj1 H1 x); [reflexivity|]. eapply at_in; eauto. }
  (* the value of self[i] is the item *)
  assert (HG : forall k Q X, through E C (k x) u1 Q X -> through E C (bind (ec_get islist wrap i) k) u1 Q X).
  { intros k Q X H. unfold ec_get, el_get. cbn [zoom bind]. apply th_look. rewrite Ha, Hx. exact H. }
  apply HG. clear HG.
  destruct (list_pop (c_l u1) i) as [[y l0]|] eqn:Hp; [|unfold list_pop in Hp; rewrite Ha in Hp; discriminate].
  assert (y = x) as -> by (unfold list_pop in Hp; rewrite Ha in Hp; congruence).
  pose proof (pop_perm _ _ _ _ Hp) as HPP.
  set (u2 := if emits x then set_conn (drop_first x (c_conn u1)) u1 else u1).
  assert (Hl2 : c_l u2 = c_l u1) by (unfold u2; destruct (emits x); reflexivity).
  eapply th_seq with (Q1 := fun u => u = u2). { apply th_act. reflexivity. } intros u3 ->.
  assert (HB : balanced (set_l l0 u2)).
  { destruct H1 as [HPl HC]. split.
    - cbn. intros z Hz. apply HPl. eapply Permutation_in; [apply Permutation_sym; exact HPP|now right].
    - intros v Hv. cbn [set_l c_conn c_l]. pose proof (HC v Hv) as HCv. rewrite (count_perm v _ _ HPP), count_cons in HCv.
      unfold u2. destruct (emits x) eqn:Hex; cbn [set_conn c_conn].
      + assert (Hin : In x (c_conn u1)).
        { apply count_in. rewrite (HC x Hex). apply count_in. eapply at_in; eauto. }
        rewrite (count_drop v x _ Hin) in HCv. lia.
      + destruct (val_eqb x v) eqn:Hxv; [apply val_eqb_eq in Hxv; congruence|]. exact HCv. }
  eapply th_bind with (Q1 := balanced).
  { apply th_act. unfold on_l, do_pop. rewrite Hl2, Hp. exact HB. }
  intros u3 v H3. now apply always_say.
Qed.
Lemma del_always : forall i, always (ec_del islist wrap emits i).
Proof. intros i u Hu. apply th_look. apply always_each; [|exact Hu]. intros; apply del_one_always. Qed.
Lemma del_slice_always : forall s, always (ec_del_slice islist wrap emits s).
Proof.
  intros s u Hu. apply th_look. destruct (slice_range _ s); [|apply th_throw; exact Hu].
  apply always_each; [|exact Hu]. intros; apply del_one_always.
Qed.
Lemma get_always : forall i, always (ec_get islist wrap i).
Proof.
  intros i u Hu. unfold ec_get, el_get. cbn [zoom]. apply th_look.
  destruct (at_ (c_l u) i); cbn [zoom]; [now apply th_ret|apply th_throw; exact Hu].
Qed.
Lemma pop_always : forall i, always (ec_pop islist wrap emits i).
Proof.
  intros i u Hu. eapply th_bind; [apply get_always, Hu|]. intros u1 v H1. cbn beta in H1.
  apply always_seq; [apply del_always|apply always_ret|exact H1].
Qed.
Lemma remove_always : forall v, always (ec_remove eqv islist wrap emits v).
Proof.
  intros v u Hu. apply th_look. destruct (find_index _ _ _ _ _ _); [now apply del_always|apply th_throw; exact Hu].
Qed.
Lemma clear_always : forall n, always (ec_clear_loop islist wrap emits n).
Proof.
  induction n as [|n IH]; intros u Hu; cbn [ec_clear_loop]; [now apply th_throw|].
  eapply th_catch; [apply pop_always, Hu|..]; cbn beta.
  - intros u1 v H1. now apply IH.
  - intros u1 e H1. destruct e; try (now apply th_throw). now apply th_ret.
Qed.

(** Moves and reversals permute the items. *)
Lemma wp_zoom_bind : forall p k u h Q,
  wp E C (zoom p) u h (fun u1 h1 r => match r with Ok v => wp E C (zoom (k v)) u1 h1 Q | Err e => Q u1 h1 (Err e) | Halted => True end) ->
  wp E C (zoom (bind p k)) u h Q.
Proof.
  intros p; induction p as [v|e| |f IH|o f IH]; intros k u h Q H; cbn in *; auto.
  destruct o; try contradiction; cbn in *; eauto; try (destruct H as [H1 H2]; split; intros; eauto); intros; eauto.
Qed.
Lemma wp_zoom_catch : forall p k u h Q,
  wp E C (zoom p) u h (fun u1 h1 r => match r with Ok v => wp E C (zoom (k (inl v))) u1 h1 Q | Err e => wp E C (zoom (k (inr e))) u1 h1 Q | Halted => True end) ->
  wp E C (zoom (catch p k)) u h Q.
Proof.
  intros p; induction p as [v|e| |f IH|o f IH]; intros k u h Q H; cbn in *; auto.
  destruct o; try contradiction; cbn in *; eauto; try (destruct H as [H1 H2]; split; intros; eauto); intros; eauto.
Qed.
Definition same_items (u0 : cdata) : post (U := cdata) :=
  fun u _ _ => c_conn u = c_conn u0 /\ Permutation (c_l u0) (c_l u).
Lemma move_items : forall i d u0 u h, same_items u0 u h Halted -> wp E C (zoom (el_move i d)) u h (same_items u0).
Proof.
  intros i d u0 u h [HK HP]. unfold el_move, say, act, seq, call. cbn [bind zoom wp].
  destruct (_ || _); cbn [bind zoom wp]; [split; assumption|].
  cbn [zoom_op]. split; cbn [finish bind zoom wp]; [|intros; split; assumption]. intros _.
  cbn [zoom_op]. destruct (list_pop (c_l u) i) as [[x l1]|] eqn:HX.
  2:{ assert (HO : on_l (do_pop i) u = (u, inr EIndex)) by (unfold on_l, do_pop; rewrite HX; destruct u; reflexivity).
      rewrite HO. split; assumption. }
  assert (HO : on_l (do_pop i) u = (set_l l1 u, inl x)) by (unfold on_l, do_pop; rewrite HX; reflexivity).
  rewrite HO. cbn [fst snd finish bind zoom zoom_op wp]. unfold on_l, do_insert. cbn [fst snd finish bind zoom wp set_l c_l].
  match goal with |- context [list_insert l1 ?k x] => set (kk := k) end.
  assert (HQ : Permutation (c_l u0) (list_insert l1 kk x)).
  { eapply perm_trans; [exact HP|]. eapply perm_trans; [eapply pop_perm; eauto|]. apply insert_perm. }
  cbn [zoom_op]. split; cbn [finish bind zoom wp]; [|intros; split; assumption]. intros _.
  cbn [zoom_op]. split; cbn [finish bind zoom wp]; intros; split; assumption.
Qed.
Lemma moves_items : forall ps u0 u h, same_items u0 u h Halted ->
  wp E C (zoom (each (fun m => el_move (fst m) (snd m)) ps)) u h (same_items u0).
Proof.
  induction ps as [|m ps IH]; intros u0 u h HS; cbn [each]; [exact HS|]. unfold seq. apply wp_zoom_bind.
  eapply wp_mono; [|apply (move_items _ _ u0 u h HS)]. intros u' h' [v|e|] HH; auto.
Qed.
Lemma move_multiple_items : forall ss d u h, wp E C (zoom (el_move_multiple ss d)) u h (same_items u).
Proof.
  intros ss d u h. unfold el_move_multiple. cbn [zoom wp].
  destruct (move_plan (size (c_l u)) ss d) as [ps|]; [|split; [reflexivity|apply Permutation_refl]].
  unfold seq at 1. apply wp_zoom_bind. unfold with_blocked, try_finally, call. cbn [bind zoom zoom_op wp]. intros b. cbn [finish bind zoom zoom_op wp].
  apply wp_zoom_catch. eapply wp_mono; [|apply (moves_items ps u u h)]; [|split; [reflexivity|apply Permutation_refl]].
  unfold say, seq, call. intros u' h' [v|e|] HH; auto; destruct b; cbn; auto.
  all: split; intros; exact HH.
Qed.
Lemma items_always : forall p, (forall u h, wp E C p u h (same_items u)) -> always p.
Proof.
  intros p H u Hu h. eapply wp_mono; [|apply H]. intros u' h' r [HK HP].
  assert (HB : balanced u').
  { pose proof (balanced_perm u (c_l u') HP Hu) as HB. destruct u' as [l' k']. cbn in HK, HP, HB. subst k'. exact HB. }
  destruct r; auto.
Qed.
Lemma move_always : forall i d, always (zoom (el_move i d)).
Proof. intros i d. apply items_always. intros u h. apply move_items. split; [reflexivity|apply Permutation_refl]. Qed.
Lemma move_multiple_always : forall ss d, always (zoom (el_move_multiple ss d)).
Proof. intros ss d. apply items_always. intros u h. apply move_multiple_items. Qed.

(** Exchanging two items. *)
Lemma set_perm : forall (l l1 : data) i x y, at_ l i = Some x -> list_set l i y = Some l1 -> Permutation (x :: l1) (y :: l).
Proof.
  intros l l1 i x y Ha Hs. unfold at_ in Ha. unfold list_set in Hs. destruct (valid l i); [|discriminate].
  injection Hs as <-. apply nth_error_split in Ha as (a & b & -> & HL). unfold put_nth.
  rewrite <- HL, firstn_app, skipn_app, Nat.sub_diag, firstn_all, skipn_all2 by lia.
  replace (S (List.length a) - List.length a)%nat with 1%nat by lia. cbn [firstn skipn List.app]. rewrite app_nil_r.
  eapply perm_trans; [apply perm_skip, Permutation_sym, Permutation_middle|]. eapply perm_trans; [apply perm_swap|].
  apply perm_skip, Permutation_middle.
Qed.
(** One exchange of reverse(emit_individual_events=True). *)
Lemma set_zoom : forall i v u x (Q : cdata -> Prop) (X : cdata -> exn -> Prop), at_ (c_l u) i = Some x ->
  (forall l1, list_set (c_l u) i v = Some l1 -> Q (set_l l1 u)) -> (forall u e, raised e -> X u e) ->
  through E C (zoom (el_set i v)) u Q X.
Proof.
  intros i v u x Q X Ha HQ HX h. unfold el_set. cbn [zoom wp]. rewrite Ha.
  destruct (val_eqb v x) eqn:Hv; cbn [zoom wp].
  - apply val_eqb_eq in Hv as ->. specialize (HQ (c_l u) (set_same _ _ _ Ha)). destruct u; exact HQ.
  - destruct (list_set (c_l u) i v) as [l1|] eqn:HS; [|apply set_valid in HS; congruence].
    unfold act, say, seq, call. cbn [bind zoom zoom_op wp].
    assert (HO : on_l (do_set i v) u = (set_l l1 u, inl VNone)) by (unfold on_l, do_set; rewrite HS; reflexivity).
    rewrite HO. cbn [fst snd finish bind zoom zoom_op wp]. split; intros; cbn; auto.
Qed.
Definition swap_ok (n : Z) (u : cdata) : Prop := balanced u /\ size (c_l u) = n.
Lemma swap_fine : forall n k u, 0 <= k -> 2 * k + 1 < n -> swap_ok n u ->
  through E C (zoom (swap_one islist wrap n k)) u (swap_ok n) (fun u e => balanced u \/ raised e).
Proof.
  intros n k u Hk Hn [HB HS].
  destruct (at_some (c_l u) k) as [x Hx]; [lia|]. destruct (at_some (c_l u) (n - k - 1)) as [y Hy]; [lia|].
  assert (Hpl : forall j z, at_ (c_l u) j = Some z -> seen islist wrap z = z).
  { intros j z Hz. unfold seen. rewrite (proj1 HB z); [reflexivity|]. eapply at_in; eauto. }
  assert (HG : forall j z f Q, at_ (c_l u) j = Some z -> (forall h, wp E C (zoom (f z)) u h Q) ->
             forall h, wp E C (zoom (bind (el_get islist wrap j) f)) u h Q).
  { intros j z f Q Hz H h. unfold el_get. cbn [bind zoom wp]. rewrite Hz, (Hpl _ _ Hz). cbn [bind]. apply H. }
  intros h. unfold swap_one. eapply HG; [exact Hy|]. clear h; intros h. eapply HG; [exact Hx|]. clear h HG; intros h.
  unfold seq. apply wp_zoom_bind.
  assert (HT : through E C (zoom (el_set k y)) u
     (fun u1 => exists l1, list_set (c_l u) k y = Some l1 /\ u1 = set_l l1 u) (fun u e => raised e)).
  { eapply set_zoom; [exact Hx|eauto|auto]. }
  eapply wp_mono; [|apply HT]. intros u1 h1 [v|e|] HH; auto. destruct HH as (l1 & H1 & ->).
  assert (Hy1 : at_ l1 (n - k - 1) = Some y).
  { rewrite (at_set _ _ _ _ _ H1) by lia. destruct (Z.eqb_spec (n - k - 1) k); congruence. }
  revert h1. change (through E C (zoom (el_set (n - k - 1) x)) (set_l l1 u) (swap_ok n) (fun u e => balanced u \/ raised e)).
  eapply set_zoom; [exact Hy1| |auto]. cbn [set_l c_l]. intros l2 H2.
  pose proof (set_perm _ _ _ _ _ Hx H1) as P1. pose proof (set_perm _ _ _ _ _ Hy1 H2) as P2.
  assert (HP : Permutation (c_l u) l2).
  { apply Permutation_cons_inv with y. eapply perm_trans; [apply Permutation_sym; exact P1|apply Permutation_sym; exact P2]. }
  split; [exact (balanced_perm u l2 HP HB)|]. cbn [set_l c_l]. unfold size in *.
  rewrite <- (Permutation_length HP). exact HS.
Qed.
Lemma range_in : forall m j, 0 <= m -> In j (range 0 m 1) -> 0 <= j < m.
Proof.
  intros m j Hm H. unfold range in H. apply steps_from_In in H as (i & Hi & ->).
  rewrite Z2Nat.id in Hi by (apply range_len_nonneg; lia). unfold range_len in Hi. cbn in Hi.
  destruct (Z.ltb_spec 0 m); [rewrite Z.div_1_r in Hi|]; lia.
Qed.
Lemma reverse_fine : forall ind, fine (zoom (el_reverse islist wrap ind)).
Proof.
  intros ind u Hu h. unfold el_reverse. unfold seq at 1. apply wp_zoom_bind.
  assert (H1 : through E C (zoom (if ind then Look (fun l => each (swap_one islist wrap (size l)) (range 0 (size l / 2) 1))
                                else act (fun l => (rev l, inl VNone)))) u balanced (fun u e => balanced u \/ raised e)).
  { destruct ind.
    - cbn [zoom]. apply th_look. remember (size (c_l u)) as n eqn:Hn.
      assert (HN : 0 <= n) by (subst n; apply size_nonneg).
      assert (HS : swap_ok n u) by (split; [exact Hu|now symmetry]). clear Hn.
      assert (HR : forall j, In j (range 0 (n / 2) 1) -> 0 <= j /\ 2 * j + 1 < n).
      { intros j Hj. apply range_in in Hj; [|apply Z.div_pos; lia].
        pose proof (Z.div_mod n 2 ltac:(lia)). pose proof (Z.mod_pos_bound n 2 ltac:(lia)). lia. }
      revert HR HS. generalize (range 0 (n / 2) 1) as r. clear Hu HN h. intros r. revert u. induction r as [|j r IH]; intros u HR HS.
      + cbn [each zoom]. apply th_ret. apply HS.
      + cbn [each]. intros h. unfold seq. apply wp_zoom_bind.
        destruct (HR j (or_introl eq_refl)) as [J1 J2].
        eapply wp_mono; [|apply (swap_fine n j u J1 J2 HS)]. intros u1 h1 [v|e|] HH; auto.
        apply IH; [intros; apply HR; now right|exact HH].
    - intros h'. unfold act, call. cbn. apply balanced_perm; [apply Permutation_rev|exact Hu]. }
  eapply wp_mono; [|apply H1]. intros u1 h1 [v|e|] HH; auto.
  unfold say, seq, call. cbn. split; intros; auto.
Qed.

Lemma perform_fine : forall c, considered islist c -> fine (perform eqv islist wrap emits c).
Proof.
  intros c Hc. destruct c as [o ind|i d|ss d]; [|apply always_fine, move_always|apply always_fine, move_multiple_always].
  destruct o; cbn [perform considered] in *; try contradiction.
  - now apply insert_fine.
  - now apply append_fine.
  - now apply extend_fine.
  - apply always_fine, del_always.
  - apply always_fine, del_slice_always.
  - apply always_fine, pop_always.
  - apply always_fine, remove_always.
  - apply always_fine. intros u Hu. apply th_look. now apply clear_always.
  - apply reverse_fine.
  - now apply extend_fine.
Qed.
Lemma find_first : forall v l i, plain islist l -> In v l ->
  exists a b, first_at eqv v l a b /\ find_index eqv islist wrap v i l = Some (i + size a).
Proof.
  intros v l; induction l as [|x l IH]; intros i HP H; [destruct H|]. cbn [find_index].
  assert (Hx : seen islist wrap x = x) by (unfold seen; rewrite (HP x (or_introl eq_refl)); reflexivity). rewrite Hx.
  destruct (val_eqb x v || eqv x v) eqn:Hv.
  - exists [], l. split; [apply (first_split eqv v [] x l Hv); constructor|]. unfold size. cbn. f_equal. lia.
  - destruct H as [->|H]; [rewrite (proj2 (val_eqb_eq v v) eq_refl) in Hv; discriminate|].
    destruct (IH (i + 1) (fun y Hy => HP y (or_intror Hy)) H) as (a & b & HF & HI). exists (x :: a), b. split.
    + inversion HF; subst. apply (first_split eqv v (x :: a) x0 b); auto.
    + rewrite HI. f_equal. unfold size. cbn [List.length]. lia.
Qed.
Lemma emits_does : forall v g relay args u idx, find_index eqv islist wrap v 0 (c_l u) = Some idx ->
  Does.does E C (child_emits eqv islist wrap v g relay v args) u
    (fun u' hs _ => exists s a,
        hs = repeat (child_event, [VInt idx; v; VSig s; VTuple a], u) (countv v (c_conn u))
        /\ match args with VInfo s1 a1 :: _ => if relay then s = s1 /\ a = a1 else s = g /\ a = args | _ => s = g /\ a = args end)
    never.
Proof.
  intros v g relay args u idx Hi. apply does_look.
  set (sa := match args with VInfo s1 a1 :: _ => if relay then (s1, a1) else (g, args) | _ => (g, args) end).
  assert (HR : forall (j : nat) u', u' = u -> Does.does E C (reemit eqv islist wrap g relay v args) u'
    (fun u1 hs _ => u1 = u /\ hs = [(child_event, [VInt idx; v; VSig (fst sa); VTuple (snd sa)], u)]) (never (U := cdata))).
  { intros j u' ->. apply does_look. rewrite Hi. unfold sa.
    destruct args as [|[] r]; try (apply does_say; [reflexivity|auto]). destruct relay; apply does_say; auto. }
  assert (HE : forall l, Does.does E C (each (fun _ : nat => reemit eqv islist wrap g relay v args) l) u
    (fun u1 hs _ => u1 = u /\ hs = repeat (child_event, [VInt idx; v; VSig (fst sa); VTuple (snd sa)], u) (List.length l)) (never (U := cdata))).
  { induction l as [|j l IH]; [apply does_ret; auto|]. cbn [each List.length repeat].
    eapply does_seq; [apply (HR j u eq_refl)|]. intros u1 hs x [-> ->]. eapply does_mono; [apply IH| |auto].
    intros u2 hs2 y [-> ->]. auto. }
  eapply does_mono; [apply HE| |auto]. intros u1 hs x [-> ->]. rewrite seq_length. exists (fst sa), (snd sa).
  split; [reflexivity|]. unfold sa. destruct args as [|[] r]; auto. destruct relay; auto.
Qed.
Lemma emits_nothing : forall v g relay args u, countv v (c_conn u) = 0%nat ->
  Does.does E C (child_emits eqv islist wrap v g relay v args) u (fun u' hs _ => hs = []) never.
Proof. intros v g relay args u H. apply does_look. rewrite H. apply does_ret. reflexivity. Qed.

Lemma history_balanced : env_all (aloof C) E -> forall w w', history E eqv islist wrap emits w w' ->
  balanced (w_usr w) -> balanced (w_usr w').
Proof.
  intros HE w w' H. induction H as [|c w w1 w2 r Hc HR Hr HN H IH]; intros HB; auto.
  apply IH. pose proof (th_sound E C _ w w1 r _ _ HE (perform_fine c Hc (w_usr w) HB) HR Hr) as HQ.
  destruct r as [v|e|]; [exact HQ| |contradiction]. destruct HQ as [HQ|HQ]; [exact HQ|]. now destruct (HN e eq_refl).
Qed.
End Facts.

(** What an event of an item is reported as: an event of a group that the relay passes on is
    reported as the event of the member. *)
Definition origin (g : sid) (relay : bool) (args : list val) : sid * list val :=
  match relay, args with
  | true, VInfo s a :: _ => (s, a)
  | _, _ => (g, args)
  end.

(** After any history of operations other than item assignment, an event of an item whose signals
    know the item is reported by child_event once for every occurrence of the item in the list,
    with the position of the first item equal to it; so it is reported iff the item is in the list.
    Partial: item assignment (see C57_setitem_refuted), listeners that raise (C57_raise_refuted),
    items whose signals have no or another instance (C57_instance_refuted), items that are builtin
    lists; listeners do not change the list. *)
Theorem C57_partial : forall E eqv islist wrap emits w0 w v g relay args w' x,
  env_all (aloof list_signals) E -> w_usr w0 = CData [] [] -> history E eqv islist wrap emits w0 w ->
  emits v = true -> runs E (child_emits eqv islist wrap v g relay v args) w w' (Ok x) ->
  exists t, w_tr w' = w_tr w ++ t
    /\ (In v (c_l (w_usr w)) <-> heard list_signals t <> [])
    /\ (In v (c_l (w_usr w)) -> exists a b, first_at eqv v (c_l (w_usr w)) a b
         /\ heard list_signals t =
            repeat (child_event, [VInt (size a); v; VSig (fst (origin g relay args)); VTuple (snd (origin g relay args))], w_usr w)
                   (countv v (c_l (w_usr w)))).
Proof.
  intros E eqv islist wrap emits w0 w v g relay args w' x HE H0 HH Hv HR.
  assert (HB : balanced islist emits (w_usr w)).
  { eapply history_balanced; eauto. rewrite H0. split; [intros y []|reflexivity]. }
  pose proof (proj2 HB v Hv) as HC.
  destruct (Nat.eq_dec (countv v (c_l (w_usr w))) 0) as [HZ|HZ].
  - rewrite HZ in HC. destruct (does_sound E list_signals _ w w' _ _ _ HE (emits_nothing E eqv islist wrap v g relay args _ HC) HR ltac:(discriminate)) as (t & HT & HQ).
    exists t. split; [exact HT|]. assert (HN : ~ In v (c_l (w_usr w))) by (rewrite <- count_in; lia).
    split; [|tauto]. split; [tauto|]. intros H. now rewrite HQ in H.
  - assert (HI : In v (c_l (w_usr w))) by (apply count_in; lia).
    destruct (find_first eqv islist wrap v _ 0 (proj1 HB) HI) as (a & b & HF & Hi). rewrite Z.add_0_l in Hi.
    destruct (does_sound E list_signals _ w w' _ _ _ HE (emits_does E eqv islist wrap v g relay args _ _ Hi) HR ltac:(discriminate)) as (t & HT & s & l & HQ & HO).
    exists t. split; [exact HT|]. rewrite HC in HQ.
    assert (HS : origin g relay args = (s, l)).
    { unfold origin. destruct relay, args as [|[] r]; destruct HO as [-> ->]; reflexivity. }
    rewrite HS. cbn [fst snd]. split; [|intros _; eauto]. split; [|auto]. intros _. rewrite HQ.
    destruct (countv v (c_l (w_usr w))); [congruence|discriminate].
Qed.

(** Objects 3, 4, 5 have signals; 4 and 5 are equal; one listener of child_event, one of inserted
    that raises for position 9. *)
Definition child_env : env cdata :=
  demo (fun f a => match f, a with
                   | 2%nat, [VInt 9; _] => Throw (EUser 7)
                   | _, _ => Ret VNone
                   end).
Definition child_world : world cdata := world_of child_env list_cfg (CData [] []) 50%nat
  [conn child_event 1%nat 0; conn inserted 2%nat 0].
Definition some_equal (a b : val) : bool :=
  match a, b with VObj 4%nat, VObj 5%nat | VObj 5%nat, VObj 4%nat => true | _, _ => false end.
Definition objects (a : val) : bool := match a with VObj _ => true | _ => false end.
Definition same (v : val) : val := v.
Definition does_op (c : cop) : prog cdata := perform some_equal no_lists same objects c.
(** The state after some operations. *)
Definition child_after (l : list cop) : world cdata :=
  fold_left (fun w c => after child_env 200%nat (does_op c) w) l child_world.
Definition child_told (w : world cdata) (v : val) (relay : bool) (inst : val) (args : list val) : option (list (sid * list val)) :=
  match exec child_env 200%nat (child_emits some_equal no_lists same v 30%nat relay inst args) w with
  | Some (w', Ok _) => Some (map fst (heard list_signals (skipn (List.length (w_tr w)) (w_tr w'))))
  | _ => None
  end.
Lemma child_env_aloof : env_all (aloof list_signals) child_env.
Proof. apply demo_all. intros f a. destruct f as [|[|[|f]]]; allp. Qed.
Definition in_list (w : world cdata) : list val := c_l (w_usr w).

Fixpoint all_return (n : nat) (l : list cop) (w : world cdata) : bool :=
  match l with
  | [] => true
  | c :: l => match exec child_env n (does_op c) w with Some (w', Ok _) => all_return n l w' | _ => false end
  end.
Lemma child_history : forall n l w, (forall c, In c l -> considered no_lists c) -> all_return n l w = true ->
  history child_env some_equal no_lists same objects w (fold_left (fun w c => after child_env n (does_op c) w) l w).
Proof.
  intros n; induction l as [|c l IH]; intros w Hc H; cbn [fold_left]; [apply hi_none|]. cbn [all_return] in H.
  destruct (exec child_env n (does_op c) w) as [[w1 [v|e|]]|] eqn:HX; try discriminate.
  assert (Ha : after child_env n (does_op c) w = w1) by (unfold after; now rewrite HX). rewrite Ha.
  eapply hi_op with (c := c) (w1 := w1) (r := Ok v).
  - apply Hc. now left.
  - exists n. exact HX.
  - discriminate.
  - discriminate.
  - apply IH; [|exact H]. intros d Hd. apply Hc. now right.
Qed.

Example C57_case :
  let w := child_after [CList (LExtend [VObj 4%nat; VObj 3%nat; VObj 5%nat; VObj 3%nat]) false; CMove 3 0; CList (LDel 0) false; CList LReverse true] in
  env_all (aloof list_signals) child_env
  /\ history child_env some_equal no_lists same objects child_world w
  /\ w_usr child_world = CData [] []
  /\ in_list w = [VObj 5%nat; VObj 3%nat; VObj 4%nat]
  /\ child_told w (VObj 3%nat) false (VObj 3%nat) [VInt 8] = Some [(child_event, [VInt 1; VObj 3%nat; VSig 30%nat; VTuple [VInt 8]])]
  /\ child_told w (VObj 3%nat) true (VObj 3%nat) [VInfo 31%nat [VInt 8]] = Some [(child_event, [VInt 1; VObj 3%nat; VSig 31%nat; VTuple [VInt 8]])]
  /\ child_told w (VObj 6%nat) false (VObj 6%nat) [VInt 8] = Some [].
Proof.
  split; [apply child_env_aloof|]. split; [|vm_compute; repeat split].
  apply (child_history 200%nat); [|vm_compute; reflexivity].
  intros c H. repeat (destruct H as [<-|H]; [try exact I; try (intros ? _; reflexivity)|]). destruct H.
Qed.
Print Assumptions C57_partial.

(** An item put in by assignment is not reported; the one it replaced is still connected, and
    when it is put back, its events are reported twice. *)
Theorem C57_setitem_refuted :
  let w := child_after [CList (LAppend (VObj 3%nat)) false; CList (LSet 0 (VObj 4%nat)) false] in
  let w' := child_after [CList (LAppend (VObj 3%nat)) false; CList (LSet 0 (VObj 4%nat)) false; CList (LInsert 0 (VObj 3%nat)) false] in
  in_list w = [VObj 4%nat] /\ child_told w (VObj 4%nat) false (VObj 4%nat) [VInt 8] = Some []
  /\ in_list w' = [VObj 3%nat; VObj 4%nat]
  /\ child_told w' (VObj 3%nat) false (VObj 3%nat) [VInt 8] =
       Some [(child_event, [VInt 0; VObj 3%nat; VSig 30%nat; VTuple [VInt 8]]); (child_event, [VInt 0; VObj 3%nat; VSig 30%nat; VTuple [VInt 8]])].
Proof. vm_compute. repeat split. Qed.
(** The event of an item is reported with the position of another one that is equal to it. *)
Theorem C57_index_refuted :
  let w := child_after [CList (LExtend [VObj 4%nat; VObj 5%nat]) false] in
  in_list w = [VObj 4%nat; VObj 5%nat]
  /\ child_told w (VObj 5%nat) false (VObj 5%nat) [VInt 8] = Some [(child_event, [VInt 0; VObj 5%nat; VSig 30%nat; VTuple [VInt 8]])].
Proof. vm_compute. repeat split. Qed.
(** The events of an item whose group was made without an instance (ListEvents() of a nested
    EventedList) are not reported. *)
Theorem C57_instance_refuted :
  let w := child_after [CList (LAppend (VObj 3%nat)) false] in
  in_list w = [VObj 3%nat] /\ child_told w (VObj 3%nat) true VNone [VInfo 31%nat [VInt 8]] = Some [].
Proof. vm_compute. repeat split. Qed.
(** A listener of inserted raises: the item is in the list, but not connected. *)
Theorem C57_raise_refuted :
  let w := child_after [CList (LInsert 9 (VObj 3%nat)) false] in
  in_list w = [VObj 3%nat] /\ child_told w (VObj 3%nat) false (VObj 3%nat) [VInt 8] = Some [].
Proof. vm_compute. repeat split. Qed.

(** ** The list with child events is the list without *)

Section Same.
Variable E : env cdata.
Variables (eqv : val -> val -> bool) (islist : val -> bool) (wrap : val -> val) (emits : val -> bool).
Notation C := list_signals.
Definition forget (x : sid * list val * cdata) : sid * list val * list val := (fst x, c_l (snd x)).
(** Whatever can be said of [p] on the list alone can be said of [q]. *)
Definition like (q : prog cdata) (p : prog data) : Prop :=
  forall u h Q, wp E C p (c_l u) (map forget h) Q -> wp E C q u h (fun u h r => Q (c_l u) (map forget h) r).

Lemma like_zoom : forall p, like (zoom p) p.
Proof.
  intros p. induction p as [v|e| |k IH|o k IH]; intros u h Q H; cbn [zoom wp] in *; auto.
  - now apply IH.
  - destruct o; cbn [zoom_op] in *; try contradiction; try (now apply IH).
    + destruct H as [H1 H2]. destruct (C s) eqn:Hs.
      * split; [intros v|intros e He]; apply IH; rewrite map_app; [apply H1|apply H2; auto].
      * split; [intros v|intros e He]; apply IH; [apply H1|apply H2; auto].
    + intros x. now apply IH.
    + intros x. now apply IH.
    + destruct H as [H1 H2]. split; [intros v|intros e He]; apply IH; auto.
    + intros b. now apply IH.
    + intros b. now apply IH.
    + unfold on_l. destruct (f (c_l u)) as [l x] eqn:Hf. cbn [fst snd set_l] in *. apply IH. exact H.
Qed.
Lemma like_bind : forall q p f g, like q p -> (forall v, like (f v) (g v)) -> like (bind q f) (bind p g).
Proof.
  intros q p f g H HF u h Q HW. apply wp_bind. eapply wp_mono; [|apply (H u h (fun u1 h1 r => match r with Ok v => wp E C (g v) u1 h1 Q | Err e => Q u1 h1 (Err e) | Halted => True end))].
  - intros u1 h1 [v|e|] HH; auto. now apply HF.
  - clear -HW. revert HW. generalize (c_l u), (map forget h). intros l h'. revert l h'.
    induction p as [v|e| |k IH|o k IH]; intros l h' HW; cbn [bind wp] in *; auto.
    destruct o; try contradiction; eauto; try (destruct HW as [H1 H2]; split; intros; eauto); intros; eauto.
Qed.
Lemma like_seq : forall q p q' p', like q p -> like q' p' -> like (q;; q') (p;; p').
Proof. intros. unfold seq. apply like_bind; auto. Qed.
Lemma like_catch : forall q p f g, like q p -> (forall x, like (f x) (g x)) -> like (catch q f) (catch p g).
Proof.
  intros q p f g H HF u h Q HW. apply wp_catch. eapply wp_mono; [|apply (H u h (fun u1 h1 r => match r with Ok v => wp E C (g (inl v)) u1 h1 Q | Err e => wp E C (g (inr e)) u1 h1 Q | Halted => True end))].
  - intros u1 h1 [v|e|] HH; auto; now apply HF.
  - clear -HW. revert HW. generalize (c_l u), (map forget h). intros l h'. revert l h'.
    induction p as [v|e| |k IH|o k IH]; intros l h' HW; cbn [catch wp] in *; auto.
    destruct o; try contradiction; eauto; try (destruct HW as [H1 H2]; split; intros; eauto); intros; eauto.
Qed.
Lemma like_ret : forall v, like (Ret v) (Ret v).
Proof. intros v u h Q H. exact H. Qed.
Lemma like_throw : forall e, like (Throw e) (Throw e).
Proof. intros v u h Q H. exact H. Qed.
Lemma like_say : forall s a, like (say s a) (say s a).
Proof.
  intros s a u h Q HW. unfold say, call in *. cbn [wp] in *. destruct HW as [H1 H2].
  destruct (C s); (split; [intros v; specialize (H1 v)|intros e He; specialize (H2 e He)]); cbn [finish wp] in *; now rewrite ?map_app.
Qed.
Lemma like_act : forall f, like (act (on_l f)) (act f).
Proof.
  intros f u h Q HW. unfold act, call in *. cbn [wp] in *. unfold on_l. destruct (f (c_l u)) as [l [v|e]]; exact HW.
Qed.
Lemma like_look : forall f g, (forall u, like (f u) (g (c_l u))) -> like (Look f) (Look g).
Proof. intros f g H u h Q HW. cbn [wp] in *. now apply H. Qed.
Lemma like_each : forall {A} (f : A -> prog cdata) g l, (forall x, like (f x) (g x)) -> like (each f l) (each g l).
Proof. intros A f g l H. induction l as [|x l IH]; cbn [each]; [apply like_ret|]. apply like_seq; auto. Qed.
(** Connecting and disconnecting leave the list alone. *)
Lemma like_aside : forall (t : cdata -> cdata) q p, (forall u, c_l (t u) = c_l u) -> like q p ->
  like (act (fun u => (t u, inl VNone));; q) p.
Proof.
  intros t q p Ht H u h Q HW. unfold seq, act, call. cbn [bind wp finish fst snd]. apply H. now rewrite Ht.
Qed.
Lemma like_connect : forall v q p, like q p -> like (connect_child emits v;; q) p.
Proof. intros v q p H. unfold connect_child. refine (like_aside (fun u => if emits v then set_conn (v :: c_conn u) u else u) q p _ H). intros u. now destruct (emits v). Qed.
Lemma like_disconnect : forall v q p, like q p -> like (disconnect_child emits v;; q) p.
Proof. intros v q p H. unfold disconnect_child. refine (like_aside (fun u => if emits v then set_conn (drop_first v (c_conn u)) u else u) q p _ H). intros u. now destruct (emits v). Qed.

Lemma insert_like : forall i v, like (ec_insert emits i v) (el_insert i v).
Proof.
  intros i v. unfold ec_insert, el_insert. apply like_seq; [apply like_say|]. apply like_seq; [apply like_act|].
  apply like_seq; [apply like_say|]. apply like_connect, like_ret.
Qed.
Lemma del_one_like : forall i, like (ec_del_one islist wrap emits i) (del_one i).
Proof.
  intros i. unfold ec_del_one, del_one. apply like_seq; [apply like_say|].
  intros u h Q HW. unfold ec_get, el_get. cbn [zoom bind wp]. destruct (at_ (c_l u) i) as [x|] eqn:Ha; cbn [zoom bind].
  - revert HW. apply like_disconnect. apply like_bind; [apply like_act|]. intros v. apply like_say.
  - cbn [wp]. unfold act, call in HW. cbn [bind wp] in HW. unfold do_pop, list_pop in HW. rewrite Ha in HW. cbn in HW. exact HW.
Qed.
Lemma perform_like : forall o ind, like (perform eqv islist wrap emits (CList o ind)) (evented eqv islist wrap ind o).
Proof.
  assert (AP : forall v, like (ec_append emits v) (el_append v)).
  { intros v. apply like_look. intros u. apply insert_like. }
  assert (EX : forall vs, like (ec_extend emits vs) (el_extend vs)).
  { intros vs. apply like_each. exact AP. }
  assert (DEL : forall i, like (ec_del islist wrap emits i) (el_del i)).
  { intros i. apply like_look. intros u. apply like_each. apply del_one_like. }
  assert (POP : forall i, like (ec_pop islist wrap emits i) (el_pop islist wrap i)).
  { intros i. apply like_bind; [apply like_zoom|]. intros v. apply like_seq; [apply DEL|apply like_ret]. }
  intros o ind. destruct o as [i v|v|vs|i v|s vs|i|s|i|v| | |vs]; cbn [perform evented]; auto using like_zoom.
  - apply insert_like.
  - apply like_look. intros u. destruct (slice_range _ s); [apply like_each, del_one_like|apply like_throw].
  - apply like_look. intros u. destruct (find_index _ _ _ _ _ _); [apply DEL|apply like_throw].
  - apply like_look. intros u. generalize (S (List.length (c_l u))). intros n.
    induction n as [|n IH]; cbn [ec_clear_loop clear_loop]; [apply like_throw|]. apply like_catch; [apply POP|].
    intros [v|e]; [apply IH|]. destruct e; first [apply like_throw|apply like_ret].
Qed.
(** What a complete execution did. *)
Lemma like_sound : forall q p w w' r f g, env_all (aloof C) E -> like q p ->
  Does.does E C p (c_l (w_usr w)) f g -> runs E q w w' r -> done r ->
  exists t, w_tr w' = w_tr w ++ t
    /\ match r with
       | Ok v => f (c_l (w_usr w')) (map forget (heard C t)) v
       | Err e => g (c_l (w_usr w')) (map forget (heard C t)) e \/ listener_raised E C e
       | Halted => False
       end.
Proof.
  intros q p w w' r f g HE HL HD HR Hr. pose proof (HL (w_usr w) [] _ (HD [])) as HW. cbn [map] in HW.
  destruct (wp_sound E C HE q w w' r HR Hr [] _ HW) as (t & Ht & HQ). exists t. split; [exact Ht|].
  cbn [List.app] in HQ. destruct r as [v|e|]; auto; destruct HQ as (hs & -> & HQ); exact HQ.
Qed.
End Same.

(** With child_events=True every operation does to the contents what it does to the builtin list
    (in the cases of C33), with the same result or a listener's exception ... *)
Theorem C57_like_list_partial : forall E eqv islist wrap emits ind o w w' r,
  env_all (aloof list_signals) E -> as_expected islist ind o (c_l (w_usr w)) ->
  runs E (perform eqv islist wrap emits (CList o ind)) w w' r -> done r ->
  (exists x, on_list eqv o (c_l (w_usr w)) (c_l (w_usr w')) x /\ r = result x)
  \/ (exists e, r = Err e /\ listener_raised E list_signals e)
  \/ (o = LClear /\ r = Ok VNone /\ listener_raised E list_signals EIndex).
Proof.
  intros E eqv islist wrap emits ind o w w' r HE HO HR Hr.
  destruct (like_sound E _ _ w w' r _ _ HE (perform_like E eqv islist wrap emits o ind) (op_does E eqv islist wrap ind o _ HO) HR Hr) as (t & _ & HQ).
  destruct r as [v|e|]; [| |contradiction].
  - destruct HQ as [H|(-> & -> & H)]; auto.
  - destruct HQ as [HQ|HQ]; [now left|]. right. left. eauto.
Qed.
(** ... and the events emitted tell how to get from the old contents to the new ones. *)
Theorem C57_events : forall E eqv islist wrap emits ind o w w' v,
  env_all (aloof list_signals) E -> runs E (perform eqv islist wrap emits (CList o ind)) w w' (Ok v) ->
  exists t, w_tr w' = w_tr w ++ t
    /\ let h := map (fun x => (fst x, c_l (snd x))) (heard list_signals t) in
       let l := c_l (w_usr w) in let l' := c_l (w_usr w') in
       ((o = LReverse /\ ind = false /\ h = [(reordered, [], rev l)] /\ l' = rev l)
        \/ follows l h l' \/ (o = LClear /\ listener_raised E list_signals EIndex)).
Proof.
  intros E eqv islist wrap emits ind o w w' v HE HR.
  destruct (like_sound E _ _ w w' (Ok v) _ _ HE (perform_like E eqv islist wrap emits o ind) (op_tells E eqv islist wrap ind o _) HR ltac:(discriminate)) as (t & HT & HQ).
  exists t. split; [exact HT|exact HQ].
Qed.
(** move() as C35 says. *)
Theorem C57_move : forall E eqv islist wrap emits i d w w' r,
  env_all (aloof list_signals) E ->
  let l := c_l (w_usr w) in let l' := c_l (w_usr w') in
  let t := if d <? 0 then d + size l + 1 else d in
  0 <= i < size l -> 0 <= t <= size l ->
  runs E (perform eqv islist wrap emits (CMove i d)) w w' r -> done r ->
  (exists e, r = Err e /\ listener_raised E list_signals e)
  \/ (l' = gathered [i] t l
      /\ r = Ok (VBool (negb ((t =? i) || (t =? i + 1))))).
Proof.
  intros E eqv islist wrap emits i d w w' r HE l l' t Hi Ht HR Hr. cbn [perform] in HR.
  destruct (like_sound E _ _ w w' r _ _ HE (like_zoom E (el_move i d)) (move_does E i d (c_l (w_usr w)) Hi Ht) HR Hr) as (h & _ & HQ).
  change (target (c_l (w_usr w)) d) with t in HQ. fold l in HQ. fold l' in HQ.
  destruct r as [v|e|]; [| |contradiction].
  - right. destruct HQ as [HU HQ]. split; [exact HU|]. destruct ((t =? i) || (t =? i + 1)); destruct HQ as [-> _]; reflexivity.
  - destruct HQ as [[]|HQ]. left. eauto.
Qed.
Example C57_list_case :
  let l := [CList (LExtend [VObj 4%nat; VObj 3%nat; VObj 5%nat; VObj 3%nat]) false] in
  let w := child_after l in
  let after c := c_l (w_usr (child_after (l ++ [c]))) in
  as_expected no_lists false (LDelSlice (None, None, Some 2)) (c_l (w_usr w))
  /\ after (CList (LDelSlice (None, None, Some 2)) false) = [VObj 3%nat; VObj 3%nat]
  /\ outcome child_env 200%nat (does_op (CList (LDelSlice (None, None, Some 0)) false)) w = Some (Err EValue)
  /\ outcome child_env 200%nat (does_op (CList (LRemove (VObj 9%nat)) false)) w = Some (Err EValue)
  /\ outcome child_env 200%nat (does_op (CList LClear false)) w = Some (Ok VNone)
  /\ after (CList LClear false) = []
  /\ after (CMove 0 3) = [VObj 3%nat; VObj 5%nat; VObj 4%nat; VObj 3%nat].
Proof. vm_compute. repeat split. Qed.
Print Assumptions C57_like_list_partial.
Print Assumptions C57_events.
Print Assumptions C57_move.
