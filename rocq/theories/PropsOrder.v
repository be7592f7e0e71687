(** OrderedSet and EventedOrderedSet: C42. *)

From Verif Require Import Base Core Spec Frame Fuel Demo Client Prog Does Through PySet ESet SpecSet SetFacts PropsSet.
From Coq Require Import Permutation.
Open Scope string_scope.
Open Scope list_scope.

Section Through.
Variable E : env sdata.
(** [X] may ignore the exception. *)
Definition through (p : prog sdata) (l : list val) (Q X : list val -> Prop) : Prop :=
  Through.through E set_signals p l Q (fun u _ => X u).
Lemma th_mono : forall p l (Q X Q' X' : list val -> Prop), through p l Q X ->
  (forall u, Q u -> Q' u) -> (forall u, X u -> X' u) -> through p l Q' X'.
Proof. intros. eapply Through.th_mono; [exact H|auto|cbn; auto]. Qed.
Lemma th_ret : forall v l (Q X : list val -> Prop), Q l -> through (Ret v) l Q X.
Proof. intros. now apply Through.th_ret. Qed.
Lemma th_throw : forall e l (Q X : list val -> Prop), X l -> through (Throw e) l Q X.
Proof. intros. now apply Through.th_throw. Qed.
Lemma th_look : forall k l (Q X : list val -> Prop), through (k l) l Q X -> through (Look k) l Q X.
Proof. intros. now apply Through.th_look. Qed.
Lemma th_seq : forall p q l (Q1 Q X : list val -> Prop), through p l Q1 X ->
  (forall u, Q1 u -> through q u Q X) -> through (p;; q) l Q X.
Proof. intros p q l Q1 Q X Hp Hq. eapply Through.th_seq; [exact Hp|exact Hq]. Qed.
Lemma th_say : forall s a l (Q X : list val -> Prop), Q l -> X l -> through (say s a) l Q X.
Proof. intros. now apply Through.th_say. Qed.
Lemma th_act : forall f l (Q X : list val -> Prop), Q (f l) -> through (act (modify sitems set_sitems f)) l Q X.
Proof. intros. now apply Through.th_act. Qed.
Lemma th_paused : forall s rd p l (Q X : list val -> Prop), reduces_ok rd -> through p l Q X ->
  through (with_paused s rd p) l Q (fun u => Q u \/ X u).
Proof.
  intros s rd p l Q X Hrd H. apply Through.th_paused; [exact Hrd| |].
  - eapply Through.th_mono; [exact H|auto|cbn; auto].
  - intros u e [Hu|(_ & Hu)] _; cbn in *; auto.
Qed.
Lemma th_sound : forall p w w' r Q X, env_all (aloof set_signals) E -> through p (w_usr w) Q X ->
  runs E p w w' r -> done r -> match r with Ok _ => Q (w_usr w') | Err _ => X (w_usr w') | Halted => False end.
Proof. intros p w w' r Q X HE H HR Hr. exact (Through.th_sound E set_signals p w w' r Q _ HE H HR Hr). Qed.
End Through.

(** The beginning of a list. *)
Definition begins (ys xs : list val) : Prop := exists zs, xs = ys ++ zs.
Definition turn (g : val -> list val -> list val) (xs l : list val) : list val := fold_left (fun l x => g x l) xs l.
(** As far as it came. *)
Definition partway (g : val -> list val -> list val) (xs l u : list val) : Prop := exists ys, begins ys xs /\ u = turn g ys l.

Section Pure.
Variable same : val -> val -> bool.
Hypothesis HQ : equivalence same.
Let refl := proj1 HQ.
Let sym := proj1 (proj2 HQ).
Let trans := proj2 (proj2 HQ).
Notation mem := (mem same).
Definition swap (x : val) (l : list val) : list val := if mem x l then sdel same x l else sadd same x l.

Lemma filter_all : forall (f : val -> bool) l, (forall x, In x l -> f x = true) -> filter f l = l.
Proof.
  intros f l; induction l as [|x l IH]; intros H; cbn; [reflexivity|]. rewrite (H x (or_introl eq_refl)). f_equal.
  apply IH. intros y Hy. apply H. now right.
Qed.
Lemma filter_two : forall (f g : val -> bool) l, filter f (filter g l) = filter (fun x => g x && f x) l.
Proof. intros f g l; induction l as [|x l IH]; cbn; [reflexivity|]. destruct (g x); cbn; [destruct (f x)|]; now rewrite IH. Qed.
Lemma newly_ext : forall m a b, (forall x, mem x a = mem x b) -> newly same a m = newly same b m.
Proof.
  induction m as [|x m IH]; intros a b H; [reflexivity|]. cbn. rewrite (H x). destruct (mem x b); [auto|].
  f_equal. apply IH. intros y. rewrite !mem_cons. now rewrite H.
Qed.
Lemma turn_add : forall xs l, turn (sadd same) xs l = l ++ newly same l xs.
Proof.
  unfold turn. induction xs as [|x xs IH]; intros l; cbn; [now rewrite app_nil_r|]. rewrite IH. unfold sadd.
  destruct (mem x l) eqn:H; [reflexivity|]. rewrite <- app_assoc. cbn. f_equal. f_equal. apply newly_ext.
  intros y. rewrite mem_app, !mem_cons, mem_nil, orb_false_r. apply orb_comm.
Qed.
Lemma sdel_filter : forall x l, distinct same l -> sdel same x l = filter (fun y => negb (same x y)) l.
Proof.
  intros x l; induction l as [|y l IH]; [reflexivity|]. cbn. intros [H1 H2]. destruct (same x y) eqn:H; cbn.
  - symmetry. apply filter_all. intros z Hz. destruct (same x z) eqn:K; [|reflexivity]. exfalso.
    apply (mem_outside same) in H1. apply H1. exists z. split; [exact Hz|]. eapply trans; [apply sym; exact H|exact K].
  - f_equal. auto.
Qed.
Lemma turn_del : forall xs l, distinct same l -> turn (sdel same) xs l = filter (fun y => negb (mem y xs)) l.
Proof.
  unfold turn. induction xs as [|x xs IH]; intros l H; cbn [fold_left].
  - symmetry. now apply filter_all.
  - rewrite IH by now apply distinct_sdel. rewrite sdel_filter by exact H. rewrite filter_two. apply filter_ext.
    intros y. rewrite mem_cons, (same_sym same sym y x). now rewrite negb_orb.
Qed.
Lemma turn_swap : forall xs l, distinct same l -> distinct same xs ->
  turn swap xs l = filter (fun y => negb (mem y xs)) l ++ filter (fun y => negb (mem y l)) xs.
Proof.
  unfold turn. induction xs as [|x xs IH]; intros l H Hx; cbn [fold_left].
  - cbn. rewrite app_nil_r. symmetry. now apply filter_all.
  - destruct Hx as [Hx1 Hx2].
    assert (Hz : forall z, In z xs -> same z x = false).
    { intros z Hz. destruct (same z x) eqn:K; [|reflexivity]. exfalso. apply (mem_outside same) in Hx1. apply Hx1.
      exists z. split; [exact Hz|now apply sym]. }
    unfold swap at 2. destruct (mem x l) eqn:Hm.
    + rewrite IH by (try apply distinct_sdel; auto). cbn [filter]. rewrite Hm. cbn [negb]. f_equal.
      * rewrite sdel_filter by exact H. rewrite filter_two. apply filter_ext. intros y.
        rewrite mem_cons, (same_sym same sym y x). now rewrite negb_orb.
      * apply filter_ext_in. intros z Hi. rewrite (mem_sdel same sym trans) by exact H. rewrite (Hz z Hi). cbn. now rewrite andb_true_r.
    + rewrite IH by (try apply (distinct_sadd same refl sym trans); auto). unfold sadd. rewrite Hm. cbn [filter]. rewrite Hm. cbn [negb].
      rewrite filter_app. cbn [filter]. rewrite Hx1. cbn [negb]. rewrite <- app_assoc. cbn [List.app]. f_equal.
      * apply filter_ext_in. intros z Hi. rewrite mem_cons. destruct (same z x) eqn:K; [|reflexivity]. exfalso.
        apply (mem_outside same) in Hm. apply Hm. exists z. split; [exact Hi|now apply sym].
      * f_equal. apply filter_ext_in. intros z Hi. rewrite mem_app, mem_cons, mem_nil, (Hz z Hi). cbn. now rewrite orb_false_r.
Qed.
(** How often [x] is in [m]; [m] without all but the last occurrence of each element. *)
Definition times (x : val) (m : list val) : nat := List.length (filter (same x) m).
Fixpoint lasts (m : list val) : list val :=
  match m with [] => [] | x :: m => if mem x m then lasts m else x :: lasts m end.
(** Elements of [m] removed and added again in turn, as often as they are in it. *)
Definition turned (l m : list val) : list val :=
  filter (fun x => negb (mem x m)) l ++ filter (fun x => Nat.odd (times x m + if mem x l then 1 else 0)) (lasts m).
Lemma mem_swap : forall x y l, distinct same l -> mem y (swap x l) = if same y x then negb (mem y l) else mem y l.
Proof.
  intros x y l H. unfold swap. destruct (mem x l) eqn:K.
  - rewrite (mem_sdel same sym trans) by exact H. destruct (same y x) eqn:S; cbn; [|apply andb_true_r].
    rewrite andb_false_r. symmetry. rewrite (mem_same same sym trans y x l S), K. reflexivity.
  - unfold sadd. rewrite K, mem_app, mem_cons, mem_nil, orb_false_r. destruct (same y x) eqn:S; [|apply orb_false_r].
    rewrite (mem_same same sym trans y x l S), K. reflexivity.
Qed.
Lemma swap_distinct : forall x l, distinct same l -> distinct same (swap x l).
Proof. intros x l H. unfold swap. destruct (mem x l); [now apply (distinct_sdel same sym trans)|now apply (distinct_sadd same refl sym trans)]. Qed.
Lemma turn_snoc : forall g xs x l, turn g (xs ++ [x]) l = g x (turn g xs l).
Proof. intros. unfold turn. now rewrite fold_left_app. Qed.
Lemma turn_swap_distinct : forall xs l, distinct same l -> distinct same (turn swap xs l).
Proof. intros xs; unfold turn; induction xs as [|x xs IH]; intros l H; cbn; [exact H|]. apply IH. now apply swap_distinct. Qed.
Lemma times_snoc : forall y xs x, times y (xs ++ [x]) = times y xs + if same y x then 1 else 0.
Proof. intros. unfold times. rewrite filter_app, app_length. cbn. now destruct (same y x). Qed.
Lemma mem_turned : forall xs l y, distinct same l -> mem y (turn swap xs l) = Nat.odd (times y xs + if mem y l then 1 else 0).
Proof.
  intros xs l y H. induction xs as [|x xs IH] using rev_ind; [cbn; now destruct (mem y l)|].
  rewrite turn_snoc, mem_swap by now apply turn_swap_distinct. rewrite times_snoc, IH. destruct (same y x).
  - rewrite <- Nat.negb_even. replace (times y xs + 1 + (if mem y l then 1 else 0)) with (S (times y xs + if mem y l then 1 else 0)) by lia.
    rewrite <- Nat.negb_even, Nat.even_succ, <- Nat.negb_even. now rewrite !negb_involutive.
  - now rewrite Nat.add_0_r.
Qed.
Lemma lasts_snoc : forall xs x, lasts (xs ++ [x]) = filter (fun y => negb (same x y)) (lasts xs) ++ [x].
Proof.
  intros xs x; induction xs as [|y xs IH]; [reflexivity|]. cbn [List.app lasts]. rewrite mem_app, mem_cons, mem_nil, orb_false_r.
  destruct (mem y xs) eqn:K; cbn [orb]; [exact IH|]. rewrite IH. cbn [filter]. rewrite (same_sym same sym y x). now destruct (same x y).
Qed.
Lemma turn_turned : forall xs l, distinct same l -> turn swap xs l = turned l xs.
Proof.
  intros xs l H. induction xs as [|x xs IH] using rev_ind.
  - cbn. unfold turned. cbn. rewrite app_nil_r. symmetry. now apply filter_all.
  - rewrite turn_snoc. pose proof (mem_turned xs l x H) as M. pose proof (turn_swap_distinct xs l H) as D.
    assert (F : filter (fun y => negb (mem y (xs ++ [x]))) l = filter (fun y => negb (same x y)) (filter (fun y => negb (mem y xs)) l)).
    { rewrite filter_two. apply filter_ext. intros y. rewrite mem_app, mem_cons, mem_nil, orb_false_r, negb_orb. now rewrite (same_sym same sym y x). }
    assert (G : filter (fun y => Nat.odd (times y (xs ++ [x]) + if mem y l then 1 else 0)) (filter (fun y => negb (same x y)) (lasts xs))
              = filter (fun y => negb (same x y)) (filter (fun y => Nat.odd (times y xs + if mem y l then 1 else 0)) (lasts xs))).
    { rewrite !filter_two. apply filter_ext. intros y. rewrite times_snoc, (same_sym same sym y x). destruct (same x y); cbn [negb]; [now rewrite andb_false_r|].
      now rewrite Nat.add_0_r, andb_true_r. }
    assert (O : Nat.odd (times x (xs ++ [x]) + if mem x l then 1 else 0) = negb (mem x (turn swap xs l))).
    { rewrite <- (mem_turned (xs ++ [x]) l x H), turn_snoc, mem_swap by exact D. now rewrite refl. }
    unfold turned. rewrite lasts_snoc, filter_app, F, G. cbn [filter]. rewrite O. clear O F G M.
    set (u := turn swap xs l) in *. clearbody u. unfold swap. destruct (mem x u) eqn:K; cbn [negb].
    + rewrite sdel_filter by exact D. rewrite IH. unfold turned. now rewrite filter_app, app_nil_r.
    + unfold sadd. rewrite K.
      assert (N : filter (fun y => negb (same x y)) u = u).
      { apply filter_all. intros y Hy. destruct (same x y) eqn:S; [|reflexivity]. rewrite (mem_same same sym trans x y _ S) in K.
        rewrite (mem_in same refl y _ Hy) in K. discriminate. }
      rewrite <- N, IH. unfold turned. now rewrite filter_app, <- app_assoc.
Qed.
Lemma newly_distinct : forall m l, distinct same m -> newly same l m = filter (fun y => negb (mem y l)) m.
Proof.
  induction m as [|x m IH]; intros l H; [reflexivity|]. destruct H as [H1 H2]. cbn [newly filter].
  destruct (mem x l); cbn [negb]; [auto|]. f_equal. rewrite IH by exact H2. apply filter_ext_in. intros z Hz.
  rewrite mem_cons. destruct (same z x) eqn:K; [|reflexivity]. exfalso. apply (mem_outside same) in H1. apply H1.
  exists z. split; [exact Hz|now apply sym].
Qed.
Lemma newly_out : forall m l x, mem x l = true -> mem x (newly same l m) = false.
Proof.
  induction m as [|y m IH]; intros l x H; [reflexivity|]. cbn [newly]. destruct (mem y l) eqn:K; [auto|].
  rewrite mem_cons. rewrite IH by (rewrite mem_cons, H; apply orb_true_r). rewrite orb_false_r.
  destruct (same x y) eqn:L; [|reflexivity]. rewrite (mem_same same sym trans x y l L) in H. congruence.
Qed.
Lemma begins_distinct : forall ys xs, begins ys xs -> distinct same xs -> distinct same ys.
Proof. intros ys xs (zs & ->) H. now apply (distinct_app same refl sym trans) in H as [H _]. Qed.

(** What was there and still is comes first, in the same order; then what is new among [ys]. *)
Definition arranged (l ys u : list val) : Prop := u = filter (fun x => mem x u) l ++ newly same l ys.
Lemma arrange : forall keep l ys u, (forall x y, same x y = true -> keep x = keep y) ->
  u = filter keep l ++ newly same l ys -> arranged l ys u.
Proof.
  intros keep l ys u Hk Hu. unfold arranged. rewrite Hu at 1. f_equal. apply filter_ext_in. intros x Hx. rewrite Hu.
  assert (Hm : mem x l = true) by (apply mem_in; auto).
  rewrite mem_app, newly_out, orb_false_r by exact Hm. rewrite mem_filter by (auto; intros; now apply Hk). now rewrite Hm.
Qed.
Lemma mem_keep : forall xs x y, same x y = true -> negb (mem x xs) = negb (mem y xs).
Proof. intros xs x y H. f_equal. now apply (mem_same same sym trans). Qed.
Lemma add_arranged : forall xs l, arranged l xs (turn (sadd same) xs l).
Proof. intros xs l. apply (arrange (fun _ => true)); [auto|]. rewrite turn_add. f_equal. symmetry. now apply filter_all. Qed.
Lemma del_arranged : forall xs l, distinct same l -> arranged l [] (turn (sdel same) xs l).
Proof.
  intros xs l H. apply (arrange (fun y => negb (mem y xs))); [apply mem_keep|]. rewrite turn_del by exact H. cbn. now rewrite app_nil_r.
Qed.
Lemma swap_arranged : forall xs l, distinct same l -> distinct same xs -> arranged l xs (turn swap xs l).
Proof.
  intros xs l H Hx. apply (arrange (fun y => negb (mem y xs))); [apply mem_keep|]. rewrite turn_swap, newly_distinct by assumption. reflexivity.
Qed.
Lemma same_arranged : forall l, arranged l [] l.
Proof. intros l. apply (add_arranged [] l). Qed.
Lemma nil_arranged : forall l, arranged l [] [].
Proof. intros l. apply (arrange (fun _ => false)); [auto|]. cbn. rewrite app_nil_r. induction l; cbn; auto. Qed.
Lemma turn_distinct : forall g xs l, (forall x l, distinct same l -> distinct same (g x l)) -> distinct same l -> distinct same (turn g xs l).
Proof. intros g xs; induction xs as [|x xs IH]; intros l Hg H; cbn; [exact H|]. apply IH; auto. Qed.
Lemma add_distinct : forall x l, distinct same l -> distinct same (sadd same x l).
Proof. exact (distinct_sadd same refl sym trans). Qed.
Lemma del_distinct : forall x l, distinct same l -> distinct same (sdel same x l).
Proof. exact (distinct_sdel same sym trans). Qed.
End Pure.

Section Loops.
Variable E : env sdata.
Variable g : val -> list val -> list val.
Notation through := (through E).
Definition quick (f : val -> prog sdata) : Prop :=
  forall x l, through (f x) l (fun u => u = g x l) (fun u => u = l \/ u = g x l).
Lemma begins_nil : forall xs, begins [] xs.
Proof. intros xs. now exists xs. Qed.
Lemma begins_all : forall xs, begins xs xs.
Proof. intros xs. exists []. now rewrite app_nil_r. Qed.
Lemma th_each : forall f, quick f -> forall xs l, through (each f xs) l (fun u => u = turn g xs l) (partway g xs l).
Proof.
  intros f Hf; induction xs as [|x xs IH]; intros l; cbn [each]; [now apply th_ret|].
  eapply th_seq with (Q1 := fun u => u = g x l).
  - eapply th_mono; [apply Hf|auto|]. intros u [-> | ->]; [exists []|exists [x]]; (split; [|reflexivity]); [apply begins_nil|].
    now exists xs.
  - intros u ->. eapply th_mono; [apply IH|auto|]. intros u (ys & (zs & ->) & ->). exists (x :: ys). split; [now exists zs|reflexivity].
Qed.
Lemma turn_app : forall a b l, turn g (a ++ b) l = turn g b (turn g a l).
Proof. intros. unfold turn. apply fold_left_app. Qed.
Lemma th_flat : forall (ok : list val -> arg -> Prop) (f : arg -> prog sdata),
  (forall a l, ok l a -> through (f a) l (fun u => u = turn g (own a) l) (partway g (own a) l)) ->
  (forall a b l, ok l a -> ok (turn g (own b) l) a) ->
  forall s l, Forall (ok l) s ->
  through (each f s) l (fun u => u = turn g (flat_map own s) l) (partway g (flat_map own s) l).
Proof.
  intros ok f Hf Hok; induction s as [|a s IH]; intros l H; cbn [each flat_map]; [now apply th_ret|]. inversion H; subst.
  eapply th_seq with (Q1 := fun u => u = turn g (own a) l).
  - eapply th_mono; [now apply Hf|auto|]. intros u (ys & (zs & ->) & ->). exists ys. split; [|reflexivity].
    exists (zs ++ flat_map own s). now rewrite app_assoc.
  - intros u ->. eapply th_mono; [apply IH| |].
    + eapply Forall_impl; [|exact H3]. auto.
    + intros u ->. now rewrite turn_app.
    + intros u (ys & (zs & Hz) & ->). exists (own a ++ ys). split; [exists zs; now rewrite <- app_assoc, Hz|now rewrite turn_app].
Qed.
End Loops.

Section Ops.
Variable same : val -> val -> bool.
Hypothesis HQ : equivalence same.
Variable E : env sdata.
Notation through := (through E).
Variable H : hooks (U := sdata).
Notation id := (fun l : list val => l).
Notation add := (bs_add same sitems set_sitems H).
Notation discard := (bs_discard same sitems set_sitems H).
Notation clear := (bs_clear id sitems set_sitems H).
Hypothesis Hadd : quick E (sadd same) add.
Hypothesis Hdel : quick E (sdel same) discard.
Hypothesis Hclr : forall l, through clear l (fun u => u = []) (fun u => u = l \/ u = []).
Let refl := proj1 HQ.
Let sym := proj1 (proj2 HQ).
Let trans := proj2 (proj2 HQ).

Lemma live_add : forall xs l, (forall x, In x xs -> mem same x l = true) ->
  through (live sitems (List.length l) add xs) l (fun u => u = l) (fun u => u = l).
Proof.
  induction xs as [|x xs IH]; intros l Hx; cbn [live]; [now apply th_ret|].
  assert (Hs : sadd same x l = l) by (unfold sadd; now rewrite (Hx x (or_introl eq_refl))).
  eapply th_seq with (Q1 := fun u => u = l).
  - eapply th_mono; [apply Hadd| |]; rewrite Hs; tauto.
  - intros u ->. apply th_look. change (sitems l) with l. rewrite Nat.eqb_refl. apply IH. intros y Hy. apply Hx. now right.
Qed.
Lemma over_add : forall a l, through (over id sitems a add) l (fun u => u = turn (sadd same) (own a) l) (partway (sadd same) (own a) l).
Proof.
  intros [m|] l; cbn [over own]; [now apply th_each|]. apply th_look. change (sitems l) with l.
  eapply th_mono; [apply live_add| |].
  - intros x Hx. now apply mem_in.
  - auto.
  - intros u ->. exists []. split; [apply begins_nil|reflexivity].
Qed.
Lemma over_nil : forall f l (Q X : list val -> Prop), l = [] -> Q [] -> through (over id sitems Itself f) l Q X.
Proof. intros f l Q X -> HQ'. apply th_look. now apply th_ret. Qed.
Lemma swap_quick : quick E (swap same) (toggle_item same sitems set_sitems H).
Proof.
  intros x l. unfold toggle_item, swap. apply th_look. change (sitems l) with l. destruct (mem same x l); [apply Hdel|apply Hadd].
Qed.
Lemma turn_keep : forall (keep : val -> bool) xs l,
  turn (fun i l => if keep i then l else sdel same i l) xs l = turn (sdel same) (filter (fun i => negb (keep i)) xs) l.
Proof. intros keep; unfold turn. induction xs as [|x xs IH]; intros l; cbn; [reflexivity|]. rewrite IH. now destruct (keep x). Qed.

Notation good l o := (fun u => arranged same l (given o) u /\ distinct same u).
Notation bad l o := (fun u => exists ys, begins ys (given o) /\ arranged same l ys u /\ distinct same u).
Lemma by_add : forall p l xs o, distinct same l -> given o = xs ->
  through p l (fun u => u = turn (sadd same) xs l) (partway (sadd same) xs l) -> through p l (good l o) (bad l o).
Proof.
  intros p l xs o HD <- HT. eapply th_mono; [exact HT| |].
  - intros u ->. split; [now apply add_arranged|]. apply turn_distinct; [|exact HD]. now apply add_distinct.
  - intros u (ys & Hy & ->). exists ys. split; [exact Hy|]. split; [now apply add_arranged|].
    apply turn_distinct; [|exact HD]. now apply add_distinct.
Qed.
Lemma by_del : forall p l o (R : list val -> Prop), distinct same l -> given o = [] ->
  through p l R R -> (forall u, R u -> exists xs, u = turn (sdel same) xs l) -> through p l (good l o) (bad l o).
Proof.
  intros p l o R HD Ho HT HR. rewrite Ho. eapply th_mono; [exact HT| |]; intros u Hu; apply HR in Hu as (xs & ->).
  - split; [now apply del_arranged|]. apply turn_distinct; [|exact HD]. now apply del_distinct.
  - exists []. split; [apply begins_nil|]. split; [now apply del_arranged|]. apply turn_distinct; [|exact HD]. now apply del_distinct.
Qed.
Lemma by_swap : forall p l xs o, distinct same l -> distinct same xs -> (forall ys, begins ys xs -> exists zs, begins zs (given o) /\ newly same l zs = newly same l ys) ->
  newly same l xs = newly same l (given o) ->
  through p l (fun u => u = turn (swap same) xs l) (partway (swap same) xs l) -> through p l (good l o) (bad l o).
Proof.
  intros p l xs o HD Hx Hb Hg HT. eapply th_mono; [exact HT| |].
  - intros u ->. split; [unfold arranged; rewrite <- Hg; now apply swap_arranged|]. apply turn_distinct; [|exact HD]. now apply swap_distinct.
  - intros u (ys & Hy & ->). destruct (Hb ys Hy) as (zs & Hz & Hn). exists zs. split; [exact Hz|].
    split; [unfold arranged; rewrite Hn; apply swap_arranged; auto; eapply begins_distinct; eauto|].
    apply turn_distinct; [|exact HD]. now apply swap_distinct.
Qed.
Definition gone (l u : list val) : Prop := exists xs, u = turn (sdel same) xs l.
Lemma each_gone : forall xs l, through (each discard xs) l (gone l) (gone l).
Proof.
  intros xs l. eapply th_mono; [now apply th_each|intros u ->; now exists xs|]. intros u (ys & _ & ->). now exists ys.
Qed.
Lemma discard_gone : forall x l, through (discard x) l (gone l) (gone l).
Proof.
  intros x l. eapply th_mono; [apply Hdel|intros u ->; now exists [x]|]. intros u [-> | ->]; [now exists []|now exists [x]].
Qed.
Lemma gone_all : forall l, gone l [].
Proof.
  intros l. exists l. induction l as [|x l IH]; [reflexivity|]. cbn. now rewrite refl.
Qed.
Lemma clear_gone : forall l, through clear l (gone l) (gone l).
Proof.
  intros l. eapply th_mono; [apply Hclr|intros u ->; apply gone_all|]. intros u [-> | ->]; [now exists []|apply gone_all].
Qed.
(** dedup keeps the order of first occurrences. *)
Lemma dedup_newly : forall m, dedup same m = newly same [] m.
Proof. intros m. unfold dedup. change (fold_left _ m []) with (turn (sadd same) m []). rewrite turn_add by exact HQ. reflexivity. Qed.
Lemma newly_newly : forall m s l, (forall x, mem same x s = true -> mem same x l = true) ->
  newly same l (newly same s m) = newly same l m.
Proof.
  induction m as [|x m IH]; intros s l Hs; [reflexivity|]. cbn [newly]. destruct (mem same x s) eqn:K.
  - rewrite (Hs x K). auto.
  - cbn [newly]. destruct (mem same x l) eqn:L.
    + apply IH. intros y. rewrite mem_cons. intros Hy. apply orb_true_iff in Hy as [Hy|Hy]; [|auto].
      now rewrite (mem_same same sym trans y x l Hy).
    + f_equal. apply IH. intros y. rewrite !mem_cons. intros Hy. apply orb_true_iff in Hy as [Hy|Hy]; [now rewrite Hy|].
      rewrite (Hs y Hy). apply orb_true_r.
Qed.
Lemma begins_newly : forall m s ys, begins ys (newly same s m) -> exists zs, begins zs m /\ newly same s zs = ys.
Proof.
  induction m as [|x m IH]; intros s ys (r & Hr).
  - cbn in Hr. symmetry in Hr. apply app_eq_nil in Hr as [-> _]. exists []. split; [apply begins_nil|reflexivity].
  - cbn [newly] in Hr. destruct (mem same x s) eqn:K.
    + destruct (IH s ys) as (zs & (r' & ->) & Hz); [now exists r|]. exists (x :: zs). split; [now exists r'|]. cbn. now rewrite K.
    + destruct ys as [|y ys]; [exists []; split; [apply begins_nil|reflexivity]|]. injection Hr as <- Hr.
      destruct (IH (x :: s) ys) as (zs & (r' & ->) & Hz); [now exists r|]. exists (x :: zs). split; [now exists r'|].
      cbn. now rewrite K, Hz.
Qed.

(** Each operation; [clr] is self.clear. *)
Lemma add_o : forall x l, distinct same l -> through (add x) l (good l (SAdd x)) (bad l (SAdd x)).
Proof.
  intros x l HD. eapply by_add; [exact HD|reflexivity|]. eapply th_mono; [apply Hadd|auto|].
  intros u [-> | ->]; [exists []; split; [apply begins_nil|reflexivity]|exists [x]; split; [apply begins_all|reflexivity]].
Qed.
Lemma update_o : forall s l, distinct same l ->
  through (bs_update same id sitems set_sitems H s) l (good l (SUpdate s)) (bad l (SUpdate s)).
Proof.
  intros s l HD. eapply by_add; [exact HD|reflexivity|].
  apply (th_flat E (sadd same) (fun _ _ => True)); [intros; apply over_add|auto|]. clear. induction s; auto.
Qed.
Lemma ior_o : forall a l, distinct same l ->
  through (bs_ior same id sitems set_sitems H a) l (good l (SIor a)) (bad l (SIor a)).
Proof. intros a l HD. eapply by_add; [exact HD|reflexivity|]. apply over_add. Qed.
Lemma gone_trans : forall l u v, gone l u -> gone u v -> gone l v.
Proof. intros l u v (xs & ->) (ys & ->). exists (xs ++ ys). unfold turn. now rewrite fold_left_app. Qed.
(** Iterating over the set itself ends with the first removal. *)
Lemma live_gone : forall f xs l, (forall x l, through (f x) l (gone l) (gone l)) ->
  through (live sitems (List.length l) f xs) l (gone l) (gone l).
Proof.
  intros f xs l Hf. assert (K : forall xs u n, gone l u -> through (live sitems n f xs) u (gone l) (gone l)); [|apply K; now exists []].
  induction xs0 as [|x xs0 IH]; intros u n Hu; cbn [live]; [now apply th_ret|].
  eapply th_seq with (Q1 := gone l).
  - eapply th_mono; [apply Hf| |]; intros v Hv; eapply gone_trans; eauto.
  - intros v Hv. apply th_look. change (sitems v) with v. destruct (Nat.eqb _ n); [now apply IH|]. now apply th_throw.
Qed.
Lemma difference_o : forall s l, through (bs_difference_update same id sitems set_sitems H s) l (gone l) (gone l).
Proof.
  intros s l. unfold bs_difference_update. assert (K : forall u, gone l u -> through (each (fun a => over id sitems a discard) s) u (gone l) (gone l)); [|apply K; now exists []].
  induction s as [|a s IH]; intros u Hu; cbn [each]; [now apply th_ret|].
  eapply th_seq with (Q1 := gone l); [|exact IH].
  eapply th_mono with (Q := gone u) (X := gone u); [|intros v Hv; eapply gone_trans; eauto|intros v Hv; eapply gone_trans; eauto].
  destruct a as [m|]; cbn [over]; [apply each_gone|]. apply th_look. change (sitems u) with u. apply live_gone. intros; apply discard_gone.
Qed.
Lemma intersection_o : forall s l,
  through (bs_intersection_update same id sitems set_sitems H s) l (gone l) (gone l).
Proof.
  intros s l. destruct s as [|a0 s0]; [apply th_throw; now exists []|]. unfold bs_intersection_update. apply th_look. cbv zeta.
  pose (keep := fun x : val => forallb (fun a => mem same x (elems sitems a l)) (a0 :: s0)). change (sitems l) with l. eapply th_mono; [apply (th_each E (fun i l => if keep i then l else sdel same i l))| |].
  - intros x l'. change (forallb _ _) with (keep x). cbv beta. destruct (keep x); [now apply th_ret|apply Hdel].
  - intros u ->. rewrite turn_keep. eexists. reflexivity.
  - intros u (ys & _ & ->). rewrite turn_keep. eexists. reflexivity.
Qed.
Lemma symmetric_o : forall m l, distinct same l -> distinct same m ->
  through (bs_symmetric_difference_update same id sitems set_sitems H (Items m)) l (good l (SSymmetric (Items m))) (bad l (SSymmetric (Items m))).
Proof.
  intros m l HD HF. unfold bs_symmetric_difference_update. cbn [over].
  eapply by_swap with (xs := m); [exact HD|auto| |reflexivity|apply th_each, swap_quick]. intros ys Hy. exists ys. auto.
Qed.
Lemma turned_o : forall m l, distinct same l ->
  through (bs_symmetric_difference_update same id sitems set_sitems H (Items m)) l
    (fun u => u = turned same l m /\ distinct same u) (fun u => exists ys, begins ys m /\ u = turned same l ys /\ distinct same u).
Proof.
  intros m l HD. unfold bs_symmetric_difference_update. cbn [over]. eapply th_mono; [apply th_each, swap_quick| |].
  - intros u ->. split; [now apply turn_turned|now apply turn_swap_distinct].
  - intros u (ys & Hy & ->). exists ys. split; [exact Hy|]. split; [now apply turn_turned|now apply turn_swap_distinct].
Qed.
(** Toggling the elements of the set itself: the first one goes, then the iterator notices. *)
Lemma symmetric_itself : forall l, distinct same l ->
  through (bs_symmetric_difference_update same id sitems set_sitems H Itself) l (fun u => u = l /\ l = []) (fun u => u = l \/ u = tl l).
Proof.
  intros l HD. unfold bs_symmetric_difference_update. cbn [over]. apply th_look. change (sitems l) with l. destruct l as [|x l]; [now apply th_ret|].
  cbn [live]. eapply th_seq with (Q1 := fun u => u = l).
  - assert (S : swap same x (x :: l) = l) by (unfold swap; rewrite mem_cons, refl; cbn; now rewrite refl).
    eapply th_mono; [apply swap_quick| |]; rewrite S; auto.
  - intros u ->. apply th_look. change (sitems l) with l. cbn [List.length]. replace (Nat.eqb (List.length l) (S (List.length l))) with false by (symmetry; apply Nat.eqb_neq; lia).
    apply th_throw. now right.
Qed.
Lemma symmetric_gone : forall l, distinct same l ->
  through (bs_symmetric_difference_update same id sitems set_sitems H Itself) l (gone l) (gone l).
Proof.
  intros l HD. eapply th_mono; [now apply symmetric_itself| |].
  - intros u [-> _]. now exists [].
  - intros u [-> | ->]; [now exists []|]. destruct l as [|x l]; [now exists []|]. exists [x]. cbn. now rewrite refl.
Qed.
Lemma ixor_o : forall clr m l, distinct same l ->
  through (bs_ixor same id sitems set_sitems H clr (Items m)) l (good l (SIxor (Items m))) (bad l (SIxor (Items m))).
Proof.
  intros clr m l HD. cbn [bs_ixor]. rewrite dedup_newly. eapply by_swap with (xs := newly same [] m).
  - exact HD.
  - rewrite <- dedup_newly. now apply (dedup_ok same refl sym trans).
  - intros ys Hy. destruct (begins_newly _ _ _ Hy) as (zs & Hz & <-). exists zs. split; [exact Hz|].
    symmetry. apply newly_newly. discriminate.
  - apply newly_newly. discriminate.
  - apply th_each, swap_quick.
Qed.
Lemma iand_o : forall a l, through (bs_iand same id sitems set_sitems H a) l (gone l) (gone l).
Proof. intros a l. unfold bs_iand. apply th_look. apply each_gone. Qed.
Lemma remove_o : forall x l, through (bs_remove same sitems set_sitems H x) l (gone l) (gone l).
Proof.
  intros x l. apply th_look. change (sitems l) with l. destruct (mem same x l); [apply discard_gone|].
  apply th_throw. now exists [].
Qed.
Lemma pop_o : forall l, through (bs_pop same id sitems set_sitems H) l (gone l) (gone l).
Proof.
  intros l. apply th_look. change (sitems l) with l. destruct l as [|x l]; [apply th_throw; now exists []|].
  eapply th_seq; [apply discard_gone|]. intros u Hu. now apply th_ret.
Qed.
End Ops.

(** The two kinds of sets. *)
Section Kinds.
Variable same : val -> val -> bool.
Hypothesis HQ : equivalence same.
Variable E : env sdata.
Notation through := (through E).
Notation id := (fun l : list val => l).
Notation good l o := (fun u => arranged same l (given o) u /\ distinct same u).
Notation bad l o := (fun u => exists ys, begins ys (given o) /\ arranged same l ys u /\ distinct same u).

Lemma plain_add : quick E (sadd same) (bs_add same sitems set_sitems plain_hooks).
Proof.
  intros x l. unfold bs_add, plain_hooks, pre_add, emit_change. cbn [bind bails].
  eapply th_seq with (Q1 := fun u => u = sadd same x l); [now apply th_act|]. intros u ->. eapply th_seq with (Q1 := fun u => u = sadd same x l); [now apply th_ret|].
  intros u ->. now apply th_ret.
Qed.
Lemma plain_del : quick E (sdel same) (bs_discard same sitems set_sitems plain_hooks).
Proof.
  intros x l. unfold bs_discard, plain_hooks, pre_discard, emit_change. cbn [bind bails].
  eapply th_seq with (Q1 := fun u => u = sdel same x l); [now apply th_act|]. intros u ->. eapply th_seq with (Q1 := fun u => u = sdel same x l); [now apply th_ret|].
  intros u ->. now apply th_ret.
Qed.
Lemma plain_clear : forall l, through (bs_clear id sitems set_sitems plain_hooks) l (fun u => u = []) (fun u => u = l \/ u = []).
Proof.
  intros l. apply th_look. unfold plain_hooks, pre_clear, emit_change. cbn [bind bails].
  eapply th_seq with (Q1 := fun u => u = []); [now apply th_act|]. intros u ->. eapply th_seq with (Q1 := fun u => u = []); [now apply th_ret|].
  intros u ->. now apply th_ret.
Qed.
Lemma evented_add : quick E (sadd same) (es_add same).
Proof.
  intros x l. unfold es_add, bs_add, set_hooks, pre_add, emit_change. cbn [bind]. apply th_look. cbn [bind bails].
  destruct (mem same x l) eqn:K; [apply th_ret; unfold sadd; now rewrite K|].
  eapply th_seq with (Q1 := fun u => u = sadd same x l); [now apply th_act|]. intros u ->. eapply th_seq with (Q1 := fun u => u = sadd same x l); [apply th_say; auto|].
  intros u ->. now apply th_ret.
Qed.
Lemma sdel_absent : forall x l, mem same x l = false -> sdel same x l = l.
Proof.
  intros x l; induction l as [|y l IH]; [reflexivity|]. rewrite mem_cons. intros K. apply orb_false_iff in K as [K1 K2].
  cbn. now rewrite K1, IH.
Qed.
Lemma evented_del : quick E (sdel same) (es_discard same).
Proof.
  intros x l. unfold es_discard, bs_discard, set_hooks, pre_discard, emit_change. cbn [bind]. apply th_look. cbn [bind bails].
  destruct (mem same x l) eqn:K; cbn [negb]; [|apply th_ret; now rewrite sdel_absent].
  eapply th_seq with (Q1 := fun u => u = sdel same x l); [now apply th_act|]. intros u ->. eapply th_seq with (Q1 := fun u => u = sdel same x l); [apply th_say; auto|].
  intros u ->. now apply th_ret.
Qed.
Lemma evented_clear : forall l, through (bs_clear id sitems set_sitems (set_hooks same)) l (fun u => u = []) (fun u => u = l \/ u = []).
Proof.
  intros l. apply th_look. unfold set_hooks, pre_clear, emit_change. cbn [bind]. apply th_look. destruct l as [|x l]; cbn [bind bails]; [now apply th_ret|].
  eapply th_seq with (Q1 := fun u => u = []); [now apply th_act|]. intros u ->. eapply th_seq with (Q1 := fun u => u = []); [apply th_say; auto|].
  intros u ->. now apply th_ret.
Qed.
Lemma paused_o : forall p l o, through p l (good l o) (bad l o) -> through (with_paused items_changed set_reducer p) l (good l o) (bad l o).
Proof.
  intros p l o Hp. eapply th_mono; [apply th_paused; [apply set_reduces_ok|exact Hp]|auto|]. intros u [[Hu1 Hu2]|Hu]; [|exact Hu].
  exists (given o). split; [apply begins_all|auto].
Qed.
(** What is given to symmetric_difference_update is given once. *)
Definition neat (o : sop) : Prop := match o with SSymmetric (Items m) => distinct same m | _ => True end.
Lemma plain_o : forall o l, distinct same l -> neat o -> through (plain_s same id o) l (good l o) (bad l o).
Proof.
  intros o l HD HF. pose proof plain_add as A. pose proof plain_del as D. pose proof plain_clear as K.
  assert (G : forall p, given o = [] -> through p l (gone same l) (gone same l) -> through p l (good l o) (bad l o)).
  { intros p Ho Hp. eapply by_del; eauto. }
  destruct o as [x|x|x| | |s|s|s|a|a|a|a|a]; cbn [plain_s neat] in *.
  - now apply add_o.
  - apply G; [reflexivity|]. now apply discard_gone.
  - apply G; [reflexivity|]. now apply remove_o.
  - apply G; [reflexivity|]. now apply pop_o.
  - apply G; [reflexivity|]. now apply clear_gone.
  - now apply update_o.
  - apply G; [reflexivity|]. now apply difference_o.
  - apply G; [reflexivity|]. now apply intersection_o.
  - destruct a; [now apply symmetric_o|]. apply G; [reflexivity|]. now apply symmetric_gone.
  - now apply ior_o.
  - apply G; [reflexivity|]. now apply iand_o.
  - apply G; [reflexivity|]. destruct a; [now apply each_gone|now apply clear_gone].
  - destruct a; [now apply ixor_o|]. apply G; [reflexivity|]. now apply clear_gone.
Qed.
Lemma evented_o : forall o l, distinct same l -> neat o -> through (evented_s same id o) l (good l o) (bad l o).
Proof.
  intros o l HD HF. pose proof evented_add as A. pose proof evented_del as D. pose proof evented_clear as K.
  assert (G : forall p, given o = [] -> through p l (gone same l) (gone same l) -> through p l (good l o) (bad l o)).
  { intros p Ho Hp. eapply by_del; eauto. }
  assert (Gc : given o = [] -> through (es_clear same id) l (good l o) (bad l o)).
  { intros Ho. apply paused_o. apply G; [exact Ho|]. now apply clear_gone. }
  destruct o as [x|x|x| | |s|s|s|a|a|a|a|a]; cbn [evented_s neat] in *.
  - now apply add_o.
  - apply G; [reflexivity|]. now apply discard_gone.
  - apply G; [reflexivity|]. now apply remove_o.
  - apply G; [reflexivity|]. now apply pop_o.
  - now apply Gc.
  - apply paused_o. now apply update_o.
  - apply paused_o. apply G; [reflexivity|]. now apply difference_o.
  - apply paused_o. apply G; [reflexivity|]. now apply intersection_o.
  - apply paused_o. destruct a; [now apply symmetric_o|]. apply G; [reflexivity|]. now apply symmetric_gone.
  - now apply ior_o.
  - apply G; [reflexivity|]. now apply iand_o.
  - destruct a; [|now apply Gc]. apply G; [reflexivity|]. now apply each_gone.
  - destruct a; [now apply ixor_o|now apply Gc].
Qed.
End Kinds.

(** An operation on an OrderedSet, with ([evented_s]) or without ([plain_s]) events, leaves what was
    there and still is in the same order, followed by what it was given and is new, in order of
    first occurrence; if it raises (for instance because a listener does), by a beginning of it. *)
Theorem C42_order : forall E same run o w w' r,
  env_all (aloof set_signals) E -> equivalence same -> run = evented_s same \/ run = plain_s same ->
  distinct same (w_usr w) -> neat same o -> runs E (run (fun l => l) o) w w' r -> done r ->
  exists ys zs, given o = ys ++ zs /\ (forall v, r = Ok v -> zs = [])
    /\ w_usr w' = filter (fun x => mem same x (w_usr w')) (w_usr w) ++ newly same (w_usr w) ys.
Proof.
  intros E same run o w w' r HE HQ Hrun HD HF HR Hr.
  assert (HT : through E (run (fun l => l) o) (w_usr w)
    (fun u => arranged same (w_usr w) (given o) u /\ distinct same u)
    (fun u => exists ys, begins ys (given o) /\ arranged same (w_usr w) ys u /\ distinct same u))
    by (destruct Hrun as [-> | ->]; [now apply evented_o|now apply plain_o]).
  pose proof (th_sound E _ _ _ _ _ _ HE HT HR Hr) as H. destruct r as [v|e|]; [| |contradiction].
  - destruct H as [H _]. exists (given o), []. rewrite app_nil_r. auto.
  - destruct H as (ys & (zs & Hz) & H & _). exists ys, zs. split; [exact Hz|]. split; [discriminate|exact H].
Qed.
Lemma again_o : forall E same run m l, equivalence same -> run = evented_s same \/ run = plain_s same -> distinct same l ->
  through E (run (fun l => l) (SSymmetric (Items m))) l (fun u => u = turned same l m /\ distinct same u)
    (fun u => exists ys, begins ys m /\ u = turned same l ys /\ distinct same u).
Proof.
  intros E same run m l HQ [-> | ->] HD; cbn [evented_s plain_s].
  - pose proof (turned_o same HQ E (set_hooks same) (evented_add same E) (evented_del same E) m l HD) as T.
    eapply th_mono; [apply th_paused; [apply set_reduces_ok|exact T]|auto|].
    intros u [[-> Hu]|Hu]; [|exact Hu]. exists m. split; [apply begins_all|auto].
  - apply turned_o; auto using plain_add, plain_del.
Qed.
(** symmetric_difference_update of an iterable that gives elements several times removes and adds them in turn: what is not given stays in
    front, then come those that are there in the end, in the order in which they were given last; if it raises, as far as it came. *)
Theorem C42_again : forall E same run m w w' r,
  env_all (aloof set_signals) E -> equivalence same -> run = evented_s same \/ run = plain_s same ->
  distinct same (w_usr w) -> runs E (run (fun l => l) (SSymmetric (Items m))) w w' r -> done r ->
  exists ys zs, m = ys ++ zs /\ (forall v, r = Ok v -> zs = [])
    /\ w_usr w' = filter (fun x => negb (mem same x ys)) (w_usr w)
         ++ filter (fun x => Nat.odd (times same x ys + if mem same x (w_usr w) then 1 else 0)) (lasts same ys).
Proof.
  intros E same run m w w' r HE HQ Hrun HD HR Hr.
  pose proof (th_sound E _ _ _ _ _ _ HE (again_o E same run m _ HQ Hrun HD) HR Hr) as H. destruct r as [v|e|]; [| |contradiction].
  - destruct H as [H _]. exists m, []. rewrite app_nil_r. auto.
  - destruct H as (ys & (zs & Hz) & H & _). exists ys, zs. split; [exact Hz|]. split; [discriminate|exact H].
Qed.
(** [x] is not given several times to symmetric_difference_update, which would remove it in between. *)
Definition steady (same : val -> val -> bool) (x : val) (o : sop) (l : list val) : Prop :=
  match o with SSymmetric (Items m) => times same x m <= 1 | _ => True end.
Lemma before_kept : forall same x y l u (k : val -> bool) n, (forall x y, same x y = true -> same y x = true) ->
  (forall x y z, same x y = true -> same y z = true -> same x z = true) ->
  (forall a b, same a b = true -> k a = k b) -> k x = true -> u = filter k l ++ n -> inside same x l ->
  ~ inside same y l \/ before same x y l -> inside same y u -> before same x y u.
Proof.
  intros same x y l u k n sym trans Hk Hx Hu Hxl Hy (y1 & Hy1 & Hyy). rewrite Hu in Hy1. apply in_app_or in Hy1 as [Hy1|Hy1].
  - apply filter_In in Hy1 as [Hy1 Ky]. destruct Hy as [Hy|(a & x' & b & y' & c & -> & Hxx & Hyy')]; [exfalso; apply Hy; now exists y1|].
    rewrite Hu, filter_app. cbn [filter]. rewrite <- (Hk x x' Hxx), Hx. rewrite filter_app. cbn [filter].
    rewrite (Hk y' y1), Ky by (eapply trans; [apply sym; exact Hyy'|exact Hyy]).
    exists (filter k a), x', (filter k b), y', (filter k c ++ n). split; [|auto]. rewrite <- !app_assoc. cbn. rewrite <- !app_assoc. reflexivity.
  - destruct Hxl as (x' & Hx' & Hxx). apply in_split in Hx' as (a & b & ->). apply in_split in Hy1 as (c & d & ->).
    rewrite Hu, filter_app. cbn [filter]. rewrite <- (Hk x x' Hxx), Hx.
    exists (filter k a), x', (filter k b ++ c), y1, d. split; [|auto]. cbn. rewrite <- !app_assoc. reflexivity.
Qed.
Lemma times_mem : forall same x m, times same x m = 0 <-> mem same x m = false.
Proof.
  intros same x m. unfold times. induction m as [|y m IH]; [cbn; tauto|]. rewrite mem_cons. cbn [filter]. destruct (same x y); cbn; [split; discriminate|exact IH].
Qed.
(** Over any history, an element that was there before another one came comes before it, as long
    as it stays. *)
Theorem C42_history : forall E same run w w' ls x y,
  env_all (aloof set_signals) E -> equivalence same -> run = evented_s same \/ run = plain_s same ->
  distinct same (w_usr w) -> history E (run (fun l => l)) (steady same x) w w' ls ->
  inside same x (w_usr w) -> ~ inside same y (w_usr w) ->
  Forall (inside same x) ls -> inside same y (w_usr w') -> before same x y (w_usr w').
Proof.
  intros E same run w w' ls x y HE HQ Hrun HD HH. pose proof HQ as (refl & sym & trans).
  assert (Main : inside same x (w_usr w) -> ~ inside same y (w_usr w) \/ before same x y (w_usr w) ->
    Forall (inside same x) ls -> inside same y (w_usr w') -> before same x y (w_usr w')); [|intuition].
  induction HH as [w|o w w1 r w' ls HF HR Hr HH IH|o w w1 r w' ls Ho HS HH IH]; intros Hx Hy HF' Hy'.
  - now destruct Hy.
  - inversion HF'; subst.
    assert (HA : distinct same (w_usr w1) /\ exists (k : val -> bool) n, (forall a b, same a b = true -> k a = k b) /\ k x = true
      /\ w_usr w1 = filter k (w_usr w) ++ n).
    { assert (Cases : neat same o \/ exists m, o = SSymmetric (Items m)).
      { destruct o as [z|z|z| | |s|s|s|a|a|a|a|a]; cbn [neat]; auto. destruct a; eauto. }
      destruct Cases as [HN|(m & ->)].
      - assert (HT : through E (run (fun l => l) o) (w_usr w)
          (fun u => arranged same (w_usr w) (given o) u /\ distinct same u)
          (fun u => exists ys, begins ys (given o) /\ arranged same (w_usr w) ys u /\ distinct same u))
          by (destruct Hrun as [-> | ->]; [now apply evented_o|now apply plain_o]).
        pose proof (th_sound E _ _ _ _ _ _ HE HT HR Hr) as H.
        assert (HA : distinct same (w_usr w1) /\ exists n, w_usr w1 = filter (fun x => mem same x (w_usr w1)) (w_usr w) ++ n).
        { destruct r as [v|e|]; [| |contradiction].
          - destruct H as [HA HD1]. split; [exact HD1|]. eexists. exact HA.
          - destruct H as (ys & _ & HA & HD1). split; [exact HD1|]. eexists. exact HA. }
        destruct HA as [HD1 (n & HA)]. split; [exact HD1|]. exists (fun z => mem same z (w_usr w1)), n.
        split; [intros a b; apply (mem_same same sym trans)|]. split; [now apply mem_inside|exact HA].
      - pose proof (th_sound E _ _ _ _ _ _ HE (again_o E same run m _ HQ Hrun HD) HR Hr) as H.
        assert (HA : exists ys, begins ys m /\ w_usr w1 = turned same (w_usr w) ys /\ distinct same (w_usr w1)).
        { destruct r as [v|e|]; [| |contradiction]; [|exact H]. exists m. split; [apply begins_all|exact H]. }
        destruct HA as (ys & (zs & ->) & HA & HD1). split; [exact HD1|].
        exists (fun z => negb (mem same z ys)), (filter (fun x => Nat.odd (times same x ys + if mem same x (w_usr w) then 1 else 0)) (lasts same ys)).
        split; [intros a b Hab; f_equal; now apply (mem_same same sym trans)|]. split; [|exact HA].
        apply negb_true_iff. apply times_mem. cbn [steady] in HF. unfold times in HF. rewrite filter_app, app_length in HF.
        fold (times same x ys) in HF. assert (HM : mem same x (w_usr w1) = true) by now apply mem_inside.
        rewrite HA, <- turn_turned, mem_turned in HM by assumption.
        assert (HM' : mem same x (w_usr w) = true) by now apply mem_inside. rewrite HM' in HM.
        destruct (times same x ys) as [|[|]]; [reflexivity|discriminate HM|lia]. }
    destruct HA as [HD1 (k & n & Hk & Hkx & HA)]. apply IH; auto.
    destruct (mem same y (w_usr w1)) eqn:K; [right|left; now apply mem_outside].
    eapply before_kept; eauto. now apply mem_inside.
  - assert (Hu : w_usr w1 = w_usr w).
    { destruct HS as [k HS]. destruct (frame_step_exec E _ _ _ _ (framed_aside E set_signals) HE k k o w w1 r Ho HS) as [Hu _]. exact Hu. }
    unfold sdata in *. rewrite <- Hu in HD, Hx, Hy. auto.
Qed.

(** Additions, removals, a listener that raises, and an element that is removed and comes back. *)
Example C42_case : exists (w w1 w3 w4 w5 w6 : world sdata) e,
  let run := evented_s val_eqb (fun l => l) in
  env_all (aloof set_signals) set_env /\ equivalence val_eqb /\ distinct val_eqb (w_usr w)
  /\ runs set_env (run (SIor (Items [VInt 9; VInt 5]))) w3 w4 (Err e)
  /\ history set_env run (steady val_eqb (VInt 6)) w w6 [w_usr w1; w_usr w3; w_usr w4; w_usr w5; w_usr w6]
  /\ w_usr w1 = [VInt 5; VInt 6; VInt 7; VInt 4] /\ w_usr w4 = [VInt 6; VInt 7; VInt 4; VInt 9]
  /\ w_usr w5 = [VInt 6; VInt 7; VInt 4; VInt 9; VInt 5] /\ w_usr w6 = [VInt 6; VInt 7; VInt 9; VInt 4; VInt 8]
  /\ inside val_eqb (VInt 6) (w_usr w) /\ ~ inside val_eqb (VInt 4) (w_usr w)
  /\ Forall (inside val_eqb (VInt 6)) [w_usr w1; w_usr w3; w_usr w4; w_usr w5; w_usr w6] /\ inside val_eqb (VInt 4) (w_usr w6).
Proof.
  set (run := evented_s val_eqb (fun l => l)).
  pose (w := set_world [VInt 5; VInt 6]).
  pose (w1 := after set_env 200 (run (SUpdate [Items [VInt 7; VInt 5; VInt 4; VInt 7]])) w).
  pose (w2 := after1 set_env 50 (emit 20 [VInt 3]) w1).
  pose (w3 := after set_env 200 (run (SDiscard (VInt 5))) w2).
  pose (w4 := after set_env 200 (run (SIor (Items [VInt 9; VInt 5]))) w3).
  pose (w5 := after set_env 200 (run (SIor (Items [VInt 9; VInt 5]))) w4).
  pose (w6 := after set_env 200 (run (SSymmetric (Items [VInt 4; VInt 5; VInt 4; VInt 8]))) w5).
  assert (H : w_usr w = [VInt 5; VInt 6]) by (vm_compute; reflexivity).
  assert (H1 : w_usr w1 = [VInt 5; VInt 6; VInt 7; VInt 4]) by (vm_compute; reflexivity).
  assert (H3 : w_usr w3 = [VInt 6; VInt 7; VInt 4]) by (vm_compute; reflexivity).
  assert (H4 : w_usr w4 = [VInt 6; VInt 7; VInt 4; VInt 9]) by (vm_compute; reflexivity).
  assert (H5 : w_usr w5 = [VInt 6; VInt 7; VInt 4; VInt 9; VInt 5]) by (vm_compute; reflexivity).
  assert (H6 : w_usr w6 = [VInt 6; VInt 7; VInt 9; VInt 4; VInt 8]) by (vm_compute; reflexivity).
  assert (R1 : runs set_env (run (SUpdate [Items [VInt 7; VInt 5; VInt 4; VInt 7]])) w w1 (Ok VNone)) by (apply after_runs; vm_compute; reflexivity).
  assert (R2 : steps set_env (emit 20 [VInt 3]) w1 w2 (Ok VNone)) by ran.
  assert (R3 : runs set_env (run (SDiscard (VInt 5))) w2 w3 (Ok VNone)) by (apply after_runs; vm_compute; reflexivity).
  assert (R4 : exists e, runs set_env (run (SIor (Items [VInt 9; VInt 5]))) w3 w4 (Err e)) by (eexists; apply after_runs; vm_compute; reflexivity).
  assert (R5 : runs set_env (run (SIor (Items [VInt 9; VInt 5]))) w4 w5 (Ok VNone)) by (apply after_runs; vm_compute; reflexivity).
  assert (R6 : runs set_env (run (SSymmetric (Items [VInt 4; VInt 5; VInt 4; VInt 8]))) w5 w6 (Ok VNone)) by (apply after_runs; vm_compute; reflexivity).
  clearbody w6. clearbody w5. clearbody w4. clearbody w3. clearbody w2. clearbody w1. clearbody w. destruct R4 as (e & R4).
  exists w, w1, w3, w4, w5, w6, e.
  assert (Hi : forall x m, In x m -> inside val_eqb x m).
  { intros x m Hx. exists x. split; [exact Hx|now apply val_eqb_eq]. }
  split; [apply set_env_aloof|]. split; [apply val_eqb_equivalence|]. split; [rewrite H; cbn; auto|]. split; [exact R4|]. split.
  { eapply h_op; [|exact R1|discriminate|]; [exact I|]. eapply h_other; [|exact R2|]; [reflexivity|].
    eapply h_op; [|exact R3|discriminate|]; [exact I|]. eapply h_op; [|exact R4|discriminate|]; [exact I|].
    eapply h_op; [|exact R5|discriminate|]; [exact I|]. eapply h_op; [|exact R6|discriminate|]; [cbn; lia|]. apply h_nil. }
  rewrite H1, H3, H4, H5, H6, H. split; [reflexivity|]. split; [reflexivity|]. split; [reflexivity|]. split; [reflexivity|].
  split; [apply Hi; cbn; auto|]. split; [|split].
  - intros (y & [<-|[<-|[]]] & Hy); discriminate Hy.
  - repeat constructor; apply Hi; cbn; auto.
  - apply Hi. cbn. auto 10.
Qed.
Print Assumptions C42_order.
Print Assumptions C42_again.
Print Assumptions C42_history.
