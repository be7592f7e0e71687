(** Moving items of a list. Proof infrastructure; models no code. *)

From Coq Require Import Permutation.
From Verif Require Import Base Core PyList EList SpecList.
Open Scope Z_scope.

Lemma keep_none : forall {X} (p : Z -> bool) (l : list X) i,
  (forall j, i <= j < i + size l -> p j = false) -> keep p i l = [].
Proof.
  intros X p l; induction l as [|x l IH]; intros i H; cbn; [reflexivity|].
  assert (HS : size (x :: l) = size l + 1) by (unfold size; cbn [List.length]; lia).
  pose proof (size_nonneg l). rewrite H by lia. apply IH. intros j Hj. apply H. lia.
Qed.
Lemma keep_len : forall {X} (p : Z -> bool) (l : list X) i,
  List.length (keep p i l) = List.length (filter p (steps_from (List.length l) i 1)).
Proof.
  intros X p l; induction l as [|x l IH]; intros i; cbn [keep List.length steps_from filter]; [reflexivity|].
  destruct (p i); cbn [List.length]; rewrite IH; reflexivity.
Qed.
Definition mem (i : Z) (r : list Z) : bool := existsb (Z.eqb i) r.
Lemma mem_In : forall i r, mem i r = true <-> In i r.
Proof.
  intros i r. unfold mem. rewrite existsb_exists. split.
  - intros (x & Hx & He). apply Z.eqb_eq in He as ->. exact Hx.
  - intros H. exists i. split; [exact H|apply Z.eqb_refl].
Qed.
Lemma mem_app : forall i a b, mem i (a ++ b) = mem i a || mem i b.
Proof. intros. unfold mem. apply existsb_app. Qed.
Definition count (f : Z -> bool) (r : list Z) : Z := Z.of_nat (List.length (filter f r)).
Lemma filter_split : forall (f g : Z -> bool) (l : list Z),
  count f l = count (fun i => f i && g i) l + count (fun i => f i && negb (g i)) l.
Proof.
  intros f g l. unfold count. induction l as [|x l IH]; [reflexivity|]. cbn [filter].
  destruct (f x), (g x); cbn [andb negb List.length] in *; lia.
Qed.
Lemma count_ext : forall (f g : Z -> bool) r, (forall i, In i r -> f i = g i) -> count f r = count g r.
Proof.
  intros f g r H. unfold count. f_equal. f_equal. induction r as [|x r IH]; [reflexivity|]. cbn [filter].
  rewrite (H x) by now left. rewrite IH; [reflexivity|]. intros i Hi. apply H. now right.
Qed.
Lemma count_between : forall n a b, 0 <= a <= b -> b <= Z.of_nat n ->
  count (fun i => (a <=? i) && (i <? b)) (steps_from n 0 1) = b - a.
Proof.
  intros n a b Ha Hb.
  assert (HP : Permutation (filter (fun i => (a <=? i) && (i <? b)) (steps_from n 0 1)) (steps_from (Z.to_nat (b - a)) a 1)).
  { apply NoDup_Permutation.
    - apply NoDup_filter, steps_from_NoDup. lia.
    - apply steps_from_NoDup. lia.
    - intros x. rewrite filter_In, !steps_from_In, Bool.andb_true_iff, Z.leb_le, Z.ltb_lt. split.
      + intros ((j & Hj & ->) & H1 & H2). exists (j - a). lia.
      + intros (j & Hj & ->). split; [|lia]. exists (a + j). lia. }
  unfold count. rewrite (Permutation_length HP), steps_from_length. lia.
Qed.
Lemma kept_between : forall {X} (l : list X) a b r, 0 <= a <= b -> b <= size l -> NoDup r ->
  Z.of_nat (List.length (keep (fun i => (a <=? i) && (i <? b) && negb (mem i r)) 0 l))
  = b - a - count (fun i => (a <=? i) && (i <? b)) r.
Proof.
  intros X l a b r Ha Hb HN. rewrite keep_len. fold (count (fun i => (a <=? i) && (i <? b) && negb (mem i r)) (steps_from (List.length l) 0 1)).
  pose proof (filter_split (fun i => (a <=? i) && (i <? b)) (fun i => mem i r) (steps_from (List.length l) 0 1)) as HS.
  rewrite count_between in HS by (unfold size in Hb; lia).
  assert (HP : count (fun i => (a <=? i) && (i <? b) && mem i r) (steps_from (List.length l) 0 1)
               = count (fun i => (a <=? i) && (i <? b)) r).
  { unfold count. f_equal. apply Permutation_length. apply NoDup_Permutation.
    - apply NoDup_filter, steps_from_NoDup. lia.
    - now apply NoDup_filter.
    - intros x. rewrite !filter_In, steps_from_In, !Bool.andb_true_iff, mem_In, Z.leb_le, Z.ltb_lt. split.
      + tauto.
      + intros (Hx & H1 & H2). split; [|tauto]. exists x. unfold size in Hb. lia. }
  lia.
Qed.

(** Splitting. *)
Lemma split_at : forall {X} (l : list X) i, 0 <= i < size l -> exists a x b, l = a ++ x :: b /\ size a = i.
Proof.
  intros X l i Hi. unfold size in Hi. destruct (nth_error l (Z.to_nat i)) as [x|] eqn:HN.
  - apply nth_error_split in HN as (a & b & -> & Ha). exists a, x, b. split; [reflexivity|]. unfold size. lia.
  - apply nth_error_None in HN. lia.
Qed.
Lemma split_to : forall {X} (l : list X) i, 0 <= i <= size l -> exists a b, l = a ++ b /\ size a = i.
Proof.
  intros X l i Hi. exists (firstn (Z.to_nat i) l), (skipn (Z.to_nat i) l). split; [now rewrite firstn_skipn|].
  unfold size in *. rewrite firstn_length. lia.
Qed.
Lemma size_cat : forall {X} (a b : list X), size (a ++ b) = size a + size b.
Proof. intros. unfold size. rewrite app_length. lia. Qed.
Lemma size_add : forall {X} (x : X) l, size (x :: l) = size l + 1.
Proof. intros. unfold size. cbn [List.length]. lia. Qed.
Lemma pick_app : forall {X} (l : list X) r r', pick l (r ++ r') = pick l r ++ pick l r'.
Proof.
  intros X l r; induction r as [|i r IH]; intros r'; cbn; [reflexivity|]. destruct (nth_error l (Z.to_nat i)); rewrite IH; reflexivity.
Qed.
Lemma pick_one : forall {X} (a b : list X) x, pick (a ++ x :: b) [size a] = [x].
Proof. intros. cbn. unfold size. rewrite Nat2Z.id, nth_error_app2, Nat.sub_diag by lia. reflexivity. Qed.
Lemma pick_len : forall {X} (l : list X) r, (forall i, In i r -> 0 <= i < size l) -> size (pick l r) = Z.of_nat (List.length r).
Proof.
  intros X l r; induction r as [|i r IH]; intros H; [reflexivity|]. cbn [pick].
  destruct (nth_error l (Z.to_nat i)) eqn:HN.
  - rewrite size_add, IH; [cbn [List.length]; lia|]. intros j Hj. apply H. now right.
  - apply nth_error_None in HN. specialize (H i (or_introl eq_refl)). unfold size in H. lia.
Qed.

Ltac bools := repeat match goal with
  | |- context [?a <? ?b] => destruct (Z.ltb_spec a b); try lia
  | |- context [?a <=? ?b] => destruct (Z.leb_spec a b); try lia
  | |- context [?a =? ?b] => destruct (Z.eqb_spec a b); try lia
  end; cbn [andb orb negb]; try reflexivity; try lia.

(** Moving a single item. *)
Lemma gathered_up : forall {X} (a b c : list X) x,
  gathered [size a] (size a + 1 + size b) (a ++ x :: b ++ c) = a ++ b ++ x :: c.
Proof.
  intros X a b c x. unfold gathered. rewrite pick_one. rewrite !keep_app. cbn [keep existsb]. rewrite !keep_app.
  pose proof (size_nonneg a). pose proof (size_nonneg b). pose proof (size_nonneg c).
  rewrite (keep_all _ a 0) by (intros j Hj; bools).
  rewrite (keep_none _ a 0) by (intros j Hj; bools).
  rewrite !Z.add_0_l, Z.eqb_refl, !Bool.andb_false_r.
  rewrite (keep_all _ b (size a + 1)) by (intros j Hj; bools).
  rewrite (keep_none _ b (size a + 1)) by (intros j Hj; bools).
  rewrite (keep_none _ c (size a + 1 + size b)) by (intros j Hj; bools).
  rewrite (keep_all _ c (size a + 1 + size b)) by (intros j Hj; bools).
  rewrite app_nil_r, <- !app_assoc. reflexivity.
Qed.
Lemma gathered_down : forall {X} (a b c : list X) x,
  gathered [size a + size b] (size a) (a ++ b ++ x :: c) = a ++ x :: b ++ c.
Proof.
  intros X a b c x. unfold gathered. rewrite (app_assoc a b (x :: c)).
  replace (size a + size b) with (size (a ++ b)) by apply size_cat. rewrite pick_one. rewrite <- (app_assoc a b (x :: c)).
  rewrite !keep_app. cbn [keep existsb].
  pose proof (size_nonneg a). pose proof (size_nonneg b). pose proof (size_nonneg c). rewrite size_cat.
  rewrite (keep_all _ a 0) by (intros j Hj; bools).
  rewrite (keep_none _ a 0) by (intros j Hj; bools).
  rewrite !Z.add_0_l, Z.eqb_refl, !Bool.andb_false_r.
  rewrite (keep_none _ b (size a)) by (intros j Hj; bools).
  rewrite (keep_all _ b (size a)) by (intros j Hj; bools).
  rewrite (keep_none _ c (size a + size b + 1)) by (intros j Hj; bools).
  rewrite (keep_all _ c (size a + size b + 1)) by (intros j Hj; bools).
  cbn [List.app]. rewrite app_nil_r. reflexivity.
Qed.
Lemma gathered_stays : forall {X} (l : list X) i d, 0 <= i < size l -> d = i \/ d = i + 1 -> gathered [i] d l = l.
Proof.
  intros X l i d Hi Hd. destruct (split_at l i Hi) as (a & x & b & -> & Ha). subst i. destruct Hd as [-> | ->].
  - pose proof (gathered_down a [] b x) as H. cbn [List.app] in H. change (size []) with 0 in H. rewrite Z.add_0_r in H. exact H.
  - pose proof (gathered_up a [] b x) as H. cbn [List.app] in H. change (size []) with 0 in H. rewrite Z.add_0_r in H. exact H.
Qed.
Lemma insert_at : forall {X} (a b : list X) x, list_insert (a ++ b) (size a) x = a ++ x :: b.
Proof.
  intros X a b x. pose proof (size_nonneg a). pose proof (size_nonneg b). unfold list_insert, clamp. rewrite norm_pos, size_cat by lia.
  rewrite Z.max_l, Z.min_l by lia. unfold insert_nth, size. rewrite Nat2Z.id.
  rewrite firstn_app, skipn_app, Nat.sub_diag, firstn_all, skipn_all. cbn [firstn skipn]. now rewrite app_nil_r.
Qed.
Lemma pop_at : forall {X} (a b : list X) x, list_pop (a ++ x :: b) (size a) = Some (x, a ++ b).
Proof.
  intros X a b x. pose proof (size_nonneg a). unfold list_pop. rewrite at_nth, norm_pos by lia. unfold size. rewrite Nat2Z.id.
  rewrite nth_error_app2, Nat.sub_diag by lia. cbn [nth_error]. f_equal. f_equal. unfold remove_nth.
  rewrite firstn_app, skipn_app, Nat.sub_diag, firstn_all, skipn_all2 by lia.
  replace (S (List.length a) - List.length a)%nat with 1%nat by lia. cbn [firstn skipn List.app]. now rewrite app_nil_r.
Qed.
Lemma move_one : forall {X} (l : list X) i d, 0 <= i < size l -> 0 <= d <= size l -> d <> i -> d <> i + 1 ->
  exists x l0, list_pop l i = Some (x, l0)
    /\ list_insert l0 (if i <? d then d - 1 else d) x = gathered [i] d l.
Proof.
  intros X l i d Hi Hd H1 H2. destruct (Z.ltb_spec i d).
  - destruct (split_at l i Hi) as (a & x & bc & -> & Ha). subst i.
    rewrite size_cat, size_add in Hd. destruct (split_to bc (d - size a - 1)) as (b & c & -> & Hb); [lia|].
    exists x, (a ++ b ++ c). split; [apply pop_at|]. replace (d - 1) with (size (a ++ b)) by (rewrite size_cat; lia).
    rewrite app_assoc, insert_at. replace d with (size a + 1 + size b) by lia. now rewrite gathered_up, <- app_assoc.
  - destruct (split_at l i Hi) as (ab & x & c & -> & Ha). subst i.
    destruct (split_to ab d) as (a & b & -> & Hb); [lia|]. subst d.
    exists x, (a ++ b ++ c). rewrite pop_at. split; [now rewrite <- app_assoc|].
    rewrite insert_at. rewrite size_cat, <- app_assoc. now rewrite gathered_down.
Qed.

(** One more item. *)
Definition from (r : list Z) (d s : Z) : Z :=
  if s <? d then s - count (fun i => i <? s) r else s + count (fun i => s <? i) r.
Definition to (r : list Z) (d : Z) : Z := d + count (fun i => d <=? i) r.
Lemma gather_step : forall {X} (l : list X) r d s, NoDup r -> ~ In s r ->
  (forall i, In i r -> 0 <= i < size l) -> 0 <= s < size l -> 0 <= d <= size l ->
  gathered [from r d s] (to r d) (gathered r d l) = gathered (r ++ [s]) d l
  /\ 0 <= from r d s < size (gathered r d l) /\ 0 <= to r d <= size (gathered r d l).
Proof.
  intros X l r d s HN Hs Hr Hsl Hd. destruct (split_at l s Hsl) as (l1 & x & l2 & -> & Hl1).
  assert (Hm : mem s r = false) by (destruct (mem s r) eqn:HM; [apply mem_In in HM; contradiction|reflexivity]).
  set (l := l1 ++ x :: l2) in *.
  assert (HA : size (keep (fun i => (i <? d) && negb (mem i r)) 0 l) = d - count (fun i => i <? d) r).
  { rewrite (keep_ext _ (fun i => (0 <=? i) && (i <? d) && negb (mem i r))) by (intros j Hj; bools).
    unfold size at 1. rewrite kept_between by (auto; lia). rewrite Z.sub_0_r. f_equal.
    apply count_ext. intros i Hi. specialize (Hr i Hi). bools. }
  assert (HR : size (pick l r) = Z.of_nat (List.length r)) by now apply pick_len.
  assert (HRC : Z.of_nat (List.length r) = count (fun i => i <? d) r + count (fun i => d <=? i) r).
  { pose proof (filter_split (fun _ => true) (fun i => i <? d) r) as HS. unfold count at 1 in HS.
    assert (HT : filter (fun _ : Z => true) r = r) by (clear; induction r; cbn; congruence). rewrite HT in HS.
    rewrite HS. f_equal. apply count_ext. intros i _. cbn [andb]. bools. }
  assert (HTO : size (keep (fun i => (i <? d) && negb (mem i r)) 0 l) + size (pick l r) = to r d) by (unfold to; lia).
  assert (Hpn : pick l (r ++ [s]) = pick l r ++ [x]).
  { rewrite pick_app. f_equal. unfold l. rewrite <- Hl1. apply pick_one. }
  pose proof (size_nonneg l1). pose proof (size_nonneg l2).
  unfold gathered at 2 4 5. change (fun i => (i <? d) && negb (existsb (Z.eqb i) r)) with (fun i => (i <? d) && negb (mem i r)).
  change (fun i => (d <=? i) && negb (existsb (Z.eqb i) r)) with (fun i => (d <=? i) && negb (mem i r)).
  unfold gathered at 2. change (fun i => (i <? d) && negb (existsb (Z.eqb i) (r ++ [s]))) with (fun i => (i <? d) && negb (mem i (r ++ [s]))).
  change (fun i => (d <=? i) && negb (existsb (Z.eqb i) (r ++ [s]))) with (fun i => (d <=? i) && negb (mem i (r ++ [s]))).
  rewrite Hpn.
  assert (Hoff : forall (q : Z -> bool) (m : list X) k, (s < k \/ k + size m <= s) ->
    keep (fun i => q i && negb (mem i (r ++ [s]))) k m = keep (fun i => q i && negb (mem i r)) k m).
  { intros q m k Hk. apply keep_ext. intros j Hj. f_equal. f_equal. rewrite mem_app. unfold mem at 2. cbn [existsb].
    destruct (Z.eqb_spec j s); [lia|]. now rewrite !Bool.orb_false_r. }
  assert (Hat : forall q : Z -> bool, q s && negb (mem s (r ++ [s])) = false).
  { intros q. rewrite mem_app. unfold mem at 2. cbn [existsb]. rewrite Z.eqb_refl, Bool.orb_true_r. apply Bool.andb_false_r. }
  assert (Hlt : size (keep (fun i => (i <? d) && negb (mem i r)) 0 l1) = Z.min s d - count (fun i => i <? Z.min s d) r).
  { rewrite (keep_ext _ (fun i => (0 <=? i) && (i <? Z.min s d) && negb (mem i r))) by (intros j Hj; bools).
    unfold size at 1. rewrite kept_between by (auto; lia). rewrite Z.sub_0_r. f_equal.
    apply count_ext. intros i Hi. specialize (Hr i Hi). bools. }
  assert (Hspl : forall q : Z -> bool, keep q 0 l = keep q 0 l1 ++ (if q s then [x] else []) ++ keep q (s + 1) l2).
  { intros q. unfold l. rewrite keep_app. cbn [keep]. rewrite Z.add_0_l, Hl1. destruct (q s); reflexivity. }
  assert (Hspln : forall q : Z -> bool, keep (fun i => q i && negb (mem i (r ++ [s]))) 0 l
    = keep (fun i => q i && negb (mem i r)) 0 l1 ++ keep (fun i => q i && negb (mem i r)) (s + 1) l2).
  { intros q. rewrite Hspl. cbn beta. rewrite Hat. cbn [List.app]. rewrite !Hoff by lia. reflexivity. }
  rewrite !Hspln.
  destruct (Z.ltb_spec s d) as [Hlt'|Hge].
  - (* the item comes from before the destination *)
    assert (HAs := Hspl (fun i => (i <? d) && negb (mem i r))). cbn beta in HAs. rewrite Hm in HAs.
    destruct (Z.ltb_spec s d) as [_|]; [|lia]. cbn [andb negb] in HAs.
    assert (HBs := Hspl (fun i => (d <=? i) && negb (mem i r))). cbn beta in HBs. 
    destruct (Z.leb_spec d s); [lia|]. cbn [andb] in HBs. cbn [List.app] in HBs.
    set (a1 := keep (fun i => (i <? d) && negb (mem i r)) 0 l1) in *.
    set (a2 := keep (fun i => (i <? d) && negb (mem i r)) (s + 1) l2) in *.
    rewrite HAs in HTO |- *. rewrite HBs.
    set (bb := keep (fun i => (d <=? i) && negb (mem i r)) 0 l1 ++ keep (fun i => (d <=? i) && negb (mem i r)) (s + 1) l2) in *.
    assert (HF : from r d s = size a1).
    { unfold from. destruct (Z.ltb_spec s d); [|lia]. rewrite Hlt. replace (Z.min s d) with s by lia. reflexivity. }
    rewrite HF, <- HTO. cbn [List.app]. rewrite !size_cat, size_add.
    pose proof (size_nonneg a1). pose proof (size_nonneg a2). pose proof (size_nonneg (pick l r)). pose proof (size_nonneg bb).
    split; [|rewrite ?size_cat, ?size_add, ?size_cat; lia].
    replace (size a1 + (size a2 + 1) + size (pick l r)) with (size a1 + 1 + size (a2 ++ pick l r)) by (rewrite size_cat; lia).
    rewrite <- app_assoc. cbn [List.app]. rewrite (app_assoc a2). rewrite gathered_up. rewrite <- !app_assoc. reflexivity.
  - assert (HAs := Hspl (fun i => (i <? d) && negb (mem i r))). cbn beta in HAs.
    destruct (Z.ltb_spec s d) as [|_]; [lia|]. cbn [andb] in HAs. cbn [List.app] in HAs.
    assert (HBs := Hspl (fun i => (d <=? i) && negb (mem i r))). cbn beta in HBs. rewrite Hm in HBs.
    destruct (Z.leb_spec d s); [|lia]. cbn [andb negb] in HBs.
    set (b1 := keep (fun i => (d <=? i) && negb (mem i r)) 0 l1) in *.
    set (b2 := keep (fun i => (d <=? i) && negb (mem i r)) (s + 1) l2) in *.
    assert (Hb1 : size b1 = s - d - count (fun i => (d <=? i) && (i <? s)) r).
    { unfold b1. rewrite (keep_ext _ (fun i => (d <=? i) && (i <? s) && negb (mem i r))) by (intros j Hj; bools).
      unfold size at 1. rewrite kept_between by (auto; lia). reflexivity. }
    assert (HC : count (fun i => d <=? i) r = count (fun i => (d <=? i) && (i <? s)) r + count (fun i => s <? i) r).
    { rewrite (filter_split (fun i => d <=? i) (fun i => i <? s) r). f_equal. apply count_ext. intros i Hi.
      assert (i <> s) by (intros ->; contradiction). bools. }
    rewrite HAs in HTO |- *. rewrite HBs.
    set (aa := keep (fun i => (i <? d) && negb (mem i r)) 0 l1 ++ keep (fun i => (i <? d) && negb (mem i r)) (s + 1) l2) in *.
    assert (HF : from r d s = size (aa ++ pick l r) + size b1).
    { unfold from. destruct (Z.ltb_spec s d); [lia|]. rewrite size_cat. unfold to in HTO. lia. }
    rewrite HF, <- HTO. cbn [List.app]. rewrite !size_cat, size_add.
    pose proof (size_nonneg aa). pose proof (size_nonneg b1). pose proof (size_nonneg (pick l r)). pose proof (size_nonneg b2).
    split; [|rewrite ?size_cat, ?size_add, ?size_cat; lia].
    replace (size aa + size (pick l r)) with (size (aa ++ pick l r)) by apply size_cat.
    rewrite (app_assoc aa). rewrite gathered_down. rewrite <- !app_assoc. reflexivity.
Qed.
Lemma gathered_none : forall {X} (l : list X) d, 0 <= d <= size l -> gathered [] d l = l.
Proof.
  intros X l d Hd. destruct (split_to l d Hd) as (a & b & -> & Ha). unfold gathered. cbn [pick List.app existsb].
  rewrite !keep_app. pose proof (size_nonneg a). pose proof (size_nonneg b).
  rewrite (keep_all _ a 0) by (intros j Hj; bools). rewrite (keep_none _ a 0) by (intros j Hj; bools).
  rewrite (keep_none _ b) by (intros j Hj; bools). rewrite (keep_all _ b) by (intros j Hj; bools).
  now rewrite app_nil_r.
Qed.
