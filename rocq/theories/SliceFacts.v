(** The functions of PyList do what SpecSlice says. *)

From Verif Require Import Base PyList SpecSlice.
Open Scope Z_scope.

Lemma div_iff : forall j x c, 0 < c -> (j <= x / c <-> j * c <= x).
Proof.
  intros j x c Hc. split; intros H.
  - assert (c * (x / c) <= x) by (apply Z.mul_div_le; lia). nia.
  - apply Z.div_le_lower_bound; lia.
Qed.
Lemma slice_positions : forall n s r, 0 <= n -> slice_range n s = Some r -> positions n s r.
Proof.
  intros n s r Hn H. pose proof (slice_range_spec n s r Hn H) as [_ HI].
  destruct s as [[a b] c]. unfold slice_range, slice_indices in H.
  set (step := match c with Some x => x | None => 1 end) in H.
  assert (Hst : step_of (a, b, c) = step) by reflexivity. destruct (Z.eqb_spec step 0) as [|Hs]; [discriminate|]. injection H as <-.
  set (start := match a with None => _ | Some _ => _ end) in *. set (stop := match b with None => _ | Some _ => _ end) in *.
  split.
  - rewrite Hst. unfold range. generalize (Z.to_nat (range_len start stop step)) as k. generalize start as x. clear - Hs. intros x k. revert x.
    induction k as [|k IH]; intros x; cbn [steps_from ordered]; [exact I|]. split; [|apply IH].
    intros j Hj. apply steps_from_In in Hj as (q & Hq & ->). destruct (Z.ltb_spec 0 step); nia.
  - intros i.
    assert (HR : In i (range start stop step) <-> exists k, 0 <= k /\ i = start + k * step /\ if 0 <? step then i < stop else stop < i).
    { unfold range. rewrite steps_from_In. pose proof (range_len_nonneg start stop step Hs) as H0. rewrite Z2Nat.id by exact H0. unfold range_len.
      split.
      - intros (j & Hj & ->). exists j. split; [lia|]. split; [reflexivity|]. destruct (Z.ltb_spec 0 step).
        + destruct (Z.ltb_spec start stop); [|lia]. assert (j <= (stop - start - 1) / step) as Hd by lia. apply div_iff in Hd; [|lia]. lia.
        + destruct (Z.ltb_spec stop start); [|lia]. assert (j <= (start - stop - 1) / - step) as Hd by lia. apply div_iff in Hd; [|lia]. lia.
      - intros (k & Hk & -> & Hb). exists k. split; [|reflexivity]. split; [exact Hk|]. destruct (Z.ltb_spec 0 step).
        + destruct (Z.ltb_spec start stop); [|nia]. enough (k <= (stop - start - 1) / step) by lia. apply div_iff; lia.
        + destruct (Z.ltb_spec stop start); [|nia]. enough (k <= (start - stop - 1) / - step) by lia. apply div_iff; lia. }
    split.
    + intros Hi. pose proof (HI i Hi) as Hin. apply HR in Hi as (k & Hk & Ei & Hb). split; [exact Hin|]. split.
      * unfold before_stop. rewrite Hst. destruct b as [b|]; [|exact I]. unfold stop, from_end in *. 
        destruct (Z.ltb_spec 0 step); destruct (Z.ltb_spec step 0); try lia; destruct (Z.ltb_spec b 0); lia.
      * exists k. split; [exact Hk|]. rewrite Hst. unfold origin. rewrite Hst. unfold start, stop, from_end in *.
        destruct (Z.ltb_spec 0 step); destruct (Z.ltb_spec step 0); try lia; destruct a as [a|]; [destruct (Z.ltb_spec a 0)| |destruct (Z.ltb_spec a 0)|]; nia.
    + intros (Hin & Hb & k & Hk & Ei). apply HR. exists k. split; [exact Hk|]. rewrite Hst in Ei. unfold before_stop in Hb. rewrite Hst in Hb.
      unfold origin in Ei. rewrite Hst in Ei. unfold start, stop, from_end in *.
      destruct (Z.ltb_spec 0 step); destruct (Z.ltb_spec step 0); try lia; (split;
        [destruct a as [a|]; [destruct (Z.ltb_spec a 0)|]|destruct b as [b|]; [destruct (Z.ltb_spec b 0)|]]); try nia.
Qed.
Section ListsFacts.
Context {X : Type}.
Implicit Types l : list X.
Lemma item_nth : forall l i, 0 <= i -> item l i = nth_error l (Z.to_nat i).
Proof. intros l i H. unfold item. destruct (Z.ltb_spec i 0); [lia|reflexivity]. Qed.
Lemma item_inside : forall l i, 0 <= i < size l -> exists x, item l i = Some x.
Proof.
  intros l i H. rewrite item_nth by lia. destruct (nth_error l (Z.to_nat i)) eqn:E; [eauto|]. apply nth_error_None in E. unfold size in H. lia.
Qed.
Lemma pick_items : forall l r, (forall i, In i r -> 0 <= i < size l) -> items_at l r (pick l r).
Proof.
  intros l r. induction r as [|i r IH]; intros H; cbn [pick]; [constructor|]. destruct (item_inside l i (H i (or_introl eq_refl))) as [x Hx].
  pose proof Hx as Hx'. rewrite item_nth in Hx' by (apply H; now left). rewrite Hx'. constructor; [exact Hx|]. apply IH. intros j Hj. apply H. now right.
Qed.
Lemma get_got : forall l s xs, get_slice l s = Some xs -> got l s xs.
Proof.
  intros l s xs H. unfold get_slice in H. destruct (slice_range (size l) s) as [r|] eqn:E; [|discriminate]. injection H as <-.
  exists r. split; [apply slice_positions; [apply size_nonneg|exact E]|]. apply pick_items. eapply slice_range_spec; [apply size_nonneg|exact E].
Qed.
Lemma put_size : forall l i (x : X), 0 <= i < size l -> size (put_nth (Z.to_nat i) x l) = size l.
Proof. intros l i x H. unfold put_nth, size in *. rewrite app_length, firstn_length. cbn [List.length]. rewrite skipn_length. lia. Qed.
Lemma put_item : forall l i (x : X) j, 0 <= i < size l -> item (put_nth (Z.to_nat i) x l) j = if j =? i then Some x else item l j.
Proof.
  intros l i x j H. unfold item. destruct (Z.ltb_spec j 0) as [|Hj]; [destruct (Z.eqb_spec j i); [lia|reflexivity]|].
  unfold put_nth. assert (HL : List.length (firstn (Z.to_nat i) l) = Z.to_nat i) by (rewrite firstn_length; unfold size in H; lia).
  destruct (Z.eqb_spec j i) as [->|Hne].
  - rewrite nth_error_app2 by lia. rewrite HL, Nat.sub_diag. reflexivity.
  - destruct (Z.ltb_spec j i).
    + rewrite nth_error_app1 by lia. rewrite <- (firstn_skipn (Z.to_nat i) l) at 2. now rewrite nth_error_app1 by lia.
    + rewrite nth_error_app2 by lia. rewrite HL. replace (Z.to_nat j - Z.to_nat i)%nat with (S (Z.to_nat j - S (Z.to_nat i)))%nat by lia. cbn [nth_error].
      rewrite <- (firstn_skipn (S (Z.to_nat i)) l) at 2. rewrite nth_error_app2 by (rewrite firstn_length; lia).
      rewrite firstn_length. f_equal. unfold size in H. lia.
Qed.
Lemma put_all_items : forall r l xs, NoDup r -> (forall i, In i r -> 0 <= i < size l) -> List.length r = List.length xs ->
  items_at (put_all l r xs) r xs /\ size (put_all l r xs) = size l /\ forall i, ~ In i r -> item (put_all l r xs) i = item l i.
Proof.
  induction r as [|i r IH]; intros l xs HN HI HL; destruct xs as [|x xs]; try discriminate HL; cbn [put_all]; [split; [constructor|auto]|].
  inversion HN as [|? ? Hi HN']; subst. assert (Hin : 0 <= i < size l) by (apply HI; now left).
  destruct (IH (put_nth (Z.to_nat i) x l) xs HN') as (H1 & H2 & H3).
  - intros j Hj. rewrite put_size by exact Hin. apply HI. now right.
  - now injection HL.
  - rewrite put_size in H2 by exact Hin. split; [|split; [exact H2|]].
    + constructor; [|exact H1]. rewrite (H3 i Hi), (put_item l i x i Hin), Z.eqb_refl. reflexivity.
    + intros j Hj. rewrite (H3 j) by (intros Hr; apply Hj; now right). rewrite (put_item l i x j Hin). destruct (Z.eqb_spec j i) as [->|]; [|reflexivity].
      destruct Hj. now left.
Qed.
Lemma steps_section : forall k l a, 0 <= a -> a + Z.of_nat k <= size l -> items_at l (steps_from k a 1) (firstn k (skipn (Z.to_nat a) l)).
Proof.
  induction k as [|k IH]; intros l a Ha Hk; cbn [steps_from]; [constructor|].
  destruct (item_inside l a) as [x Hx]; [lia|]. pose proof Hx as Hn. rewrite item_nth in Hn by exact Ha.
  apply nth_error_split in Hn as (p & q & El & Hp). assert (Hs : skipn (Z.to_nat a) l = x :: q).
  { rewrite El, <- Hp, skipn_app, Nat.sub_diag, skipn_all2 by lia. reflexivity. }
  assert (Hs' : skipn (Z.to_nat (a + 1)) l = q).
  { replace (Z.to_nat (a + 1)) with (S (List.length p)) by lia. rewrite El, skipn_app, skipn_all2 by lia.
    replace (S (List.length p) - List.length p)%nat with 1%nat by lia. reflexivity. }
  rewrite Hs. cbn [firstn]. constructor; [exact Hx|]. rewrite <- Hs'. apply IH; lia.
Qed.
Lemma skip_skip : forall m k l, skipn m (skipn k l) = skipn (k + m) l.
Proof. intros m k. induction k as [|k IH]; intros l; [reflexivity|]. destruct l as [|x l]; cbn [skipn Nat.add]; [now rewrite skipn_nil|apply IH]. Qed.
Lemma set_assigned : forall l s xs l', set_slice l s xs = Some l' -> assigned l s xs l'.
Proof.
  intros l s xs l' H. unfold set_slice in H. destruct (slice_indices (size l) s) as [[[a b] c]|] eqn:E; [|discriminate].
  assert (HR : slice_range (size l) s = Some (range a b c)) by (unfold slice_range; now rewrite E).
  assert (Hc : c = step_of s).
  { destruct s as [[x y] z]. unfold slice_indices in E. destruct (_ =? 0); [discriminate|]. injection E as _ _ <-. now destruct z. }
  pose proof (size_nonneg l) as Hn. unfold assigned. rewrite <- Hc. destruct (Z.eqb_spec c 1) as [->|Hc1].
  - injection H as <-.
    assert (Hab : 0 <= a <= size l /\ b <= size l /\ a = Z.min (size l) (origin (size l) s)).
    { destruct s as [[x y] z]. unfold origin. rewrite <- Hc. unfold slice_indices, from_end in *. cbn [step_of] in Hc.
      assert (Hz : (match z with Some x => x | None => 1 end) = 1) by (now destruct z). rewrite Hz in E. cbn in E. injection E as <- <-. cbn.
      destruct x as [x|]; destruct y as [y|]; try destruct (Z.ltb_spec x 0); try destruct (Z.ltb_spec y 0); lia. }
    destruct Hab as (Ha & Hb & Ho). set (d := Z.max a b).
    exists (firstn (Z.to_nat a) l), (firstn (Z.to_nat (d - a)) (skipn (Z.to_nat a) l)), (skipn (Z.to_nat d) l).
    split; [|split; [reflexivity|split]].
    + rewrite <- (firstn_skipn (Z.to_nat a) l) at 1. f_equal. rewrite <- (firstn_skipn (Z.to_nat (d - a)) (skipn (Z.to_nat a) l)) at 1. f_equal.
      rewrite skip_skip. f_equal. lia.
    + rewrite <- Ho. unfold size in *. rewrite firstn_length. lia.
    + exists (range a b 1). split; [apply slice_positions; assumption|]. unfold range.
      replace (Z.to_nat (range_len a b 1)) with (Z.to_nat (d - a)); [apply steps_section; lia|]. f_equal. unfold range_len, d. cbn.
      rewrite Z.div_1_r. destruct (Z.ltb_spec a b); lia.
  - destruct (Nat.eqb_spec (List.length (range a b c)) (List.length xs)) as [HL|]; [|discriminate]. injection H as <-.
    destruct (slice_range_spec (size l) s _ Hn HR) as [HN HI]. exists (range a b c). split; [now apply slice_positions|].
    now apply put_all_items.
Qed.
Lemma keep_items : forall (p : Z -> bool) l0 l i, 0 <= i -> (forall j x, nth_error l j = Some x -> item l0 (i + Z.of_nat j) = Some x) ->
  exists r, ordered 1 r /\ (forall j, In j r <-> i <= j < i + size l /\ p j = true) /\ items_at l0 r (keep p i l).
Proof.
  intros p l0 l. induction l as [|x l IH]; intros i Hi H; cbn [keep].
  - exists []. split; [exact I|]. split; [|constructor]. intros j. unfold size. cbn. split; [intros []|lia].
  - destruct (IH (i + 1)) as (r & Hr & HI & Hx); [lia|intros j y Hj; replace (i + 1 + Z.of_nat j) with (i + Z.of_nat (S j)) by lia; now apply H|].
    assert (Hs : size (x :: l) = size l + 1) by (unfold size; cbn [List.length]; lia). pose proof (size_nonneg l) as H0.
    destruct (p i) eqn:Ep.
    + exists (i :: r). split; [split; [intros j Hj; apply HI in Hj; cbn; lia|exact Hr]|]. split.
      * intros j. cbn [In]. rewrite HI, Hs. split; [intros [<-|[Hj Hp]]; [split; [lia|exact Ep]|split; [lia|exact Hp]]|].
        intros [Hj Hp]. destruct (Z.eq_dec i j); [now left|right; split; [lia|exact Hp]].
      * constructor; [|exact Hx]. replace i with (i + Z.of_nat 0) by lia. now apply H.
    + exists r. split; [exact Hr|]. split; [|exact Hx]. intros j. rewrite HI, Hs. split; [intros [Hj Hp]; split; [lia|exact Hp]|].
      intros [Hj Hp]. split; [|exact Hp]. destruct (Z.eq_dec i j); [congruence|lia].
Qed.
Lemma del_deleted : forall l s l', del_slice l s = Some l' -> deleted l s l'.
Proof.
  intros l s l' H. unfold del_slice in H. destruct (slice_range (size l) s) as [r|] eqn:E; [|discriminate]. injection H as <-.
  destruct (slice_positions _ _ _ (size_nonneg l) E) as [_ HP].
  destruct (keep_items (fun i => negb (existsb (Z.eqb i) r)) l l 0) as (q & Hq & HI & Hx); [lia| |].
  - intros j x Hj. rewrite item_nth by lia. rewrite Z.add_0_l, Nat2Z.id. exact Hj.
  - exists q. split; [exact Hq|]. split; [|exact Hx]. intros i. rewrite HI, <- HP, negb_true_iff. rewrite Z.add_0_l. split; intros [H1 H2]; (split; [exact H1|]).
    + intros Hi. apply eq_true_false_abs in H2; [exact H2|]. apply existsb_exists. exists i. split; [exact Hi|apply Z.eqb_refl].
    + apply not_true_is_false. intros Hx'. apply existsb_exists in Hx' as (j & Hj & Ej). apply Z.eqb_eq in Ej as <-. contradiction.
Qed.
(** When these raise ValueError. *)
Lemma slice_zero : forall n s, slice_indices n s = None <-> step_of s = 0.
Proof.
  intros n [[a b] c]. unfold slice_indices, step_of. set (st := match c with Some x => x | None => 1 end).
  replace (match c with Some c0 => c0 | None => 1 end) with st by reflexivity. destruct (Z.eqb_spec st 0); split; intros; congruence.
Qed.
Lemma set_refused : forall l s xs, set_slice l s xs = None ->
  step_of s = 0 \/ (step_of s <> 1 /\ exists r, positions (size l) s r /\ List.length r <> List.length xs).
Proof.
  intros l s xs H. unfold set_slice in H. destruct (slice_indices (size l) s) as [[[a b] c]|] eqn:E; [|left; now apply slice_zero in E].
  right. assert (Hc : c = step_of s).
  { destruct s as [[x y] z]. unfold slice_indices in E. destruct (_ =? 0); [discriminate|]. injection E as _ _ <-. now destruct z. }
  destruct (Z.eqb_spec c 1); [discriminate|]. split; [congruence|]. exists (range a b c).
  split; [apply slice_positions; [apply size_nonneg|unfold slice_range; now rewrite E]|].
  destruct (Nat.eqb_spec (List.length (range a b c)) (List.length xs)); [discriminate|assumption].
Qed.
End ListsFacts.
(** There is only one list of these positions. *)
Lemma ordered_unique : forall step, step <> 0 -> forall a b, ordered step a -> ordered step b -> (forall i, In i a <-> In i b) -> a = b.
Proof.
  intros step Hs. induction a as [|x a IH]; intros b Ha Hb H.
  - destruct b as [|y b]; [reflexivity|]. destruct (proj2 (H y) (or_introl eq_refl)).
  - destruct b as [|y b]; [destruct (proj1 (H x) (or_introl eq_refl))|]. cbn [ordered] in *. destruct Ha as [Hx Ha], Hb as [Hy Hb].
    assert (x = y) as <-.
    { destruct (proj1 (H x) (or_introl eq_refl)) as [|Hxy]; [congruence|]. destruct (proj2 (H y) (or_introl eq_refl)) as [|Hyx]; [congruence|].
      specialize (Hx y Hyx). specialize (Hy x Hxy). destruct (0 <? step); lia. }
    f_equal. apply IH; auto. intros i. assert (Hirr : forall l, (forall j, In j l -> if 0 <? step then x < j else j < x) -> ~ In x l).
    { intros l Hl Hi. specialize (Hl x Hi). destruct (0 <? step); lia. }
    specialize (H i). cbn [In] in H. split; intros Hi.
    + destruct (proj1 H (or_intror Hi)) as [<-|]; [now destruct (Hirr a Hx)|assumption].
    + destruct (proj2 H (or_intror Hi)) as [<-|]; [now destruct (Hirr b Hy)|assumption].
Qed.
Lemma positions_range : forall n s r, 0 <= n -> step_of s <> 0 -> positions n s r -> slice_range n s = Some r.
Proof.
  intros n s r Hn Hs [H1 H2]. unfold slice_range. destruct (slice_indices n s) as [[[a b] c]|] eqn:E; [|apply slice_zero in E; contradiction].
  f_equal. assert (HR : slice_range n s = Some (range a b c)) by (unfold slice_range; now rewrite E).
  destruct (slice_positions n s _ Hn HR) as [H3 H4]. apply (ordered_unique (step_of s) Hs); [exact H3|exact H1|]. intros i. now rewrite H4, H2.
Qed.
