(** The builtin list of Python (CPython semantics, part of the trusted description of the
    environment): indices, slices, and the operations the containers use on their data. *)

From Coq Require Import Permutation.
From Verif Require Import Base.
Open Scope Z_scope.

Section Lists.
Context {X : Type}.
Implicit Types l : list X.

Definition size l : Z := Z.of_nat (List.length l).
(** Negative indices count from the end. *)
Definition norm l (i : Z) : Z := if i <? 0 then i + size l else i.
Definition valid l (i : Z) : bool := (0 <=? norm l i) && (norm l i <? size l).
(** l[i] *)
Definition at_ l (i : Z) : option X :=
  if valid l i then nth_error l (Z.to_nat (norm l i)) else None.
(** l[i] = x; None: IndexError. *)
Definition put_nth (n : nat) (x : X) l : list X := firstn n l ++ x :: skipn (S n) l.
Definition list_set l (i : Z) (x : X) : option (list X) :=
  if valid l i then Some (put_nth (Z.to_nat (norm l i)) x l) else None.
(** l.insert(i, x): positions outside are clamped. *)
Definition clamp l (i : Z) : Z := Z.min (Z.max (norm l i) 0) (size l).
Definition insert_nth (n : nat) (x : X) l : list X := firstn n l ++ x :: skipn n l.
Definition list_insert l (i : Z) (x : X) : list X := insert_nth (Z.to_nat (clamp l i)) x l.
(** l.pop(i) and del l[i]; None: IndexError. *)
Definition remove_nth (n : nat) l : list X := firstn n l ++ skipn (S n) l.
Definition list_pop l (i : Z) : option (X * list X) :=
  match at_ l i with
  | Some x => Some (x, remove_nth (Z.to_nat (norm l i)) l)
  | None => None
  end.
End Lists.

(** slice(a, b, c).indices(n); None: ValueError (step zero). *)
Definition slice : Type := option Z * option Z * option Z.
Definition slice_indices (n : Z) (s : slice) : option (Z * Z * Z) :=
  let '(a, b, c) := s in
  let step := match c with Some x => x | None => 1 end in
  if step =? 0 then None else
  let lower := if step <? 0 then -1 else 0 in
  let upper := if step <? 0 then n - 1 else n in
  let fit (x : Z) := if x <? 0 then Z.max (x + n) lower else Z.min x upper in
  let start := match a with None => if step <? 0 then upper else lower | Some x => fit x end in
  let stop := match b with None => if step <? 0 then lower else upper | Some x => fit x end in
  Some (start, stop, step).
(** range(start, stop, step) for step <> 0. *)
Definition range_len (start stop step : Z) : Z :=
  if 0 <? step then (if start <? stop then (stop - start - 1) / step + 1 else 0)
  else (if stop <? start then (start - stop - 1) / (- step) + 1 else 0).
Fixpoint steps_from (k : nat) (i step : Z) : list Z :=
  match k with O => [] | S k => i :: steps_from k (i + step) step end.
Definition range (start stop step : Z) : list Z := steps_from (Z.to_nat (range_len start stop step)) start step.
Definition slice_range (n : Z) (s : slice) : option (list Z) :=
  match slice_indices n s with Some (a, b, c) => Some (range a b c) | None => None end.

Section Slices.
Context {X : Type}.
Implicit Types l : list X.

(** l[s]; None: ValueError. *)
Fixpoint pick l (r : list Z) : list X :=
  match r with
  | [] => []
  | i :: r => match nth_error l (Z.to_nat i) with Some x => x :: pick l r | None => pick l r end
  end.
Definition get_slice l (s : slice) : option (list X) :=
  match slice_range (size l) s with Some r => Some (pick l r) | None => None end.
(** l[s] = xs: step 1 replaces the section, other steps replace item by item and need as many
    values as there are positions; None: ValueError. *)
Fixpoint put_all l (r : list Z) (xs : list X) : list X :=
  match r, xs with
  | i :: r, x :: xs => put_all (put_nth (Z.to_nat i) x l) r xs
  | _, _ => l
  end.
Definition set_slice l (s : slice) (xs : list X) : option (list X) :=
  match slice_indices (size l) s with
  | None => None
  | Some (a, b, c) =>
      if c =? 1 then Some (firstn (Z.to_nat a) l ++ xs ++ skipn (Z.to_nat (Z.max a b)) l)
      else if Nat.eqb (List.length (range a b c)) (List.length xs) then Some (put_all l (range a b c) xs)
      else None
  end.
(** del l[s]: all other positions stay; None: ValueError. *)
Fixpoint keep (p : Z -> bool) (i : Z) l : list X :=
  match l with
  | [] => []
  | x :: l => if p i then x :: keep p (i + 1) l else keep p (i + 1) l
  end.
Definition del_slice l (s : slice) : option (list X) :=
  match slice_range (size l) s with
  | Some r => Some (keep (fun i => negb (existsb (Z.eqb i) r)) 0 l)
  | None => None
  end.
End Slices.

(** sorted(l, reverse=True) for integers. *)
Fixpoint insert_desc (i : Z) (l : list Z) : list Z :=
  match l with
  | [] => [i]
  | j :: r => if j <? i then i :: l else j :: insert_desc i r
  end.
Definition sort_desc (l : list Z) : list Z := fold_right insert_desc [] l.

(** ** Facts *)

Lemma insert_desc_perm : forall i l, Permutation (i :: l) (insert_desc i l).
Proof.
  intros i l; induction l as [|j l IH]; cbn; [auto|]. destruct (j <? i); [auto|].
  eapply perm_trans; [apply perm_swap|]. now constructor.
Qed.
Lemma sort_desc_perm : forall l, Permutation l (sort_desc l).
Proof.
  induction l as [|i l IH]; cbn; [auto|]. eapply perm_trans; [|apply insert_desc_perm]. now constructor.
Qed.
(** Strictly descending. *)
Fixpoint desc (l : list Z) : Prop :=
  match l with [] => True | i :: r => (forall j, In j r -> j < i) /\ desc r end.
Lemma insert_desc_desc : forall i l, desc l -> ~ In i l -> desc (insert_desc i l).
Proof.
  intros i l; induction l as [|j l IH]; intros H Hi; cbn in *; [tauto|]. destruct H as [H1 H2].
  destruct (Z.ltb_spec j i).
  - cbn. repeat split; auto. intros k [->|Hk]; [lia|]. specialize (H1 _ Hk). lia.
  - cbn. split; [|apply IH; tauto]. intros k Hk.

    apply (Permutation_in _ (Permutation_sym (insert_desc_perm i l))) in Hk.
    destruct Hk as [<-|Hk]; [lia|auto].
Qed.
Lemma sort_desc_desc : forall l, NoDup l -> desc (sort_desc l).
Proof.
  induction l as [|i l IH]; intros H; cbn; [auto|]. inversion H; subst. apply insert_desc_desc; [auto|].
  intros Hi. apply (Permutation_in _ (Permutation_sym (sort_desc_perm l))) in Hi. contradiction.
Qed.

Lemma steps_from_In : forall k i step x, In x (steps_from k i step) <->
  exists j, 0 <= j < Z.of_nat k /\ x = i + j * step.
Proof.
  induction k as [|k IH]; intros i step x; cbn [steps_from].
  - split; [intros []|]. intros (j & Hj & _). lia.
  - cbn [In]. rewrite IH. split.
    + intros [<-|(j & Hj & ->)]; [exists 0; lia|]. exists (j + 1). split; [lia|]. lia.
    + intros (j & Hj & ->). destruct (Z.eq_dec j 0) as [->|]; [left; lia|]. right. exists (j - 1). split; lia.
Qed.
Lemma steps_from_NoDup : forall k i step, step <> 0 -> NoDup (steps_from k i step).
Proof.
  induction k as [|k IH]; intros i step H; cbn; constructor; auto.
  rewrite steps_from_In. intros (j & Hj & Hx). nia.
Qed.
Lemma steps_from_length : forall k i step, List.length (steps_from k i step) = k.
Proof. induction k; intros; cbn; auto. Qed.

(** The positions of a slice are different and inside the list. *)
Lemma range_len_nonneg : forall a b c, c <> 0 -> 0 <= range_len a b c.
Proof.
  intros a b c Hc. unfold range_len. destruct (Z.ltb_spec 0 c).
  - destruct (Z.ltb_spec a b); [|lia]. assert (0 <= (b - a - 1) / c) by (apply Z.div_pos; lia). lia.
  - destruct (Z.ltb_spec b a); [|lia]. assert (0 <= (a - b - 1) / - c) by (apply Z.div_pos; lia). lia.
Qed.
Lemma slice_range_spec : forall n s r, 0 <= n -> slice_range n s = Some r ->
  NoDup r /\ forall i, In i r -> 0 <= i < n.
Proof.
  intros n [[a b] c] r Hn H. unfold slice_range, slice_indices in H.
  set (step := match c with Some x => x | None => 1 end) in H.
  destruct (Z.eqb_spec step 0); [discriminate|]. injection H as <-.
  set (start := match a with None => _ | Some _ => _ end).
  set (stop := match b with None => _ | Some _ => _ end).
  unfold range. split; [now apply steps_from_NoDup|].
  intros i Hi. apply steps_from_In in Hi as (j & Hj & ->).
  rewrite Z2Nat.id in Hj by (now apply range_len_nonneg). unfold range_len in Hj.
  destruct (Z.ltb_spec 0 step) as [Hs|Hs].
  - destruct (Z.ltb_spec start stop) as [Hlt|]; [|lia].
    assert (Hstart : 0 <= start).
    { unfold start. destruct (Z.ltb_spec step 0); [lia|]. destruct a as [x|]; [|lia]. destruct (Z.ltb_spec x 0); lia. }
    assert (Hstop : stop <= n).
    { unfold stop. destruct (Z.ltb_spec step 0); [lia|]. destruct b as [x|]; [|lia]. destruct (Z.ltb_spec x 0); lia. }
    assert (j * step <= stop - start - 1).
    { assert (j <= (stop - start - 1) / step) by lia.
      assert (step * ((stop - start - 1) / step) <= stop - start - 1) by (apply Z.mul_div_le; lia). nia. }
    nia.
  - destruct (Z.ltb_spec stop start) as [Hlt|]; [|lia].
    assert (Hstart : start <= n - 1).
    { unfold start. destruct (Z.ltb_spec step 0); [|lia]. destruct a as [x|]; [|lia]. destruct (Z.ltb_spec x 0); lia. }
    assert (Hstop : -1 <= stop).
    { unfold stop. destruct (Z.ltb_spec step 0); [|lia]. destruct b as [x|]; [|lia]. destruct (Z.ltb_spec x 0); lia. }
    assert (j * - step <= start - stop - 1).
    { assert (j <= (start - stop - 1) / - step) by lia.
      assert (- step * ((start - stop - 1) / - step) <= start - stop - 1) by (apply Z.mul_div_le; lia). nia. }
    nia.
Qed.

Section ListFacts.
Context {X : Type}.
Implicit Types l : list X.

Lemma size_nonneg : forall l, 0 <= size l.
Proof. intros; unfold size; lia. Qed.
Lemma norm_pos : forall l i, 0 <= i -> norm l i = i.
Proof. intros l i H. unfold norm. destruct (Z.ltb_spec i 0); lia. Qed.
Lemma at_nth : forall l i, 0 <= i -> at_ l i = nth_error l (Z.to_nat i).
Proof.
  intros l i H. unfold at_, valid. rewrite norm_pos by exact H.
  destruct (Z.leb_spec 0 i); [|lia]. cbn. destruct (Z.ltb_spec i (size l)); [reflexivity|].
  symmetry. apply nth_error_None. unfold size in *. lia.
Qed.
Lemma keep_ext : forall p q l i, (forall j, i <= j < i + size l -> p j = q j) -> keep p i l = keep q i l.
Proof.
  intros p q l; induction l as [|x l IH]; intros i H; cbn; [reflexivity|].
  assert (Hs : size (x :: l) = size l + 1) by (unfold size; cbn [List.length]; lia).
  pose proof (size_nonneg l). rewrite (H i) by lia. rewrite (IH (i + 1)); [reflexivity|]. intros j Hj. apply H. lia.
Qed.
Lemma keep_all : forall p l i, (forall j, i <= j < i + size l -> p j = true) -> keep p i l = l.
Proof.
  intros p l i H. rewrite (keep_ext p (fun _ => true)) by exact H. clear H. revert i.
  induction l as [|x l IH]; intros i; cbn; [reflexivity|]. now rewrite IH.
Qed.
Lemma keep_app : forall p (a b : list X) i, keep p i (a ++ b) = keep p i a ++ keep p (i + size a) b.
Proof.
  intros p a; induction a as [|x a IH]; intros b i; cbn [List.app keep].
  - unfold size; cbn. now rewrite Z.add_0_r.
  - assert (Hs : size (x :: a) = size a + 1) by (unfold size; cbn [List.length]; lia).
    rewrite Hs. replace (i + (size a + 1)) with (i + 1 + size a) by lia. rewrite IH. now destruct (p i).
Qed.
(** Taking out descending positions one after the other. *)
Lemma keep_remove : forall l j r, 0 <= j < size l -> (forall k, In k r -> k < j) ->
  keep (fun i => negb (existsb (Z.eqb i) (j :: r))) 0 l =
  keep (fun i => negb (existsb (Z.eqb i) r)) 0 (remove_nth (Z.to_nat j) l).
Proof.
  intros l j r Hj Hr. unfold remove_nth.
  assert (Hx : exists x, nth_error l (Z.to_nat j) = Some x).
  { destruct (nth_error l (Z.to_nat j)) eqn:HN; [eauto|]. apply nth_error_None in HN. unfold size in Hj. lia. }
  destruct Hx as [x Hx]. apply nth_error_split in Hx as (a & b & -> & Ha).
  assert (Hsa : size a = j) by (unfold size; rewrite Ha; lia).
  rewrite firstn_app, skipn_app. rewrite <- Ha, Nat.sub_diag, firstn_all.
  rewrite skipn_all2 by lia. replace (S (List.length a) - List.length a)%nat with 1%nat by lia.
  cbn [firstn skipn]. rewrite app_nil_r. cbn [List.app]. rewrite !keep_app. cbn [keep].
  rewrite !Z.add_0_l. rewrite Hsa. cbn [existsb]. rewrite Z.eqb_refl. cbn [negb orb].
  f_equal.
  - apply keep_ext. intros i Hi. destruct (Z.eqb_spec i j); [lia|reflexivity].
  - rewrite (keep_all _ b (j + 1)), (keep_all _ b j); [reflexivity| |].
    + intros i Hi. apply Bool.negb_true_iff. apply Bool.not_true_is_false. intros HE.
      apply existsb_exists in HE as (k & Hk & HE). apply Z.eqb_eq in HE as <-. specialize (Hr _ Hk). lia.
    + intros i Hi. destruct (Z.eqb_spec i j); [lia|]. apply Bool.negb_true_iff. apply Bool.not_true_is_false. intros HE.
      apply existsb_exists in HE as (k & Hk & HE). apply Z.eqb_eq in HE as <-. specialize (Hr _ Hk). lia.
Qed.
Lemma remove_nth_size : forall l j, 0 <= j < size l -> size (remove_nth (Z.to_nat j) l) = size l - 1.
Proof.
  intros l j Hj. unfold remove_nth, size in *. rewrite app_length, firstn_length, skipn_length. lia.
Qed.
End ListFacts.
