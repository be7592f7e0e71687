(** What the methods of EventedList do, whatever the listeners do apart from changing the list.
    Proof infrastructure; models no code. *)

From Coq Require Import Permutation.
From Verif Require Import Base Core Spec Frame Fuel Client Does Prog PyList EList SpecList Gather.
Open Scope Z_scope.

Lemma follows_app : forall l h l' h' l'', follows l h l' -> follows l' h' l'' -> follows l (h ++ h') l''.
Proof.
  intros l h l' h' l'' H; induction H; intros H'; cbn [List.app]; auto; try (econstructor; eauto; fail).
Qed.

Section L.
Context {V : Type}.
Variable E : env V.
Variable eqv : val -> val -> bool.
Variable islist : val -> bool.
Variable wrap : val -> val.
Let C := list_signals.
Notation does := (Does.does E list_signals).
Notation never := (Does.never (U := data)).

Definition tells (l u : data) (hs : list (sid * list val * data)) : Prop := follows l hs u.

Lemma insert_does : forall i v l,
  does (el_insert i v) l (fun u hs r => r = VNone /\ u = list_insert l i v /\ tells l u hs) never.
Proof.
  intros i v l. unfold el_insert.
  eapply does_seq with (f1 := fun u hs _ => u = l /\ hs = [(inserting, [VInt i], l)]).
  { apply does_say; auto. } intros u hs x [-> ->].
  eapply does_seq with (f1 := fun u hs _ => u = list_insert l i v /\ hs = []).
  { apply does_act. cbn. auto. } intros u hs y [-> ->].
  eapply does_seq with (f1 := fun u hs _ => u = list_insert l i v /\ hs = [(inserted, [VInt i; v], u)]).
  { apply does_say; auto. } intros u hs z [-> ->].
  apply does_ret. split; [reflexivity|]. split; [reflexivity|]. apply fo_insert, fo_nil.
Qed.
Lemma insert_end : forall (l : data) v, list_insert l (size l) v = l ++ [v].
Proof.
  intros l v. unfold list_insert, insert_nth, clamp, norm. pose proof (size_nonneg l).
  destruct (Z.ltb_spec (size l) 0); [lia|]. rewrite Z.max_l, Z.min_id by lia. unfold size.
  rewrite Nat2Z.id, firstn_all, skipn_all. reflexivity.
Qed.
Lemma append_does : forall v l,
  does (el_append v) l (fun u hs r => r = VNone /\ u = l ++ [v] /\ tells l u hs) never.
Proof. intros v l. apply does_look. rewrite <- insert_end. apply insert_does. Qed.
Lemma extend_does : forall vs l,
  does (el_extend vs) l (fun u hs r => r = VNone /\ u = l ++ vs /\ tells l u hs) never.
Proof.
  induction vs as [|v vs IH]; intros l; cbn [el_extend each].
  - apply does_ret. rewrite app_nil_r. split; [reflexivity|]. split; [reflexivity|]. apply fo_nil.
  - eapply does_seq; [apply append_does|]. intros u hs x (-> & -> & HT).
    eapply does_mono; [apply IH| |auto]. intros u hs' y (-> & -> & HT').
    split; [reflexivity|]. split; [now rewrite <- app_assoc|]. eapply follows_app; eauto.
Qed.

Lemma set_valid : forall (l : data) i v, list_set l i v = None <-> at_ l i = None.
Proof.
  intros l i v. unfold list_set, at_, valid. destruct (_ && _) eqn:HV; [|split; auto]. split; [discriminate|].
  intros H. apply nth_error_None in H. apply Bool.andb_true_iff in HV as [H1 H2].
  apply Z.leb_le in H1. apply Z.ltb_lt in H2. unfold size in H2. lia.
Qed.
Lemma set_same : forall (l : data) i v, at_ l i = Some v -> list_set l i v = Some l.
Proof.
  intros l i v H. unfold list_set, at_ in *. destruct (valid l i); [|discriminate]. f_equal.
  apply nth_error_split in H as (a & b & -> & Ha). unfold put_nth.
  rewrite firstn_app, skipn_app, <- Ha, Nat.sub_diag, firstn_all.
  rewrite skipn_all2 by lia. replace (S (List.length a) - List.length a)%nat with 1%nat by lia.
  cbn [firstn skipn List.app]. now rewrite app_nil_r.
Qed.
Lemma set_does : forall i v l,
  does (el_set i v) l (fun u hs r => r = VNone /\ list_set l i v = Some u /\ tells l u hs)
    (fun u hs e => e = EIndex /\ u = l /\ hs = [] /\ list_set l i v = None).
Proof.
  intros i v l. apply does_look. destruct (at_ l i) as [old|] eqn:Ha.
  - destruct (val_eqb v old) eqn:Hv.
    + apply val_eqb_eq in Hv as ->. apply does_ret. split; [reflexivity|]. split; [now apply set_same|]. apply fo_nil.
    + destruct (list_set l i v) as [l1|] eqn:HS; [|apply set_valid in HS; congruence].
      eapply does_seq with (f1 := fun u hs _ => u = l1 /\ hs = []).
      { apply does_act. unfold do_set. rewrite HS. auto. } intros u hs y [-> ->].
      eapply does_seq with (f1 := fun u hs _ => u = l1 /\ hs = [(changed, [VInt i; old; v], u)]).
      { apply does_say; auto. } intros u hs z [-> ->].
      apply does_ret. split; [reflexivity|]. split; [reflexivity|]. eapply fo_change; eauto. apply fo_nil.
  - apply does_throw. repeat (split; [reflexivity|]). now apply set_valid.
Qed.
Lemma set_slice_does : forall s vs l,
  does (el_set_slice s vs) l
    (fun u hs r => r = VNone /\ tells l u hs /\ exists xs, vs = Some xs /\ set_slice l s xs = Some u)
    (fun u hs e => u = l /\ hs = [] /\ match vs with
                         | Some xs => e = EValue /\ set_slice l s xs = None
                         | None => if slice_indices (size l) s then e = EType else e = EValue
                         end).
Proof.
  intros s vs l. apply does_look. unfold get_slice, slice_range.
  destruct (slice_indices (size l) s) as [[[a b] c]|] eqn:HI.
  - destruct vs as [xs|]; [|apply does_throw; auto].
    destruct (set_slice l s xs) as [l1|] eqn:HS.
    + eapply does_seq with (f1 := fun u hs _ => u = l1 /\ hs = []).
      { apply does_act. unfold do_set_slice. rewrite HS. auto. } intros u hs y [-> ->].
      eapply does_seq with (f1 := fun u hs _ => u = l1 /\ hs = [(changed, [val_of_slice s; VTuple (pick l (range a b c)); VTuple xs], u)]).
      { apply does_say; auto. } intros u hs z [-> ->].
      apply does_ret. split; [reflexivity|]. split; [|eauto]. destruct s as [[x y'] z']. cbn [val_of_slice].
      eapply fo_change_slice; [|exact HS|apply fo_nil]. unfold get_slice, slice_range. now rewrite HI.
    + eapply does_seq with (f1 := fun u hs _ => False); [|intros ? ? ? []].
      apply does_act. unfold do_set_slice. rewrite HS. auto.
  - apply does_throw. split; [reflexivity|]. split; [reflexivity|]. destruct vs as [xs|]; [|reflexivity].
    split; [reflexivity|]. unfold set_slice. now rewrite HI.
Qed.

(** Deleting one position. *)
Lemma del_one_does : forall i l,
  does (del_one i) l (fun u hs _ => exists x, list_pop l i = Some (x, u) /\ tells l u hs)
    (fun u hs e => u = l /\ hs = [(removing, [VInt i], l)] /\ e = EIndex /\ list_pop l i = None).
Proof.
  intros i l. unfold del_one.
  eapply does_seq with (f1 := fun u hs _ => u = l /\ hs = [(removing, [VInt i], l)]).
  { apply does_say; auto. } intros u hs x [-> ->].
  destruct (list_pop l i) as [[y l1]|] eqn:HP.
  - eapply does_bind with (f1 := fun u hs v => u = l1 /\ hs = [] /\ v = y).
    { apply does_act. unfold do_pop. rewrite HP. auto. } intros u hs v (-> & -> & ->).
    apply does_say; [reflexivity|]. intros v. exists y. split; [reflexivity|]. eapply fo_remove; eauto. apply fo_nil.
  - eapply does_bind with (f1 := fun u hs v => False); [|intros ? ? ? []].
    apply does_act. unfold do_pop. rewrite HP. auto.
Qed.
Lemma pop_valid : forall (l : data) i, 0 <= i < size l -> exists x, list_pop l i = Some (x, remove_nth (Z.to_nat i) l).
Proof.
  intros l i Hi. unfold list_pop. rewrite at_nth, norm_pos by lia.
  destruct (nth_error l (Z.to_nat i)) as [x|] eqn:HN; [eauto|]. apply nth_error_None in HN. unfold size in Hi. lia.
Qed.
Lemma del_all_does : forall r l, desc r -> (forall i, In i r -> 0 <= i < size l) ->
  does (each del_one r) l
    (fun u hs v => v = VNone /\ u = keep (fun i => negb (existsb (Z.eqb i) r)) 0 l /\ tells l u hs) never.
Proof.
  induction r as [|i r IH]; intros l HD HB; cbn [each].
  - apply does_ret. split; [reflexivity|]. split; [|apply fo_nil]. symmetry. now apply keep_all.
  - destruct HD as [HD1 HD2].
    destruct (pop_valid l i (HB i (or_introl eq_refl))) as [x HP].
    eapply does_seq with (f1 := fun u hs _ => u = remove_nth (Z.to_nat i) l /\ tells l u hs).
    { eapply does_mono; [apply del_one_does| |].
      - intros u hs v (y & HP' & HT). split; congruence.
      - intros u hs e (_ & _ & _ & HN). congruence. }
    intros u hs v [-> HT]. eapply does_mono; [apply IH; [exact HD2|]| |auto].
    + intros j Hj. rewrite remove_nth_size by (apply HB; now left). specialize (HD1 _ Hj).
      specialize (HB i (or_introl eq_refl)) as Hi. specialize (HB j (or_intror Hj)). lia.
    + intros u hs' v' (-> & -> & HT'). split; [reflexivity|].
      rewrite <- keep_remove in HT'; [|apply HB; now left|exact HD1].
      rewrite <- keep_remove; [|apply HB; now left|exact HD1].
      split; [reflexivity|]. eapply follows_app; eauto.
Qed.
Lemma del_slice_does : forall s l,
  does (el_del_slice s) l (fun u hs r => r = VNone /\ del_slice l s = Some u /\ tells l u hs)
    (fun u hs e => u = l /\ hs = [] /\ e = EValue /\ del_slice l s = None).
Proof.
  intros s l. apply does_look. unfold del_slice. destruct (slice_range (size l) s) as [r|] eqn:HR.
  - destruct (slice_range_spec _ _ _ (size_nonneg l) HR) as [HN HB].
    assert (HP := sort_desc_perm r).
    eapply does_mono; [apply del_all_does; [now apply sort_desc_desc|]| |intros u hs e []].
    + intros i Hi. apply HB. eapply Permutation_in; [apply Permutation_sym; exact HP|exact Hi].
    + intros u hs v (-> & -> & HT).
      assert (HK : keep (fun i => negb (existsb (Z.eqb i) (sort_desc r))) 0 l
                   = keep (fun i => negb (existsb (Z.eqb i) r)) 0 l).
      { apply keep_ext. intros j _. f_equal. apply Bool.eq_true_iff_eq. rewrite !existsb_exists.
        split; intros (k & Hk & He); exists k; (split; [|exact He]).
        - eapply Permutation_in; [apply Permutation_sym; exact HP|exact Hk].
        - eapply Permutation_in; eauto. }
      rewrite HK in *. auto.
  - apply does_throw. auto.
Qed.

(** Deleting by index: right unless the index is negative and out of range. *)
Lemma del_does : forall i l, - size l <= i ->
  does (el_del i) l (fun u hs r => r = VNone /\ (exists x, list_pop l i = Some (x, u)) /\ tells l u hs)
    (fun u hs e => u = l /\ hs = [(removing, [VInt (norm l i)], l)] /\ e = EIndex /\ list_pop l i = None).
Proof.
  intros i l Hi. apply does_look. cbn [sort_desc fold_right insert_desc each].
  fold (norm l i). change (if i <? 0 then i + size l else i) with (norm l i).
  assert (Hn : 0 <= norm l i) by (unfold norm; destruct (Z.ltb_spec i 0); lia).
  assert (HP : list_pop l (norm l i) = list_pop l i).
  { unfold list_pop, at_, valid. now rewrite (norm_pos l (norm l i)) by exact Hn. }
  eapply does_seq with (f1 := fun u hs _ => exists x, list_pop l i = Some (x, u) /\ tells l u hs).
  { eapply does_mono; [apply del_one_does| |]; rewrite HP; auto. }
  intros u hs v (x & HX & HT). apply does_ret. rewrite app_nil_r. eauto.
Qed.
Lemma get_does : forall i l,
  does (el_get islist wrap i) l (fun u hs r => u = l /\ hs = [] /\ exists x, at_ l i = Some x /\ r = seen islist wrap x)
    (fun u hs e => u = l /\ hs = [] /\ e = EIndex /\ at_ l i = None).
Proof.
  intros i l. apply does_look. destruct (at_ l i) as [x|]; [apply does_ret|apply does_throw]; eauto.
Qed.
Lemma at_valid : forall (l : data) i x, at_ l i = Some x -> - size l <= i.
Proof.
  intros l i x H. unfold at_, valid, norm in H. destruct (Z.leb_spec 0 (if i <? 0 then i + size l else i)); [|discriminate].
  pose proof (size_nonneg l). destruct (Z.ltb_spec i 0); lia.
Qed.
Lemma pop_does : forall i l,
  does (el_pop islist wrap i) l
    (fun u hs r => tells l u hs /\ exists x, list_pop l i = Some (x, u) /\ r = seen islist wrap x)
    (fun u hs e => u = l /\ hs = [] /\ e = EIndex /\ list_pop l i = None).
Proof.
  intros i l. unfold el_pop. eapply does_bind.
  { eapply does_mono; [apply get_does|intros u hs v H; exact H|]. intros u hs e (-> & -> & -> & HN).
    unfold list_pop. rewrite HN. auto. }
  intros u hs v (-> & -> & x & Ha & ->).
  eapply does_seq.
  { eapply does_mono; [apply del_does; eapply at_valid; eauto|intros u hs v H; exact H|].
    intros u hs e (_ & _ & _ & HN). unfold list_pop in HN. rewrite Ha in HN. discriminate. }
  intros u hs v (_ & (y & HP) & HT). apply does_ret. cbn [List.app]. rewrite app_nil_r. split; [exact HT|].
  exists y. split; [exact HP|]. unfold list_pop in HP. rewrite Ha in HP. now injection HP as -> _.
Qed.
Lemma clear_does : forall n l, (List.length l < n)%nat ->
  does (clear_loop islist wrap n) l
    (fun u hs r => r = VNone /\ ((u = [] /\ tells l u hs) \/ listener_raised E C EIndex)) never.
Proof.
  induction n as [|n IH]; intros l Hn; [lia|]. cbn [clear_loop]. intros h. apply wp_catch.
  eapply wp_mono; [|apply pop_does]. intros u h' [v|e|] HH; cbn beta in *; auto.
  - destruct HH as (hs & -> & HT & x & HP & _).
    assert (HL : (List.length u < n)%nat).
    { unfold list_pop in HP. destruct (at_ l (-1)) eqn:Ha; [|discriminate]. injection HP as _ <-.
      unfold at_ in Ha. destruct (valid l (-1)); [|discriminate].       assert ((Z.to_nat (norm l (-1)) < List.length l)%nat) by (apply nth_error_Some; congruence).
      unfold remove_nth. rewrite app_length, firstn_length, skipn_length. lia. }
    eapply wp_mono; [|apply (IH u HL)]. intros u' h2 [v'|e'|] HK; cbn beta in *; auto.
    2: { destruct HK as (hs' & -> & HK). exists (hs ++ hs'). rewrite app_assoc. destruct HK; auto. }
    destruct HK as (hs' & -> & -> & HK). exists (hs ++ hs'). rewrite app_assoc. split; [reflexivity|].
    split; [reflexivity|]. destruct HK as [[-> HT']|HK]; [|auto]. left. split; [reflexivity|]. eapply follows_app; eauto.
  - destruct HH as (hs & -> & [(-> & -> & -> & HP)|HL]).
    + rewrite app_nil_r. exists []. rewrite app_nil_r. split; [reflexivity|]. split; [reflexivity|].
      assert (l = []).
      { unfold list_pop in HP. destruct (at_ l (-1)) eqn:Ha; [discriminate|]. destruct l as [|x l]; [reflexivity|].
        exfalso. unfold at_, valid, norm in Ha. change (-1 <? 0) with true in Ha. cbn iota in Ha.
        assert (Hs : size (x :: l) = Z.of_nat (S (List.length l))) by reflexivity. rewrite Hs in Ha.
        destruct (Z.leb_spec 0 (-1 + Z.of_nat (S (List.length l)))); [|lia].
        destruct (Z.ltb_spec (-1 + Z.of_nat (S (List.length l))) (Z.of_nat (S (List.length l)))); [|lia].
        cbn [andb] in Ha. apply nth_error_None in Ha. cbn [List.length] in Ha. lia. }
      subst. left. split; [reflexivity|apply fo_nil].
    + destruct e; cbn; eauto.
Qed.

Lemma find_index_none : forall v l i, find_index eqv islist wrap v i l = None ->
  Forall (fun y => val_eqb (seen islist wrap y) v || eqv (seen islist wrap y) v = false) l.
Proof.
  intros v l; induction l as [|x l IH]; intros i H; cbn in *; constructor;
    destruct (val_eqb (seen islist wrap x) v || eqv (seen islist wrap x) v) eqn:HX; try discriminate; eauto.
Qed.
Lemma find_index_some : forall v l i j, find_index eqv islist wrap v i l = Some j ->
  exists a x b, l = a ++ x :: b /\ j = i + size a
    /\ val_eqb (seen islist wrap x) v || eqv (seen islist wrap x) v = true
    /\ Forall (fun y => val_eqb (seen islist wrap y) v || eqv (seen islist wrap y) v = false) a.
Proof.
  intros v l; induction l as [|x l IH]; intros i j H; cbn in *; [discriminate|].
  destruct (val_eqb (seen islist wrap x) v || eqv (seen islist wrap x) v) eqn:HX.
  - injection H as <-. exists [], x, l. split; [reflexivity|]. split; [cbn; lia|]. auto.
  - apply IH in H as (a & y & b & -> & -> & Hy & Ha). exists (x :: a), y, b.
    split; [reflexivity|]. split; [unfold size; cbn [List.length]; lia|]. auto.
Qed.
Lemma remove_middle : forall (a : data) x b, list_pop (a ++ x :: b) (size a) = Some (x, a ++ b).
Proof.
  intros a x b. pose proof (size_nonneg a).
  assert (Hs : size (a ++ x :: b) = size a + 1 + size b).
  { unfold size. rewrite app_length. cbn [List.length]. lia. }
  pose proof (size_nonneg b). unfold list_pop. rewrite at_nth, norm_pos by lia. unfold size. rewrite Nat2Z.id.
  rewrite nth_error_app2, Nat.sub_diag by lia. cbn [nth_error]. f_equal. f_equal. unfold remove_nth.
  rewrite firstn_app, skipn_app, Nat.sub_diag, firstn_all, skipn_all2 by lia.
  replace (S (List.length a) - List.length a)%nat with 1%nat by lia. cbn [firstn skipn List.app]. now rewrite app_nil_r.
Qed.
Lemma remove_does : forall v l,
  does (el_remove eqv islist wrap v) l
    (fun u hs r => r = VNone /\ tells l u hs /\ exists a x b, l = a ++ x :: b /\ u = a ++ b
       /\ val_eqb (seen islist wrap x) v || eqv (seen islist wrap x) v = true
       /\ Forall (fun y => val_eqb (seen islist wrap y) v || eqv (seen islist wrap y) v = false) a)
    (fun u hs e => u = l /\ hs = [] /\ e = EValue
       /\ Forall (fun y => val_eqb (seen islist wrap y) v || eqv (seen islist wrap y) v = false) l).
Proof.
  intros v l. apply does_look. destruct (find_index eqv islist wrap v 0 l) as [j|] eqn:HF.
  - apply find_index_some in HF as (a & x & b & -> & Hj & Hx & Ha). assert (j = size a) by lia. subst j.
    eapply does_mono; [apply del_does| |].
    + pose proof (size_nonneg a). pose proof (size_nonneg (a ++ x :: b)). lia.
    + intros u hs r (-> & (y & HP) & HT). rewrite remove_middle in HP. injection HP as -> <-.
      split; [reflexivity|]. split; [exact HT|]. eauto 10.
    + intros u hs e (_ & _ & _ & HP). rewrite remove_middle in HP. discriminate.
  - apply does_throw. apply find_index_none in HF. auto.
Qed.

Lemma reverse_does : forall l,
  does (el_reverse islist wrap false) l
    (fun u hs r => r = VNone /\ u = rev l /\ hs = [(reordered, [], rev l)]) never.
Proof.
  intros l. unfold el_reverse.
  eapply does_seq with (f1 := fun u hs _ => u = rev l /\ hs = []).
  { apply does_act. cbn. auto. } intros u hs y [-> ->].
  eapply does_seq with (f1 := fun u hs _ => u = rev l /\ hs = [(reordered, [], u)]).
  { apply does_say; auto. } intros u hs z [-> ->].
  apply does_ret. auto.
Qed.

(** Swapping pairwise. *)
Definition flipped (k : Z) (l u : data) : Prop :=
  List.length u = List.length l
  /\ forall j, 0 <= j < size l ->
       at_ u j = at_ l (if (j <? k) || (size l - k <=? j) then size l - 1 - j else j).
Lemma at_set : forall (l u : data) i j x, list_set l i x = Some u -> 0 <= i -> 0 <= j ->
  at_ u j = if j =? i then Some x else at_ l j.
Proof.
  intros l u i j x H Hi Hj. unfold list_set in H. destruct (valid l i) eqn:HV; [|discriminate]. injection H as <-.
  unfold valid in HV. rewrite norm_pos in * by lia. apply Bool.andb_true_iff in HV as [_ HV]. apply Z.ltb_lt in HV.
  assert (HL : (Z.to_nat i < List.length l)%nat) by (unfold size in HV; lia).
  rewrite !at_nth by lia. unfold put_nth.
  destruct (Z.eqb_spec j i) as [->|Hn].
  - rewrite nth_error_app2 by (rewrite firstn_length; lia). rewrite firstn_length, Nat.min_l, Nat.sub_diag by lia. reflexivity.
  - destruct (Z.ltb_spec j i).
    + rewrite nth_error_app1 by (rewrite firstn_length; lia).
      rewrite <- (firstn_skipn (Z.to_nat i) l) at 2. rewrite nth_error_app1 by (rewrite firstn_length; lia). reflexivity.
    + rewrite nth_error_app2 by (rewrite firstn_length; lia). rewrite firstn_length, Nat.min_l by lia.
      replace (Z.to_nat j - Z.to_nat i)%nat with (S (Z.to_nat j - S (Z.to_nat i)))%nat by lia. cbn [nth_error].
      rewrite <- (firstn_skipn (S (Z.to_nat i)) l) at 2. rewrite nth_error_app2 by (rewrite firstn_length; lia).
      rewrite firstn_length. f_equal. lia.
Qed.
Lemma set_length : forall (l u : data) i x, list_set l i x = Some u -> List.length u = List.length l.
Proof.
  intros l u i x H. unfold list_set in H. destruct (valid l i) eqn:HV; [|discriminate]. injection H as <-.
  unfold valid in HV. apply Bool.andb_true_iff in HV as [H1 H2]. apply Z.leb_le in H1. apply Z.ltb_lt in H2. unfold size in H2.
  unfold put_nth. rewrite app_length, firstn_length. cbn [List.length]. rewrite skipn_length. lia.
Qed.
Lemma at_in : forall (l : data) j x, at_ l j = Some x -> In x l.
Proof. intros l j x H. unfold at_ in H. destruct (valid l j); [|discriminate]. eapply nth_error_In; eauto. Qed.
Lemma at_some : forall (l : data) j, 0 <= j < size l -> exists x, at_ l j = Some x.
Proof.
  intros l j Hj. rewrite at_nth by lia. destruct (nth_error l (Z.to_nat j)) eqn:HN; [eauto|].
  apply nth_error_None in HN. unfold size in Hj. lia.
Qed.
Lemma at_ext : forall (a b : data), List.length a = List.length b ->
  (forall j, 0 <= j < size a -> at_ a j = at_ b j) -> a = b.
Proof.
  intros a b HL H. apply (nth_ext a b VNone VNone HL). intros n Hn.
  specialize (H (Z.of_nat n)). rewrite !at_nth, Nat2Z.id in H by lia. unfold size in H.
  specialize (H ltac:(lia)). rewrite (nth_error_nth' a VNone) in H by lia.
  rewrite (nth_error_nth' b VNone) in H by lia. congruence.
Qed.
Lemma at_rev : forall (l : data) j, 0 <= j < size l -> at_ (rev l) j = at_ l (size l - 1 - j).
Proof.
  intros l j Hj. unfold size in *. rewrite !at_nth by lia.
  assert (HA : (Z.to_nat j < List.length l)%nat) by lia.
  rewrite (nth_error_nth' (rev l) VNone) by (rewrite rev_length; lia).
  rewrite (nth_error_nth' l VNone) by lia. f_equal. rewrite rev_nth by lia. f_equal. lia.
Qed.
Definition plain (l : data) : Prop := forall x, In x l -> islist x = false.
Lemma swap_does : forall k l u, plain l -> 0 <= k -> 2 * k + 1 < size l -> flipped k l u ->
  does (swap_one islist wrap (size l) k) u (fun u' hs _ => flipped (k + 1) l u' /\ tells u u' hs) never.
Proof.
  intros k l u HP Hk Hs [HL HF]. assert (HLS : size u = size l) by (unfold size; lia).
  destruct (at_some u k) as [x Hx]; [lia|]. destruct (at_some u (size l - k - 1)) as [y Hy]; [lia|].
  assert (Hin : forall j z, at_ u j = Some z -> 0 <= j < size l -> islist z = false).
  { intros j z Hz Hj. rewrite HF in Hz by lia. apply HP. eapply at_in; eauto. }
  assert (Hsx : seen islist wrap x = x) by (unfold seen; rewrite (Hin _ _ Hx) by lia; reflexivity).
  assert (Hsy : seen islist wrap y = y) by (unfold seen; rewrite (Hin _ _ Hy) by lia; reflexivity).
  unfold swap_one.
  eapply does_bind with (f1 := fun u' hs v => u' = u /\ hs = [] /\ v = y).
  { eapply does_mono; [apply get_does| |].
    - intros u' hs v (-> & -> & z & Hz & ->). split; [reflexivity|]. split; congruence.
    - intros u' hs e (_ & _ & _ & HN). congruence. }
  intros u' hs v (-> & -> & ->).
  eapply does_bind with (f1 := fun u' hs v => u' = u /\ hs = [] /\ v = x).
  { eapply does_mono; [apply get_does| |].
    - intros u' hs v (-> & -> & z & Hz & ->). split; [reflexivity|]. split; congruence.
    - intros u' hs e (_ & _ & _ & HN). congruence. }
  intros u' hs v (-> & -> & ->).
  eapply does_seq with (f1 := fun u1 hs v => list_set u k y = Some u1 /\ tells u u1 hs).
  { eapply does_mono; [apply set_does| |].
    - intros u1 hs v (_ & H1 & H2). auto.
    - intros u1 hs e (_ & _ & _ & HN). apply set_valid in HN. congruence. }
  intros u1 hs v (HS1 & HT1).
  assert (HA1 : forall j, 0 <= j -> at_ u1 j = if j =? k then Some y else at_ u j)
    by (intros; eapply at_set; eauto).
  eapply does_mono; [apply set_does| |].
  - intros u2 hs' v' (_ & HS2 & HT2). cbn [List.app]. split; [|eapply follows_app; eauto].
    assert (HL1 := set_length _ _ _ _ HS1). assert (HL2 := set_length _ _ _ _ HS2).
    split; [lia|]. intros j Hj.
    rewrite (at_set u1 u2 (size l - k - 1) j x HS2) by lia.
    destruct (Z.eqb_spec j (size l - k - 1)) as [->|H1].
    + destruct (Z.ltb_spec (size l - k - 1) (k + 1)); [lia|].
      destruct (Z.leb_spec (size l - (k + 1)) (size l - k - 1)); [|lia]. cbn [orb].
      rewrite <- Hx, HF by lia. destruct (Z.ltb_spec k k); [lia|]. destruct (Z.leb_spec (size l - k) k); [lia|].
      cbn [orb]. f_equal. lia.
    + rewrite HA1 by lia. destruct (Z.eqb_spec j k) as [->|H2].
      * destruct (Z.ltb_spec k (k + 1)); [|lia]. cbn [orb].
        rewrite <- Hy, HF by lia. destruct (Z.ltb_spec (size l - k - 1) k); [lia|].
        destruct (Z.leb_spec (size l - k) (size l - k - 1)); [lia|]. cbn [orb]. f_equal. lia.
      * rewrite HF by lia. f_equal.
        destruct (Z.ltb_spec j k); destruct (Z.ltb_spec j (k + 1)); try lia; cbn [orb]; try reflexivity.
        destruct (Z.leb_spec (size l - k) j); destruct (Z.leb_spec (size l - (k + 1)) j); try lia; reflexivity.
  - intros u2 hs' e (_ & _ & _ & HN). apply set_valid in HN.
    rewrite HA1 in HN by lia. destruct (Z.eqb_spec (size l - k - 1) k); congruence.
Qed.
Lemma swaps_do : forall n k l u, plain l -> 0 <= k -> 2 * (k + Z.of_nat n) <= size l -> flipped k l u ->
  does (each (swap_one islist wrap (size l)) (steps_from n k 1)) u
    (fun u' hs v => v = VNone /\ flipped (k + Z.of_nat n) l u' /\ tells u u' hs) never.
Proof.
  induction n as [|n IH]; intros k l u HP Hk Hn HF; cbn [steps_from each].
  - apply does_ret. rewrite Z.add_0_r. split; [reflexivity|]. split; [exact HF|]. apply fo_nil.
  - eapply does_seq; [apply swap_does; [exact HP|lia|lia|exact HF]|].
    intros u1 hs v (HF1 & HT1). eapply does_mono; [apply IH; [exact HP|lia|lia|exact HF1]| |auto].
    intros u2 hs' v' (-> & HF2 & HT2). split; [reflexivity|]. split.
    + now replace (k + Z.of_nat (S n)) with (k + 1 + Z.of_nat n) by lia.
    + eapply follows_app; eauto.
Qed.
Lemma range_half : forall n, 0 <= n -> Z.of_nat (Z.to_nat (range_len 0 (n / 2) 1)) = n / 2.
Proof.
  intros n Hn. unfold range_len. change (0 <? 1) with true. cbn iota.
  pose proof (Z.div_pos n 2 Hn ltac:(lia)).
  destruct (Z.ltb_spec 0 (n / 2)); [rewrite Z.div_1_r|]; lia.
Qed.
Lemma reverse_one_by_one : forall l, plain l ->
  does (el_reverse islist wrap true) l (fun u hs r => r = VNone /\ u = rev l /\ tells l u hs) never.
Proof.
  intros l HP. unfold el_reverse. pose proof (size_nonneg l) as HN.
  eapply does_seq with (f1 := fun u hs _ => u = rev l /\ tells l u hs).
  { apply does_look. unfold range. eapply does_mono; [apply swaps_do; [exact HP|lia| |]| |auto].
    - rewrite range_half by exact HN.
      pose proof (Z.div_mod (size l) 2 ltac:(lia)). pose proof (Z.mod_pos_bound (size l) 2 ltac:(lia)). lia.
    - split; [reflexivity|]. intros j Hj. destruct (Z.ltb_spec j 0); [lia|].
      destruct (Z.leb_spec (size l - 0) j); [lia|]. reflexivity.
    - intros u hs v (-> & [HL HF] & HT). split; [|exact HT]. apply at_ext; [rewrite rev_length; lia|].
      assert (HS : size u = size l) by (unfold size; lia).
      intros j Hj. rewrite HF, at_rev by lia.
      rewrite range_half by exact HN.
      pose proof (Z.div_mod (size l) 2 ltac:(lia)). pose proof (Z.mod_pos_bound (size l) 2 ltac:(lia)).
      match goal with |- at_ l (if ?b then _ else _) = _ => destruct b eqn:HB; [reflexivity|] end.
      apply Bool.orb_false_iff in HB as [HB1 HB2]. apply Z.ltb_ge in HB1. apply Z.leb_gt in HB2.
      f_equal. lia. }
  intros u hs v [-> HT].
  eapply does_seq with (f1 := fun u hs _ => u = rev l /\ hs = [(reordered, [], u)]).
  { apply does_say; auto. } intros u hs' z [-> ->].
  apply does_ret. split; [reflexivity|]. split; [reflexivity|]. rewrite app_nil_r.
  eapply follows_app; [exact HT|]. apply fo_reordered, fo_nil.
Qed.

(** ** Moving *)
Definition target (l : data) (d : Z) : Z := if d <? 0 then d + size l + 1 else d.
Lemma move_does : forall i d l, 0 <= i < size l -> 0 <= target l d <= size l ->
  does (el_move i d) l
    (fun u hs r => u = gathered [i] (target l d) l
       /\ if (target l d =? i) || (target l d =? i + 1) then r = VBool false /\ hs = []
          else r = VBool true /\ tells l u hs /\ exists x l0, list_pop l i = Some (x, l0)
            /\ hs = [(moving, [VInt i; VInt (target l d)], l);
                     (moved, [VInt i; VInt (if i <? target l d then target l d - 1 else target l d); x], u);
                     (reordered, [], u)]) never.
Proof.
  intros i d l Hi Hd. apply does_look. cbv beta zeta.
  change (if d <? 0 then d + size l + 1 else d) with (target l d). set (t := target l d) in *. clearbody t.
  destruct ((t =? i) || (t =? i + 1)) eqn:HN.
  - apply does_ret. split; [|auto]. symmetry. apply gathered_stays; [exact Hi|].
    apply Bool.orb_true_iff in HN as [HN|HN]; apply Z.eqb_eq in HN; auto.
  - apply Bool.orb_false_iff in HN as [H1 H2]. apply Z.eqb_neq in H1, H2.
    destruct (move_one l i t Hi Hd H1 H2) as (x & l0 & HP & HI).
    set (k := if i <? t then t - 1 else t) in *.
    eapply does_seq with (f1 := fun u hs _ => u = l /\ hs = [(moving, [VInt i; VInt t], l)]).
    { apply does_say; auto. } intros u hs v [-> ->].
    eapply does_bind with (f1 := fun u hs v => u = l0 /\ hs = [] /\ v = x).
    { apply does_act. unfold do_pop. rewrite HP. auto. } intros u hs v' (-> & -> & ->). fold k.
    eapply does_seq with (f1 := fun u hs _ => u = list_insert l0 k x /\ hs = []).
    { apply does_act. cbn. auto. } intros u hs y [-> ->].
    eapply does_seq with (f1 := fun u hs _ => u = list_insert l0 k x /\ hs = [(moved, [VInt i; VInt k; x], u)]).
    { apply does_say; auto. } intros u hs z [-> ->].
    eapply does_seq with (f1 := fun u hs _ => u = list_insert l0 k x /\ hs = [(reordered, [], u)]).
    { apply does_say; auto. } intros u hs z' [-> ->].
    apply does_ret. cbn [List.app]. split; [exact HI|]. split; [reflexivity|]. split.
    + eapply fo_move; [exact HP|]. apply fo_reordered, fo_nil.
    + eauto.
Qed.

(** The moves that put the items [ss] behind the items [r] already in place. *)
Inductive plans (d : Z) : list Z -> list Z -> list (Z * Z) -> Prop :=
| pl_nil : forall r, plans d r [] []
| pl_move : forall r s ss ps, plans d (r ++ [s]) ss ps -> plans d r (s :: ss) ((from r d s, to r d) :: ps)
| pl_skip : forall r s ss ps, from r d s = to r d -> plans d (r ++ [s]) ss ps -> plans d r (s :: ss) ps.

Lemma nodup_front : forall (a b : list Z), NoDup (a ++ b) -> NoDup a.
Proof.
  intros a b; induction a as [|x a IH]; intros H; [constructor|]. inversion H; subst. constructor; [|auto].
  intros Hx. apply H2. apply in_or_app. now left.
Qed.
Lemma plans_does : forall d r ss ps l, plans d r ss ps -> NoDup (r ++ ss) ->
  (forall i, In i (r ++ ss) -> 0 <= i < size l) -> 0 <= d <= size l ->
  does (each (fun m => el_move (fst m) (snd m)) ps) (gathered r d l)
    (fun u hs _ => u = gathered (r ++ ss) d l) never.
Proof.
  intros d r ss ps l H; induction H as [r|r s ss ps H IH|r s ss ps He H IH]; intros HN HB Hd.
  - cbn [each]. apply does_ret. now rewrite app_nil_r.
  - assert (HA : (r ++ [s]) ++ ss = r ++ s :: ss) by now rewrite <- app_assoc.
    rewrite <- HA in *. specialize (IH HN HB Hd).
    destruct (gather_step l r d s) as (HG & HF & HT); auto.
    { rewrite <- app_assoc in HN. now apply nodup_front in HN. }
    { intros Hs. rewrite <- app_assoc in HN. cbn [List.app] in HN. apply NoDup_remove_2 in HN. apply HN.
      apply in_or_app. now left. }
    { intros i Hi. apply HB. rewrite <- app_assoc. apply in_or_app. now left. }
    { apply HB. rewrite <- app_assoc. apply in_or_app. right. now left. }
    assert (HTT : target (gathered r d l) (to r d) = to r d).
    { unfold target. destruct (Z.ltb_spec (to r d) 0); [lia|reflexivity]. }
    cbn [each fst snd].
    eapply does_seq with (f1 := fun u hs _ => u = gathered (r ++ [s]) d l).
    { eapply does_mono; [apply move_does; [exact HF|now rewrite HTT]| |auto].
      intros u hs v [-> _]. now rewrite HTT, HG. }
    intros u hs v ->. eapply does_mono; [exact IH| |auto]. auto.
  - assert (HA : (r ++ [s]) ++ ss = r ++ s :: ss) by now rewrite <- app_assoc.
    rewrite <- HA in *. specialize (IH HN HB Hd).
    destruct (gather_step l r d s) as (HG & HF & HT); auto.
    { rewrite <- app_assoc in HN. now apply nodup_front in HN. }
    { intros Hs. rewrite <- app_assoc in HN. cbn [List.app] in HN. apply NoDup_remove_2 in HN. apply HN.
      apply in_or_app. now left. }
    { intros i Hi. apply HB. rewrite <- app_assoc. apply in_or_app. now left. }
    { apply HB. rewrite <- app_assoc. apply in_or_app. right. now left. }
    rewrite gathered_stays in HG by (auto; lia). now rewrite HG.
Qed.

(** The plan is right for descending sources, and for ascending ones on one side. *)
Definition asc (l : list Z) : Prop := desc (rev l).
Lemma count_all : forall f r, (forall i, In i r -> f i = true) -> count f r = Z.of_nat (List.length r).
Proof.
  intros f r H. unfold count. f_equal. f_equal. induction r as [|x r IH]; [reflexivity|]. cbn [filter].
  rewrite (H x) by now left. f_equal. apply IH. intros i Hi. apply H. now right.
Qed.
Lemma count_no : forall f r, (forall i, In i r -> f i = false) -> count f r = 0.
Proof.
  intros f r H. unfold count. induction r as [|x r IH]; [reflexivity|]. cbn [filter].
  rewrite (H x) by now left. apply IH. intros i Hi. apply H. now right.
Qed.
Lemma count_snoc : forall f r s, count f (r ++ [s]) = count f r + (if f s then 1 else 0).
Proof. intros f r s. unfold count. rewrite filter_app, app_length. cbn [filter]. destruct (f s); cbn [List.length]; lia. Qed.
Lemma in_snoc : forall (r : list Z) s i, In i (r ++ [s]) -> In i r \/ i = s.
Proof. intros r s i H. apply in_app_or in H as [H|[H|[]]]; auto. Qed.

Lemma plan_desc : forall d ss r popped,
  desc ss -> (forall i s, In i r -> In s ss -> s < i) -> (forall x s, In x popped -> In s ss -> s < x) ->
  plans d r ss (plan_loop d (Z.of_nat (List.length r)) (count (fun i => d <=? i) r) popped ss).
Proof.
  intros d ss; induction ss as [|s ss IH]; intros r popped HD Hr Hp; cbn [plan_loop]; [constructor|].
  destruct HD as [HD1 HD2].
  assert (HC0 : Z.of_nat (List.length (filter (fun x => x <=? s) popped)) = 0).
  { apply (count_no (fun x => x <=? s)). intros x Hx. specialize (Hp x s Hx (or_introl eq_refl)). bools. }
  rewrite HC0, Z.sub_0_r.
  assert (HCr : count (fun i => s <? i) r = Z.of_nat (List.length r)).
  { apply count_all. intros i Hi. specialize (Hr i s Hi (or_introl eq_refl)). bools. }
  assert (HC1 : count (fun i => i <? s) r = 0).
  { apply count_no. intros i Hi. specialize (Hr i s Hi (or_introl eq_refl)). bools. }
  set (s' := if s =? d then s else if d <=? s then s + Z.of_nat (List.length r) else s).
  assert (Hs' : s <= s') by (unfold s'; bools).
  replace (if d <=? s' then count (fun i => d <=? i) r + 1 else count (fun i => d <=? i) r)
    with (count (fun i => d <=? i) (r ++ [s])) by (rewrite count_snoc; unfold s'; destruct (Z.eqb_spec s d); [|destruct (Z.leb_spec d s)]; bools).
  replace (Z.of_nat (List.length r) + 1) with (Z.of_nat (List.length (r ++ [s]))) by (rewrite app_length; cbn [List.length]; lia).
  specialize (IH (r ++ [s]) (popped ++ [s']) HD2).
  assert (IH' := IH ltac:(intros i t Hi Ht; apply in_snoc in Hi as [Hi| ->]; [apply Hr; [exact Hi|now right]|now apply HD1])
    ltac:(intros i t Hi Ht; apply in_snoc in Hi as [Hi| ->]; [apply Hp; [exact Hi|now right]|specialize (HD1 _ Ht); lia])).
  clear IH. destruct (Z.eqb_spec s d) as [Hsd|Hsd].
  - cbn [List.app]. apply pl_skip; [|exact IH']. subst d. unfold from, to. destruct (Z.ltb_spec s s); [lia|].
    f_equal. rewrite HCr. symmetry. apply count_all. intros i Hi. specialize (Hr i s Hi (or_introl eq_refl)). bools.
  - cbn [List.app].
    assert (HF : from r d s = s') by (unfold from, s'; rewrite HCr, HC1; bools).
    rewrite <- HF at 1. apply pl_move. exact IH'.
Qed.
Fixpoint incr (l : list Z) : Prop :=
  match l with [] => True | i :: r => (forall j, In j r -> i < j) /\ incr r end.
Lemma plan_low : forall d ss r popped, incr ss -> List.length popped = List.length r ->
  (forall s, In s ss -> s < d) -> (forall i, In i r -> i < d) ->
  (forall i s, In i r -> In s ss -> i < s) -> (forall x s, In x popped -> In s ss -> x <= s) ->
  plans d r ss (plan_loop d (Z.of_nat (List.length r)) 0 popped ss).
Proof.
  intros d ss; induction ss as [|s ss IH]; intros r popped HD HL Hd Hrd Hr Hp; cbn [plan_loop]; [constructor|].
  destruct HD as [HD1 HD2]. assert (Hsd : s < d) by (apply Hd; now left).
  assert (HC0 : Z.of_nat (List.length (filter (fun x => x <=? s) popped)) = Z.of_nat (List.length r)).
  { rewrite <- HL. apply (count_all (fun x => x <=? s)). intros x Hx. specialize (Hp x s Hx (or_introl eq_refl)). bools. }
  rewrite HC0. destruct (Z.eqb_spec s d); [lia|]. destruct (Z.leb_spec d (s - Z.of_nat (List.length r))); [lia|].
  destruct (Z.leb_spec d (s - Z.of_nat (List.length r))); [lia|].
  replace (Z.of_nat (List.length r) + 1) with (Z.of_nat (List.length (r ++ [s]))) by (rewrite app_length; cbn [List.length]; lia).
  cbn [List.app]. rewrite Z.add_0_r.
  assert (HF : from r d s = s - Z.of_nat (List.length r)).
  { unfold from. destruct (Z.ltb_spec s d); [|lia]. f_equal. apply count_all. intros i Hi.
    specialize (Hr i s Hi (or_introl eq_refl)). bools. }
  assert (HT : to r d = d).
  { unfold to. rewrite count_no; [lia|]. intros i Hi. specialize (Hrd i Hi). bools. }
  replace (s - Z.of_nat (List.length r), d) with (from r d s, to r d) by (now rewrite HF, HT).
  apply pl_move. apply IH; auto.
  - rewrite !app_length. cbn [List.length]. lia.
  - intros t Ht. apply Hd. now right.
  - intros i Hi. apply in_snoc in Hi as [Hi| ->]; auto.
  - intros i t Hi Ht. apply in_snoc in Hi as [Hi| ->]; [apply Hr; [exact Hi|now right]|now apply HD1].
  - intros i t Hi Ht. apply in_snoc in Hi as [Hi| ->]; [apply Hp; [exact Hi|now right]|]. specialize (HD1 _ Ht). lia.
Qed.
Lemma plan_high : forall d ss r, incr ss ->
  (forall s, In s ss -> d + Z.of_nat (List.length r) <= s) -> (forall i, In i r -> d <= i) ->
  (forall i s, In i r -> In s ss -> i < s) ->
  plans d r ss (plan_loop d (Z.of_nat (List.length r)) (Z.of_nat (List.length r)) r ss).
Proof.
  intros d ss; induction ss as [|s ss IH]; intros r HD Hd Hrd Hr; cbn [plan_loop]; [constructor|].
  destruct HD as [HD1 HD2]. assert (Hsd := Hd s (or_introl eq_refl)).
  assert (HC0 : Z.of_nat (List.length (filter (fun x => x <=? s) r)) = Z.of_nat (List.length r)).
  { apply (count_all (fun x => x <=? s)). intros x Hx. specialize (Hr x s Hx (or_introl eq_refl)). bools. }
  rewrite HC0.
  replace (if d <=? s - Z.of_nat (List.length r) then s - Z.of_nat (List.length r) + Z.of_nat (List.length r) else s - Z.of_nat (List.length r))
    with s by bools.
  replace (if s =? d then s else s) with s by bools. destruct (Z.leb_spec d s); [|lia].
  replace (Z.of_nat (List.length r) + 1) with (Z.of_nat (List.length (r ++ [s]))) by (rewrite app_length; cbn [List.length]; lia).
  assert (HF : from r d s = s).
  { unfold from. destruct (Z.ltb_spec s d); [lia|]. rewrite count_no; [lia|]. intros i Hi.
    specialize (Hr i s Hi (or_introl eq_refl)). bools. }
  assert (HT : to r d = d + Z.of_nat (List.length r)).
  { unfold to. f_equal. apply count_all. intros i Hi. specialize (Hrd i Hi). bools. }
  assert (IH' : plans d (r ++ [s]) ss
    (plan_loop d (Z.of_nat (List.length (r ++ [s]))) (Z.of_nat (List.length (r ++ [s]))) (r ++ [s]) ss)).
  { apply IH; auto.
    - intros t Ht. specialize (HD1 _ Ht). rewrite app_length. cbn [List.length]. lia.
    - intros i Hi. apply in_snoc in Hi as [Hi| ->]; auto.
    - intros i t Hi Ht. apply in_snoc in Hi as [Hi| ->]; [apply Hr; [exact Hi|now right]|now apply HD1]. }
  destruct (Z.eqb_spec s d) as [Hx|Hx]; cbn [List.app].
  - apply pl_skip; [|exact IH']. rewrite HF, HT. subst d. lia.
  - replace (s, d + Z.of_nat (List.length r)) with (from r d s, to r d) by (now rewrite HF, HT).
    apply pl_move. exact IH'.
Qed.

Definition tidy (d : Z) (ss : list Z) : Prop :=
  desc ss \/ (incr ss /\ ((forall s, In s ss -> s < d) \/ (forall s, In s ss -> d <= s))).
Lemma sources_ints : forall n ss, sources_of n (map inl ss) = Some ss.
Proof. intros n ss; induction ss as [|s ss IH]; cbn; [reflexivity|]. now rewrite IH. Qed.
Lemma nodup_first_id : forall ss seen, NoDup ss -> (forall s, In s ss -> ~ In s seen) -> nodup_first ss seen = ss.
Proof.
  induction ss as [|s ss IH]; intros seen HN HS; cbn; [reflexivity|]. inversion HN; subst.
  destruct (existsb (Z.eqb s) seen) eqn:HX.
  - apply existsb_exists in HX as (x & Hx & He). apply Z.eqb_eq in He as ->. exfalso. eapply HS; [now left|exact Hx].
  - f_equal. apply IH; [assumption|]. intros t Ht [->|Hs]; [contradiction|]. eapply HS; [right; exact Ht|exact Hs].
Qed.
Lemma desc_nodup : forall l, desc l -> NoDup l.
Proof.
  induction l as [|x l IH]; intros H; [constructor|]. destruct H as [H1 H2]. constructor; [|auto].
  intros Hx. specialize (H1 _ Hx). lia.
Qed.
Lemma incr_nodup : forall l, incr l -> NoDup l.
Proof.
  induction l as [|x l IH]; intros H; [constructor|]. destruct H as [H1 H2]. constructor; [|auto].
  intros Hx. specialize (H1 _ Hx). lia.
Qed.
Lemma move_multiple_does : forall ss d l, (forall s, In s ss -> 0 <= s < size l) -> 0 <= target l d <= size l ->
  tidy (target l d) ss ->
  does (el_move_multiple (map inl ss) d) l (fun u _ _ => u = gathered ss (target l d) l) never.
Proof.
  intros ss d l HB Hd HT. apply does_look. unfold move_plan. rewrite sources_ints.
  assert (HN : NoDup ss) by (destruct HT as [HT|[HT _]]; [now apply desc_nodup|now apply incr_nodup]).
  rewrite nodup_first_id by (auto; intros s _ []).
  change (if d <? 0 then d + size l + 1 else d) with (target l d). set (t := target l d) in *. clearbody t.
  assert (HP : plans t [] ss (plan_loop t 0 0 [] ss)).
  { destruct HT as [HT|[HT [H|H]]].
    - apply (plan_desc t ss [] []); [exact HT|intros i s []|intros i s []].
    - apply (plan_low t ss [] []); auto; cbn [In]; intros; contradiction.
    - apply (plan_high t ss []); auto.
      + intros s Hs. cbn [List.length]. specialize (H s Hs). lia.
      + intros i [].
      + intros i s []. }
  set (ps := plan_loop t 0 0 [] ss) in *. clearbody ps.
  eapply does_seq with (f1 := fun u hs _ => u = gathered ss t l).
  { apply blocked_mono. pose proof (plans_does t [] ss ps l HP) as H. rewrite gathered_none in H by exact Hd. apply H; auto. }
  intros u hs v ->.
  eapply does_seq with (f1 := fun u hs _ => u = gathered ss t l).
  { apply does_say; auto. } intros u hs' v' ->.
  apply does_ret. reflexivity.
Qed.

(** No move loses anything. *)
Lemma insert_perm : forall (l : data) i x, Permutation (x :: l) (list_insert l i x).
Proof.
  intros l i x. unfold list_insert, insert_nth. eapply perm_trans; [|apply Permutation_middle]. now rewrite firstn_skipn.
Qed.
Lemma pop_perm : forall (l l0 : data) i x, list_pop l i = Some (x, l0) -> Permutation l (x :: l0).
Proof.
  intros l l0 i x H. unfold list_pop in H. destruct (at_ l i) as [y|] eqn:Ha; [|discriminate]. injection H as -> <-.
  unfold at_ in Ha. destruct (valid l i); [|discriminate]. apply nth_error_split in Ha as (a & b & -> & HL).
  unfold remove_nth. rewrite <- HL, firstn_app, skipn_app, Nat.sub_diag, firstn_all, skipn_all2 by lia.
  replace (S (List.length a) - List.length a)%nat with 1%nat by lia. cbn [firstn skipn List.app].
  rewrite app_nil_r. apply Permutation_sym, Permutation_middle.
Qed.
Definition permuted (l : data) : post (U := data) := fun u _ _ => Permutation l u.
Lemma move_perm : forall i d l0 l h, Permutation l0 l -> wp E C (el_move i d) l h (permuted l0).
Proof.
  intros i d l0 l h HP. unfold el_move, say, act, seq, call, permuted. cbn [bind wp].
  destruct (_ || _); cbn [bind wp]; [exact HP|]. split; cbn [finish bind wp]; [|intros; exact HP]. intros _.
  unfold do_pop. destruct (list_pop l i) as [[x l1]|] eqn:HX; cbn [fst snd finish bind wp]; [|exact HP].
  unfold do_insert. cbn [fst snd finish bind wp].
  match goal with |- context [list_insert l1 ?k x] => set (kk := k) end.
  assert (HQ : Permutation l0 (list_insert l1 kk x)).
  { eapply perm_trans; [exact HP|]. eapply perm_trans; [eapply pop_perm; eauto|]. apply insert_perm. }
  split; cbn [finish bind wp]; [|intros; exact HQ]. intros _. split; cbn [finish bind wp]; intros; exact HQ.
Qed.
Lemma moves_perm : forall ps l0 l h, Permutation l0 l ->
  wp E C (each (fun m => el_move (fst m) (snd m)) ps) l h (permuted l0).
Proof.
  induction ps as [|m ps IH]; intros l0 l h HP; cbn [each]; [exact HP|]. unfold seq. apply wp_bind.
  eapply wp_mono; [|apply (move_perm _ _ l0 l h HP)]. intros u h' [v|e|] HH; auto.
Qed.
Lemma move_multiple_perm : forall ss d l h, wp E C (el_move_multiple ss d) l h (permuted l).
Proof.
  intros ss d l h. unfold el_move_multiple. cbn [wp]. destruct (move_plan (size l) ss d) as [ps|]; [|cbn; apply Permutation_refl].
  unfold seq at 1. apply wp_bind. unfold with_blocked, try_finally, call. cbn [bind wp]. intros b. cbn [finish bind].
  apply wp_catch. eapply wp_mono; [|apply (moves_perm ps l l h (Permutation_refl l))].
  unfold say, seq, call. intros u h' [v|e|] HH; auto; destruct b; cbn; auto.
  all: split; intros; exact HH.
Qed.

(** ** Events, whatever happens to the contents *)
Definition may : fails (U := data) := fun _ _ _ => True.
Lemma del_tells : forall i l, does (el_del i) l (fun u hs _ => tells l u hs) may.
Proof.
  intros i l. apply does_look. cbn [sort_desc fold_right insert_desc each].
  eapply does_seq with (f1 := fun u hs _ => tells l u hs).
  { eapply does_mono; [apply del_one_does| |intros; exact I]. intros u hs v (x & _ & HT). exact HT. }
  intros u hs v HT. apply does_ret. now rewrite app_nil_r.
Qed.
Lemma swap_tells : forall n k l, does (swap_one islist wrap n k) l (fun u hs _ => tells l u hs) may.
Proof.
  intros n k l. unfold swap_one.
  eapply does_bind with (f1 := fun u hs v => u = l /\ hs = []).
  { eapply does_mono; [apply get_does| |intros; exact I]. intros u hs v (-> & -> & _). auto. }
  intros u hs a [-> ->].
  eapply does_bind with (f1 := fun u hs v => u = l /\ hs = []).
  { eapply does_mono; [apply get_does| |intros; exact I]. intros u hs v (-> & -> & _). auto. }
  intros u hs b [-> ->].
  eapply does_seq with (f1 := fun u hs v => tells l u hs).
  { eapply does_mono; [apply set_does| |intros; exact I]. intros u hs v (_ & _ & HT). exact HT. }
  intros u hs v HT. eapply does_mono; [apply set_does| |intros; exact I].
  intros u' hs' v' (_ & _ & HT'). cbn [List.app]. eapply follows_app; eauto.
Qed.
Lemma swaps_tell : forall n ks l, does (each (swap_one islist wrap n) ks) l (fun u hs _ => tells l u hs) may.
Proof.
  intros n ks; induction ks as [|k ks IH]; intros l; cbn [each].
  - apply does_ret. apply fo_nil.
  - eapply does_seq with (f1 := fun u hs _ => tells l u hs); [apply swap_tells|].
    intros u hs v HT. eapply does_mono with (g := may); [apply IH| |intros; exact I].
    intros u' hs' v' HT'. eapply follows_app; eauto.
Qed.
Lemma reverse_tells : forall l, does (el_reverse islist wrap true) l (fun u hs _ => tells l u hs) may.
Proof.
  intros l. unfold el_reverse. eapply does_seq; [apply does_look, swaps_tell|]. intros u hs v HT.
  eapply does_seq with (f1 := fun u' hs _ => u' = u /\ hs = [(reordered, [], u')]).
  { apply does_say; auto. } intros u' hs' z [-> ->].
  apply does_ret. rewrite app_nil_r. eapply follows_app; [exact HT|]. apply fo_reordered, fo_nil.
Qed.
End L.
