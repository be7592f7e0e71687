(** Reading EventedLists (C79, C80) and EventedDicts (C81). *)

From Verif Require Import Base PyList PyDict PySet EListRead.
Open Scope Z_scope.

Section Lists.
Variable eqv : val -> val -> bool.
Variable islist : val -> bool.
Variable wrap : val -> val.

(** What the operations give for a builtin list. *)
Definition matches (value x : val) : Prop := x = value \/ eqv x value = true.
(** The positions l.index(value, start, stop) looks at. *)
Definition within (n start : Z) (stop : option Z) (i : Z) : Prop :=
  0 <= i < n /\ (if start <? 0 then n + start else start) <= i
  /\ match stop with Some s => i < (if s <? 0 then n + s else s) | None => True end.
Definition plain_items (l : list val) : Prop := forall x, In x l -> islist x = false.

Lemma at_nat : forall (l : list val) n, at_ l (Z.of_nat n) = nth_error l n.
Proof.
  intros l n. unfold at_, valid, norm, size. destruct (Z.ltb_spec (Z.of_nat n) 0); [lia|].
  destruct (Z.leb_spec 0 (Z.of_nat n)); [|lia]. rewrite Nat2Z.id. cbn [andb].
  destruct (Z.ltb_spec (Z.of_nat n) (Z.of_nat (List.length l))); [reflexivity|]. symmetry. apply nth_error_None. lia.
Qed.
Lemma iterate_skip : forall (l : list val) m n, (List.length l - n < m)%nat ->
  iterate islist wrap m (Z.of_nat n) l = map (seen islist wrap) (skipn n l).
Proof.
  intros l m. induction m as [|m IH]; intros n H; [lia|]. cbn [iterate]. rewrite at_nat.
  destruct (nth_error l n) as [x|] eqn:E.
  - replace (Z.of_nat n + 1) with (Z.of_nat (S n)) by lia.
    assert (n < List.length l)%nat by (apply nth_error_Some; congruence). rewrite IH by lia.
    replace (skipn n l) with (x :: skipn (S n) l); [reflexivity|].
    clear - E. revert n E. induction l as [|y l IH]; intros [|n] E; try discriminate; cbn in *; [now injection E as ->|].
    now apply IH.
  - apply nth_error_None in E. now rewrite skipn_all2.
Qed.
Lemma iter_all : forall o, lr_iter islist wrap o = map (seen islist wrap) (lo_data o).
Proof. intros o. unfold lr_iter. rewrite (iterate_skip (lo_data o) _ 0) by lia. reflexivity. Qed.
Lemma backwards_rev : forall (l : list val) n, (n <= List.length l)%nat ->
  backwards islist wrap n l = rev (map (seen islist wrap) (firstn n l)).
Proof.
  intros l n. induction n as [|n IH]; intros H; [reflexivity|]. cbn [backwards]. rewrite at_nat.
  destruct (nth_error l n) as [x|] eqn:E; [|apply nth_error_None in E; lia]. rewrite IH by lia.
  replace (firstn (S n) l) with (firstn n l ++ [x]).
  - rewrite map_app, rev_app_distr. reflexivity.
  - clear - E. revert n E. induction l as [|y l IH]; intros [|n] E; try discriminate; cbn in *; [now injection E as ->|].
    f_equal. now apply IH.
Qed.
Lemma seen_plain : forall l, plain_items l -> map (seen islist wrap) l = l.
Proof.
  intros l H. induction l as [|x l IH]; cbn; [reflexivity|]. unfold seen at 1. rewrite (H x (or_introl eq_refl)).
  f_equal. apply IH. intros y Hy. apply H. now right.
Qed.

(** C79: access, slices, iteration, length, +, copy. *)
Theorem C79_items_partial : forall o, plain_items (lo_data o) ->
  let l := lo_data o in let n := Z.of_nat (List.length l) in
  (forall i x, lr_get islist wrap i o = LVal x <->
     exists j : nat, nth_error l j = Some x /\ (i = Z.of_nat j \/ i = Z.of_nat j - n))
  /\ (forall i, lr_get islist wrap i o = LErr EIndex <-> (i < - n \/ n <= i))
  /\ (forall s, match get_slice l s with
                | Some m => exists h c, lr_slice s o = LEvented (Lobj m h c)
                | None => lr_slice s o = LErr EValue
                end)
  /\ lr_iter islist wrap o = l /\ lr_reversed islist wrap o = rev l /\ lr_len o = n
  /\ lo_data (lr_copy islist wrap o) = l
  /\ (forall m, (exists h c, lr_add islist wrap (ALst m) o = LEvented (Lobj (l ++ m) h c))
                /\ (exists h c, lr_add islist wrap (AIter m) o = LEvented (Lobj (l ++ m) h c))
                /\ lr_radd islist wrap (ALst m) o = LBuiltin (m ++ l))
  /\ (forall o', plain_items (lo_data o') -> exists h c, lr_add islist wrap (AEvented o') o = LEvented (Lobj (l ++ lo_data o') h c))
  /\ lr_add islist wrap ANone o = LErr EType
  /\ (forall a, (forall m, a <> ALst m) -> lr_radd islist wrap a o = LErr EType).
Proof.
  intros o HP. cbv zeta. set (l := lo_data o) in *.
  assert (HS : forall x, In x l -> seen islist wrap x = x) by (intros x Hx; unfold seen; now rewrite (HP x Hx)).
  assert (HG : forall i, (- Z.of_nat (List.length l) <= i < Z.of_nat (List.length l) ->
     exists x, lr_get islist wrap i o = LVal x /\ nth_error l (Z.to_nat (norm l i)) = Some x) /\
     (i < - Z.of_nat (List.length l) \/ Z.of_nat (List.length l) <= i -> lr_get islist wrap i o = LErr EIndex)).
  { intros i. unfold lr_get, at_, valid. fold l. split; intros H.
    - assert (HB : 0 <= norm l i < size l) by (unfold norm, size; destruct (Z.ltb_spec i 0); lia).
      destruct (Z.leb_spec 0 (norm l i)); [|lia]. destruct (Z.ltb_spec (norm l i) (size l)); [|lia]. cbn [andb].
      destruct (nth_error l (Z.to_nat (norm l i))) as [x|] eqn:E; [|apply nth_error_None in E; unfold size in HB; lia].
      exists x. split; [|reflexivity]. rewrite HS; [reflexivity|]. now apply nth_error_In in E.
    - assert (HB : norm l i < 0 \/ size l <= norm l i) by (unfold norm, size; destruct (Z.ltb_spec i 0); lia).
      destruct (Z.leb_spec 0 (norm l i)); cbn [andb]; [|reflexivity]. destruct (Z.ltb_spec (norm l i) (size l)); [lia|reflexivity]. }
  split; [|split; [|split; [|split; [|split; [|split; [|split; [|split; [|split; [|split]]]]]]]]].
  - intros i x. destruct (HG i) as [H1 H2]. split.
    + intros H. destruct (Z_lt_dec i (- Z.of_nat (List.length l))) as [?|?]; [rewrite H2 in H by lia; discriminate|].
      destruct (Z_le_dec (Z.of_nat (List.length l)) i) as [?|?]; [rewrite H2 in H by lia; discriminate|].
      destruct H1 as (y & Hy & HN); [lia|]. rewrite H in Hy. injection Hy as <-. exists (Z.to_nat (norm l i)). split; [exact HN|].
      unfold norm, size in *. destruct (Z.ltb_spec i 0); lia.
    + intros (j & Hj & Hi). assert (j < List.length l)%nat by (apply nth_error_Some; congruence).
      destruct H1 as (y & -> & HN); [lia|]. f_equal. replace (Z.to_nat (norm l i)) with j in HN; [congruence|].
      unfold norm, size. destruct (Z.ltb_spec i 0); lia.
  - intros i. destruct (HG i) as [H1 H2]. split; [|exact H2]. intros H.
    destruct (Z_lt_dec i (- Z.of_nat (List.length l))) as [?|?]; [lia|]. destruct (Z_le_dec (Z.of_nat (List.length l)) i) as [?|?]; [lia|].
    destruct H1 as (x & Hx & _); [lia|]. congruence.
  - intros s. unfold lr_slice. fold l. destruct (get_slice l s); [|reflexivity]. eexists _, _. reflexivity.
  - rewrite iter_all. now apply seen_plain.
  - unfold lr_reversed. fold l. rewrite backwards_rev, firstn_all by lia. now rewrite seen_plain.
  - reflexivity.
  - unfold lr_copy, newlike. cbn [lo_data]. rewrite iter_all. now apply seen_plain.
  - intros m. unfold lr_add, lr_radd, lr_copy, newlike. cbn [lo_data lo_hashable lo_child items_of]. rewrite iter_all. fold l. rewrite (seen_plain l HP). repeat split; eexists _, _; reflexivity.
  - intros o' HP'. unfold lr_add, lr_copy, newlike. cbn [lo_data lo_hashable lo_child items_of]. rewrite !iter_all, (seen_plain _ HP'). fold l. rewrite (seen_plain l HP). eexists _, _. reflexivity.
  - reflexivity.
  - intros [m|o'|m|] Ha; try reflexivity. now destruct (Ha m).
Qed.

(** C79: in, index(), count(), ==, also with lists as items: an EventedList is equal to what the list in it is equal to. *)
Hypothesis wrap_eq : forall x v, islist x = true -> eqv (wrap x) v = eqv x v.
Hypothesis list_refl : forall x, islist x = true -> eqv x x = true.
Lemma hit_matches : forall value x, hit eqv islist wrap value x = true <-> matches value x.
Proof.
  intros value x. unfold hit, matches, seen. destruct (islist x) eqn:E; cbn [negb andb orb].
  - rewrite (wrap_eq _ _ E). split; [now right|]. intros [->|H]; [now apply list_refl|exact H].
  - rewrite orb_true_iff, val_eqb_eq. tauto.
Qed.
Lemma look_spec : forall value stop (l : list val) m n, (List.length l - n < m)%nat ->
  match look eqv islist wrap value m (Z.of_nat n) stop l with
  | Some i => exists j x, i = Z.of_nat j /\ (n <= j)%nat /\ nth_error l j = Some x /\ matches value x
                /\ match stop with Some s => i < s | None => True end
                /\ forall k y, (n <= k < j)%nat -> nth_error l k = Some y -> ~ matches value y
  | None => forall k y, (n <= k)%nat -> match stop with Some s => Z.of_nat k < s | None => True end ->
              nth_error l k = Some y -> ~ matches value y
  end.
Proof.
  intros value stop l m. induction m as [|m IH]; intros n H; [lia|]. cbn [look]. rewrite at_nat.
  destruct (match stop with Some s => Z.of_nat n <? s | None => true end) eqn:ES.
  2:{ intros k y Hk Hs. destruct stop as [s|]; [|discriminate]. apply Z.ltb_ge in ES. lia. }
  destruct (nth_error l n) as [x|] eqn:E.
  2:{ intros k y Hk _ Hy. apply nth_error_None in E. assert (k < List.length l)%nat by (apply nth_error_Some; congruence). lia. }
  destruct (hit eqv islist wrap value x) eqn:EH.
  - exists n, x. apply hit_matches in EH. split; [reflexivity|]. split; [lia|]. split; [exact E|]. split; [exact EH|].
    split; [destruct stop as [s|]; [now apply Z.ltb_lt in ES|exact I]|]. intros k y Hk. lia.
  - assert (HN : ~ matches value x) by (intros HM; apply hit_matches in HM; congruence).
    replace (Z.of_nat n + 1) with (Z.of_nat (S n)) by lia.
    assert (n < List.length l)%nat by (apply nth_error_Some; congruence). specialize (IH (S n) ltac:(lia)).
    destruct (look eqv islist wrap value m (Z.of_nat (S n)) stop l) as [i|].
    + destruct IH as (j & y & -> & A & B & D & F & G). exists j, y. split; [reflexivity|]. split; [lia|]. split; [exact B|].
      split; [exact D|]. split; [exact F|].
      intros k z Hk Hz. destruct (Nat.eq_dec k n) as [->|]; [congruence|]. apply (G k z); [lia|exact Hz].
    + intros k y Hk Hs Hy. destruct (Nat.eq_dec k n) as [->|]; [congruence|]. apply (IH k y); [lia|exact Hs|exact Hy].
Qed.
Theorem C79_search : forall o value,
  let l := lo_data o in let n := Z.of_nat (List.length l) in
  (lr_contains eqv islist wrap value o = true <-> exists x, In x l /\ matches value x)
  /\ (forall start stop i, lr_index eqv islist wrap value start stop o = LVal (VInt i) <->
        within n start stop i /\ (exists x, nth_error l (Z.to_nat i) = Some x /\ matches value x)
        /\ forall j y, within n start stop j -> j < i -> nth_error l (Z.to_nat j) = Some y -> ~ matches value y)
  /\ (forall start stop, lr_index eqv islist wrap value start stop o = LErr EValue <->
        forall j y, within n start stop j -> nth_error l (Z.to_nat j) = Some y -> ~ matches value y)
  /\ (exists ms, lr_count eqv islist wrap value o = Z.of_nat (List.length ms) /\ NoDup ms
        /\ forall j, In j ms <-> exists y, nth_error l j = Some y /\ matches value y)
  /\ (forall m, lr_eq eqv (ALst m) o = true <-> Forall2 (fun x y => matches y x) l m)
  /\ (forall o', lr_eq eqv (AEvented o') o = true <-> Forall2 (fun x y => matches y x) (lo_data o') l)
  /\ (forall m, lr_eq eqv (AIter m) o = false) /\ lr_eq eqv ANone o = false.
Proof.
  intros o value. cbv zeta. set (l := lo_data o).
  assert (HE : forall a b, list_eq eqv a b = true <-> Forall2 (fun x y => matches y x) a b).
  { intros a. induction a as [|x a IH]; intros [|y b]; cbn.
    - split; [constructor|reflexivity].
    - split; [discriminate|inversion 1].
    - split; [discriminate|inversion 1].
    - rewrite andb_true_iff, IH, orb_true_iff, val_eqb_eq. split; [intros [A B]; constructor; [exact A|exact B]|]. inversion 1; subst. now split. }
  assert (HI : forall start stop, exists r, lr_index eqv islist wrap value start stop o = r /\
     ((exists i, r = LVal (VInt i) /\ within (Z.of_nat (List.length l)) start stop i /\ (exists x, nth_error l (Z.to_nat i) = Some x /\ matches value x)
        /\ forall j y, within (Z.of_nat (List.length l)) start stop j -> j < i -> nth_error l (Z.to_nat j) = Some y -> ~ matches value y)
      \/ (r = LErr EValue /\ forall j y, within (Z.of_nat (List.length l)) start stop j -> nth_error l (Z.to_nat j) = Some y -> ~ matches value y))).
  { intros start stop. eexists. split; [reflexivity|]. unfold lr_index. fold l. unfold size.
    set (st := if start <? 0 then Z.max (Z.of_nat (List.length l) + start) 0 else start).
    assert (Hst : 0 <= st) by (unfold st; destruct (Z.ltb_spec start 0); lia).
    set (sp := match stop with Some s => Some (if s <? 0 then s + Z.of_nat (List.length l) else s) | None => None end).
    pose proof (look_spec value sp l (S (List.length l)) (Z.to_nat st) ltac:(lia)) as HL.
    rewrite Z2Nat.id in HL by lia.
    assert (HW : forall j, within (Z.of_nat (List.length l)) start stop j <->
       (0 <= j < Z.of_nat (List.length l) /\ st <= j /\ match sp with Some s => j < s | None => True end)).
    { intros j. unfold within, st, sp. destruct (Z.ltb_spec start 0); destruct stop as [s|]; try destruct (Z.ltb_spec s 0); split; intros; lia || (repeat split; lia). }
    destruct (look eqv islist wrap value (S (List.length l)) st sp l) as [i|].
    - left. destruct HL as (j & x & -> & A & B & D & F & G). exists (Z.of_nat j). split; [reflexivity|].
      assert (j < List.length l)%nat by (apply nth_error_Some; congruence).
      split; [apply HW; repeat split; try lia; exact F|]. split; [exists x; rewrite Nat2Z.id; now split|].
      intros k y Hk Hlt. apply HW in Hk. apply (G (Z.to_nat k) y). lia.
    - right. split; [reflexivity|]. intros k y Hk Hy. apply HW in Hk. apply (HL (Z.to_nat k) y); [lia| |exact Hy].
      destruct sp; [lia|exact I]. }
  split; [|split; [|split; [|split; [|split; [|split; [|split]]]]]].
  - unfold lr_contains. fold l. pose proof (look_spec value None l (S (List.length l)) 0 ltac:(lia)) as HL. cbn [Z.of_nat] in HL.
    destruct (look eqv islist wrap value (S (List.length l)) 0 None l) as [i|].
    + split; [intros _|reflexivity]. destruct HL as (j & x & _ & _ & B & D & _). exists x. split; [now apply nth_error_In in B|exact D].
    + split; [discriminate|]. intros (x & Hx & HM). exfalso. apply In_nth_error in Hx. destruct Hx as (k & Hk).
      now apply (HL k x (Nat.le_0_l _) I Hk).
  - intros start stop i. destruct (HI start stop) as (r & -> & [(i' & -> & A & B & D)|(-> & A)]).
    + split; [intros H; injection H as ->; now split|]. intros (A' & (x & B1 & B2) & D'). f_equal. f_equal.
      destruct B as (x' & B1' & B2'). destruct (Z.lt_trichotomy i' i) as [H|[H|H]]; [|exact H|].
      * exfalso. now apply (D' i' x' A H B1').
      * exfalso. now apply (D i x A' H B1).
    + split; [discriminate|]. intros (A' & (x & B1 & B2) & _). exfalso. now apply (A i x A' B1).
  - intros start stop. destruct (HI start stop) as (r & -> & [(i' & -> & A & (x & B1 & B2) & D)|(-> & A)]).
    + split; [discriminate|]. intros H. exfalso. now apply (H i' x A B1).
    + tauto.
  - unfold lr_count. fold l. clear HE HI. induction l as [|x l (ms & A & B & D)].
    + exists []. split; [reflexivity|]. split; [constructor|]. intros j. split; [intros []|]. intros (y & Hy & _). now destruct j.
    + cbn [tally].
      assert (ND : NoDup (map S ms)) by (apply FinFun.Injective_map_NoDup; [intros a b H; now injection H|exact B]).
      assert (HS : forall j, In (S j) (map S ms) <-> exists y, nth_error l j = Some y /\ matches value y).
      { intros j. rewrite <- D, in_map_iff. split; [intros (k & H & Hk); now injection H as ->|]. intros H. now exists j. }
      assert (H0 : ~ In 0%nat (map S ms)) by (rewrite in_map_iff; intros (k & H & _); discriminate).
      destruct (hit eqv islist wrap value x) eqn:EH.
      * exists (0%nat :: map S ms). split; [cbn [List.length]; rewrite map_length, A; lia|]. split; [now constructor|].
        apply hit_matches in EH. intros [|j]; cbn [In nth_error].
        -- split; [intros _; now exists x|now left].
        -- rewrite <- HS. split; [intros [H|H]; [discriminate|exact H]|now right].
      * exists (map S ms). split; [rewrite map_length, A; lia|]. split; [exact ND|].
        intros [|j]; cbn [nth_error]; [|apply HS]. split; [contradiction|]. intros (y & Hy & HM). injection Hy as <-.
        apply hit_matches in HM. congruence.
  - intros m. apply HE.
  - intros o'. apply HE.
  - reflexivity.
  - reflexivity.
Qed.
End Lists.

(** Items 3, [4], 3; [4] is the list object 1, the wrapper around it is object 2, another list with the same content is object 5. *)
Definition C79_eqv (a b : val) : bool :=
  match a, b with VObj x, VObj y => mem val_eqb a [VObj 1%nat; VObj 2%nat; VObj 5%nat] && mem val_eqb b [VObj 1%nat; VObj 2%nat; VObj 5%nat] | _, _ => val_eqb a b end.
Definition C79_islist (a : val) : bool := val_eqb a (VObj 1%nat) || val_eqb a (VObj 5%nat).
Definition C79_wrap (a : val) : val := VObj 2%nat.
Definition C79_list : lobj := Lobj [VInt 3; VObj 1%nat; VInt 3] true false.
Definition C79_flat : lobj := Lobj [VInt 3; VInt 7; VInt 3; VInt 9] true false.
Example C79_items_case :
  plain_items C79_islist (lo_data C79_flat)
  /\ lr_get C79_islist C79_wrap (-1) C79_flat = LVal (VInt 9) /\ lr_get C79_islist C79_wrap (-5) C79_flat = LErr EIndex
  /\ lr_slice (Some 2, None, Some (-1)) C79_flat = LEvented (Lobj [VInt 3; VInt 7; VInt 3] true false)
  /\ lr_reversed C79_islist C79_wrap C79_flat = [VInt 9; VInt 3; VInt 7; VInt 3]
  /\ lr_radd C79_islist C79_wrap (ALst [VInt 0]) C79_flat = LBuiltin [VInt 0; VInt 3; VInt 7; VInt 3; VInt 9].
Proof.
  split; [intros x Hx; cbn in Hx; repeat (destruct Hx as [<-|Hx]; [reflexivity|]); destruct Hx|]. repeat split; reflexivity.
Qed.
Example C79_search_case :
  (forall x v, C79_islist x = true -> C79_eqv (C79_wrap x) v = C79_eqv x v)
  /\ (forall x, C79_islist x = true -> C79_eqv x x = true)
  /\ lr_contains C79_eqv C79_islist C79_wrap (VObj 5%nat) C79_list = true
  /\ lr_index C79_eqv C79_islist C79_wrap (VInt 3) (-2) None C79_list = LVal (VInt 2)
  /\ lr_index C79_eqv C79_islist C79_wrap (VInt 3) 1 (Some (-1)) C79_list = LErr EValue
  /\ lr_count C79_eqv C79_islist C79_wrap (VInt 3) C79_list = 2
  /\ lr_eq C79_eqv (AEvented (Lobj [VInt 3; VObj 5%nat; VInt 3] true true)) C79_list = true.
Proof.
  assert (H : forall x, C79_islist x = true -> x = VObj 1%nat \/ x = VObj 5%nat).
  { intros x Hx. apply orb_true_iff in Hx. rewrite !val_eqb_eq in Hx. exact Hx. }
  split; [intros x v Hx; destruct (H x Hx) as [->| ->]; destruct v; reflexivity|].
  split; [intros x Hx; destruct (H x Hx) as [->| ->]; reflexivity|]. repeat split; reflexivity.
Qed.
(** False of the code for items that are lists: l[i] and iteration give a new EventedList instead of the item, so that
    copy() and + do not contain the items (slices do). *)
Theorem C79_nested_refuted :
  lr_get C79_islist C79_wrap 1 C79_list = LVal (VObj 2%nat) /\ nth_error (lo_data C79_list) 1 = Some (VObj 1%nat)
  /\ lo_data (lr_copy C79_islist C79_wrap C79_list) = [VInt 3; VObj 2%nat; VInt 3]
  /\ lr_slice (None, None, None) C79_list = LEvented (Lobj [VInt 3; VObj 1%nat; VInt 3] true false)
  /\ lr_radd C79_islist C79_wrap (ALst []) C79_list = LBuiltin [VInt 3; VObj 2%nat; VInt 3].
Proof. repeat split; reflexivity. Qed.
Print Assumptions C79_items_partial.
Print Assumptions C79_search.
Print Assumptions C79_nested_refuted.

(** * C80 *)

(** C80: == of EventedLists is an equivalence if that of the items is; lists made with hashable=False have no hash, the hash of the
    others does not depend on their content; new lists made from one with the default settings have these. *)
Theorem C80_partial : forall eqv islist wrap,
  (forall o, lr_eq eqv (AEvented o) o = true)
  /\ ((forall x y, eqv x y = eqv y x) -> forall a b, lr_eq eqv (AEvented a) b = lr_eq eqv (AEvented b) a)
  /\ ((forall x y z, eqv x y = true -> eqv y z = true -> eqv x z = true) ->
      forall a b c, lr_eq eqv (AEvented a) b = true -> lr_eq eqv (AEvented b) c = true -> lr_eq eqv (AEvented a) c = true)
  /\ (forall self l l' c h,
        match lr_hash self (Lobj l h c) with LVal v => h = true /\ lr_hash self (Lobj l' h c) = LVal v | LErr e => h = false /\ e = EType | _ => False end)
  /\ (forall l r, (r = LEvented (lr_copy islist wrap (Lobj l true false))
                  \/ (exists s, r = lr_slice s (Lobj l true false)) \/ (exists a, r = lr_add islist wrap a (Lobj l true false))) ->
        forall o, r = LEvented o -> lo_hashable o = true /\ lo_child o = false).
Proof.
  intros eqv islist wrap.
  assert (HE : forall a b, list_eq eqv a b = true <-> Forall2 (fun x y => x = y \/ eqv x y = true) a b).
  { intros a. induction a as [|x a IH]; intros [|y b]; cbn.
    - split; [constructor|reflexivity].
    - split; [discriminate|inversion 1].
    - split; [discriminate|inversion 1].
    - rewrite andb_true_iff, IH, orb_true_iff, val_eqb_eq. split; [intros [A B]; constructor; [exact A|exact B]|]. inversion 1; subst. now split. }
  split; [|split; [|split; [|split]]].
  - intros o. cbn. apply HE. induction (lo_data o); constructor; auto.
  - intros HS a b. cbn. apply eq_true_iff_eq. rewrite !HE.
    split; intros H; induction H; constructor; auto; (destruct H as [->|H]; [now left|right; now rewrite HS]).
  - intros HT a b c. cbn. rewrite !HE. intros H1 H2. revert H1 H2. generalize (lo_data a) (lo_data b) (lo_data c).
    intros p q r H1. revert r. induction H1 as [|x y p q HA H1 IH]; intros r H2; [exact H2|].
    inversion H2 as [|? z ? r' HB HR]; subst. constructor; [|now apply IH].
    destruct HA as [->|HA]; [exact HB|]. destruct HB as [<-|HB]; [now right|]. right. now apply (HT x y z).
  - intros self l l' c h. unfold lr_hash. cbn. destruct h; auto.
  - intros l r H o ->. destruct H as [H|[(s & H)|(a & H)]].
    + injection H as ->. now split.
    + unfold lr_slice in H. destruct (get_slice _ s); [|discriminate]. injection H as ->. now split.
    + unfold lr_add in H. destruct (items_of _ _ a); [|discriminate]. injection H as ->. now split.
Qed.
Example C80_case : lr_eq C79_eqv (AEvented (Lobj [VObj 5%nat] false true)) (Lobj [VObj 1%nat] true false) = true
  /\ lr_hash 12 (Lobj [VObj 5%nat] false true) = LErr EType /\ lr_hash 12 (Lobj [VObj 5%nat] true true) = LVal (VInt 12)
  /\ lr_eq C79_eqv (AIter [VObj 1%nat]) (Lobj [VObj 1%nat] true false) = false.
Proof. repeat split; reflexivity. Qed.
(** False of the code: copies and slices have the default settings, whatever those of the list; equal lists have different
    hashes. *)
Theorem C80_settings_refuted :
  lr_copy C79_islist C79_wrap (Lobj [VInt 1] false true) = Lobj [VInt 1] true false
  /\ lr_slice (None, None, None) (Lobj [VInt 1] false true) = LEvented (Lobj [VInt 1] true false).
Proof. split; reflexivity. Qed.
Theorem C80_hash_refuted : exists a b, lr_eq C79_eqv (AEvented a) b = true
  /\ forall ida idb, ida <> idb -> exists x y, lr_hash ida a = LVal x /\ lr_hash idb b = LVal y /\ x <> y.
Proof.
  exists (Lobj [VInt 1] true false), (Lobj [VInt 1] true false). split; [reflexivity|].
  intros i j H. exists (VInt i), (VInt j). repeat split; congruence.
Qed.
Print Assumptions C80_partial.
Print Assumptions C80_settings_refuted.
Print Assumptions C80_hash_refuted.

(** * C81 *)
Section Dicts.
Variable same : val -> val -> bool.
Variable eqv : val -> val -> bool.
Variable isinst : val -> oid -> bool.
Hypothesis refl : forall x, same x x = true.
Hypothesis sym : forall x y, same x y = true -> same y x = true.
Hypothesis trans : forall x y z, same x y = true -> same y z = true -> same x z = true.

Lemma distinct_one : forall (d : list (val * val)) k v k' v', distinct same (map fst d) -> In (k, v) d -> In (k', v') d -> same k k' = true -> k = k' /\ v = v'.
Proof.
  intros d k v k' v'. induction d as [|[x y] d IH]; intros HD H1 H2 HS; [destruct H1|]. cbn in HD. destruct HD as [HN HD].
  assert (HX : forall j w, In (j, w) d -> same x j = false).
  { intros j w Hj. destruct (same x j) eqn:E; [|reflexivity]. unfold mem in HN. rewrite <- HN. symmetry. apply existsb_exists.
    exists j. split; [|exact E]. now apply (in_map fst) in Hj. }
  destruct H1 as [H1|H1], H2 as [H2|H2].
  - split; congruence.
  - injection H1 as -> ->. rewrite (HX k' v' H2) in HS. discriminate.
  - injection H2 as -> ->. apply sym in HS. rewrite (HX k v H1) in HS. discriminate.
  - now apply IH.
Qed.
Lemma dget_in : forall (d : list (val * val)) k v, distinct same (map fst d) -> (dget same k d = Some v <-> exists x, In (x, v) d /\ same k x = true).
Proof.
  intros d k v HD. split.
  - clear HD. induction d as [|[x y] d IH]; cbn; [discriminate|]. destruct (same k x) eqn:E.
    + intros H. injection H as ->. exists x. split; [now left|exact E].
    + intros H. destruct (IH H) as (z & Hz & Hs). exists z. split; [now right|exact Hs].
  - intros (x & Hx & Hs). induction d as [|[z y] d IH]; cbn; [destruct Hx|]. destruct (same k z) eqn:E.
    + destruct (distinct_one ((z, y) :: d) z y x v HD (or_introl eq_refl) Hx) as [_ ->]; [|reflexivity]. apply (trans z k x); [now apply sym|exact Hs].
    + destruct Hx as [Hx|Hx]; [injection Hx as -> ->; congruence|]. apply IH; [now cbn in HD|exact Hx].
Qed.
Lemma dget_none : forall (d : list (val * val)) k, dget same k d = None <-> forall x v, In (x, v) d -> same k x = false.
Proof.
  intros d k. induction d as [|[x y] d IH]; cbn; [split; [intros _ ? ? []|reflexivity]|]. destruct (same k x) eqn:E.
  - split; [discriminate|]. intros H. rewrite (H x y) in E by now left. discriminate.
  - rewrite IH. split; [intros H z v [Hz|Hz]; [congruence|eauto]|eauto].
Qed.
Lemma gather_all : forall o l, distinct same (map fst (do_data o)) -> incl l (do_data o) -> gather same (map fst l) o = inl l.
Proof.
  intros o l HD. induction l as [|[k v] l IH]; intros HI; cbn [map fst gather]; [reflexivity|].
  unfold dr_get. rewrite (proj2 (dget_in (do_data o) k v HD)).
  2:{ exists k. split; [apply HI; now left|apply refl]. }
  rewrite IH; [reflexivity|]. intros z Hz. apply HI. now right.
Qed.
Lemma dset_new : forall (d : list (val * val)) k v, dget same k d = None -> dset same k v d = d ++ [(k, v)].
Proof. intros d k v. induction d as [|[x y] d IH]; cbn; intros H; [reflexivity|]. destruct (same k x); [discriminate|]. now rewrite IH. Qed.
Lemma distinct_mid : forall a k (b : list val), distinct same (a ++ k :: b) -> forall x, In x a -> same k x = false.
Proof.
  intros a k b. induction a as [|y a IH]; cbn; intros HD x Hx; [destruct Hx|].
  destruct Hx as [<-|Hx]; [destruct HD as [HN _]|now apply (IH (proj2 HD))].
  destruct (same k y) eqn:E; [|reflexivity]. apply sym in E. rewrite <- HN. symmetry. apply existsb_exists. exists k.
  split; [apply in_or_app; right; now left|exact E].
Qed.
Lemma to_dict_app : forall (l d : list (val * val)), distinct same (map fst (d ++ l)) -> fold_left (fun d kv => dset same (fst kv) (snd kv) d) l d = d ++ l.
Proof.
  intros l. induction l as [|[k v] l IH]; intros d HD; cbn [fold_left fst snd]; [now rewrite app_nil_r|].
  rewrite dset_new.
  - rewrite IH; rewrite <- app_assoc; [reflexivity|exact HD].
  - apply dget_none. intros x w Hx. rewrite map_app in HD. cbn [map fst] in HD. apply (distinct_mid _ _ _ HD). now apply (in_map fst) in Hx.
Qed.
(** C81 *)
Theorem C81_like_dict : forall o, let d := do_data o in distinct same (map fst d) ->
  (forall k v, dr_get same k o = inl v <-> exists x, In (x, v) d /\ same k x = true)
  /\ (forall k, dr_get same k o = inr EKey <-> forall x v, In (x, v) d -> same k x = false)
  /\ (forall k e, dr_get same k o = inr e -> e = EKey)
  /\ (forall k f v, dr_get_default same k f o = inl v <->
        (exists x, In (x, v) d /\ same k x = true) \/ (v = f /\ forall x w, In (x, w) d -> same k x = false))
  /\ (forall k, dr_contains same k o = inl true <-> exists x v, In (x, v) d /\ same k x = true)
  /\ (forall k, dr_contains same k o = inl true \/ dr_contains same k o = inl false)
  /\ dr_len o = List.length d /\ dr_iter o = map fst d /\ dr_items same o = inl d /\ dr_values same o = inl (map snd d)
  /\ (forall k v, exists b, dr_in_items same eqv k v o = inl b
        /\ (b = true <-> exists x y, In (x, y) d /\ same k x = true /\ (y = v \/ eqv y v = true)))
  /\ (forall v, exists b, dr_in_values same eqv v o = inl b /\ (b = true <-> exists x y, In (x, y) d /\ (y = v \/ eqv y v = true)))
  /\ (forall l, distinct same (map fst l) -> exists b, dr_eq same eqv (Some l) o = inl b
        /\ (b = true <-> List.length d = List.length l /\
             forall k v, In (k, v) d -> exists k' v', In (k', v') l /\ same k k' = true /\ (v = v' \/ eqv v v' = true)))
  /\ dr_eq same eqv None o = inl false.
Proof.
  intros o d HD. assert (HG : dr_items same o = inl d) by (apply gather_all; [exact HD|apply incl_refl]).
  assert (G1 : forall k v, dr_get same k o = inl v <-> exists x, In (x, v) d /\ same k x = true).
  { intros k v. rewrite <- dget_in by exact HD. unfold dr_get. fold d. destruct (dget same k d); split; congruence. }
  assert (G2 : forall k, dr_get same k o = inr EKey <-> forall x v, In (x, v) d -> same k x = false).
  { intros k. rewrite <- dget_none. unfold dr_get. fold d. destruct (dget same k d); split; congruence. }
  assert (G3 : forall k e, dr_get same k o = inr e -> e = EKey).
  { intros k e. unfold dr_get. destruct (dget _ _ _); congruence. }
  assert (GD : forall k, (exists v, dr_get same k o = inl v) \/ dr_get same k o = inr EKey).
  { intros k. unfold dr_get. destruct (dget _ _ _); eauto. }
  split; [exact G1|]. split; [exact G2|]. split; [exact G3|]. split; [|split; [|split; [|split; [reflexivity|split; [reflexivity|split; [exact HG|split; [|split; [|split; [|split; [|reflexivity]]]]]]]]]].
  - intros k f v. unfold dr_get_default. rewrite <- G1, <- G2. destruct (GD k) as [(y & ->)| ->]; split.
    + now left.
    + intros [H|[_ H]]; congruence.
    + intros H. right. split; congruence.
    + intros [H|[-> _]]; congruence.
  - intros k. unfold dr_contains. destruct (GD k) as [(y & E)|E]; rewrite E; split; try discriminate.
    + intros _. apply G1 in E as (x & Hx & Hs). now exists x, y.
    + reflexivity.
    + intros (x & v & Hx & Hs). rewrite (proj1 (G2 k) E x v Hx) in Hs. discriminate.
  - intros k. unfold dr_contains. destruct (GD k) as [(y & ->)| ->]; tauto.
  - unfold dr_values. now rewrite HG.
  - intros k v. unfold dr_in_items. destruct (GD k) as [(y & E)|E]; rewrite E; eexists; (split; [reflexivity|]).
    + rewrite orb_true_iff, val_eqb_eq. split.
      * intros H. apply G1 in E as (x & Hx & Hs). now exists x, y.
      * intros (x & z & Hx & Hs & H). assert (dr_get same k o = inl z) by (apply G1; eauto). replace y with z by congruence. exact H.
    + split; [discriminate|]. intros (x & z & Hx & Hs & _). rewrite (proj1 (G2 k) E x z Hx) in Hs. discriminate.
  - intros v. unfold dr_in_values, dr_values. rewrite HG. eexists. split; [reflexivity|]. rewrite existsb_exists. split.
    + intros (y & Hy & H). apply in_map_iff in Hy as ([x z] & <- & Hy). apply orb_true_iff in H. rewrite val_eqb_eq in H. now exists x, z.
    + intros (x & y & Hx & H). exists y. split; [now apply (in_map snd) in Hx|]. apply orb_true_iff. now rewrite val_eqb_eq.
  - intros l HL. unfold dr_eq. rewrite HG. eexists. split; [reflexivity|]. unfold to_dict. rewrite !to_dict_app by assumption. cbn [app].
    unfold dict_eq. rewrite andb_true_iff, Nat.eqb_eq, forallb_forall. split; intros [H1 H2]; (split; [exact H1|]).
    + intros k v Hk. specialize (H2 (k, v) Hk). cbn [fst snd] in H2. destruct (dget same k l) as [y|] eqn:E; [|discriminate].
      apply dget_in in E as (x & Hx & Hs); [|exact HL]. exists x, y. apply orb_true_iff in H2. now rewrite val_eqb_eq in H2.
    + intros [k v] Hk. destruct (H2 k v Hk) as (x & y & Hx & Hs & H). cbn [fst snd].
      rewrite (proj2 (dget_in l k y HL)) by eauto. apply orb_true_iff. now rewrite val_eqb_eq.
Qed.
(** C81: a copy has the same entries in the same order and the same types (which the values have: they were checked when they were put in). *)
Theorem C81_copy : forall o, distinct same (map fst (do_data o)) ->
  (do_types o <> [] -> forall k v, In (k, v) (do_data o) -> exists t, In t (do_types o) /\ isinst v t = true) ->
  dr_copy same isinst o = inl o.
Proof.
  intros o HD HT. assert (HK : forall v, In v (map snd (do_data o)) -> type_ok isinst (do_types o) v = true).
  { intros v Hv. apply in_map_iff in Hv as ([k w] & <- & Hv). cbn [snd]. unfold type_ok. destruct (do_types o) as [|t ts] eqn:E; [reflexivity|].
    destruct (HT ltac:(discriminate) k w Hv) as (u & Hu & HI). apply existsb_exists. eauto. }
  assert (HF : forall l d, d ++ l = do_data o -> fill same isinst (do_types o) o (map fst l) d = inl (do_data o)).
  { intros l. induction l as [|[k v] l IH]; intros d HE; cbn [map fst fill]; [now rewrite app_nil_r in HE; subst|].
    unfold dr_get. rewrite (proj2 (dget_in (do_data o) k v HD)).
    2:{ exists k. split; [rewrite <- HE; apply in_or_app; right; now left|apply refl]. }
    assert (HN : dget same k d = None).
    { apply dget_none. intros x w Hx. rewrite <- HE, map_app in HD. apply (distinct_mid _ _ _ HD). now apply (in_map fst) in Hx. }
    rewrite HN, HK.
    - rewrite (dset_new d k v HN). apply IH. now rewrite <- app_assoc.
    - rewrite <- HE, map_app. apply in_or_app. right. now left. }
  unfold dr_copy, dr_iter. rewrite (HF (do_data o) [] eq_refl). now destruct o.
Qed.
End Dicts.
Definition C81_dict : dobj := Dobj [(VStr "a", VInt 1); (VStr "b", VInt 2); (VInt 3, VInt 1)] [4%nat].
Example C81_case :
  distinct val_eqb (map fst (do_data C81_dict))
  /\ dr_get val_eqb (VStr "b") C81_dict = inl (VInt 2) /\ dr_get_default val_eqb (VStr "c") (VInt 0) C81_dict = inl (VInt 0)
  /\ dr_in_items val_eqb val_eqb (VInt 3) (VInt 1) C81_dict = inl true
  /\ dr_eq val_eqb val_eqb (Some [(VInt 3, VInt 1); (VStr "a", VInt 1); (VStr "b", VInt 2)]) C81_dict = inl true
  /\ dr_eq val_eqb val_eqb (Some [(VInt 3, VInt 1); (VStr "a", VInt 1); (VStr "c", VInt 2)]) C81_dict = inl false
  /\ dr_copy val_eqb (fun v t => match v with VInt _ => true | _ => false end) C81_dict = inl C81_dict.
Proof. repeat split; reflexivity. Qed.
Print Assumptions C81_like_dict.
Print Assumptions C81_copy.
