(** Indices and slices of EventedLists: C97; slices as sources of move_multiple: C36. *)

From Verif Require Import Base Core Spec Frame Fuel Demo Client Prog Does PyList EList EListRead SpecList ListFacts SpecSlice SliceFacts PropsList.
Open Scope Z_scope.
Open Scope list_scope.

(** l[s] of an EventedList holds the items at the slice's positions, in its order; the only slices refused are those with step 0. *)
Theorem C97_get : forall s o,
  (forall o', lr_slice s o = LEvented o' -> got (lo_data o) s (lo_data o'))
  /\ (step_of s <> 0 -> exists o', lr_slice s o = LEvented o') /\ (step_of s = 0 -> lr_slice s o = LErr EValue).
Proof.
  intros s o. unfold lr_slice. split; [|split].
  - intros o' H. destruct (get_slice (lo_data o) s) as [xs|] eqn:E; [|discriminate]. injection H as <-. now apply get_got.
  - intros H. unfold get_slice, slice_range. destruct (slice_indices (size (lo_data o)) s) as [[[a b] c]|] eqn:E; [eauto|]. apply slice_zero in E. contradiction.
  - intros H. unfold get_slice, slice_range. apply (slice_zero (size (lo_data o))) in H. now rewrite H.
Qed.
(** l[s] = xs: *)
Theorem C97_set : forall E eqv islist wrap ind s xs w w' r,
  env_all (aloof list_signals) E -> runs E (evented eqv islist wrap ind (LSetSlice s (Some xs))) w w' r -> done r ->
  match r with
  | Ok v => assigned (w_usr w) s xs (w_usr w')
  | Err e => (e = EValue /\ w_usr w' = w_usr w
               /\ (step_of s = 0 \/ (step_of s <> 1 /\ exists q, positions (size (w_usr w)) s q /\ List.length q <> List.length xs)))
             \/ listener_raised E list_signals e
  | _ => False
  end.
Proof.
  intros E eqv islist wrap ind s xs w w' r HE HR Hr.
  destruct (C33_like_list_partial E eqv islist wrap ind (LSetSlice s (Some xs)) w w' r HE I HR Hr) as [(x & Hx & ->)|[(e & -> & He)|(Hc & _)]]; [|now right|discriminate].
  inversion Hx; subst; cbn [result]; [now apply set_assigned|]. left. split; [reflexivity|]. split; [congruence|]. apply set_refused. congruence.
Qed.
(** del l[s]: *)
Theorem C97_del : forall E eqv islist wrap ind s w w' r,
  env_all (aloof list_signals) E -> runs E (evented eqv islist wrap ind (LDelSlice s)) w w' r -> done r ->
  match r with
  | Ok v => deleted (w_usr w) s (w_usr w')
  | Err e => (e = EValue /\ w_usr w' = w_usr w /\ step_of s = 0) \/ listener_raised E list_signals e
  | _ => False
  end.
Proof.
  intros E eqv islist wrap ind s w w' r HE HR Hr.
  destruct (C33_like_list_partial E eqv islist wrap ind (LDelSlice s) w w' r HE I HR Hr) as [(x & Hx & ->)|[(e & -> & He)|(Hc & _)]]; [|now right|discriminate].
  inversion Hx; subst; cbn [result]; [now apply del_deleted|]. left. split; [reflexivity|]. split; [congruence|].
  match goal with H : del_slice _ _ = None |- _ => rename H into HD end. unfold del_slice, slice_range in HD.
  destruct (slice_indices (size (w_usr w)) s) as [[[a b] c]|] eqn:ES; [congruence|]. now apply slice_zero in ES.
Qed.
(** Single positions, counted from the end if negative. *)
Definition outside (n i : Z) : Prop := ~ 0 <= from_end n i < n.
Definition one_changed (i : Z) (v : val) (l l' : list val) : Prop :=
  size l' = size l /\ item l' i = Some v /\ forall j, j <> i -> item l' j = item l j.
(** l[i] = v, l.insert(i, v), l.pop(i), del l[i] (which takes indices below -len for others, see C33). *)
Theorem C97_index_partial : forall E eqv islist wrap ind o w w' r,
  env_all (aloof list_signals) E -> as_expected islist ind o (w_usr w) ->
  runs E (evented eqv islist wrap ind o) w w' r -> done r ->
  let l := w_usr w in let l' := w_usr w' in
  (exists e, r = Err e /\ listener_raised E list_signals e)
  \/ match o with
     | LSet i v => (r = Ok VNone /\ ~ outside (size l) i /\ one_changed (from_end (size l) i) v l l') \/ (r = Err EIndex /\ outside (size l) i /\ l' = l)
     | LInsert i v => r = Ok VNone /\ exists pre post, l = pre ++ post /\ l' = pre ++ v :: post /\ size pre = Z.max 0 (Z.min (size l) (from_end (size l) i))
     | LPop i => (exists v pre post, r = Ok v /\ l = pre ++ v :: post /\ l' = pre ++ post /\ size pre = from_end (size l) i)
                 \/ (r = Err EIndex /\ outside (size l) i /\ l' = l)
     | LDel i => (exists v pre post, r = Ok VNone /\ l = pre ++ v :: post /\ l' = pre ++ post /\ size pre = from_end (size l) i)
                 \/ (r = Err EIndex /\ outside (size l) i /\ l' = l)
     | _ => True
     end.
Proof.
  intros E eqv islist wrap ind o w w' r HE HO HR Hr l l'.
  destruct (C33_like_list_partial E eqv islist wrap ind o w w' r HE HO HR Hr) as [(x & Hx & ->)|[He|(-> & _)]]; [|now left|now right].
  right. fold l l' in Hx. clearbody l l'. clear - Hx.
  assert (Hv : forall i, valid l i = true -> 0 <= from_end (size l) i < size l).
  { intros i H. unfold valid in H. apply andb_true_iff in H as [H1 H2]. apply Z.leb_le in H1. apply Z.ltb_lt in H2. unfold norm in *. unfold from_end. lia. }
  assert (Hi : forall i, valid l i = false -> outside (size l) i).
  { intros i H [H1 H2]. unfold valid, norm in H. unfold from_end in *. apply andb_false_iff in H as [H|H]; [apply Z.leb_gt in H|apply Z.ltb_ge in H]; lia. }
  assert (Hpop : forall i y l1, list_pop l i = Some (y, l1) ->
    exists pre post, l = pre ++ y :: post /\ l1 = pre ++ post /\ size pre = from_end (size l) i).
  { intros i y l1 H. unfold list_pop, at_ in H. destruct (valid l i) eqn:Hva; [|discriminate]. destruct (nth_error l (Z.to_nat (norm l i))) as [z|] eqn:En; [|discriminate].
    injection H as -> <-. apply nth_error_split in En as (pre & post & El & Hp). exists pre, post. split; [exact El|]. pose proof (Hv i Hva) as Hb.
    unfold from_end in *. unfold norm in *. split.
    - unfold remove_nth. rewrite <- Hp. rewrite El at 1 2. rewrite firstn_app, Nat.sub_diag, firstn_all, skipn_app, skipn_all2 by lia.
      replace (S (List.length pre) - List.length pre)%nat with 1%nat by lia. cbn. now rewrite app_nil_r.
    - unfold size at 1. rewrite Hp. lia. }
  assert (Hnone : forall i, list_pop l i = None -> outside (size l) i).
  { intros i H. unfold list_pop, at_ in H. destruct (valid l i) eqn:Hva; [|now apply Hi]. exfalso. pose proof (Hv i Hva) as Hb.
    destruct (nth_error l (Z.to_nat (norm l i))) eqn:En; [discriminate|]. apply nth_error_None in En. unfold norm, from_end, size in *. lia. }
  destruct o; try exact I; inversion Hx; subst; cbn [result].
  - split; [reflexivity|]. set (c := clamp l i). exists (firstn (Z.to_nat c) l), (skipn (Z.to_nat c) l). split; [symmetry; apply firstn_skipn|].
    split; [reflexivity|]. unfold c, clamp, norm, from_end, size in *. rewrite firstn_length. lia.
  - left. split; [reflexivity|]. match goal with H : list_set _ _ _ = Some _ |- _ => unfold list_set in H; destruct (valid l i) eqn:Hva; [|discriminate]; injection H as <- end.
    pose proof (Hv i Hva) as Hb. split; [intros Ho; now apply Ho|].
    assert (En : norm l i = from_end (size l) i) by (unfold norm, from_end; reflexivity). rewrite En.
    split; [now apply put_size|]. split; [rewrite put_item by exact Hb; now rewrite Z.eqb_refl|]. intros j Hj. rewrite put_item by exact Hb.
    destruct (Z.eqb_spec j (from_end (size l) i)); [contradiction|reflexivity].
  - right. split; [reflexivity|]. split; [|reflexivity]. apply Hi. match goal with H : list_set _ _ _ = None |- _ => unfold list_set in H; destruct (valid _ _); [discriminate|reflexivity] end.
  - left. match goal with H : list_pop _ _ = Some _ |- _ => apply Hpop in H as (pre & post & H1 & H2 & H3) end. eexists _, pre, post. eauto.
  - right. auto.
  - left. match goal with H : list_pop _ _ = Some _ |- _ => apply Hpop in H as (pre & post & H1 & H2 & H3) end. eexists _, pre, post. eauto.
  - right. auto.
Qed.
(** l[-1:0:-2] of a list of five; assigning to it, and to l[1:3]; deleting it. *)
Definition S_list : list val := [VInt 0; VInt 1; VInt 2; VInt 3; VInt 4].
Definition S_back : slice := (Some (-1), Some 0, Some (-2)).
Example C97_case :
  let run o := exec list_env 200%nat (evented no_eq no_lists (fun x => x) true o)
                    (world_of list_env list_cfg S_list 50%nat [conn inserted 1%nat 0]) in
  let res o := match run o with Some (w, r) => Some (w_usr w, r) | None => None end in
  env_all (aloof list_signals) list_env
  /\ got S_list S_back [VInt 4; VInt 2] /\ lr_slice S_back (Lobj S_list true false) = LEvented (Lobj [VInt 4; VInt 2] true false)
  /\ res (LSetSlice S_back (Some [VInt 7; VInt 8])) = Some ([VInt 0; VInt 1; VInt 8; VInt 3; VInt 7], Ok VNone)
  /\ assigned S_list S_back [VInt 7; VInt 8] [VInt 0; VInt 1; VInt 8; VInt 3; VInt 7]
  /\ res (LSetSlice S_back (Some [VInt 7])) = Some (S_list, Err EValue)
  /\ res (LSetSlice (Some 1, Some 3, None) (Some [VInt 9])) = Some ([VInt 0; VInt 9; VInt 3; VInt 4], Ok VNone)
  /\ res (LDelSlice S_back) = Some ([VInt 0; VInt 1; VInt 3], Ok VNone) /\ deleted S_list S_back [VInt 0; VInt 1; VInt 3]
  /\ res (LSet (-5) (VInt 6)) = Some ([VInt 6; VInt 1; VInt 2; VInt 3; VInt 4], Ok VNone)
  /\ res (LSet (-6) (VInt 6)) = Some (S_list, Err EIndex)
  /\ res (LInsert (-9) (VInt 6)) = Some (VInt 6 :: S_list, Ok VNone).
Proof.
  cbv zeta. split; [apply list_env_aloof|]. split; [apply get_got; reflexivity|]. split; [reflexivity|]. split; [vm_compute; reflexivity|].
  split; [apply set_assigned; reflexivity|]. split; [vm_compute; reflexivity|]. split; [vm_compute; reflexivity|]. split; [vm_compute; reflexivity|].
  split; [apply del_deleted; reflexivity|]. vm_compute. repeat split.
Qed.
Print Assumptions C97_get.
Print Assumptions C97_set.
Print Assumptions C97_del.
Print Assumptions C97_index_partial.

(** * C36 *)

(** The positions that the sources of move_multiple mean. *)
Inductive mean (n : Z) : list (Z + slice) -> list Z -> Prop :=
| mean_nil : mean n [] []
| mean_index : forall i l r, mean n l r -> mean n (inl i :: l) (i :: r)
| mean_slice : forall s q l r, step_of s <> 0 -> positions n s q -> mean n l r -> mean n (inr s :: l) (q ++ r).
Lemma mean_sources : forall n l r, 0 <= n -> mean n l r -> sources_of n l = Some r.
Proof.
  intros n l r Hn H. induction H as [|i l r H IH|s q l r Hs Hq H IH]; cbn [sources_of]; [reflexivity|now rewrite IH|].
  rewrite (positions_range n s q Hn Hs Hq). now rewrite IH.
Qed.
Lemma indices_sources : forall n l, sources_of n (map inl l) = Some l.
Proof. intros n l. induction l as [|i l IH]; cbn; [reflexivity|now rewrite IH]. Qed.
(** With slices among the sources: as with their positions. *)
Theorem C36_slices_partial : forall E sources ss d w w' r,
  env_all (aloof list_signals) E ->
  let l := w_usr w in
  let t := if d <? 0 then d + size l + 1 else d in
  mean (size l) sources ss ->
  (forall s, In s ss -> 0 <= s < size l) -> 0 <= t <= size l ->
  (desc ss \/ (incr ss /\ ((forall s, In s ss -> s < t) \/ (forall s, In s ss -> t <= s)))) ->
  runs E (el_move_multiple sources d) w w' r -> done r ->
  w_usr w' = gathered ss t l \/ (exists e, r = Err e /\ listener_raised E list_signals e).
Proof.
  intros E sources ss d w w' r HE l t HM Hs Ht HO HR Hr. pose proof (mean_sources _ _ _ (size_nonneg _) HM) as HM'. subst l t. apply (C36_gathers_partial E ss d w w' r HE Hs Ht HO); [|exact Hr].
  destruct HR as [n HR]. exists n. destruct n as [|n]; [discriminate|]. unfold el_move_multiple in *. cbn [exec] in *. unfold move_plan in *.
  rewrite indices_sources. match type of HR with context [sources_of ?a ?b] => replace (sources_of a b) with (Some ss) in HR by (symmetry; exact HM') end. exact HR.
Qed.
(** A slice with step 0 among them: ValueError, and nothing is moved. *)
Theorem C36_zero : forall E sources s d w w' r,
  In (inr s) sources -> step_of s = 0 -> runs E (el_move_multiple sources d) w w' r -> r = Err EValue /\ w' = w.
Proof.
  intros E sources s d w w' r Hi Hz [n HR]. destruct n as [|n]; [discriminate|]. unfold el_move_multiple in HR. cbn [exec] in HR. unfold move_plan in HR.
  assert (HN : sources_of (size (w_usr w)) sources = None).
  { clear HR. induction sources as [|x l IH]; [destruct Hi|]. cbn [sources_of]. destruct Hi as [->|Hi].
    - unfold slice_range. apply (slice_zero (size (w_usr w))) in Hz. now rewrite Hz.
    - rewrite (IH Hi). destruct x as [i|q]; [reflexivity|now destruct (slice_range _ q)]. }
  rewrite HN in HR. destruct n as [|n]; [discriminate|]. cbn [exec] in HR. injection HR as <- <-. auto.
Qed.
(** l[::-2] and then item 0 in front of item 3 of six. *)
Example C36_slices_case :
  let l := [VInt 0; VInt 1; VInt 2; VInt 3; VInt 4; VInt 5] in
  let ss := [inr (None, None, Some (-2)); inl 0] in
  let w' := after list_env 300%nat (el_move_multiple ss 3) (list_world l) in
  mean (size l) ss [5; 3; 1; 0] /\ desc [5; 3; 1; 0]
  /\ outcome list_env 300%nat (el_move_multiple ss 3) (list_world l) = Some (Ok (VInt 3))
  /\ w_usr w' = gathered [5; 3; 1; 0] 3 l /\ w_usr w' = [VInt 2; VInt 5; VInt 3; VInt 1; VInt 0; VInt 4]
  /\ outcome list_env 300%nat (el_move_multiple [inl 0; inr (None, None, Some 0)] 3) (list_world l) = Some (Err EValue).
Proof.
  cbv zeta. split.
  { apply (mean_slice 6 (None, None, Some (-2)) [5; 3; 1]); [discriminate| |apply mean_index; apply mean_nil]. apply slice_positions; [lia|reflexivity]. }
  split. { cbn [desc In]. repeat split; intros j Hj; repeat (destruct Hj as [<-|Hj]; [lia|]); destruct Hj. }
  vm_compute. repeat split.
Qed.
Print Assumptions C36_slices_partial.
Print Assumptions C36_zero.
