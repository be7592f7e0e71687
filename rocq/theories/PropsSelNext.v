(** Moving and removing the selection of a SelectableEventedList: C92, C93. *)

From Verif Require Import Base Core Spec Frame Fuel Demo Client Prog Through PyList EList PySet ESet SpecSet SetFacts PropsSet
  ESelect SpecSelect SelFacts SelTold SelList PropsSelect PropsSelTold.
Open Scope nat_scope.

Notation put := (fun s u => Both (b_list u) s).
Notation allowed same := (fun u x => mem same x (b_list u)).
Notation goodb same := (good same b_sel (allowed same)).

Lemma good_consistent : forall same u, equivalence same -> goodb same u <-> consistent same u.
Proof.
  intros same u (refl & sym & trans). split.
  - intros [[H1 H2] H3]. split; [exact H1|]. split; [intros x Hx; apply mem_inside; auto|].
    destruct (sel_items (b_sel u)) as [|x [|y l]] eqn:Ei; unfold right_active; rewrite Ei.
    + right. split; [discriminate|exact H3].
    + left. eauto.
    + right. split; [discriminate|exact H3].
  - intros (H1 & H2 & H3). split; [split; [exact H1|intros x Hx; apply mem_inside; auto]|].
    destruct H3 as [(x & Ei & H3)|[Hn H3]].
    + now rewrite Ei.
    + destruct (sel_items (b_sel u)) as [|x [|y l]]; auto. now destruct (Hn x).
Qed.
Lemma find_first : forall same islist wrap v l k i, (forall x, same x x = true) -> (forall x, In x l -> islist x = false) ->
  find_index same islist wrap v k l = Some i -> exists n, i = (k + Z.of_nat n)%Z /\ first_at same v l n.
Proof.
  intros same islist wrap v l k i refl. revert k. induction l as [|x l IH]; intros k Hl H; [discriminate|]. cbn in H.
  assert (Hx : islist x = false) by (apply Hl; now left). unfold seen in H. rewrite Hx in H.
  assert (Hor : val_eqb x v || same x v = same x v).
  { destruct (val_eqb x v) eqn:Ev; [|reflexivity]. apply val_eqb_eq in Ev as ->. now rewrite refl. }
  rewrite Hor in H. destruct (same x v) eqn:Es.
  - injection H as <-. exists 0. split; [lia|]. split; [exists x; now split|]. intros j y Hj. lia.
  - destruct (IH (k + 1)%Z) as (n & -> & [H1 H2]); [intros y Hy; apply Hl; now right|exact H|]. exists (S n). split; [lia|]. split; [exact H1|].
    intros [|j] y Hj Hy; [now injection Hy as <-|]. apply (H2 j); [lia|exact Hy].
Qed.
Lemma find_none : forall same islist wrap v l k, (forall x, In x l -> islist x = false) ->
  find_index same islist wrap v k l = None -> forall x, In x l -> same x v = false.
Proof.
  intros same islist wrap v l k. revert k. induction l as [|x l IH]; intros k Hl H y Hy; [destruct Hy|]. cbn in H.
  destruct (_ || _) eqn:Eo in H; [discriminate|]. apply orb_false_iff in Eo as [_ Es]. unfold seen in Es.
  rewrite (Hl x (or_introl eq_refl)) in Es. destruct Hy as [<-|Hy]; [exact Es|]. apply (IH (k + 1)%Z); auto. intros z Hz. apply Hl. now right.
Qed.
Lemma at_nth : forall (l : list val) i x, at_ l i = Some x -> exists n, nth_error l n = Some x /\ Z.of_nat n = norm l i /\ n < List.length l.
Proof.
  intros l i x H. unfold at_ in H. destruct (valid l i) eqn:Ev; [|discriminate]. exists (Z.to_nat (norm l i)). split; [exact H|].
  unfold valid in Ev. apply andb_true_iff in Ev as [E1 E2]. unfold size in E2. lia.
Qed.
Lemma at_valid : forall (l : list val) i, (- size l <= i < size l)%Z -> exists x, at_ l i = Some x.
Proof.
  intros l i H. unfold at_. assert (Ev : valid l i = true).
  { unfold valid, norm. destruct (i <? 0)%Z eqn:E0; apply andb_true_iff; lia. }
  rewrite Ev. destruct (nth_error l _) as [x|] eqn:En; [eauto|]. apply nth_error_None in En. unfold valid in Ev. apply andb_true_iff in Ev as [E1 E2].
  unfold size in E2. lia.
Qed.

Section Next.
Variable E : env both.
Notation C := selectable_signals.
Variable same : val -> val -> bool.
Hypothesis HQ : equivalence same.
Hypothesis HN : none_alone same.
Notation raised := (listener_raised E C).
Lemma start_both : forall u, goodb same u -> settled same 12 13 b_sel (allowed same) (sel_active (b_sel u)) (sel_current (b_sel u)) u [].
Proof.
  destruct HQ as (refl & sym & trans).
  intros u HG. split; [exact HG|]. repeat split; try apply refl; try (left; apply refl); intros t a u' [].
Qed.
Lemma allowed_same : forall u x y, same x y = true -> allowed same u x = allowed same u y.
Proof. destruct HQ as (refl & sym & trans). intros u x y H. now apply mem_same. Qed.
Notation tlp p u Q := (tells E C p u [] (fun u' _ => Q u') (fun u' _ e => raised e)).
Notation thl p u := (through E C p u (fun u' => b_list u' = b_list u) (fun u' _ => b_list u' = b_list u)).
Lemma pick_rest : forall o u, thl (pick same o) u.
Proof. intros o u. apply (rest_do E C same 11 12 13 eq_refl b_sel put (allowed same) (fun u' => b_list u' = b_list u)); auto. Qed.
Lemma pick_active : forall x u, goodb same u -> In x (b_list u) -> x <> VNone ->
  tlp (pick same (LActive x)) u (fun u' => goodb same u' /\ b_list u' = b_list u
    /\ if same x (sel_active (b_sel u)) then u' = u
       else same x (sel_active (b_sel u')) = true /\ same x (sel_current (b_sel u')) = true
            /\ exists y, sel_items (b_sel u') = [y] /\ same x y = true).
Proof.
  intros x u HG Hx Nx. pose proof HQ as (refl & sym & trans).
  assert (Ha : allowed same u x = true) by (cbn; apply mem_inside; auto; exists x; auto).
  eapply tl_mono; [apply tl_and; [|apply tl_through, pick_rest]| |].
  - apply (set_active_told E C same refl sym trans 11 12 13 eq_refl eq_refl eq_refl ltac:(discriminate) ltac:(discriminate) ltac:(discriminate)
      b_sel put (allowed same) (fun _ _ => eq_refl) (fun _ _ _ => eq_refl) allowed_same
      (sel_active (b_sel u)) (sel_current (b_sel u)) HN 1 x u [] (start_both u HG)). auto.
  - intros u' h' [[[H1 _] H2] H3]. split; [exact H1|]. split; [exact H3|]. destruct (same x (sel_active (b_sel u))); [exact H2|].
    destruct H2 as (H4 & H5 & _ & H6). auto.
  - intros u' h' e [[_ [H1|H1]] _]; [exact H1|]. cbn in Ha. congruence.
Qed.
Lemma pick_add : forall x u, goodb same u -> In x (b_list u) -> x <> VNone ->
  tlp (pick same (LSet_ (SAdd x))) u (fun u' => goodb same u' /\ b_list u' = b_list u
    /\ sel_items (b_sel u') = if mem same x (sel_items (b_sel u)) then sel_items (b_sel u) else sel_items (b_sel u) ++ [x]).
Proof.
  intros x u HG Hx Nx. pose proof HQ as (refl & sym & trans).
  assert (Ha : mem same x (b_list u) = true) by (apply mem_inside; auto; exists x; auto).
  destruct (mem same x (sel_items (b_sel u))) eqn:Em.
  - unfold pick. cbn [sel_do sel_set]. unfold sl_add, bs_add. cbn [pre_add sel_hooks bind]. apply tl_look. rewrite Ha. cbn [bind].
    unfold p_items at 1. rewrite Em. now apply tl_ret.
  - eapply tl_mono; [apply tl_and; [|apply tl_through, pick_rest]| |].
    + apply (add_told E C same refl sym trans 11 12 13 eq_refl eq_refl eq_refl ltac:(discriminate) ltac:(discriminate) ltac:(discriminate)
      b_sel put (allowed same) (fun _ _ => eq_refl) (fun _ _ _ => eq_refl) 
      (sel_active (b_sel u)) (sel_current (b_sel u)) 1 None x u []); [apply HG|apply (start_both u HG)|exact Ha|exact Em].
    + intros u' h' [(H1 & _ & _ & H2) H3]. split; [exact H1|]. split; [exact H3|]. destruct H2 as [H2|H2]; [exact H2|congruence].
    + intros u' h' e [H1 _]. exact H1.
Qed.
Lemma pick_current : forall x u h, goodb same u ->
  tells E C (pick same (LCurrent x)) u h (fun u' _ => goodb same u' /\ b_list u' = b_list u /\ sel_items (b_sel u') = sel_items (b_sel u)
    /\ same x (sel_current (b_sel u')) = true) (fun _ _ e => raised e).
Proof.
  intros x u h HG. pose proof HQ as (refl & sym & trans). unfold pick. cbn [sel_do]. apply tl_look. destruct (same x _) eqn:Ex; [now apply tl_ret|].
  set (u1 := fst (p_set_current b_sel put x u)).
  assert (H1 : goodb same u1 /\ b_list u1 = b_list u /\ sel_items (b_sel u1) = sel_items (b_sel u) /\ same x (sel_current (b_sel u1)) = true).
  { split; [|repeat split; apply refl]. apply (good_current same b_sel put (allowed same) (fun _ _ => eq_refl) (fun _ _ _ => eq_refl)). exact HG. }
  eapply tl_seq with (Q1 := fun u' h' => u' = u1); [now apply tl_act|]. intros ? h1 ->.
  eapply tl_seq with (Q1 := fun u' h' => u' = u1); [apply tl_say; auto|]. intros ? h2 ->. now apply tl_ret.
Qed.

Variable islist : val -> bool.
Variable wrap : val -> val.
(** What selecting [x] does. *)
Definition moved (expand : bool) (x : val) (u u' : both) : Prop :=
  if expand then sel_items (b_sel u') = (if mem same x (sel_items (b_sel u)) then sel_items (b_sel u) else sel_items (b_sel u) ++ [x])
                 /\ same x (sel_current (b_sel u')) = true
  else if same x (sel_active (b_sel u)) then u' = u
       else same x (sel_active (b_sel u')) = true /\ same x (sel_current (b_sel u')) = true
            /\ exists y, sel_items (b_sel u') = [y] /\ same x y = true.
Lemma next_tells : forall step expand around u, goodb same u -> (forall x, In x (b_list u) -> islist x = false /\ x <> VNone) ->
  tells E C (se_next same islist wrap step expand around) u []
    (fun u' _ => goodb same u' /\ b_list u' = b_list u /\ (b_list u = [] -> u' = u)
       /\ (b_list u <> [] -> exists t x, next_at same u step around t /\ nth_error (b_list u) t = Some x /\ moved expand x u u'))
    (fun u' _ e => raised e \/ (u' = u /\ e = EValue /\ sel_items (b_sel u) <> [] /\ ~ inside same (sel_current (b_sel u)) (b_list u))).
Proof.
  intros step expand around u HG Hl. pose proof HQ as (refl & sym & trans). unfold se_next. apply tl_look. cbv beta zeta.
  destruct (size (b_list u) =? 0)%Z eqn:En.
  { assert (b_list u = []) by (unfold size in En; destruct (b_list u); [reflexivity|cbn in En; lia]). apply tl_ret. repeat split; auto; try apply HG. congruence. }
  assert (Nl : b_list u <> []) by (intros Hn; rewrite Hn in En; discriminate).
  assert (Np : (0 < size (b_list u))%Z) by (unfold size in *; lia).
  set (go := fun idx => se_get islist wrap (if around then (idx mod size (b_list u))%Z
      else if negb ((idx <? size (b_list u)) && (0 <=? idx))%Z then (if (0 <? step)%Z then -1 else 0)%Z else idx)
      (fun x => if expand then pick same (LSet_ (SAdd x));; pick same (LCurrent x);; Ret VNone else pick same (LActive x);; Ret VNone)).
  change (tells E C (match sel_items (b_sel u) with
      | [] => go (if (0 <? step)%Z then -1 else 0)%Z
      | _ => match find_index same islist wrap (sel_current (b_sel u)) 0 (b_list u) with
             | Some i => go (i + step)%Z
             | None => Throw EValue
             end
      end) u []
    (fun u' _ => goodb same u' /\ b_list u' = b_list u /\ (b_list u = [] -> u' = u)
       /\ (b_list u <> [] -> exists t x, next_at same u step around t /\ nth_error (b_list u) t = Some x /\ moved expand x u u'))
    (fun u' _ e => raised e \/ (u' = u /\ e = EValue /\ sel_items (b_sel u) <> [] /\ ~ inside same (sel_current (b_sel u)) (b_list u)))).
  assert (HG1 : forall idx, (forall t, Z.of_nat t = norm (b_list u) (if around then idx mod size (b_list u)
                     else if negb ((idx <? size (b_list u)) && (0 <=? idx)) then if 0 <? step then -1 else 0 else idx)%Z -> t < List.length (b_list u) -> next_at same u step around t) ->
    tells E C (go idx) u []
    (fun u' _ => goodb same u' /\ b_list u' = b_list u /\ (b_list u = [] -> u' = u)
       /\ (b_list u <> [] -> exists t x, next_at same u step around t /\ nth_error (b_list u) t = Some x /\ moved expand x u u'))
    (fun u' _ e => raised e \/ (u' = u /\ e = EValue /\ sel_items (b_sel u) <> [] /\ ~ inside same (sel_current (b_sel u)) (b_list u)))).
  { intros idx Ht. unfold go. set (j := if around then _ else _) in *. unfold se_get. apply tl_look.
    assert (Hj : (- size (b_list u) <= j < size (b_list u))%Z).
    { unfold j. destruct around; [pose proof (Z.mod_pos_bound idx (size (b_list u)) Np); lia|].
      destruct ((idx <? _) && _)%Z eqn:Ei; cbn [negb]; [apply andb_true_iff in Ei; lia|]. destruct (0 <? step)%Z; lia. }
    destruct (at_valid _ _ Hj) as [x Hx]. rewrite Hx. destruct (at_nth _ _ _ Hx) as (t & Hn & Hz & Hlt).
    pose proof (nth_error_In _ _ Hn) as Hin. destruct (Hl x Hin) as [Hlx Nx]. unfold seen. rewrite Hlx.
    destruct expand.
    - eapply tl_seq with (Q1 := fun u1 _ => goodb same u1 /\ b_list u1 = b_list u
        /\ sel_items (b_sel u1) = if mem same x (sel_items (b_sel u)) then sel_items (b_sel u) else sel_items (b_sel u) ++ [x]).
      { eapply tl_mono; [apply pick_add; auto|auto|intros; now left]. }
      intros u1 h1 (H1 & H2 & H3).
      eapply tl_seq with (Q1 := fun u2 _ => goodb same u2 /\ b_list u2 = b_list u1 /\ sel_items (b_sel u2) = sel_items (b_sel u1)
        /\ same x (sel_current (b_sel u2)) = true).
      { eapply tl_mono; [apply pick_current; exact H1|auto|intros; now left]. }
      intros u2 h2 (H4 & H5 & H6 & H7). apply tl_ret. split; [exact H4|]. split; [congruence|]. split; [congruence|].
      intros _. exists t, x. split; [now apply Ht|]. split; [exact Hn|]. split; [congruence|exact H7].
    - eapply tl_seq; [eapply tl_mono; [apply pick_active; auto|intros u1 h1 H1; exact H1|intros; now left]|].
      intros u1 h1 (H1 & H2 & H3). apply tl_ret. split; [exact H1|]. split; [exact H2|]. split; [congruence|].
      intros _. exists t, x. split; [now apply Ht|]. split; [exact Hn|exact H3]. }
  clearbody go. destruct (sel_items (b_sel u)) as [|y l] eqn:Ei.
  - apply HG1. intros t Ht Hlt. unfold next_at. rewrite Ei, Ht. clear HG1. unfold norm, size in *. set (n := Z.of_nat (List.length (b_list u))) in *.
    destruct around, (0 <? step)%Z.
    + replace (-1 mod n)%Z with (n - 1)%Z; [|apply (Z.mod_unique _ _ (-1)); lia]. destruct (n - 1 <? 0)%Z eqn:E1; lia.
    + now rewrite Z.mod_0_l by lia.
    + change (0 <=? -1)%Z with false. rewrite andb_false_r. cbn [negb]. change (-1 <? 0)%Z with true. cbv iota. lia.
    + destruct (0 <? n)%Z eqn:E1; [|lia]. reflexivity.
  - destruct (find_index _ _ _ _ _ _) as [i|] eqn:Ef.
    + destruct (find_first _ _ _ _ _ _ _ refl (fun x Hx => proj1 (Hl x Hx)) Ef) as (k & -> & Hk). rewrite Z.add_0_l in *.
      apply HG1. intros t Ht Hlt. unfold next_at. rewrite Ei. exists k. split; [exact Hk|]. clear HG1. rewrite Ht. unfold norm, size in *.
      set (n := Z.of_nat (List.length (b_list u))) in *. set (m := Z.of_nat k) in *. clearbody n m. unfold leads. destruct around.
      * pose proof (Z.mod_pos_bound (m + step) n Np) as Hb. destruct ((m + step) mod n <? 0)%Z eqn:E1; [lia|].
        split; [lia|]. exists ((m + step) / n)%Z. pose proof (Z.div_mod (m + step) n ltac:(lia)). lia.
      * destruct ((m + step <? n) && (0 <=? m + step))%Z eqn:Ein; cbn [negb].
        -- apply andb_true_iff in Ein as [E1 E2]. destruct (m + step <? 0)%Z eqn:E3; [lia|]. split; [lia|]. left. lia.
        -- apply andb_false_iff in Ein. destruct (0 <? step)%Z; [change (-1 <? 0)%Z with true|change (0 <? 0)%Z with false]; cbv iota; (split; [lia|]; right; split; [|lia]);
           intros [E1 E2]; destruct Ein as [Ein|Ein]; lia.
    + apply tl_throw. right. split; [reflexivity|]. split; [reflexivity|]. split; [discriminate|].
      intros (z & Hz & Hs). apply sym in Hs.
      now rewrite (find_none _ _ _ _ _ _ (fun x Hx => proj1 (Hl x Hx)) Ef z Hz) in Hs.
Qed.
End Next.

(** The items are not lists themselves, and not None. *)
Definition plain (islist : val -> bool) (l : list val) : Prop := forall x, In x l -> islist x = false /\ x <> VNone.
Section Remove.
Variable E : env both.
Notation C := selectable_signals.
Variable same : val -> val -> bool.
Hypothesis HQ : equivalence same.
Variable islist : val -> bool.
Variable wrap : val -> val.
Notation raised := (listener_raised E C).
(** A listener of removed raised, or one of the selection's while the item was being removed (SE:51-52 is a listener). *)
Definition raised_in (e : exn) : Prop := raised e \/ exists e', e = EEmitLoop (Some removed) 0 e' /\ raised e'.
Lemma wp_shift : forall (p : prog both) u h h' (R : both -> out -> Prop), wp E C p u h (fun u _ r => R u r) -> wp E C p u h' (fun u _ r => R u r).
Proof.
  intros p; induction p as [v|e| |k IH|o k IH]; intros u h h' R H; cbn in *; eauto.
  destruct o; try contradiction; eauto; try (destruct H as [H1 H2]; split; intros; eauto); intros; eauto.
Qed.
Lemma discard_wp : forall v u h l (R : both -> out -> Prop), loose same v u -> (forall x, In x (sel_items (b_sel u)) -> x <> VNone) ->
  sdel same v (sel_items (b_sel u)) = l -> mem same v (sel_items (b_sel u)) = true ->
  (forall u', goodb same u' -> b_list u' = b_list u -> sel_items (b_sel u') = l -> R u' (Ok VNone)) ->
  (forall u' e, raised e -> R u' (Err e)) ->
  wp E C (on_item_removed same v) u h (fun u _ r => match r with Ok _ => R u (Ok VNone) | Err e => R u (Err e) | Halted => True end).
Proof.
  intros v u h l R HL HNo Hs Hm HR HE. pose proof HQ as (refl & sym & trans).
  apply (wp_shift _ u [] h (fun u r => match r with Ok _ => R u (Ok VNone) | Err e => R u (Err e) | Halted => True end)).
  change (tells E C (on_item_removed same v) u [] (fun u _ => R u (Ok VNone)) (fun u _ e => R u (Err e))).
  eapply tl_mono; [apply tl_and; [|apply tl_through, pick_rest]| |].
  - cbn [sel_do sel_set]. unfold pick. cbn [sel_do sel_set]. unfold sl_discard, bs_discard. cbn [pre_discard sel_hooks bind]. apply tl_look. cbn [bind].
    unfold p_items at 1. rewrite Hm. cbn [negb bails].
    set (u1 := p_set_items b_sel put (sdel same v (p_items b_sel u)) u).
    eapply tl_seq with (Q1 := fun u' h' => u' = u1 /\ h' = []); [now apply tl_act|]. intros ? ? [-> ->].
    assert (B1 : base same b_sel (allowed same) u1).
    { destruct HL as [Hd Ha]. split; [cbn; now apply distinct_sdel|]. cbn. intros x Hx.
      assert (Hx' : mem same x (sdel same v (sel_items (b_sel u))) = true) by (apply mem_in; auto).
      unfold p_items in Hx. rewrite mem_sdel in Hx' by auto. apply andb_true_iff in Hx' as [_ Hx'].
      specialize (Ha x (sdel_in same v x _ Hx)). apply negb_true_iff in Hx'. now rewrite Hx' in Ha. }
    apply (emit_told E C same refl 11 12 13 eq_refl eq_refl eq_refl ltac:(discriminate) ltac:(discriminate) ltac:(discriminate)
      b_sel put (allowed same) (fun _ _ => eq_refl) (fun _ _ _ => eq_refl)
      (sel_active (b_sel u1)) (sel_current (b_sel u1)) 1 None [] [v] u1 []); [exact B1|].
    repeat split; try apply refl; try (left; apply refl); intros t b u' [].
  - intros u' h' [(H1 & _ & _ & _ & _ & H2) H3]. apply HR; [exact H1|exact H3|]. cbn in H2. unfold p_items in H2. rewrite Hs in H2.
    destruct H2 as [H2|H2]; [exact H2|]. exfalso. apply (HNo VNone); [|reflexivity]. apply (sdel_in same v). rewrite Hs, H2. now left.
  - intros u' h' e [H1 _]. now apply HE.
Qed.
Lemma nth_cut : forall (l : list val) n y, nth_error l n = Some y -> l = firstn n l ++ y :: skipn (S n) l /\ n < List.length l.
Proof.
  intros l; induction l as [|x l IH]; intros [|n] y H; try discriminate; cbn in *.
  - injection H as ->. split; [reflexivity|apply Nat.lt_0_succ].
  - destruct (IH n y H) as [H1 H2]. split; [cbn; now rewrite <- H1|now apply Nat.succ_lt_mono in H2].
Qed.
Lemma remove_wp : forall x n y u h l (R : both -> out -> Prop), consistent same u -> sel_items (b_sel u) = x :: l ->
  (forall z, In z (sel_items (b_sel u)) -> z <> VNone) ->
  find_index same islist wrap x 0 (b_list u) = Some (Z.of_nat n) -> nth_error (b_list u) n = Some y -> same y x = true ->
  (forall u', consistent same u' -> b_list u' = firstn n (b_list u) ++ skipn (S n) (b_list u) -> sel_items (b_sel u') = l -> R u' (Ok VNone)) ->
  (forall u' e, raised_in e -> R u' (Err e)) ->
  wp E C (lift same (el_remove same islist wrap x)) u h (fun u _ r => match r with Ok _ => R u (Ok VNone) | Err e => R u (Err e) | Halted => True end).
Proof.
  intros x n y u h l R HG Hi Hsel Hf Hn Hs HR HX. pose proof HQ as (refl & sym & trans).
  unfold el_remove. cbn [lift wp]. rewrite Hf. unfold el_del. cbn [lift wp].
  assert (Hz : (Z.of_nat n <? 0)%Z = false) by (apply Z.ltb_ge, Nat2Z.is_nonneg). rewrite Hz. cbn [sort_desc fold_right insert_desc each].
  unfold seq. apply lift_bind. unfold del_one at 1, seq. apply lift_bind. unfold say at 1, call. cbn [lift removed_item lift_op wp].
  change (C removing) with true. cbv iota zeta. split; [intros v0|intros e He; apply HX; left; now apply He].
  cbn [lift wp]. apply lift_bind. unfold act, call. cbn [lift removed_item lift_op wp fst snd].
  destruct (nth_cut _ _ _ Hn) as [Hc Hlt].
  assert (Hp : do_pop (Z.of_nat n) (b_list u) = (firstn n (b_list u) ++ skipn (S n) (b_list u), inl y)).
  { unfold do_pop, list_pop, at_, valid, norm. rewrite Hz.
    assert (Hv : ((0 <=? Z.of_nat n) && (Z.of_nat n <? size (b_list u)))%Z = true) by (apply andb_true_iff; unfold size; lia).
    rewrite Hv, Nat2Z.id, Hn. reflexivity. }
  rewrite Hp. cbn [fst snd lift finish wp]. unfold say, call. cbn [lift removed_item]. apply wp_catch.
  set (u1 := Both (firstn n (b_list u) ++ skipn (S n) (b_list u)) (b_sel u)).
  eapply wp_mono; [|apply (discard_wp y u1 _ l (fun u' r => match r with
      | Ok _ => consistent same u' /\ b_list u' = b_list u1 /\ sel_items (b_sel u') = l | Err e => raised e | Halted => True end))].
  - cbv beta. intros u' h' [v|e|] H'; [| |exact I].
    + cbn [lift_op wp]. change (C 4) with true. cbv iota zeta. destruct H' as (H1 & H2 & H3).
      split; [intros v1|intros e He; cbn [lift wp]; apply HX; left; now apply He]. cbn [lift wp]. now apply HR.
    + cbn [lift wp]. apply HX. right. eauto.
  - destruct HG as (G1 & G2 & G3). split; [exact G1|]. intros z Hz'. cbn. destruct (G2 z Hz') as (t & Ht & Hzt). rewrite Hc in Ht.
    apply in_app_or in Ht as [Ht|[<-|Ht]]; [|now rewrite Hzt|];
      (apply orb_true_iff; right; apply mem_inside; auto; exists t; split; [apply in_or_app; auto|exact Hzt]).
  - exact Hsel.
  - cbn [b_sel u1]. rewrite Hi. cbn. now rewrite Hs.
  - cbn [b_sel u1]. rewrite Hi. unfold mem. cbn. now rewrite Hs.
  - intros u' H1 H2 H3. split; [now apply good_consistent|auto].
  - auto.
Qed.
Hypothesis HN : none_alone same.
Lemma sel_plain : forall u z, consistent same u -> plain islist (b_list u) -> In z (sel_items (b_sel u)) -> z <> VNone.
Proof.
  pose proof HQ as (refl & sym & trans). intros u z (_ & H & _) Hl Hz ->. destruct (H _ Hz) as (y & Hy & Hs). apply sym, HN in Hs. subst y. now destruct (Hl _ Hy).
Qed.
Lemma taken_at : forall x l n xs l' i j, first_at same x l n -> taken same xs (firstn n l ++ skipn (S n) l) n l' j -> taken same (x :: xs) l i l' j.
Proof.
  intros x l n xs l' i j [(y & Hn & Hs) Hf] HT. destruct (nth_cut _ _ _ Hn) as [Hc Hlt].
  assert (Hlen : List.length (firstn n l) = n) by (apply firstn_length_le; now apply Nat.lt_le_incl).
  rewrite Hc. apply taken_cons; [exact Hs| |now rewrite Hlen].
  intros z Hz. apply In_nth_error in Hz as [k Hk]. assert (Hkn : k < n) by (rewrite <- Hlen; apply nth_error_Some; congruence).
  apply (Hf k z Hkn). rewrite Hc, nth_error_app1; [exact Hk|now rewrite Hlen].
Qed.
(** The outcome of taking out the selected items [l]. *)
Definition cleaned (gone l : list val) (i : nat) (u u' : both) (r : out) : Prop :=
  match r with
  | Ok v => v = VTuple gone /\ consistent same u' /\ exists l' j, taken same l (b_list u) i l' j /\ b_list u' = l'
      /\ sel_items (b_sel u') = match nth_error l' (j - 1) with Some x => [x] | None => [] end
  | Err e => raised_in e
  | Halted => True
  end.
Lemma cleaned_wp : forall u, consistent same u -> plain islist (b_list u) ->
  wp E C (se_remove_selected same islist wrap) u [] (fun u' _ r => cleaned (sel_items (b_sel u)) (sel_items (b_sel u)) 0 u u' r).
Proof.
  pose proof HQ as (refl & sym & trans).
  intros u HG Hl. unfold se_remove_selected. cbn [wp]. cbv zeta. generalize (sel_items (b_sel u)) at 1 3 as gone. intros gone.
  match goal with |- wp _ _ (?f 0%Z _) _ _ _ => set (loop := f) end.
  enough (H : forall l u h i, consistent same u -> plain islist (b_list u) -> sel_items (b_sel u) = l ->
    wp E C (loop (Z.of_nat i) l) u h (fun u' _ r => cleaned gone l i u u' r)) by (apply (H _ u [] 0); auto).
  clear u HG Hl. induction l as [|x l IH]; intros u h i HG Hl Hi.
  - cbn [loop wp]. unfold loop. cbn [wp]. unfold seq. apply wp_bind.
    set (k := Z.max 0 (Z.of_nat i - 1)).
    assert (Hk : k = Z.of_nat (i - 1)) by (unfold k; clear; lia). clearbody k. subst k.
    destruct (Z.of_nat (i - 1) <? size (b_list u))%Z eqn:Es.
    + unfold se_get. cbn [wp]. destruct (at_valid (b_list u) (Z.of_nat (i - 1))) as [x Hx]; [apply Z.ltb_lt in Es; unfold size in Es |- *; clear -Es; lia|].
      rewrite Hx. destruct (at_nth _ _ _ Hx) as (t & Hn & Hz & _).
      assert (Ht : t = i - 1) by (unfold norm in Hz; destruct (Z.of_nat (i - 1) <? 0)%Z eqn:E0; [apply Z.ltb_lt in E0; clear -E0; lia|now apply Nat2Z.inj]). subst t.
      pose proof (nth_error_In _ _ Hn) as Hin. destruct (Hl x Hin) as [Hlx Nx]. unfold seen. rewrite Hlx.
      apply (wp_shift _ u [] h (fun u' r => match r with
        | Ok v => wp E C (Ret (VTuple gone)) u' [] (fun u' _ r => cleaned gone [] i u u' r) | Err e => cleaned gone [] i u u' (Err e) | Halted => True end)).
      apply good_consistent in HG; [|exact HQ].
      eapply wp_mono; [|exact (pick_add E same HQ x u HG Hin Nx)]. intros u' h' [v|e|]; auto.
      * intros (H1 & H2 & H3). cbn [wp cleaned]. split; [reflexivity|]. split; [now apply good_consistent|].
        exists (b_list u), i. split; [constructor|]. split; [exact H2|]. rewrite Hn, H3, Hi. reflexivity.
      * intros H. left. exact H.
    + cbn [wp cleaned]. split; [reflexivity|]. split; [exact HG|]. exists (b_list u), i. split; [constructor|]. split; [reflexivity|].
      rewrite Hi. replace (nth_error (b_list u) (i - 1)) with (@None val); [reflexivity|]. symmetry. apply nth_error_None. apply Z.ltb_ge in Es. unfold size in Es. clear -Es. lia.
  - unfold loop. cbn [wp]. fold loop.
    destruct (find_index same islist wrap x 0 (b_list u)) as [k|] eqn:Ef.
    + destruct (find_first _ _ _ _ _ _ _ refl (fun x Hx => proj1 (Hl x Hx)) Ef) as (n & Hkn & Hk). rewrite Z.add_0_l in Hkn. subst k.
      pose proof Hk as [(y & Hn & Hs) _]. unfold seq. apply wp_bind.
      eapply wp_mono; [|apply (remove_wp x n y u h l (fun u' r => match r with
        | Ok _ => consistent same u' /\ b_list u' = firstn n (b_list u) ++ skipn (S n) (b_list u) /\ sel_items (b_sel u') = l
        | Err e => raised_in e | Halted => True end) HG Hi)]; auto.
      * intros u' h' [v|e|]; auto. intros (H1 & H2 & H3).
        eapply wp_mono; [|apply (IH u' h' n H1)]; [|rewrite H2|exact H3].
        -- intros u2 h2 [w|e|]; auto. intros (C1 & C2 & l' & j & C3 & C4 & C5). split; [exact C1|]. split; [exact C2|]. exists l', j.
           split; [|auto]. rewrite H2 in C3. now apply taken_at with n.
        -- intros z Hz. apply Hl. destruct (nth_cut _ _ _ Hn) as [Hc _]. rewrite Hc. apply in_or_app. apply in_app_or in Hz as [Hz|Hz]; [now left|right; now right].
      * intros z Hz. now apply (sel_plain u).
    + exfalso. destruct HG as (_ & HI & _). destruct (HI x) as (y & Hy & Hs); [rewrite Hi; now left|]. apply sym in Hs.
      now rewrite (find_none _ _ _ _ _ _ (fun x Hx => proj1 (Hl x Hx)) Ef y Hy) in Hs.
Qed.
End Remove.

(** select_next raises only if a listener does, or with ValueError and no effect if something is selected but the current item is not in the list. *)
Definition no_current (same : val -> val -> bool) (u u' : both) (e : exn) : Prop :=
  u' = u /\ e = EValue /\ sel_items (b_sel u) <> [] /\ ~ inside same (sel_current (b_sel u)) (b_list u).

(** select_next(step) on a consistent selection never touches the list; the item [step] positions from the current one (or the end in
    this direction, or around) becomes active, current, and the only selected item. *)
Theorem C92_next_partial : forall E same islist wrap activate w w' step around r,
  env_all (aloof selectable_signals) E -> equivalence same -> none_alone same ->
  plain islist (b_list (w_usr w)) -> consistent same (w_usr w) ->
  runs E (selectable same islist wrap activate (ENext step false around)) w w' r -> done r ->
  match r with
  | Ok _ => b_list (w_usr w') = b_list (w_usr w) /\ consistent same (w_usr w') /\ (b_list (w_usr w) = [] -> w_usr w' = w_usr w)
      /\ (b_list (w_usr w) <> [] -> exists t x, next_at same (w_usr w) step around t /\ nth_error (b_list (w_usr w)) t = Some x
          /\ (exists y, sel_items (b_sel (w_usr w')) = [y] /\ same x y = true) /\ same x (sel_active (b_sel (w_usr w'))) = true
          /\ (same x (sel_active (b_sel (w_usr w))) = true -> w_usr w' = w_usr w)
          /\ (same x (sel_active (b_sel (w_usr w))) = false -> same x (sel_current (b_sel (w_usr w'))) = true))
  | Err e => listener_raised E selectable_signals e \/ no_current same (w_usr w) (w_usr w') e
  | Halted => False
  end.
Proof.
  intros E same islist wrap activate w w' step around r HE HQ HN Hl HG HR Hd. apply good_consistent in HG; [|exact HQ].
  destruct (tl_sound E selectable_signals _ w w' r _ _ HE (next_tells E same HQ HN islist wrap step false around (w_usr w) HG Hl) HR Hd) as (tr & _ & H).
  destruct r as [v|e|]; [|exact H|exact H]. destruct H as (H1 & H2 & H3 & H4). split; [exact H2|].
  split; [now apply good_consistent|]. split; [exact H3|]. intros N. destruct (H4 N) as (t & x & Ht & Hn & Hm). exists t, x. split; [exact Ht|]. split; [exact Hn|].
  unfold moved in Hm. destruct (same x (sel_active (b_sel (w_usr w)))) eqn:Es.
  - rewrite Hm. pose proof HQ as (refl & sym & trans). split; [|split; [exact Es|split; [reflexivity|discriminate]]].
    eapply good_same; eauto. apply (Hl x). eapply nth_error_In; exact Hn.
  - destruct Hm as (M1 & M2 & M3). split; [exact M3|]. split; [exact M1|]. split; [discriminate|auto].
Qed.
(** With expand_selection=True this item is selected as well, and becomes current. *)
Theorem C92_expand_partial : forall E same islist wrap activate w w' step around r,
  env_all (aloof selectable_signals) E -> equivalence same -> none_alone same ->
  plain islist (b_list (w_usr w)) -> consistent same (w_usr w) ->
  runs E (selectable same islist wrap activate (ENext step true around)) w w' r -> done r ->
  match r with
  | Ok _ => b_list (w_usr w') = b_list (w_usr w) /\ consistent same (w_usr w') /\ (b_list (w_usr w) = [] -> w_usr w' = w_usr w)
      /\ (b_list (w_usr w) <> [] -> exists t x, next_at same (w_usr w) step around t /\ nth_error (b_list (w_usr w)) t = Some x
          /\ (forall y, inside same y (sel_items (b_sel (w_usr w'))) <-> inside same y (sel_items (b_sel (w_usr w))) \/ same y x = true)
          /\ same x (sel_current (b_sel (w_usr w'))) = true)
  | Err e => listener_raised E selectable_signals e \/ no_current same (w_usr w) (w_usr w') e
  | Halted => False
  end.
Proof.
  intros E same islist wrap activate w w' step around r HE HQ HN Hl HG HR Hd. apply good_consistent in HG; [|exact HQ].
  destruct (tl_sound E selectable_signals _ w w' r _ _ HE (next_tells E same HQ HN islist wrap step true around (w_usr w) HG Hl) HR Hd) as (tr & _ & H).
  destruct r as [v|e|]; [|exact H|exact H]. destruct H as (H1 & H2 & H3 & H4). split; [exact H2|].
  split; [now apply good_consistent|]. split; [exact H3|]. intros N. destruct (H4 N) as (t & x & Ht & Hn & Hm). exists t, x. split; [exact Ht|]. split; [exact Hn|].
  destruct Hm as [M1 M2]. split; [|exact M2]. pose proof HQ as (refl & sym & trans). intros y. rewrite M1. destruct (mem same x _) eqn:Em.
  - split; [auto|]. intros [H|H]; [exact H|]. apply mem_inside; auto. now rewrite (mem_same same sym trans y x _ H).
  - unfold inside. split.
    + intros (z & Hz & Hs). apply in_app_or in Hz as [Hz|[<-|[]]]; [left; eauto|right; exact Hs].
    + intros [(z & Hz & Hs)|H]; [exists z|exists x]; (split; [apply in_or_app; cbn; auto|auto]).
Qed.

(** ** Cases *)
Notation N_run o := (selectable val_eqb (fun _ => false) same_list false o).
Definition N_l := [VInt 5; VInt 6; VInt 7].
Definition N_after o w := after both_env 400 (N_run o) w.
Definition N_w1 := N_after (ESelect (LActive (VInt 6))) (both_world N_l).
(** From 6: to 7, from there no further, or around to 5; -5 steps lead to the first item; 6 and 7 are selected. *)
Example C92_case :
  env_all (aloof selectable_signals) both_env /\ equivalence val_eqb /\ none_alone val_eqb
  /\ plain (fun _ => false) (b_list (w_usr N_w1)) /\ consistent val_eqb (w_usr N_w1)
  /\ w_usr N_w1 = Both N_l (Sel [VInt 6] (VInt 6) (VInt 6))
  /\ outcome both_env 400 (N_run (ENext 1 false false)) N_w1 = Some (Ok VNone)
  /\ w_usr (N_after (ENext 1 false false) N_w1) = Both N_l (Sel [VInt 7] (VInt 7) (VInt 7))
  /\ w_usr (N_after (ENext 1 false false) (N_after (ENext 1 false false) N_w1)) = Both N_l (Sel [VInt 7] (VInt 7) (VInt 7))
  /\ w_usr (N_after (ENext 2 false true) N_w1) = Both N_l (Sel [VInt 5] (VInt 5) (VInt 5))
  /\ w_usr (N_after (ENext (-5) false false) N_w1) = Both N_l (Sel [VInt 5] (VInt 5) (VInt 5))
  /\ w_usr (N_after (ENext (-5) false true) N_w1) = Both N_l (Sel [VInt 7] (VInt 7) (VInt 7))
  /\ w_usr (N_after (ENext 1 false false) (both_world N_l)) = Both N_l (Sel [VInt 7] (VInt 7) (VInt 7))
  /\ outcome both_env 400 (N_run (ENext 1 true false)) N_w1 = Some (Ok VNone)
  /\ w_usr (N_after (ENext 1 true false) N_w1) = Both N_l (Sel [VInt 6; VInt 7] VNone (VInt 7)).
Proof.
  split; [apply both_env_aloof|]. split; [apply val_eqb_equivalence|]. split; [apply val_eqb_none|].
  assert (H : w_usr N_w1 = Both N_l (Sel [VInt 6] (VInt 6) (VInt 6))) by (vm_compute; reflexivity).
  split; [rewrite H; intros x [<-|[<-|[<-|[]]]]; split; (reflexivity || discriminate)|].
  split; [rewrite H; split; [cbn; auto|]; split; [intros x [<-|[]]; exists (VInt 6); cbn; auto|left; exists (VInt 6); auto]|].
  vm_compute. repeat split.
Qed.
(** All three are selected, 5 is current; then 5 is removed from the list.  6 and 7 are still selected, but select_next fails. *)
Theorem C92_refuted : exists (E : env both) same islist wrap w0 w1 w2 w3,
  env_all (aloof selectable_signals) E /\ equivalence same /\ none_alone same /\ reachable E w0
  /\ w_usr w0 = Both [VInt 5; VInt 6; VInt 7] (Sel [] VNone VNone)
  /\ runs E (selectable same islist wrap false ESelectAll) w0 w1 (Ok VNone)
  /\ runs E (selectable same islist wrap false (ERemove (VInt 5))) w1 w2 (Ok VNone)
  /\ b_list (w_usr w2) = [VInt 6; VInt 7] /\ sel_items (b_sel (w_usr w2)) = [VInt 6; VInt 7]
  /\ runs E (selectable same islist wrap false (ENext 1 false false)) w2 w3 (Err EValue).
Proof.
  set (w1 := N_after ESelectAll (both_world N_l)). set (w2 := N_after (ERemove (VInt 5)) w1).
  exists both_env, val_eqb, (fun _ => false), same_list, (both_world N_l), w1, w2, (N_after (ENext 1 false false) w2).
  split; [apply both_env_aloof|]. split; [apply val_eqb_equivalence|]. split; [apply val_eqb_none|]. split; [reach|].
  split; [vm_compute; reflexivity|]. split; [apply after_runs; vm_compute; reflexivity|]. split; [apply after_runs; vm_compute; reflexivity|].
  split; [vm_compute; reflexivity|]. split; [vm_compute; reflexivity|]. apply after_runs; vm_compute; reflexivity.
Qed.
Print Assumptions C92_next_partial.
Print Assumptions C92_expand_partial.
Print Assumptions C92_refuted.

(** remove_selected() on a consistent selection returns the selected items, takes each of them out of the list (the first item that is
    equal), and selects the item before where the last of them was, which becomes active; it raises only if a listener does. *)
Theorem C93_remove_partial : forall E same islist wrap activate w w' r,
  env_all (aloof selectable_signals) E -> equivalence same -> none_alone same ->
  plain islist (b_list (w_usr w)) -> consistent same (w_usr w) ->
  runs E (selectable same islist wrap activate ERemoveSelected) w w' r -> done r ->
  match r with
  | Ok v => v = VTuple (sel_items (b_sel (w_usr w))) /\ consistent same (w_usr w')
      /\ exists j, taken same (sel_items (b_sel (w_usr w))) (b_list (w_usr w)) 0 (b_list (w_usr w')) j
         /\ sel_items (b_sel (w_usr w')) = match nth_error (b_list (w_usr w')) (j - 1) with Some x => [x] | None => [] end
  | Err e => listener_raised E selectable_signals e \/ exists e', e = EEmitLoop (Some removed) 0 e' /\ listener_raised E selectable_signals e'
  | Halted => False
  end.
Proof.
  intros E same islist wrap activate w w' r HE HQ HN Hl HG HR Hd.
  destruct (wp_sound E selectable_signals HE _ w w' r HR Hd [] _ (cleaned_wp E same HQ islist wrap HN (w_usr w) HG Hl)) as (t & _ & H).
  destruct r as [v|e|]; [|exact H|now destruct Hd]. destruct H as (H1 & H2 & l' & j & H3 & H4 & H5). split; [exact H1|]. split; [exact H2|].
  exists j. rewrite H4. auto.
Qed.
(** The items of the list that are not equal to a selected one stay, in order. *)
Lemma taken_others : forall same xs l i l' j, equivalence same -> taken same xs l i l' j ->
  filter (fun y => negb (mem same y xs)) l' = filter (fun y => negb (mem same y xs)) l.
Proof.
  intros same xs l i l' j (refl & sym & trans) HT.
  enough (H : forall ys, (forall x, In x xs -> In x ys) -> filter (fun y => negb (mem same y ys)) l' = filter (fun y => negb (mem same y ys)) l) by (apply H; auto).
  induction HT as [l i|x xs a y b l' i j Hs Ha HT IH]; intros ys Hy; [reflexivity|].
  rewrite (IH ys) by (intros z Hz; apply Hy; now right). rewrite !filter_app. cbn [filter].
  assert (Hm : mem same y ys = true) by (apply mem_inside; auto; exists x; split; [apply Hy; now left|exact Hs]). now rewrite Hm.
Qed.
Theorem C93_others_partial : forall E same islist wrap activate w w' v,
  env_all (aloof selectable_signals) E -> equivalence same -> none_alone same ->
  plain islist (b_list (w_usr w)) -> consistent same (w_usr w) ->
  runs E (selectable same islist wrap activate ERemoveSelected) w w' (Ok v) ->
  let other y := negb (mem same y (sel_items (b_sel (w_usr w)))) in
  filter other (b_list (w_usr w')) = filter other (b_list (w_usr w))
  /\ List.length (b_list (w_usr w)) = List.length (sel_items (b_sel (w_usr w))) + List.length (b_list (w_usr w')).
Proof.
  intros E same islist wrap activate w w' v HE HQ HN Hl HG HR other.
  destruct (C93_remove_partial E same islist wrap activate w w' (Ok v) HE HQ HN Hl HG HR ltac:(discriminate)) as (_ & _ & j & HT & _).
  split; [now apply (taken_others same _ _ 0 _ j)|]. clear - HT. induction HT as [l i|x xs a y b l' i j Hs Ha HT IH]; [reflexivity|].
  rewrite app_length in *. cbn [List.length]. lia.
Qed.
(** 6 and 7 of 5, 6, 7, 6 are selected; then the remaining 6 is after 5. *)
Definition N_l4 := [VInt 5; VInt 6; VInt 7; VInt 6].
Definition N_w2 := N_after (ENext 1 true false) (N_after (ESelect (LActive (VInt 6))) (both_world N_l4)).
Example C93_case :
  plain (fun _ => false) (b_list (w_usr N_w2)) /\ consistent val_eqb (w_usr N_w2)
  /\ w_usr N_w2 = Both N_l4 (Sel [VInt 6; VInt 7] VNone (VInt 7))
  /\ outcome both_env 400 (N_run ERemoveSelected) N_w2 = Some (Ok (VTuple [VInt 6; VInt 7]))
  /\ w_usr (N_after ERemoveSelected N_w2) = Both [VInt 5; VInt 6] (Sel [VInt 5] (VInt 5) (VInt 5))
  /\ taken val_eqb [VInt 6; VInt 7] N_l4 0 [VInt 5; VInt 6] 1.
Proof.
  assert (H : w_usr N_w2 = Both N_l4 (Sel [VInt 6; VInt 7] VNone (VInt 7))) by (vm_compute; reflexivity).
  split; [rewrite H; intros x [<-|[<-|[<-|[<-|[]]]]]; split; (reflexivity || discriminate)|].
  split; [rewrite H; split; [cbn; auto|]; split; [intros x [<-|[<-|[]]]; [exists (VInt 6)|exists (VInt 7)]; cbn; auto|right; split; [discriminate|reflexivity]]|].
  split; [exact H|]. split; [vm_compute; reflexivity|]. split; [vm_compute; reflexivity|].
  apply (taken_cons val_eqb (VInt 6) [VInt 7] [VInt 5] (VInt 6) [VInt 7; VInt 6]); [reflexivity|intros z [<-|[]]; reflexivity|].
  apply (taken_cons val_eqb (VInt 7) [] [VInt 5] (VInt 7) [VInt 6]); [reflexivity|intros z [<-|[]]; reflexivity|]. constructor.
Qed.
(** With nothing selected, it removes nothing and selects the first item. *)
Theorem C93_refuted : exists (E : env both) same islist wrap w w',
  env_all (aloof selectable_signals) E /\ equivalence same /\ none_alone same /\ reachable E w
  /\ w_usr w = Both [VInt 5; VInt 6; VInt 7] (Sel [] VNone VNone)
  /\ runs E (selectable same islist wrap false ERemoveSelected) w w' (Ok (VTuple []))
  /\ w_usr w' = Both [VInt 5; VInt 6; VInt 7] (Sel [VInt 5] (VInt 5) (VInt 5)).
Proof.
  exists both_env, val_eqb, (fun _ => false), same_list, (both_world N_l), (N_after ERemoveSelected (both_world N_l)).
  split; [apply both_env_aloof|]. split; [apply val_eqb_equivalence|]. split; [apply val_eqb_none|]. split; [reach|].
  split; [vm_compute; reflexivity|]. split; [apply after_runs; vm_compute; reflexivity|]. vm_compute; reflexivity.
Qed.
Print Assumptions C93_remove_partial.
Print Assumptions C93_others_partial.
Print Assumptions C93_refuted.
