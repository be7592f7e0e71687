(** Constructors of the evented containers: C108. *)

From Verif Require Import Base Core Spec Frame Fuel Demo Client Prog PyDict EDict SpecDict PyList EList PySet ESet SpecSet SetFacts ESelect SpecSelect EListRead EMake
  SpecMake Alone ListFacts MakeFacts PropsSet PropsReentry.
Open Scope nat_scope.

(** * They use only their own signals *)
Ltac civ :=
  repeat (intros; match goal with
  | |- civil _ (Ret _) => exact Logic.I
  | |- civil _ (Throw _) => exact Logic.I
  | |- civil _ (seq _ _) => apply civil_bind; [|intros]
  | |- civil _ (bind _ _) => apply civil_bind; [|intros]
  | |- civil _ (act _) => apply civil_act
  | |- civil _ (say _ _) => apply civil_say; auto; reflexivity
  | |- civil _ (each _ _) => apply civil_each
  | |- civil _ (with_paused _ _ _) => apply civil_paused; [auto; reflexivity|]
  | |- civil _ (Look ?k) => let u := fresh in intros u; cbv beta
  | |- civil _ (match ?x with _ => _ end) => destruct x
  end).
Lemma init_d_civil : forall same isinst data b kw, civil dict_signals (ed_init same isinst data b kw).
Proof. intros. unfold ed_init, ed_update, ed_set. civ. Qed.
Lemma init_l_civil : forall vs, civil list_signals (el_init vs).
Proof. intros. unfold el_init, el_extend, el_append, el_insert. civ. Qed.
Lemma init_o_civil : forall same order vs, civil set_signals (eo_init same order vs).
Proof. intros. unfold eo_init, es_update, bs_update, over, bs_add, set_hooks. cbn [pre_add emit_change each]. civ. Qed.
Section Sel.
Context {U : Type}.
Variable C : sid -> bool.
Variable same : val -> val -> bool.
Variable si sa sc : sid.
Variable get : U -> sel.
Variable put : sel -> U -> U.
Variable allowed : U -> val -> bool.
Hypothesis HI : C si = true.
Hypothesis HA : C sa = true.
Hypothesis HC : C sc = true.
Lemma add_civil : forall upd x, civil C upd -> civil C (sl_add same si get put allowed upd x).
Proof. intros. unfold sl_add, bs_add, sel_hooks. cbn [pre_add emit_change]. civ. assumption. Qed.
Lemma current_civil : forall x, civil C (set_current same sc get put x).
Proof. intros. unfold set_current. civ. Qed.
Lemma setter_civil : forall n v, civil C (set_active same si sa sc get put allowed n v).
Proof.
  induction n as [|n IH]; intros v; [exact Logic.I|]. cbn [set_active].
  assert (HU : civil C (update_with sa get put (set_active same si sa sc get put allowed n))) by (unfold update_with; civ; apply IH).
  unfold sl_clear, sl_select_only, sl_intersection, bulk, bs_intersection_update, bs_clear, bs_discard, sel_hooks. cbn [pre_clear pre_discard emit_change].
  civ; auto using current_civil, add_civil.
Qed.
Lemma sel_init_civil : forall vs, civil C (sl_init same si sa sc get put allowed vs).
Proof.
  intros vs. unfold sl_init, sel_do, sel_set, sl_update, bulk, bs_update, over, update_active.
  assert (HU : civil C (update_with sa get put (set_active same si sa sc get put allowed DEPTH))) by (unfold update_with; civ; apply setter_civil).
  cbn [each]. apply civil_bind; [apply civil_act|intros _]. apply civil_bind; [|intros _; apply civil_bind; [exact HU|intros; exact Logic.I]].
  apply civil_paused; [exact HI|]. apply civil_bind; [|intros; exact Logic.I]. apply civil_each. intros x. now apply add_civil.
Qed.
End Sel.
Lemma init_se_civil : forall same vs, civil selectable_signals (se_init same vs).
Proof.
  intros same vs. unfold se_init, se_extend, se_append, se_insert. apply civil_bind; [now apply sel_init_civil|intros _].
  apply civil_bind; [apply civil_act|intros _]. apply civil_bind; [|intros; exact Logic.I]. apply civil_each. intros v u.
  apply civil_bind; [|intros _; apply civil_bind; [unfold pick; cbn [sel_do]; now apply setter_civil|intros; exact Logic.I]].
  unfold el_insert. cbn. split; [reflexivity|]. intros [?|?]; cbn; [|exact Logic.I]. split; [exact Logic.I|]. intros [?|?]; cbn; [|exact Logic.I].
  split; [reflexivity|]. intros [?|?]; exact Logic.I.
Qed.

(** * C108 *)

(** EventedDict(data, **kwargs) holds what dict(data, **kwargs) holds, or raises TypeError if a value is not of the given types. *)
Theorem C108_dict : forall E same isinst data b kw w w' r,
  equivalence same -> just_made dict_signals dict_cfg w -> runs E (ed_init same isinst data b kw) w w' r ->
  let pairs := match data with Some l => l | None => [] end ++ kw in
  let fine v := match b with BType t => isinst v t = true | BTypes ts => ts = [] \/ exists t, In t ts /\ isinst v t = true end in
  unnoticed dict_signals w w'
  /\ ((forall k v, In (k, v) pairs -> fine v) -> r = Ok VNone /\ made_of same pairs (w_usr w'))
  /\ ((exists k v, In (k, v) pairs /\ ~ fine v) -> r = Err EType).
Proof.
  intros E same isinst data b kw w w' r (refl & sym & trans) HJ HR pairs fine.
  assert (HM : mute dict_signals (fun _ => false) w).
  { apply (made_mute _ _ _ HJ). intros s Hs. do 7 (destruct s as [|s]; [now repeat split|]). discriminate. }
  set (l := match data with Some l => l | None => [] end) in *.
  set (typed := type_ok isinst (basetypes b)).
  assert (HF : forall v, typed v = true <-> fine v).
  { intros v. unfold typed, type_ok, fine. destruct b as [t|[|t ts]]; cbn [basetypes]; [cbn; now rewrite orb_false_r|split; auto|].
    rewrite existsb_exists. split; [intros (x & H); right; exists x; exact H|intros [H|(x & H)]; [discriminate|exists x; exact H]]. }
  assert (HD : (forall k v, In (k, v) pairs -> typed v = true) \/ exists k v, In (k, v) pairs /\ typed v = false).
  { clearbody pairs typed. clear. induction pairs as [|[k v] ps IH]; [left; intros k v []|].
    destruct (typed v) eqn:H; [|right; exists k, v; split; [now left|exact H]].
    destruct IH as [IH|(x & y & Hx & Hy)]; [left; intros x y [[= <- <-]|Hx]; eauto|right; exists x, y; split; [now right|exact Hy]]. }
  destruct HD as [HD|HD].
  - assert (HA : al (ed_init same isinst data b kw) (w_usr w) (puts same pairs []) (Ok VNone)).
    { eapply al_seq; [apply al_act; reflexivity|]. fold typed. fold l.
      eapply al_seq; [apply update_al; intros k v H; apply (HD k v), in_or_app; now left|].
      eapply al_seq; [apply update_al; intros k v H; apply (HD k v), in_or_app; now right|].
      unfold pairs, puts. rewrite fold_left_app. apply al_ret. }
    destruct (al_runs _ _ _ _ _ _ _ _ _ (init_d_civil same isinst data b kw) HM HR HA) as (-> & -> & HU).
    split; [exact HU|]. split; [intros _; split; [reflexivity|now apply puts_made]|].
    intros (k & v & H & N). destruct N. apply HF. eauto.
  - assert (HA : exists d', al (ed_init same isinst data b kw) (w_usr w) d' (Err EType)).
    { assert (HL : (exists k v, In (k, v) l /\ typed v = false) \/ ((forall k v, In (k, v) l -> typed v = true) /\ exists k v, In (k, v) kw /\ typed v = false)).
      { destruct HD as (k & v & H & Hv). unfold pairs in H. apply in_app_or in H.
        destruct H as [H|H]; [eauto|]. clearbody l typed. clear - H Hv. induction l as [|[x y] l IH]; [right; split; [intros ? ? []|eauto]|].
        destruct (typed y) eqn:Hy; [|left; exists x, y; split; [now left|exact Hy]].
        destruct IH as [(a & c & Ha & Hc)|[IH1 IH2]]; [left; exists a, c; split; [now right|exact Hc]|right; split; [intros a c [[= <- <-]|Ha]; eauto|exact IH2]]. }
      destruct HL as [HL|[HL HK]].
      - destruct (update_al_err same typed l [] HL ltac:(intros ? ? [])) as [d' G]. exists d'. eapply al_seq; [apply al_act; reflexivity|]. apply al_bind_err. exact G.
      - destruct (update_al_err same typed kw (puts same l []) HK) as [d' G]; [apply puts_typed; [exact HL|intros ? ? []]|].
        exists d'. eapply al_seq; [apply al_act; reflexivity|]. eapply al_seq; [apply update_al; exact HL|]. apply al_bind_err. exact G. }
    destruct HA as [d' HA]. destruct (al_runs _ _ _ _ _ _ _ _ _ (init_d_civil same isinst data b kw) HM HR HA) as (_ & -> & HU).
    split; [exact HU|]. split; [|reflexivity]. intros H. destruct HD as (k & v & Hk & Hv). apply H, HF in Hk. congruence.
Qed.
Example C108_dict_case :
  let E := demo (U := dict) (fun _ _ => Ret VNone) in let w := init_world dict_cfg [] in
  let p b := ed_init val_eqb (fun v t => match v, t with VInt _, 1 => true | VStr _, 2 => true | _, _ => false end)
               (Some [(VInt 1, VInt 10); (VInt 2, VInt 20); (VInt 1, VInt 11)]) b [(VStr "a", VStr "b")] in
  just_made dict_signals dict_cfg w
  /\ outcome E 99 (p (BTypes [1; 2])) w = Some (Ok VNone)
  /\ w_usr (after E 99 (p (BTypes [1; 2])) w) = [(VInt 1, VInt 11); (VInt 2, VInt 20); (VStr "a", VStr "b")]
  /\ outcome E 99 (p (BType 1)) w = Some (Err EType).
Proof. vm_compute. repeat split. Qed.

(** EventedList(data), EventedSet(data) and EventedOrderedSet(data). *)
Theorem C108_list : forall E vs w w' r, just_made list_signals list_cfg w -> runs E (el_init vs) w w' r ->
  r = Ok VNone /\ w_usr w' = vs /\ unnoticed list_signals w w'.
Proof.
  intros E vs w w' r HJ HR.
  assert (HM : mute list_signals (fun _ => false) w).
  { apply (made_mute _ _ _ HJ). intros s Hs. do 10 (destruct s as [|s]; [now repeat split|]). discriminate. }
  assert (HA : al (el_init vs) (w_usr w) vs (Ok VNone)).
  { eapply al_seq; [apply al_act; reflexivity|]. eapply al_seq; [apply extend_al|apply al_ret]. }
  destruct (al_runs _ _ _ _ _ _ _ _ _ (init_l_civil vs) HM HR HA) as (-> & -> & HU). auto.
Qed.
Theorem C108_set : forall E same order vs w w' r p, just_made set_signals set_cfg w ->
  p = es_init same vs \/ p = eo_init same order vs -> runs E p w w' r ->
  r = Ok VNone /\ w_usr w' = dedup same vs /\ unnoticed set_signals w w'.
Proof.
  intros E same order vs w w' r p HJ HP HR.
  assert (HM : mute set_signals (fun _ => false) w).
  { apply (made_mute _ _ _ HJ). intros s Hs. do 2 (destruct s as [|s]; [now repeat split|]). discriminate. }
  assert (HA : al p (w_usr w) (dedup same vs) (Ok VNone)).
  { destruct HP as [->| ->].
    - eapply al_seq; [apply al_act; reflexivity|apply al_ret].
    - eapply al_seq; [apply al_act; reflexivity|]. eapply al_seq; [apply al_paused; [discriminate|]; eapply al_seq; [apply ordered_al|apply al_ret]|apply al_ret]. }
  assert (HC : civil set_signals p) by (destruct HP as [->| ->]; [unfold es_init; civ|apply init_o_civil]).
  destruct (al_runs _ _ _ _ _ _ _ _ _ HC HM HR HA) as (-> & -> & HU). auto.
Qed.
Example C108_list_case :
  outcome (demo (U := data) (fun _ _ => Ret VNone)) 99 (el_init [VInt 5; VInt 6; VInt 5]) (init_world list_cfg []) = Some (Ok VNone)
  /\ outcome (demo (U := sdata) (fun _ _ => Ret VNone)) 99 (eo_init val_eqb (fun l => l) [VInt 5; VInt 6; VInt 5]) (init_world set_cfg []) = Some (Ok VNone)
  /\ w_usr (after (demo (U := sdata) (fun _ _ => Ret VNone)) 99 (eo_init val_eqb (fun l => l) [VInt 5; VInt 6; VInt 5]) (init_world set_cfg [])) = [VInt 5; VInt 6].
Proof. vm_compute. repeat split. Qed.

(** Selection(data, parent): all of data is selected, and active is right; ValueError for items that are not in the parent. *)
Theorem C108_selection : forall E same parent vs w w' r,
  equivalence same -> (forall x, same x VNone = true -> x = VNone) -> just_made selection_signals selection_cfg w ->
  runs E (selection_init same parent vs) w w' r ->
  unnoticed selection_signals w w'
  /\ ((forall x, In x vs -> parent x = true) -> r = Ok VNone /\ sel_items (w_usr w') = dedup same vs /\ sel_active (w_usr w') = only (dedup same vs))
  /\ ((exists x, In x vs /\ parent x = false) -> r = Err EValue).
Proof.
  intros E same parent vs w w' r (refl & sym & trans) none HJ HR.
  assert (HM : mute selection_signals (fun _ => false) w).
  { apply (made_mute _ _ _ HJ). intros s Hs. do 4 (destruct s as [|s]; [now repeat split|]). discriminate. }
  assert (HC : civil selection_signals (selection_init same parent vs)) by now apply sel_init_civil.
  assert (HD : (forall x, In x vs -> parent x = true) \/ exists x, In x vs /\ parent x = false).
  { clear. induction vs as [|v vs IH]; [left; intros x []|]. destruct (parent v) eqn:H; [|right; exists v; split; [now left|exact H]].
    destruct IH as [IH|(x & Hx & Hy)]; [left; intros x [<-|Hx]; auto|right; exists x; split; [now right|exact Hy]]. }
  destruct HD as [HD|HD].
  - destruct (init_al same 1 2 3 (fun u => u) (fun x _ => x) (fun _ => parent) refl none ltac:(reflexivity) ltac:(reflexivity) ltac:(reflexivity) (w_usr w) vs HD) as [c' HA].
    destruct (al_runs _ _ _ _ _ _ _ _ _ HC HM HR HA) as (-> & -> & HU).
    split; [exact HU|]. split; [auto|]. intros (x & Hx & N). rewrite (HD x Hx) in N. discriminate.
  - destruct (init_err same 1 2 3 (fun u => u) (fun x _ => x) (fun _ => parent) refl none ltac:(reflexivity) ltac:(reflexivity) ltac:(reflexivity) (w_usr w) vs HD) as [c' HA].
    destruct (al_runs _ _ _ _ _ _ _ _ _ HC HM HR HA) as (_ & -> & HU).
    split; [exact HU|]. split; [|auto]. intros H. destruct HD as (x & Hx & N). rewrite (H x Hx) in N. discriminate.
Qed.
Example C108_selection_case :
  let E := demo (U := sel) (fun _ _ => Ret VNone) in let w := init_world selection_cfg (Sel [] VNone VNone) in
  let p l := selection_init val_eqb (fun x => val_eqb x (VInt 5) || val_eqb x (VInt 6)) l in
  just_made selection_signals selection_cfg w
  /\ outcome E 99 (p [VInt 5; VInt 5]) w = Some (Ok VNone) /\ w_usr (after E 99 (p [VInt 5; VInt 5]) w) = Sel [VInt 5] (VInt 5) (VInt 5)
  /\ outcome E 99 (p [VInt 5; VInt 6]) w = Some (Ok VNone) /\ w_usr (after E 99 (p [VInt 5; VInt 6]) w) = Sel [VInt 5; VInt 6] VNone (VInt 5)
  /\ outcome E 99 (p [VInt 5; VInt 7]) w = Some (Err EValue).
Proof. vm_compute. repeat split. Qed.

(** SelectableEventedList(data): the list holds the data, the last item (unless it is None) is the only one selected, and active. *)
Section Selectable.
Variable same : val -> val -> bool.
Hypothesis eq : equivalence same.
Hypothesis none : forall x, same x VNone = true -> x = VNone.
Lemma append_al : forall v l i c, (i = [] \/ exists x, i = [x] /\ is_none x = false) -> exists c',
  al (se_append same true v) (Both l (Sel i (only i) c)) (Both (l ++ [v]) (Sel (chosen same v i) (only (chosen same v i)) c')) (Ok VNone).
Proof.
  destruct eq as (refl & sym & trans). intros v l i c HI.
  assert (HV : mem same v (l ++ [v]) = true) by (unfold mem; rewrite existsb_app; cbn; now rewrite refl, orb_true_r).
  destruct (setter_al same 11 12 13 b_sel (fun s u => Both (b_list u) s) (fun u x => mem same x (b_list u)) refl sym none
    ltac:(reflexivity) ltac:(reflexivity) ltac:(reflexivity) (Both (l ++ [v]) (Sel i (only i) c)) 1 v i c HV HI) as [c' G].
  exists c'. apply al_look. eapply al_seq.
  - assert (H1 : al (lift same (el_insert (size l) v)) (Both l (Sel i (only i) c)) (Both (l ++ [v]) (Sel i (only i) c)) (Ok VNone)).
    { intros z. exists z. cbn. now rewrite insert_end. }
    exact H1.
  - eapply al_seq; [exact G|apply al_ret].
Qed.
Lemma extend_se : forall vs l i c, (i = [] \/ exists x, i = [x] /\ is_none x = false) -> exists i' c',
  al (se_extend same true vs) (Both l (Sel i (only i) c)) (Both (l ++ vs) (Sel i' (only i') c')) (Ok VNone)
  /\ (forall v vs', vs = vs' ++ [v] -> if is_none v then i' = [] else exists x, i' = [x] /\ same v x = true)
  /\ (vs = [] -> i' = i) /\ (forall x, In x i' -> In x (i ++ vs)).
Proof.
  destruct eq as (refl & sym & trans).
  induction vs as [|v vs IH]; intros l i c HI.
  - exists i, c. rewrite !app_nil_r. split; [apply al_ret|]. split; [intros v vs' H; now destruct vs'|auto].
  - destruct (append_al v l i c HI) as [c1 G1].
    assert (HS : is_none v = true /\ chosen same v i = [] \/ is_none v = false /\ exists x, chosen same v i = [x] /\ same v x = true /\ is_none x = false /\ In x (i ++ [v])).
    { unfold chosen. destruct (is_none v) eqn:HN.
      - left. split; [reflexivity|]. destruct v; try discriminate HN. destruct HI as [->|(x & -> & Hx)]; [now destruct (same VNone _)|].
        cbn [only]. destruct (same VNone x) eqn:H; [apply sym, none in H; subst; discriminate|reflexivity].
      - right. split; [reflexivity|]. destruct (same v (only i)) eqn:H.
        + destruct HI as [->|(x & -> & Hx)]; [apply none in H; subst; discriminate|]. exists x. repeat split; auto. now left.
        + exists v. repeat split; auto. apply in_or_app. right. now left. }
    destruct (IH (l ++ [v]) (chosen same v i) c1) as (i' & c' & G & H1 & H2 & H3).
    { destruct HS as [[_ ->]|(_ & x & -> & _ & Hx & _)]; [now left|right; eauto]. }
    exists i', c'. split; [eapply al_seq; [exact G1|]; change (v :: vs) with ([v] ++ vs); rewrite app_assoc; exact G|].
    split; [|split; [discriminate|]].
    + intros y vs' Hy. destruct vs' as [|v' vs'].
      * injection Hy as -> ->. rewrite (H2 eq_refl). destruct HS as [[-> ->]|(-> & x & -> & Hx & _)]; [reflexivity|eauto].
      * injection Hy as -> ->. now apply (H1 y vs').
    + intros x Hx. apply H3, in_app_or in Hx as [Hx|Hx]; [|apply in_or_app; right; now right].
      destruct HS as [[_ HS]|(_ & y & HS & _ & _ & Hy)]; rewrite HS in Hx; [destruct Hx|]. destruct Hx as [->|[]].
      apply in_app_or in Hy as [Hy|[->|[]]]; apply in_or_app; [now left|right; now left].
Qed.
End Selectable.
Theorem C108_selectable : forall E same vs w w' r,
  equivalence same -> (forall x, same x VNone = true -> x = VNone) -> just_made selectable_signals selectable_cfg w ->
  runs E (se_init same vs) w w' r ->
  r = Ok VNone /\ b_list (w_usr w') = vs /\ consistent same (w_usr w') /\ unnoticed selectable_signals w w'
  /\ forall v vs', vs = vs' ++ [v] ->
       if is_none v then sel_items (b_sel (w_usr w')) = [] else exists x, sel_items (b_sel (w_usr w')) = [x] /\ same v x = true.
Proof.
  intros E same vs w w' r eq none HJ HR. assert (eq' := eq). destruct eq' as (refl & sym & trans).
  assert (HM : mute selectable_signals (fun _ => false) w).
  { apply (made_mute _ _ _ HJ). intros s Hs. do 14 (destruct s as [|s]; [now repeat split|]). discriminate. }
  destruct (init_al same 11 12 13 b_sel (fun s u => Both (b_list u) s) (fun u x => mem same x (b_list u)) refl none ltac:(reflexivity) ltac:(reflexivity) ltac:(reflexivity)
    (w_usr w) [] ltac:(intros x [])) as [c0 G0]. cbn in G0.
  destruct (extend_se same eq none vs [] [] c0 (or_introl eq_refl)) as (i & c & G1 & H1 & H2 & H3).
  assert (HA : al (se_init same vs) (w_usr w) (Both vs (Sel i (only i) c)) (Ok VNone)).
  { eapply al_seq; [exact G0|]. eapply al_seq; [apply al_act; reflexivity|]. eapply al_seq; [exact G1|apply al_ret]. }
  destruct (al_runs _ _ _ _ _ _ _ _ _ (init_se_civil same vs) HM HR HA) as (-> & -> & HU). cbn [b_list b_sel sel_items].
  split; [reflexivity|]. split; [reflexivity|]. split; [|split; [exact HU|exact H1]].
  assert (HI : i = [] \/ exists x, i = [x]).
  { destruct vs as [|v vs] using rev_ind; [left; now apply H2|]. specialize (H1 v vs eq_refl). destruct (is_none v); [now left|].
    destruct H1 as (x & -> & _). right. eauto. }
  split; [|split].
  - cbn. destruct HI as [->|[x ->]]; cbn; auto.
  - cbn. intros x Hx. exists x. split; [now apply H3 in Hx|apply refl].
  - cbn. destruct HI as [->|[x ->]]; [right; cbn; split; [discriminate|reflexivity]|left; exists x; cbn; auto].
Qed.
Example C108_selectable_case :
  let E := demo (U := both) (fun _ _ => Ret VNone) in let w := init_world selectable_cfg (Both [] (Sel [] VNone VNone)) in
  let p := se_init val_eqb [VInt 5; VInt 6; VInt 5; VInt 7] in
  just_made selectable_signals selectable_cfg w
  /\ outcome E 200 p w = Some (Ok VNone) /\ w_usr (after E 200 p w) = Both [VInt 5; VInt 6; VInt 5; VInt 7] (Sel [VInt 7] (VInt 7) (VInt 7)).
Proof. vm_compute. repeat split. Qed.
(** And each constructor comes to an end. *)
Theorem C108_ends :
  (forall E same isinst data b kw w, just_made dict_signals dict_cfg w -> exists w' r, runs E (ed_init same isinst data b kw) w w' r)
  /\ (forall E vs w, just_made list_signals list_cfg w -> exists w' r, runs E (el_init vs) w w' r)
  /\ (forall E same order vs w, just_made set_signals set_cfg w -> exists w' r, runs E (eo_init same order vs) w w' r)
  /\ (forall E same parent vs w, just_made selection_signals selection_cfg w -> exists w' r, runs E (selection_init same parent vs) w w' r)
  /\ (forall E same vs w, just_made selectable_signals selectable_cfg w -> exists w' r, runs E (se_init same vs) w w' r).
Proof.
  assert (Ends : forall (U : Type) C E (p : prog U) w, civil C p -> mute C (fun _ => false) w -> exists w' r, runs E p w w' r).
  { intros U C E p w HC HM. destruct (alone_runs C E p _ w HC HM) as (w' & H & _). eauto. }
  split; [|split; [|split; [|split]]]; intros; match goal with H : just_made ?C _ _ |- _ => apply (Ends _ C) end.
  - apply init_d_civil.
  - eapply made_mute; [eassumption|]. intros s Hs. do 7 (destruct s as [|s]; [now repeat split|]). discriminate.
  - apply init_l_civil.
  - eapply made_mute; [eassumption|]. intros s Hs. do 10 (destruct s as [|s]; [now repeat split|]). discriminate.
  - apply init_o_civil.
  - eapply made_mute; [eassumption|]. intros s Hs. do 2 (destruct s as [|s]; [now repeat split|]). discriminate.
  - now apply sel_init_civil.
  - eapply made_mute; [eassumption|]. intros s Hs. do 4 (destruct s as [|s]; [now repeat split|]). discriminate.
  - apply init_se_civil.
  - eapply made_mute; [eassumption|]. intros s Hs. do 14 (destruct s as [|s]; [now repeat split|]). discriminate.
Qed.
Print Assumptions C108_ends.
Print Assumptions C108_dict.
Print Assumptions C108_list.
Print Assumptions C108_set.
Print Assumptions C108_selection.
Print Assumptions C108_selectable.
