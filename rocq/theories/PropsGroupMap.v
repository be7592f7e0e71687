(** C72: a SignalGroup is a mapping of its signals, which are also its attributes; C73: group
    classes can be subclassed. *)

From Verif Require Import Base Core Evented SpecEvented PropsEvented Uniform PropsUniform GroupMap.
Open Scope string_scope.
Open Scope list_scope.

(** ** Facts about classes *)

Lemma sget_filter_ne : forall {A} x k (d : list (string * A)),
  sget k (filter (fun kv => negb (String.eqb x (fst kv))) d) = if String.eqb k x then None else sget k d.
Proof.
  intros A x k d. induction d as [|[y v] d IH]; cbn; [now destruct (String.eqb k x)|].
  destruct (String.eqb_spec x y) as [->|Hn]; cbn.
  - rewrite IH. now destruct (String.eqb k y).
  - rewrite IH. destruct (String.eqb_spec k y) as [->|]; [|reflexivity].
    destruct (String.eqb_spec y x); [congruence|reflexivity].
Qed.
Definition is_sig (a : option attr) : bool := match a with Some (ASig _) => true | _ => false end.
Lemma drop_get : forall base own names attrs attrs', drop_conflicts base own names attrs = inl attrs' ->
  forall k, sget k attrs' = if mem k names && is_sig (sget k attrs) then sget k base else sget k attrs.
Proof.
  intros base own names. induction names as [|x names IH]; intros attrs attrs' H k; cbn in H; [now injection H as <-|].
  assert (HO : is_sig (sget x attrs) = false -> drop_conflicts base own names attrs = inl attrs' ->
    sget k attrs' = if mem k (x :: names) && is_sig (sget k attrs) then sget k base else sget k attrs).
  { intros Hx Hd. rewrite (IH _ _ Hd k). cbn [mem existsb]. fold (mem k names).
    destruct (String.eqb_spec k x) as [->|]; [|reflexivity]. rewrite Hx, !andb_false_r. reflexivity. }
  destruct (sget x attrs) as [[s| |]|] eqn:G; [|now apply HO|now apply HO|discriminate]. clear HO.
  destruct (mem x own); [|discriminate]. rewrite (IH _ _ H k). clear IH H.
  set (at1 := match sget x base with Some a => sset x a attrs | None => filter _ attrs end).
  assert (H1 : sget k at1 = if String.eqb k x then sget x base else sget k attrs).
  { unfold at1. destruct (sget x base) as [a|] eqn:B; [apply sget_sset|apply sget_filter_ne]. }
  rewrite H1. cbn [mem existsb]. fold (mem k names). destruct (String.eqb_spec k x) as [->|]; [|reflexivity].
  rewrite G. cbn. now destruct (_ && _).
Qed.
Lemma drop_works : forall base own names attrs, NoDup names ->
  (forall k, In k names -> sget k attrs <> None /\ (is_sig (sget k attrs) = true -> In k own)) ->
  exists attrs', drop_conflicts base own names attrs = inl attrs'.
Proof.
  intros base own names. induction names as [|x names IH]; intros attrs HN H; cbn; [eauto|].
  inversion HN as [|? ? Hx HN']; subst. destruct (H x (or_introl eq_refl)) as [H1 H2].
  destruct (sget x attrs) as [[s| |]|] eqn:G; [|apply IH; [exact HN'|intros k Hk; apply H; now right]..|congruence].
  rewrite (proj2 (mem_In x own)) by now apply H2. apply IH; [exact HN'|]. intros k Hk.
  assert (Hkx : k <> x) by congruence. apply String.eqb_neq in Hkx.
  assert (HG : sget k (match sget x base with Some a => sset x a attrs
     | None => filter (fun kv => negb (String.eqb x (fst kv))) attrs end) = sget k attrs).
  { destruct (sget x base); [rewrite sget_sset|rewrite sget_filter_ne]; now rewrite Hkx. }
  rewrite HG. apply H. now right.
Qed.

(** What creation makes of the attributes and signals. *)
Lemma merge_get : forall (base own : list (string * attr)) k, is_dict own ->
  sget k (merge base own) = looked_up own base k.
Proof. intros base own k H. unfold merge. now rewrite sget_merge by exact H. Qed.
Lemma sigs_get : forall (bs : list (string * csig)) at0 k, is_dict at0 ->
  sget k (merge bs (signals_in at0 (ssort (map fst at0))))
  = match sget k at0 with Some (ASig s) => Some s | _ => sget k bs end.
Proof.
  intros bs at0 k H. unfold merge.
  rewrite sget_merge by (apply signals_in_dict; rewrite <- ssort_perm; exact H). rewrite signals_in_sget.
  assert (HM : mem k (ssort (map fst at0)) = match sget k at0 with Some _ => true | None => false end).
  { pose proof (sget_keys k at0) as K. destruct (sget k at0).
    - apply mem_In, ssort_In, K. discriminate.
    - apply mem_not_In. rewrite ssort_In, <- K. congruence. }
  rewrite HM. now destruct (sget k at0) as [[s| |]|].
Qed.

Lemma sget_map_never : forall (f : string -> attr) v k l, (forall x, f x <> v) ->
  sget k (map (fun k => (k, f k)) l) = Some v -> False.
Proof.
  intros f v k l Hf. induction l as [|x l IH]; cbn; [discriminate|]. destruct (String.eqb k x); [|exact IH].
  intros [= H]. exact (Hf x H).
Qed.
Record facts (reserved : list string) (c : sgclass) : Prop := Facts {
  fa_attrs : is_dict (c_attrs c);
  fa_signals : is_dict (c_signals c);
  fa_sig : forall k s, sget k (c_attrs c) = Some (ASig s) -> sget k (c_signals c) = Some s /\ conflicting reserved k = false;
  fa_reserved : forall k, In k reserved -> sget k (c_attrs c) <> None;
  fa_names : forall k, sget k (c_signals c) <> None -> starts "_psygnal" k = false;
  fa_uniform : c_uniform c = is_uniform (map (fun kv => cs_str (snd kv)) (c_signals c)) }.
Lemma has_facts : forall reserved c, a_class reserved c -> facts reserved c.
Proof.
  intros reserved c H. induction H as [HN|base own strict aliases c Hb IH Ho Ha H].
  - destruct (a_class_dicts reserved _ (cl_root _ HN)) as (D1 & D2 & _). constructor; try assumption.
    + intros k s H. exfalso. cbn [root c_attrs] in H. revert H.
      apply (sget_map_never (fun k => if mem k ["all"; "signals"] then AProp else AOther)).
      intros x. now destruct (mem x _).
    + intros k Hk. apply sget_keys. cbn. rewrite map_map. cbn. now rewrite map_id.
    + intros k Hk. now destruct Hk.
    + reflexivity.
  - pose proof (cl_sub _ _ _ _ _ _ Hb Ho Ha H) as Hc. destruct (a_class_dicts _ _ Hc) as (D1 & D2 & _). clear Hc.
    apply create_inv in H as (attrs & P & D & _ & ->). cbv zeta in D. destruct IH as [F1 F2 F3 F4 F5 _].
    cbn [c_attrs c_signals c_uniform] in *. set (at0 := merge (c_attrs base) own) in *.
    assert (HA : is_dict at0) by now apply merge_dict.
    assert (HG := drop_get _ _ _ _ _ D).
    assert (HS : forall k, sget k at0 = looked_up own (c_attrs base) k) by (intros k; now apply merge_get).
    constructor; cbn [c_attrs c_signals c_uniform]; try assumption; [| | |reflexivity].
    + intros k s Hk. rewrite sigs_get by exact HA. rewrite HG in Hk.
      destruct (mem k _ && is_sig (sget k at0)) eqn:M.
      * exfalso. apply andb_true_iff in M as [M _]. apply mem_In, filter_In in M as [_ M].
        destruct (F3 k s Hk) as [_ K]. congruence.
      * rewrite Hk. split; [reflexivity|]. rewrite Hk in M. cbn in M. rewrite andb_true_r in M.
        destruct (conflicting reserved k) eqn:C; [|reflexivity]. apply mem_not_In in M. exfalso. apply M.
        apply filter_In. split; [|exact C]. apply sget_keys. rewrite sigs_get by exact HA. rewrite Hk. discriminate.
    + intros k Hk. rewrite HG. specialize (F4 k Hk). destruct (_ && _); [exact F4|]. rewrite HS.
      unfold looked_up. destruct (sget k own); [discriminate|exact F4].
    + intros k Hk. rewrite sigs_get in Hk by exact HA. rewrite HS in Hk. unfold looked_up in Hk.
      destruct (sget k own) as [a|] eqn:O.
      * destruct (starts "_psygnal" k) eqn:Q; [|reflexivity]. exfalso.
        assert (HI : In k (map fst own)) by (apply sget_keys; congruence).
        assert (HE : existsb (starts "_psygnal") (map fst own) = true) by (apply existsb_exists; eauto). congruence.
      * apply F5. destruct (sget k (c_attrs base)) as [[s| |]|] eqn:B; try assumption. rewrite (proj1 (F3 k s B)). discriminate.
Qed.

(** * C72 *)

Lemma nth_snoc : forall {A} (l : list A) x i y, nth_error l i = Some y -> nth_error (l ++ [x]) i = Some y.
Proof. intros A l x i y H. rewrite nth_error_app1; [exact H|]. apply nth_error_Some. congruence. Qed.
Lemma nth_last : forall {A} (l : list A) x, nth_error (l ++ [x]) (length l) = Some x.
Proof. intros A l x. rewrite nth_error_app2 by lia. now rewrite Nat.sub_diag. Qed.
Definition made_ok (g : group) : Prop := forall d i, find d (gr_cache g) = Some i -> nth_error (gr_made g) i = Some d.
Definition later (g g' : group) : Prop :=
  gr_inst g' = gr_inst g /\ forall i d, nth_error (gr_made g) i = Some d -> nth_error (gr_made g') i = Some d.
Lemma get_signal_ok : forall c s g, made_ok g ->
  let (g', i) := get_signal c s g in
  made_ok g' /\ later g g' /\ nth_error (gr_made g') i = Some (cs_id s).
Proof.
  intros c s g H. unfold get_signal. destruct (find (cs_id s) (gr_cache g)) as [i|] eqn:F.
  - repeat split; auto.
  - cbn [create_instance]. unfold set_attr.
    assert (H1 : made_ok (Group (gr_inst g) (gr_dict g) (gr_cache g) (gr_made g ++ [cs_id s]))).
    { intros d i K. cbn in *. apply nth_snoc. auto. }
    destruct (sget (cs_name s) (c_attrs c)) as [[]|]; cbn [gr_inst gr_dict gr_cache gr_made];
      (split; [|split; [split; [reflexivity|intros; now apply nth_snoc]|apply nth_last]]); try exact H1.
    intros d i. cbn. destruct (Nat.eqb_spec (cs_id s) d) as [->|]; [intros [= <-]; apply nth_last|apply H1].
Qed.
Lemma later_trans : forall a b c, later a b -> later b c -> later a c.
Proof. intros a b c [H1 H2] [H3 H4]. split; [congruence|auto]. Qed.
Lemma instances_ok : forall reserved c l g, made_ok g ->
  let (g', r) := instances reserved c l g in
  made_ok g' /\ later g g' /\ map fst r = map fst l
  /\ forall k s, is_dict l -> In (k, s) l -> exists i, sget k r = Some i /\ nth_error (gr_made g') i = Some (cs_id s).
Proof.
  intros reserved c l. induction l as [|[k s] l IH]; intros g H; cbn [instances].
  - split; [exact H|]. split; [split; auto|]. split; [reflexivity|]. intros k s _ [].
  - assert (H1 : let (g', i) := if conflicting reserved k then create_instance s g else get_signal c s g in
      made_ok g' /\ later g g' /\ nth_error (gr_made g') i = Some (cs_id s)).
    { destruct (conflicting reserved k); [|now apply get_signal_ok]. cbn.
      split; [|split; [split; [reflexivity|intros; now apply nth_snoc]|apply nth_last]].
      intros d i K. cbn in *. apply nth_snoc. auto. }
    destruct (if conflicting reserved k then _ else _) as [g1 i]. destruct H1 as (H1 & H2 & H3).
    specialize (IH g1 H1). destruct (instances reserved c l g1) as [g2 r]. destruct IH as (I1 & I2 & I3 & I4).
    split; [exact I1|]. split; [now apply later_trans with g1|]. split; [cbn; now f_equal|].
    intros k' s' HD [K|K].
    + injection K as <- <-. exists i. cbn. rewrite String.eqb_refl. split; [reflexivity|]. now apply I2.
    + inversion HD as [|? ? Hn HD']; subst. destruct (I4 k' s' HD' K) as (j & J1 & J2). exists j. split; [|exact J2].
      cbn. destruct (String.eqb_spec k' k) as [->|]; [|exact J1]. exfalso. apply Hn.
      change k with (fst (k, s')). now apply in_map.
Qed.
Lemma getattr_later : forall c k g, made_ok g -> made_ok (fst (gr_getattr c k g)) /\ later g (fst (gr_getattr c k g)).
Proof.
  intros c k g H. assert (H0 : made_ok g /\ later g g) by (split; [exact H|split; auto]). unfold gr_getattr.
  destruct (sget k (c_attrs c)) as [[s| |]|]; try exact H0;
    (destruct (mem k own_names); [exact H0|]); (destruct (sget k (gr_dict g)); [exact H0|]); try exact H0.
  pose proof (get_signal_ok c s g H) as K. destruct (get_signal c s g) as [g' i]. cbn. tauto.
Qed.
Lemma touch_later : forall c ks g, made_ok g -> made_ok (touch c ks g) /\ later g (touch c ks g).
Proof.
  intros c ks. unfold touch. induction ks as [|k ks IH]; intros g H; cbn; [split; [exact H|split; auto]|].
  destruct (getattr_later c k g H) as [H1 H2]. destruct (IH _ H1) as [H3 H4]. split; [exact H3|now apply later_trans with (fst (gr_getattr c k g))].
Qed.

(** The names of a group are those of the signals of its class, each once; group[k] is a
    SignalInstance made for the Signal of that name, and the same one whatever attributes are
    read in between. *)
Theorem C72_mapping : forall reserved c ks, a_class reserved c ->
  let g := touch c ks (new_group reserved c) in
  gr_iter g = map fst (c_signals c) /\ NoDup (gr_iter g) /\ gr_len g = length (c_signals c)
  /\ (forall k, gr_contains k g = true <-> In k (gr_iter g))
  /\ (forall k s, In (k, s) (c_signals c) ->
        exists i, gr_getitem k g = inl i /\ nth_error (gr_made g) i = Some (cs_id s)
                  /\ gr_getitem k (new_group reserved c) = inl i)
  /\ (forall k, ~ In k (gr_iter g) -> gr_getitem k g = inr EKey).
Proof.
  intros reserved c ks Hc. pose proof (fa_signals _ _ (has_facts _ _ Hc)) as HD. cbv zeta.
  pose proof (instances_ok reserved c (c_signals c) (Group [] [] [] []) (fun d i H => ltac:(discriminate H))) as HI.
  assert (HG : made_ok (new_group reserved c)
    /\ gr_iter (new_group reserved c) = map fst (c_signals c)
    /\ forall k s, In (k, s) (c_signals c) -> exists i, gr_getitem k (new_group reserved c) = inl i
         /\ nth_error (gr_made (new_group reserved c)) i = Some (cs_id s)).
  { unfold new_group. destruct (instances reserved c (c_signals c) (Group [] [] [] [])) as [g r].
    destruct HI as (H1 & _ & H2 & H3). split; [exact H1|]. split; [exact H2|]. intros k s K.
    destruct (H3 k s HD K) as (i & J1 & J2). exists i. split; [|exact J2]. unfold gr_getitem. cbn. now rewrite J1. }
  clear HI. destruct HG as (H1 & H2 & H3). destruct (touch_later c ks _ H1) as [_ [H4 H5]].
  set (g := touch c ks (new_group reserved c)) in *.
  assert (HT : gr_iter g = map fst (c_signals c)) by (unfold gr_iter in *; congruence).
  split; [exact HT|]. split; [rewrite HT; exact HD|].
  split; [unfold gr_len; rewrite <- (map_length fst), <- (map_length fst (c_signals c)); f_equal; exact HT|].
  assert (HK : forall k, sget k (gr_inst g) <> None <-> In k (gr_iter g)) by (intros k; apply sget_keys).
  split; [|split].
  - intros k. rewrite <- HK. unfold gr_contains, has. destruct (sget k (gr_inst g)); intuition congruence.
  - intros k s K. destruct (H3 k s K) as (i & J1 & J2). exists i. split; [|auto]. unfold gr_getitem in *. now rewrite H4.
  - intros k K. unfold gr_getitem. destruct (sget k (gr_inst g)) eqn:S; [|reflexivity]. exfalso. apply K, HK. congruence.
Qed.

(** Every Signal is declared under its own name, and under no other one. *)
Definition ordinary (c : sgclass) : Prop :=
  (forall k s, In (k, s) (c_signals c) -> cs_name s = k)
  /\ forall k1 s1 k2 s2, In (k1, s1) (c_signals c) -> In (k2, s2) (c_signals c) -> cs_id s1 = cs_id s2 -> k1 = k2.

Section Ordinary.
Variables (reserved : list string) (c : sgclass).
(** [l0]: the signals that have been dealt with; [r0]: their instances. *)
Record inv (l0 : list (string * csig)) (r0 : list (string * nat)) (g : group) : Prop := Inv {
  in_keys : map fst r0 = map fst l0;
  in_dict : forall k, conflicting reserved k = false -> sget k (c_attrs c) <> Some AProp -> sget k (gr_dict g) = sget k r0;
  in_none : forall k, conflicting reserved k = true \/ sget k (c_attrs c) = Some AProp -> sget k (gr_dict g) = None;
  in_cache : forall d i, find d (gr_cache g) = Some i -> exists k s, In (k, s) l0 /\ cs_id s = d;
  in_made : length (gr_made g) = length l0 }.
Lemma sget_snoc : forall {A} k n (v : A) d, ~ In n (map fst d) ->
  sget k (d ++ [(n, v)]) = if String.eqb k n then Some v else sget k d.
Proof.
  intros A k n v d. induction d as [|[x y] d IH]; cbn; intros H; [reflexivity|].
  destruct (String.eqb_spec k x) as [->|]; [|apply IH; tauto].
  destruct (String.eqb_spec x n) as [->|]; [tauto|reflexivity].
Qed.
Lemma instances_inv : forall l l0 r0 g,
  is_dict (l0 ++ l) ->
  (forall k s, In (k, s) (l0 ++ l) -> cs_name s = k) ->
  (forall k1 s1 k2 s2, In (k1, s1) (l0 ++ l) -> In (k2, s2) (l0 ++ l) -> cs_id s1 = cs_id s2 -> k1 = k2) ->
  inv l0 r0 g -> let (g', r) := instances reserved c l g in inv (l0 ++ l) (r0 ++ r) g'.
Proof.
  induction l as [|[n s] l IH]; intros l0 r0 g HD HN HU [H1 H2 H3 H4 H5]; cbn [instances]; [now rewrite !app_nil_r|].
  replace (l0 ++ (n, s) :: l) with ((l0 ++ [(n, s)]) ++ l) in * by now rewrite <- app_assoc.
  assert (Hn : ~ In n (map fst r0)).
  { rewrite H1. unfold is_dict in HD. rewrite !map_app, <- app_assoc in HD. cbn in HD.
    intros K. apply NoDup_remove_2 in HD. apply HD. apply in_app_iff. now left. }
  assert (Hi : In (n, s) ((l0 ++ [(n, s)]) ++ l)) by (rewrite !in_app_iff; left; right; now left).
  assert (HS : let (g1, i) := if conflicting reserved n then create_instance s g else get_signal c s g in
    inv (l0 ++ [(n, s)]) (r0 ++ [(n, i)]) g1).
  { assert (HM : forall i, map fst (r0 ++ [(n, i)]) = map fst (l0 ++ [(n, s)])) by (intros i; rewrite !map_app, H1; reflexivity).
    assert (HC : forall d i, find d (gr_cache g) = Some i -> exists k s', In (k, s') (l0 ++ [(n, s)]) /\ cs_id s' = d).
    { intros d i K. destruct (H4 d i K) as (k & s' & K1 & K2). exists k, s'. split; [apply in_app_iff; now left|exact K2]. }
    assert (HL : length (gr_made g ++ [cs_id s]) = length (l0 ++ [(n, s)])) by (rewrite !app_length, H5; reflexivity).
    destruct (conflicting reserved n) eqn:C.
    - cbn. constructor; cbn; auto. intros k K1 K2. rewrite sget_snoc by exact Hn.
      destruct (String.eqb_spec k n) as [->|]; [congruence|auto].
    - unfold get_signal. destruct (find (cs_id s) (gr_cache g)) as [i|] eqn:F.
      + exfalso. destruct (H4 _ _ F) as (k & s' & K1 & K2).
        assert (K : k = n) by (apply (HU k s' n s); [rewrite !in_app_iff; tauto|exact Hi|exact K2]). subst k.
        apply Hn. rewrite H1. change n with (fst (n, s')). now apply in_map.
      + cbn. unfold set_attr. rewrite (HN n s Hi).
        destruct (sget n (c_attrs c)) as [[s'| |]|] eqn:A; cbn;
          try (constructor; cbn; auto;
               [intros k K1 K2; rewrite sget_snoc by exact Hn; rewrite sget_sset; destruct (String.eqb k n); auto
               |intros k K; rewrite sget_sset; destruct (String.eqb_spec k n) as [->|]; [destruct K; congruence|auto]]).
        constructor; cbn; auto.
        * intros k K1 K2. rewrite sget_snoc by exact Hn. destruct (String.eqb_spec k n) as [->|]; [congruence|auto].
        * intros d i. destruct (Nat.eqb_spec (cs_id s) d) as [E|]; [|apply HC]. intros _. exists n, s.
          split; [apply in_app_iff; right; now left|exact E]. }
  destruct (if conflicting reserved n then _ else _) as [g1 i].
  specialize (IH (l0 ++ [(n, s)]) (r0 ++ [(n, i)]) g1 HD HN HU HS).
  destruct (instances reserved c l g1) as [g2 r]. rewrite <- (app_assoc r0) in IH. exact IH.
Qed.
End Ordinary.

Lemma own_conflicting : forall reserved k, mem k own_names = true -> conflicting reserved k = true.
Proof.
  intros reserved k H. unfold conflicting. apply orb_true_iff. left. apply orb_true_iff. right.
  cbn in H. rewrite orb_false_r in H. apply orb_true_iff in H as [H|H]; apply String.eqb_eq in H; subst; reflexivity.
Qed.
Lemma sget_filter_in : forall {A} (f : string -> bool) k (d : list (string * A)),
  sget k (filter (fun e => f (fst e)) d) = if f k then sget k d else None.
Proof.
  intros A f k d. induction d as [|[x v] d IH]; cbn; [now destruct (f k)|].
  destruct (f x) eqn:F; cbn; rewrite IH; destruct (String.eqb_spec k x) as [->|]; rewrite ?F; reflexivity.
Qed.
Lemma ordinary_group : forall reserved c, a_class reserved c -> ordinary c ->
  let g := new_group reserved c in
  (forall k, conflicting reserved k = false -> sget k (c_attrs c) <> Some AProp -> sget k (gr_dict g) = sget k (gr_inst g))
  /\ (forall k, gr_getattr c k g = (g, snd (gr_getattr c k g))) /\ length (gr_made g) = length (c_signals c).
Proof.
  intros reserved c Hc [HN HU] g. destruct (has_facts _ _ Hc) as [F1 F2 F3 F4 F5 _].
  pose proof (instances_inv reserved c (c_signals c) [] [] (Group [] [] [] []) F2 HN HU) as HI.
  assert (H0 : inv reserved c [] [] (Group [] [] [] [])) by (constructor; cbn; auto; discriminate).
  specialize (HI H0). clear H0.
  assert (HG : (forall k, conflicting reserved k = false -> sget k (c_attrs c) <> Some AProp -> sget k (gr_dict g) = sget k (gr_inst g))
    /\ (forall k, sget k (gr_dict g) = None \/ conflicting reserved k = false)
    /\ map fst (gr_inst g) = map fst (c_signals c) /\ length (gr_made g) = length (c_signals c)).
  { unfold g, new_group. destruct (instances reserved c (c_signals c) _) as [g1 r]. cbn in HI. destruct HI as [I1 I2 I3 I4 I5].
    cbn [gr_dict gr_inst gr_made].
    assert (HF : forall k, sget k (filter (fun e => negb (mem (fst e) own_names)) (gr_dict g1))
                 = if negb (mem k own_names) then sget k (gr_dict g1) else None).
    { intros k. apply (sget_filter_in (fun k => negb (mem k own_names))). }
    split; [|split; [|split; [exact I1|exact I5]]].
    - intros k K1 K2. rewrite HF. destruct (mem k own_names) eqn:M; cbn [negb]; [|auto].
      apply (own_conflicting reserved) in M. congruence.
    - intros k. rewrite HF. destruct (conflicting reserved k) eqn:C; [left|now right].
      destruct (negb _); [|reflexivity]. apply I3. now left. }
  destruct HG as (G1 & G2 & G3 & G4). split; [exact G1|]. split; [|exact G4]. intros k. unfold gr_getattr.
  destruct (sget k (c_attrs c)) as [[s| |]|] eqn:A; cbn [snd]; try reflexivity;
    (destruct (mem k own_names); [reflexivity|]); (destruct (sget k (gr_dict g)) eqn:D; [reflexivity|]); try reflexivity.
  exfalso. destruct (F3 k s A) as [S1 S2]. rewrite G1 in D by congruence.
  assert (HK : In k (map fst (gr_inst g))) by (rewrite G3; apply sget_keys; congruence).
  apply sget_keys in HK. congruence.
Qed.

(** group.k is group[k], and reading attributes makes no new SignalInstances. *)
Theorem C72_attribute_partial : forall reserved c ks, a_class reserved c -> ordinary c ->
  let g := touch c ks (new_group reserved c) in
  (forall k s, In (k, s) (c_signals c) -> conflicting reserved k = false -> sget k (c_attrs c) <> Some AProp ->
     exists i, snd (gr_getattr c k g) = FInst i /\ gr_getitem k g = inl i)
  /\ length (gr_made g) = length (c_signals c)
  /\ (forall k1 k2 i, gr_getitem k1 g = inl i -> gr_getitem k2 g = inl i -> k1 = k2).
Proof.
  intros reserved c ks Hc HO. destruct (ordinary_group reserved c Hc HO) as (H1 & H2 & H3). cbv zeta.
  assert (HT : touch c ks (new_group reserved c) = new_group reserved c).
  { unfold touch. induction ks as [|k ks IH]; [reflexivity|]. cbn [fold_left]. rewrite H2. cbn [fst]. exact IH. }
  rewrite HT. clear HT ks.
  destruct (C72_mapping reserved c [] Hc) as (M1 & M2 & M3 & M4 & M5 & M6). cbn [touch fold_left] in *.
  set (g := new_group reserved c) in *. split; [|split].
  - intros k s K C A. destruct (M5 k s K) as (i & J1 & _). exists i. split; [|exact J1].
    unfold gr_getitem in J1. destruct (sget k (gr_inst g)) as [j|] eqn:S; [|discriminate]. injection J1 as ->.
    unfold gr_getattr. destruct (mem k own_names) eqn:M; [apply (own_conflicting reserved) in M; congruence|].
    rewrite H1, S by assumption. destruct (sget k (c_attrs c)) as [[]|]; cbn [snd]; congruence.
  - exact H3.
  - intros k1 k2 i J1 J2.
    assert (HE : forall k, gr_getitem k g = inl i -> exists s, In (k, s) (c_signals c) /\ nth_error (gr_made g) i = Some (cs_id s)).
    { intros k J. assert (HI : In k (map fst (c_signals c))).
      { rewrite <- M1. apply sget_keys. unfold gr_getitem in J. destruct (sget k (gr_inst g)); [discriminate|discriminate J]. }
      apply in_map_iff in HI as ([k' s] & <- & HI). exists s. split; [exact HI|].
      destruct (M5 k' s HI) as (j & L1 & L2 & _). cbn in J. congruence. }
    destruct (HE k1 J1) as (s1 & K1 & L1). destruct (HE k2 J2) as (s2 & K2 & L2).
    apply (proj2 HO k1 s1 k2 s2 K1 K2). congruence.
Qed.

(** class G(SignalGroup): all = Signal(int); y = Signal(int); x = Signal(int), read in between. *)
Definition C72_res : list string := ["all"; "block"].
Definition C72_sig (i : nat) (n : string) : csig := Csig i n ["int"].
Definition C72_own : list (string * attr) := [("all", ASig (C72_sig 2 "all")); ("y", ASig (C72_sig 1 "y")); ("x", ASig (C72_sig 0 "x"))].
Definition made (l : list (string * attr)) : sgclass :=
  match create C72_res (root C72_res) l false [] with inl c => c | inr _ => root C72_res end.
Lemma made_class : forall l, is_dict l -> (exists c, create C72_res (root C72_res) l false [] = inl c) -> a_class C72_res (made l).
Proof.
  intros l H (c & Hc). unfold made. rewrite Hc. apply cl_sub with (base := root C72_res) (own := l) (strict := false) (aliases := []);
    [constructor| | |exact Hc]; repeat constructor; try exact H; cbn; intuition discriminate.
Qed.
Example C72_case :
  a_class C72_res (made C72_own) /\ ordinary (made C72_own)
  /\ In ("x", C72_sig 0 "x") (c_signals (made C72_own)) /\ conflicting C72_res "x" = false
  /\ sget "x" (c_attrs (made C72_own)) <> Some AProp
  /\ (let g := touch (made C72_own) ["x"; "all"; "z"] (new_group C72_res (made C72_own)) in
      gr_iter g = ["all"; "x"; "y"] /\ snd (gr_getattr (made C72_own) "x" g) = FInst 1 /\ gr_getitem "x" g = inl 1
      /\ snd (gr_getattr (made C72_own) "all" g) = FOther /\ gr_getitem "all" g = inl 0 /\ gr_getitem "z" g = inr EKey).
Proof.
  split; [apply made_class; [repeat constructor; cbn; intuition discriminate|eexists; reflexivity]|].
  split; [|cbn; repeat split; auto; discriminate]. split.
  - intros k s H. cbn in H. repeat (destruct H as [H|H]; [injection H as <- <-; reflexivity|]). destruct H.
  - intros k1 s1 k2 s2 H1 H2 H. cbn in H1, H2.
    repeat (destruct H1 as [H1|H1]; [injection H1 as <- <-;
      repeat (destruct H2 as [H2|H2]; [injection H2 as <- <-; first [reflexivity|discriminate H]|]); destruct H2|]).
    destruct H1.
Qed.
Print Assumptions C72_mapping.
Print Assumptions C72_attribute_partial.
(** class G(SignalGroup): x = Signal(name="s"): group.x is another SignalInstance at every access,
    and never group["x"]. *)
Theorem C72_name_refuted : exists reserved c k,
  a_class reserved c /\ In k (map fst (c_signals c)) /\ conflicting reserved k = false /\ is_sig (sget k (c_attrs c)) = true
  /\ (let g := new_group reserved c in let (g1, a) := gr_getattr c k g in let (g2, b) := gr_getattr c k g1 in
      exists i j n, a = FInst i /\ b = FInst j /\ gr_getitem k g2 = inl n /\ i <> j /\ i <> n /\ j <> n).
Proof.
  exists C72_res, (made [("x", ASig (C72_sig 0 "s"))]), "x".
  split; [apply made_class; [repeat constructor; cbn; intuition discriminate|eexists; reflexivity]|].
  cbn. repeat split; auto. exists 1, 2, 0. repeat split; discriminate.
Qed.
(** class G(SignalGroup): a = Signal(int); b = Signal(int, name="a"): group.a is group["b"]. *)
Theorem C72_other_refuted : exists reserved c,
  a_class reserved c /\ (forall k, In k (map fst (c_signals c)) -> conflicting reserved k = false)
  /\ let g := new_group reserved c in exists i j, gr_getitem "a" g = inl i /\ gr_getitem "b" g = inl j /\ i <> j
       /\ gr_getattr c "a" g = (g, FInst j).
Proof.
  exists C72_res, (made [("a", ASig (C72_sig 0 "a")); ("b", ASig (C72_sig 1 "a"))]).
  split; [apply made_class; [repeat constructor; cbn; intuition discriminate|eexists; reflexivity]|].
  split; [intros k [<-|[<-|[]]]; reflexivity|]. cbn. exists 0, 1. repeat split. discriminate.
Qed.
(** class G(SignalGroup): a = b = Signal(int): the two names stand for different SignalInstances, and
    what group.a is changes when group.b is read. *)
Theorem C72_two_names_refuted : exists reserved c s,
  a_class reserved c /\ c_signals c = [("a", s); ("b", s)] /\ cs_name s = "a"
  /\ let g := new_group reserved c in exists i j n, i <> j /\ j <> n
       /\ gr_getitem "a" g = inl i /\ gr_getitem "b" g = inl j
       /\ snd (gr_getattr c "a" g) = FInst j /\ snd (gr_getattr c "a" (touch c ["b"] g)) = FInst n.
Proof.
  exists C72_res, (made [("a", ASig (C72_sig 0 "a")); ("b", ASig (C72_sig 0 "a"))]), (C72_sig 0 "a").
  split; [apply made_class; [repeat constructor; cbn; intuition discriminate|eexists; reflexivity]|].
  split; [reflexivity|]. split; [reflexivity|]. cbn. exists 0, 1, 2. repeat split; discriminate.
Qed.
Print Assumptions C72_name_refuted.
Print Assumptions C72_other_refuted.
Print Assumptions C72_two_names_refuted.

(** * C73 *)

Lemma sset_same : forall {A} k (v : A) d, sget k d = Some v -> sset k v d = d.
Proof.
  intros A k v d. induction d as [|[x y] d IH]; cbn; [discriminate|].
  destruct (String.eqb_spec k x) as [->|]; [now intros [= ->]|]. intros H. f_equal. auto.
Qed.
Lemma merge_same : forall {A} (b a : list (string * A)), is_dict a -> (forall k v, In (k, v) b -> sget k a = Some v) -> merge a b = a.
Proof.
  intros A b a Ha. unfold merge. induction b as [|[k v] b IH]; intros H; cbn; [reflexivity|].
  rewrite sset_same by (apply H; now left). apply IH. intros k' v' K. apply H. now right.
Qed.
Lemma drop_same : forall base own names attrs attrs', drop_conflicts base own names attrs = inl attrs' ->
  (forall k, In k names -> is_sig (sget k attrs) = false) -> attrs' = attrs.
Proof.
  intros base own names. induction names as [|x names IH]; intros attrs attrs' H Hs; cbn in H; [now injection H as <-|].
  pose proof (Hs x (or_introl eq_refl)) as Hx. destruct (sget x attrs) as [[s| |]|]; try discriminate;
    (apply IH; [exact H|intros k K; apply Hs; now right]).
Qed.
(** A class statement that is not strict and has no attribute starting with _psygnal succeeds
    if every inherited signal whose name starts with psygnal is either reserved or given anew; without
    attributes it makes an equal class. *)
Theorem C73_subclass_partial : forall reserved base own aliases, a_class reserved base -> is_dict own ->
  (forall k, In k (map fst own) -> starts "_psygnal" k = false) ->
  (forall k, In k (map fst (c_signals base)) -> starts "psygnal" k = true -> In k reserved \/ In k (map fst own)) ->
  (exists c, create reserved base own false aliases = inl c)
  /\ (own = [] -> aliases = [] -> create reserved base own false aliases = inl base).
Proof.
  intros reserved base own aliases Hb Ho Hn Hp. destruct (has_facts _ _ Hb) as [F1 F2 F3 F4 F5 F6].
  unfold create.
  assert (HE : existsb (starts "_psygnal") (map fst own) = false).
  { destruct (existsb _ _) eqn:E; [|reflexivity]. apply existsb_exists in E as (k & K1 & K2). rewrite Hn in K2; [discriminate|exact K1]. }
  rewrite HE. cbv zeta. set (at0 := merge (c_attrs base) own).
  assert (HA : is_dict at0) by now apply merge_dict.
  assert (HG : forall k, sget k at0 = looked_up own (c_attrs base) k) by (intros k; now apply merge_get).
  set (sg := merge (c_signals base) _).
  assert (HD : is_dict sg) by now apply merge_dict.
  assert (HW : forall k, In k (filter (conflicting reserved) (map fst sg)) ->
                 sget k at0 <> None /\ (is_sig (sget k at0) = true -> In k (map fst own))).
  { intros k K. apply filter_In in K as [K C]. rewrite HG. unfold looked_up.
    destruct (sget k own) as [a|] eqn:O.
    - split; [discriminate|]. intros _. apply sget_keys. congruence.
    - apply sget_keys in K. unfold sg in K. rewrite sigs_get in K by exact HA. rewrite HG in K. unfold looked_up in K. rewrite O in K.
      destruct (sget k (c_attrs base)) as [[s| |]|] eqn:B; cbn [is_sig]; try (split; [discriminate|discriminate]).
      + destruct (F3 k s B) as [_ F]. congruence.
      + exfalso. assert (KS : In k (map fst (c_signals base))) by now apply sget_keys.
        assert (KR : In k reserved \/ In k (map fst own)).
        { unfold conflicting in C. rewrite (F5 k K), orb_false_r in C. apply orb_true_iff in C as [C|C]; [left; now apply mem_In|auto]. }
        destruct KR as [KR|KR]; [exact (F4 k KR B)|]. apply sget_keys in KR. congruence. }
  destruct (drop_works (c_attrs base) (map fst own) _ at0 (NoDup_filter _ HD) HW) as (attrs & HX).
  split; [rewrite HX; cbn [andb]; eauto|]. intros -> ->.
  assert (HS : sg = c_signals base).
  { apply merge_same; [exact F2|]. intros k s K. apply sget_In in K; [|apply signals_in_dict; rewrite <- ssort_perm; exact HA].
    rewrite signals_in_sget in K. destruct (mem k _); [|discriminate].
    destruct (sget k at0) as [[s'| |]|] eqn:B; try discriminate. injection K as ->. apply (F3 k s B). }
  assert (HF : attrs = c_attrs base).
  { apply (drop_same _ _ _ _ _ HX). intros k K. destruct (HW k K) as [_ K2].
    destruct (is_sig (sget k at0)); [destruct (K2 eq_refl)|reflexivity]. }
  rewrite HX, HS, <- F6, HF. cbn [andb]. now destruct base.
Qed.
(** class A(SignalGroup): x = Signal(int); all = Signal(int), and a subclass that adds a reserved name. *)
Example C73_case :
  let base := made C72_own in
  a_class C72_res base /\ is_dict [("psygnal_x", ASig (C72_sig 5 "psygnal_x")); ("x", AOther)]
  /\ (forall k, In k (map fst (c_signals base)) -> starts "psygnal" k = false)
  /\ exists c, create C72_res base [("psygnal_x", ASig (C72_sig 5 "psygnal_x")); ("x", AOther)] false [] = inl c
       /\ map fst (c_signals c) = ["all"; "x"; "y"; "psygnal_x"] /\ sget "psygnal_x" (c_attrs c) = None.
Proof.
  cbv zeta. split; [apply made_class; [repeat constructor; cbn; intuition discriminate|eexists; reflexivity]|].
  split; [repeat constructor; cbn; intuition discriminate|].
  split; [intros k H; cbn in H; repeat (destruct H as [<-|H]; [reflexivity|]); destruct H|].
  eexists. repeat split.
Qed.
Print Assumptions C73_subclass_partial.
(** class A(SignalGroup): psygnal_x = Signal(int); class B(A): pass  raises AttributeError. *)
Theorem C73_refuted : exists reserved base,
  a_class reserved base /\ c_signals base <> [] /\ create reserved base [] false [] = inr EAttribute.
Proof.
  exists C72_res, (made [("psygnal_x", ASig (C72_sig 5 "psygnal_x"))]).
  split; [apply made_class; [repeat constructor; cbn; intuition discriminate|eexists; reflexivity]|].
  split; [discriminate|reflexivity].
Qed.
Print Assumptions C73_refuted.
