(** C56: uniform and strict signal groups. *)

From Coq Require Import Permutation.
From Verif Require Import Base Core Evented SpecEvented PropsEvented Uniform.
Open Scope string_scope.
Open Scope list_scope.

(** Classes made by any number of class statements.  Dicts have different keys. *)
Inductive a_class (reserved : list string) : sgclass -> Prop :=
| cl_root : NoDup reserved -> a_class reserved (root reserved)
| cl_sub : forall base own strict aliases c, a_class reserved base ->
    is_dict own -> is_dict aliases ->
    create reserved base own strict aliases = inl c -> a_class reserved c.

(** All signals have the same annotations. *)
Definition same_signatures (l : list (string * csig)) : Prop :=
  forall n1 s1 n2 s2, In (n1, s1) l -> In (n2, s2) l -> cs_str s1 = cs_str s2.
(** What the name [k] of a class means: the class's own attribute or the inherited one. *)
Definition looked_up {A} (own base : list (string * A)) (k : string) : option A :=
  match sget k own with Some a => Some a | None => sget k base end.

Lemma uniform_loop_spec : forall sigs seen, (forall a b, In a seen -> In b seen -> a = b) ->
  uniform_loop sigs seen = true <-> (forall a b, In a (sigs ++ seen) -> In b (sigs ++ seen) -> a = b).
Proof.
  induction sigs as [|v sigs IH]; intros seen Hs; cbn [uniform_loop app]; [tauto|].
  assert (HP : forall a, In a (v :: sigs ++ seen) <-> In a (sigs ++ v :: seen)).
  { intros a. rewrite in_app_iff. cbn. rewrite in_app_iff. tauto. }
  destruct seen as [|x seen].
  - rewrite IH by (intros a b [<-|[]] [<-|[]]; reflexivity).
    split; intros H a b Ha Hb; apply H; apply HP; assumption.
  - destruct (in_dec sigstr_dec v (x :: seen)) as [Hi|Hi].
    + rewrite IH.
      * split; intros H a b Ha Hb; apply H; apply HP; assumption.
      * intros a b [<-|Ha] [<-|Hb]; auto.
    + split; [discriminate|]. intros H. exfalso. apply Hi. left.
      apply H; [right; apply in_app_iff; right; now left|now left].
Qed.
Lemma is_uniform_spec : forall l : list (string * csig),
  is_uniform (map (fun kv => cs_str (snd kv)) l) = true <-> same_signatures l.
Proof.
  intros l. unfold is_uniform. rewrite uniform_loop_spec by (intros a b []). rewrite app_nil_r.
  split.
  - intros H n1 s1 n2 s2 H1 H2. apply H.
    + apply (in_map (fun kv => cs_str (snd kv)) l (n1, s1) H1).
    + apply (in_map (fun kv => cs_str (snd kv)) l (n2, s2) H2).
  - intros H a b Ha Hb. apply in_map_iff in Ha as ([n1 s1] & <- & Ha). apply in_map_iff in Hb as ([n2 s2] & <- & Hb).
    eapply H; eauto.
Qed.
Lemma create_inv : forall reserved base own strict aliases c,
  create reserved base own strict aliases = inl c ->
  exists attrs,
    let at0 := merge (c_attrs base) own in
    let sg := merge (c_signals base) (signals_in at0 (ssort (map fst at0))) in
    existsb (starts "_psygnal") (map fst own) = false
    /\ drop_conflicts (c_attrs base) (map fst own) (filter (conflicting reserved) (map fst sg)) at0 = inl attrs
    /\ (strict = true -> is_uniform (map (fun kv => cs_str (snd kv)) sg) = true)
    /\ c = Sgclass sg (merge (c_aliases base) aliases) (is_uniform (map (fun kv => cs_str (snd kv)) sg)) attrs.
Proof.
  intros reserved base own strict aliases c H. unfold create in H.
  destruct (existsb _ (map fst own)); [discriminate|]. cbv zeta in *.
  destruct (drop_conflicts _ _ _ _) as [attrs|] eqn:D; [|discriminate]. exists attrs.
  destruct (strict && negb _) eqn:S; [discriminate|]. injection H as <-.
  repeat split; auto. intros ->. cbn in S. now apply negb_false_iff in S.
Qed.

(** The flag says exactly whether all signals have the same annotations. *)
Theorem C56_uniform : forall reserved c, a_class reserved c ->
  c_uniform c = true <-> same_signatures (c_signals c).
Proof.
  intros reserved c H. destruct H as [HN|base own strict aliases c Hb Ho Ha H].
  - cbn. split; [intros _ n1 s1 n2 s2 []|reflexivity].
  - apply create_inv in H as (attrs & _ & _ & _ & ->). cbn [c_uniform c_signals]. apply is_uniform_spec.
Qed.

Lemma sget_keys : forall {A} k (d : list (string * A)), sget k d <> None <-> In k (map fst d).
Proof.
  intros A k d. induction d as [|[x v] d IH]; cbn; [tauto|].
  destruct (String.eqb_spec k x) as [->|Hn]; [intuition discriminate|]. rewrite IH. intuition congruence.
Qed.
Lemma merge_dict : forall {A} (b a : list (string * A)), is_dict a -> is_dict (merge a b).
Proof.
  intros A b. unfold merge. induction b as [|[k v] b IH]; intros a Ha; cbn; [exact Ha|].
  apply IH. now apply sset_dict.
Qed.
Lemma sget_In : forall {A} (d : list (string * A)) k v, is_dict d -> (In (k, v) d <-> sget k d = Some v).
Proof.
  intros A d k v. induction d as [|[x y] d IH]; cbn; intros Hd; [intuition discriminate|].
  inversion Hd as [|? ? Hn Hd']; subst. destruct (String.eqb_spec k x) as [->|Hx].
  - split; [intros [K|K]; [congruence|]|intros K; left; congruence].
    exfalso. apply Hn. change x with (fst (x, v)). now apply in_map.
  - rewrite <- IH by exact Hd'. split; [intros [K|K]; [congruence|exact K]|now right].
Qed.
Lemma signals_in_sget : forall attrs names k, sget k (signals_in attrs names)
  = if mem k names then match sget k attrs with Some (ASig sg) => Some sg | _ => None end else None.
Proof.
  intros attrs names k. induction names as [|x names IH]; [reflexivity|].
  cbn [signals_in mem existsb]. unfold mem in IH. destruct (String.eqb_spec k x) as [->|Hn].
  - cbn [orb]. destruct (sget x attrs) as [[sg| |]|] eqn:G; cbn [sget];
      rewrite ?String.eqb_refl; [reflexivity| | |]; rewrite IH; now destruct (existsb _ _).
  - cbn [orb]. destruct (sget x attrs) as [[sg| |]|] eqn:G; cbn [sget];
      [apply String.eqb_neq in Hn; rewrite Hn| | |]; apply IH.
Qed.
Lemma signals_in_keys : forall attrs names k, In k (map fst (signals_in attrs names)) -> In k names.
Proof.
  intros attrs names k. induction names as [|x names IH]; cbn; [tauto|].
  destruct (sget x attrs) as [[sg| |]|]; cbn; intuition.
Qed.
Lemma signals_in_dict : forall attrs names, NoDup names -> is_dict (signals_in attrs names).
Proof.
  intros attrs names H. induction H as [|x names Hn H IH]; cbn; [constructor|].
  destruct (sget x attrs) as [[sg| |]|]; [|exact IH|exact IH|exact IH]. constructor; [|exact IH].
  intros K. apply Hn. eapply signals_in_keys. exact K.
Qed.
Lemma drop_dict : forall base own names attrs attrs', is_dict attrs ->
  drop_conflicts base own names attrs = inl attrs' -> is_dict attrs'.
Proof.
  intros base own names. induction names as [|k names IH]; cbn; intros attrs attrs' Hd H; [now injection H as <-|].
  destruct (sget k attrs) as [[sg| |]|]; [|eauto|eauto|discriminate]. destruct (mem k own); [|discriminate].
  eapply IH; [|exact H]. destruct (sget k base); [now apply sset_dict|].
  unfold is_dict in *. clear -Hd. induction attrs as [|[x y] attrs IH]; cbn; [constructor|].
  inversion Hd; subst. destruct (String.eqb k x); cbn; [auto|]. constructor; [|auto].
  intros K. apply H1. apply in_map_iff in K as ([a b] & <- & K). apply filter_In in K as [K _].
  change (fst (a, b)) with (fst (a, b)). now apply in_map.
Qed.
Lemma a_class_dicts : forall reserved c, a_class reserved c ->
  is_dict (c_attrs c) /\ is_dict (c_signals c) /\ is_dict (c_aliases c).
Proof.
  intros reserved c H. induction H as [HN|base own strict aliases c Hb (I1 & I2 & I3) Ho Ha H].
  - repeat split; [|constructor|constructor]. unfold is_dict. cbn. rewrite map_map. cbn. now rewrite map_id.
  - apply create_inv in H as (attrs & _ & D & _ & ->). cbn [c_attrs c_signals c_aliases].
    split; [eapply drop_dict; [|exact D]; now apply merge_dict|]. split; now apply merge_dict.
Qed.

(** The signals of a class: those the name lookup finds, and those of the base class under
    names that do not give a Signal any more. *)
Theorem C56_signals : forall reserved base own strict aliases c, a_class reserved base ->
  is_dict own -> create reserved base own strict aliases = inl c ->
  forall k sg, In (k, sg) (c_signals c) <->
    looked_up own (c_attrs base) k = Some (ASig sg)
    \/ ((forall s', looked_up own (c_attrs base) k <> Some (ASig s')) /\ In (k, sg) (c_signals base)).
Proof.
  intros reserved base own strict aliases c Hb Ho H k sg.
  destruct (a_class_dicts _ _ Hb) as (D1 & D2 & _).
  apply create_inv in H as (attrs & _ & _ & _ & ->). cbn [c_signals].
  set (at0 := merge (c_attrs base) own). assert (HA : is_dict at0) by now apply merge_dict.
  assert (HS : is_dict (signals_in at0 (ssort (map fst at0)))).
  { apply signals_in_dict. rewrite <- ssort_perm. exact HA. }
  rewrite !sget_In by (try apply merge_dict; assumption).
  unfold merge at 1. rewrite sget_merge by exact HS. rewrite signals_in_sget.
  assert (HL : sget k at0 = looked_up own (c_attrs base) k).
  { unfold at0, merge. rewrite sget_merge by exact Ho. reflexivity. }
  assert (HM : mem k (ssort (map fst at0)) = match sget k at0 with Some _ => true | None => false end).
  { pose proof (sget_keys k at0) as K. destruct (sget k at0).
    - apply mem_In, ssort_In, K. discriminate.
    - apply mem_not_In. rewrite ssort_In, <- K. congruence. }
  rewrite HM, HL. destruct (looked_up own (c_attrs base) k) as [[x| |]|].
  - split; [intros X; left; congruence|]. intros [X|[X _]]; [congruence|now destruct (X x)].
  - split; [intros X; right; split; [discriminate|exact X]|]. now intros [X|[_ X]].
  - split; [intros X; right; split; [discriminate|exact X]|]. now intros [X|[_ X]].
  - split; [intros X; right; split; [discriminate|exact X]|]. now intros [X|[_ X]].
Qed.

(** A strict class is refused exactly if two of its signals differ; a class that is not
    strict never is.  (Names starting with _psygnal are refused anyway, and so are Signals
    with reserved names in classes that are not SignalGroups and inherited names starting with
    psygnal: C73.) *)
Theorem C56_strict : forall reserved base own aliases c, a_class reserved base ->
  is_dict own -> create reserved base own false aliases = inl c ->
  (same_signatures (c_signals c) -> create reserved base own true aliases = inl c)
  /\ (~ same_signatures (c_signals c) -> create reserved base own true aliases = inr EType).
Proof.
  intros reserved base own aliases c Hb Ho H.
  apply create_inv in H as (attrs & P & D & _ & ->). cbn [c_signals]. unfold create. rewrite P. cbv zeta in *.
  rewrite D. rewrite <- is_uniform_spec. cbn [andb]. set (u := is_uniform _) in *.
  destruct u; cbn [negb]; split; congruence.
Qed.

Lemma starts_prefix : forall a b, starts a b = true <-> exists r, b = (a ++ r)%string.
Proof.
  unfold starts. induction a as [|x a IH]; intros b.
  - split; [intros _; now exists b|intros _; now destruct b].
  - destruct b as [|y b]; [split; [discriminate|intros (r & H); discriminate]|]. simpl.
    destruct (ascii_dec x y) as [->|N]; [rewrite IH|split; [discriminate|]]; [|intros (r & H); congruence].
    split; intros (r & H); exists r; congruence.
Qed.
Lemma sget_drop : forall {A} (j k : string) (d : list (string * A)), j <> k ->
  sget k (filter (fun kv => negb (String.eqb j (fst kv))) d) = sget k d.
Proof.
  intros A j k d N. induction d as [|[x y] d IH]; [reflexivity|]. cbn [filter fst sget].
  destruct (String.eqb_spec j x) as [->|]; cbn [negb]; [|cbn [sget]; now rewrite IH].
  rewrite IH. apply not_eq_sym, String.eqb_neq in N. now rewrite N.
Qed.
Lemma drop_error : forall base own names attrs e, NoDup names ->
  drop_conflicts base own names attrs = inr e ->
  e = EAttribute /\ exists k, In k names /\
    (sget k attrs = None \/ (~ In k own /\ exists sg, sget k attrs = Some (ASig sg))).
Proof.
  intros base own names. induction names as [|k names IH]; intros attrs e HN H; cbn in H; [discriminate|].
  apply NoDup_cons_iff in HN as [Hk HN]. destruct (sget k attrs) as [[sg| |]|] eqn:G.
  - destruct (mem k own) eqn:M.
    + destruct (IH _ _ HN H) as (-> & j & Hj & HE). split; [reflexivity|]. exists j. split; [now right|].
      assert (N : j <> k) by congruence. destruct (sget k base).
      * rewrite sget_sset in HE. apply String.eqb_neq in N. now rewrite N in HE.
      * now rewrite sget_drop in HE by congruence.
    + injection H as <-. split; [reflexivity|]. exists k. split; [now left|]. right.
      split; [now apply mem_not_In|eauto].
  - destruct (IH _ _ HN H) as (-> & j & Hj & HE). split; [reflexivity|]. exists j. split; [now right|exact HE].
  - destruct (IH _ _ HN H) as (-> & j & Hj & HE). split; [reflexivity|]. exists j. split; [now right|exact HE].
  - injection H as <-. split; [reflexivity|]. exists k. split; [now left|now left].
Qed.
Lemma sget_merge_none : forall {A} (b a : list (string * A)) k, sget k (merge a b) = None ->
  sget k a = None /\ ~ In k (map fst b).
Proof.
  intros A b. unfold merge. induction b as [|[x y] b IH]; intros a k H; cbn in H; [split; [exact H|tauto]|].
  destruct (IH _ _ H) as [G N]. cbn [fst snd] in G. rewrite sget_sset in G. destruct (String.eqb_spec k x) as [->|]; [discriminate|].
  split; [exact G|]. cbn. intuition congruence.
Qed.
Lemma sget_merge_other : forall {A} (b a : list (string * A)) k, ~ In k (map fst b) -> sget k (merge a b) = sget k a.
Proof.
  intros A b. unfold merge. induction b as [|[x y] b IH]; intros a k H; cbn; [reflexivity|].
  rewrite IH by (intros K; apply H; now right). rewrite sget_sset. cbn [fst snd].
  destruct (String.eqb_spec k x) as [->|]; [exfalso; apply H; now left|reflexivity].
Qed.
Lemma ssort_nodup : forall l, NoDup l -> NoDup (ssort l).
Proof. intros l H. eapply Permutation_NoDup; [apply ssort_perm|exact H]. Qed.

(** Which class statements are refused (strict apart, see C56_strict): TypeError exactly if one of the attributes starts with
    _psygnal; AttributeError only if there is a signal with a name that SignalGroup uses or that starts with psygnal, which
    is not one of the attributes in the statement (it is inherited). *)
Theorem C56_refused : forall reserved base own aliases e, a_class reserved base -> is_dict own ->
  create reserved base own false aliases = inr e ->
  (e = EType /\ exists k r, In k (map fst own) /\ k = ("_psygnal" ++ r)%string)
  \/ (e = EAttribute
      /\ (forall k r, In k (map fst own) -> k <> ("_psygnal" ++ r)%string)
      /\ exists k, ~ In k (map fst own)
           /\ (In k reserved \/ exists r, k = ("_psygnal" ++ r)%string \/ k = ("psygnal" ++ r)%string)
           /\ (In k (map fst (c_signals base)) \/ exists sg, In (k, ASig sg) (c_attrs base))).
Proof.
  intros reserved base own aliases e Hb Ho H. unfold create in H.
  destruct (a_class_dicts _ _ Hb) as (D1 & D2 & _).
  destruct (existsb (starts "_psygnal") (map fst own)) eqn:X.
  - injection H as <-. left. split; [reflexivity|]. apply existsb_exists in X as (k & Hk & X).
    apply starts_prefix in X as (r & X). exists k, r. auto.
  - right. cbv zeta in H. set (at0 := merge (c_attrs base) own) in *.
    set (sg := merge (c_signals base) (signals_in at0 (ssort (map fst at0)))) in *.
    assert (D0 : is_dict at0) by now apply merge_dict.
    assert (DS : is_dict sg).
    { apply merge_dict; [exact D2]. }
    destruct (drop_conflicts _ _ _ _) as [attrs|e'] eqn:D; [discriminate|]. injection H as ->.
    apply drop_error in D; [|now apply NoDup_filter].
    destruct D as (-> & k & Hk & HE). split; [reflexivity|]. split.
    { intros j r Hj ->. enough (existsb (starts "_psygnal") (map fst own) = true) by congruence.
      apply existsb_exists. exists ("_psygnal" ++ r)%string. split; [exact Hj|]. apply starts_prefix. eauto. }
    apply filter_In in Hk as [Hk HC].
    assert (HO : ~ In k (map fst own)).
    { destruct HE as [HE|[HE _]]; [|exact HE]. now apply sget_merge_none in HE. }
    exists k. split; [exact HO|]. split.
    { unfold conflicting in HC. rewrite !Bool.orb_true_iff, mem_In, !starts_prefix in HC.
      destruct HC as [[HC|(r & HC)]|(r & HC)]; [now left|right; exists r; now left|right; exists r; now right]. }
    destruct HE as [HE|(_ & s & HE)].
    + left. apply (proj2 (sget_keys k sg)) in Hk. unfold sg in Hk. rewrite sget_merge_other in Hk;
        [now apply (proj1 (sget_keys _ _))|]. intros K. apply (proj2 (sget_keys _ _)) in K.
      rewrite signals_in_sget, HE in K. now destruct (mem k _).
    + right. exists s. unfold at0 in HE. rewrite sget_merge_other in HE by exact HO. now apply sget_In.
Qed.
Definition C56_res0 : list string := ["all"; "block"].
Example C56_refused_case :
  create C56_res0 (root C56_res0) [("_psygnal_x", AOther)] false [] = inr EType
  /\ exists c, create C56_res0 (root C56_res0) [("psygnal_x", ASig (Csig 0 "psygnal_x" ["int"]))] false [] = inl c
       /\ create C56_res0 c [("y", ASig (Csig 1 "y" ["int"]))] false [] = inr EAttribute.
Proof. split; [reflexivity|]. eexists. split; reflexivity. Qed.

(** A group with two signals of type int, and subclasses with a str signal. *)
Definition C56_res : list string := ["all"; "block"].
Definition C56_sig (i : nat) (n t : string) : csig := Csig i n [t].
Definition C56_own : list (string * attr) := [("y", ASig (C56_sig 1 "y" "int")); ("x", ASig (C56_sig 0 "x" "int"))].
Definition C56_a : sgclass := Sgclass [("x", C56_sig 0 "x" "int"); ("y", C56_sig 1 "y" "int")] [] true
  ([("all", AProp); ("block", AOther)] ++ C56_own).
Example C56_case :
  create C56_res (root C56_res) C56_own true [] = inl C56_a
  /\ a_class C56_res C56_a
  /\ create C56_res C56_a [("z", ASig (C56_sig 2 "z" "str"))] true [] = inr EType
  /\ (exists c, create C56_res C56_a [("all", ASig (C56_sig 3 "all" "str")); ("x", AOther)] false [] = inl c
        /\ c_uniform c = false /\ map fst (c_signals c) = ["x"; "y"; "all"]
        /\ sget "all" (c_attrs c) = Some AProp)
  /\ is_dict C56_own.
Proof.
  assert (HD : is_dict C56_own) by (repeat constructor; cbn; intuition discriminate).
  split; [reflexivity|]. split.
  { apply cl_sub with (base := root C56_res) (own := C56_own) (strict := true) (aliases := []); [constructor| |constructor|reflexivity].
    - repeat constructor; cbn; intuition discriminate.
    - exact HD. }
  split; [reflexivity|]. split; [|exact HD]. eexists. split; [reflexivity|]. split; [reflexivity|]. split; reflexivity.
Qed.
Print Assumptions C56_uniform.
Print Assumptions C56_signals.
Print Assumptions C56_strict.
Print Assumptions C56_refused.
