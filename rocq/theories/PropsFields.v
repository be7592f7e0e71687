(** Fields of evented classes: C89. *)

From Verif Require Import Base Core Evented SpecEvented PropsEvented Fields.
Open Scope string_scope.
Open Scope list_scope.

(** The classes of the module [l] that a class inherits from, itself first. *)
Inductive ancestry (l : list stmt) : nat -> list nat -> Prop :=
| an_root : forall c s, nth_error l c = Some s -> st_base s = None -> ancestry l c [c]
| an_base : forall c s b m, nth_error l c = Some s -> st_base s = Some b -> b < c -> ancestry l b m ->
    ancestry l c (c :: m).
(** The dataclass [c] has the field [n] in its body. *)
Definition declares (l : list stmt) (c : nat) (n : string) (f : field) : Prop :=
  exists s, nth_error l c = Some s /\ st_dc s = true /\ sget n (st_own s) = Some f.
(** The first of the classes that declares [n] declares it as [f]. *)
Inductive nearest (l : list stmt) (n : string) (f : field) : list nat -> Prop :=
| ne_here : forall c m, declares l c n f -> nearest l n f (c :: m)
| ne_there : forall c m, (forall g, ~ declares l c n g) -> nearest l n f m -> nearest l n f (c :: m).
(** Names in the order in which they are declared, from the most basic class on. *)
Definition own_names (l : list stmt) (c : nat) : list string :=
  match nth_error l c with Some s => if st_dc s then map fst (st_own s) else [] | None => [] end.
Fixpoint firsts (l : list string) : list string :=
  match l with [] => [] | x :: l => x :: filter (fun y => negb (String.eqb x y)) (firsts l) end.
Definition declared (l : list stmt) (m : list nat) : list string := firsts (flat_map (own_names l) (rev m)).

Section C89.
Variable l0 : list stmt.

Definition is_dc (c : nat) : bool := match nth_error l0 c with Some s => st_dc s | None => false end.
Definition own (c : nat) : list (string * field) := match nth_error l0 c with Some s => st_own s | None => [] end.
Fixpoint total (m : list nat) : list (string * field) :=
  match m with [] => [] | c :: m => if is_dc c then update (total m) (own c) else total m end.

Lemma update_get : forall A (e d : list (string * A)) n, is_dict e ->
  sget n (update d e) = match sget n e with Some f => Some f | None => sget n d end.
Proof.
  intros A e. unfold update. induction e as [|[k v] e IH]; intros d n H; cbn [fold_left sget]; [reflexivity|].
  cbn [fst snd]. unfold is_dict in *. cbn in H. apply NoDup_cons_iff in H as [H1 H2]. rewrite IH by exact H2. rewrite sget_sset.
  destruct (String.eqb n k) eqn:E; [|reflexivity]. apply String.eqb_eq in E. subst k.
  assert (G : sget n e = None); [|now rewrite G].
  clear -H1. induction e as [|[y w] e IH]; cbn in *; [reflexivity|].
  destruct (String.eqb n y) eqn:E; [apply String.eqb_eq in E; subst; tauto|]. apply IH. tauto.
Qed.
Lemma update_dict : forall A (e d : list (string * A)), is_dict d -> is_dict (update d e).
Proof.
  intros A e. unfold update. induction e as [|[k v] e IH]; intros d H; cbn [fold_left]; [exact H|]. apply IH. now apply sset_dict.
Qed.
Lemma sset_keys_eq : forall A k (v : A) d,
  map fst (sset k v d) = if mem k (map fst d) then map fst d else map fst d ++ [k].
Proof.
  intros A k v d. induction d as [|[x y] d IH]; cbn; [reflexivity|]. destruct (String.eqb k x); cbn; [reflexivity|].
  rewrite IH. unfold mem. destruct (existsb _ _); reflexivity.
Qed.
Lemma mem_in : forall k l, mem k l = true <-> In k l.
Proof.
  intros k l. unfold mem. rewrite existsb_exists. split.
  - intros (x & Hx & E). apply String.eqb_eq in E. now subst.
  - intros H. exists k. split; [exact H|apply String.eqb_refl].
Qed.
Lemma firsts_in : forall l x, In x (firsts l) <-> In x l.
Proof.
  intros l x. induction l as [|y l IH]; cbn; [tauto|]. rewrite filter_In, IH. split.
  - intros [H|[H _]]; auto.
  - intros [H|H]; [now left|]. destruct (String.eqb y x) eqn:E; [apply String.eqb_eq in E; now left|now right].
Qed.
Lemma firsts_dict : forall l, NoDup (firsts l).
Proof.
  induction l as [|x l IH]; cbn; constructor.
  - rewrite filter_In. intros [_ H]. now rewrite String.eqb_refl in H.
  - now apply NoDup_filter.
Qed.
Lemma filter_filter : forall (f g : string -> bool) l, filter f (filter g l) = filter (fun x => g x && f x) l.
Proof. intros f g l. induction l as [|x l IH]; cbn; [reflexivity|]. destruct (g x); cbn; [|exact IH]. now rewrite IH. Qed.
(** [firsts] of two lists, one after the other. *)
Lemma firsts_app : forall a b, firsts (a ++ b) = firsts a ++ filter (fun y => negb (mem y a)) (firsts b).
Proof.
  induction a as [|x a IH]; intros b; cbn.
  - induction (firsts b) as [|y q Hq]; cbn; [reflexivity|]. now rewrite <- Hq.
  - f_equal. rewrite IH, filter_app. f_equal. rewrite filter_filter. apply filter_ext. intros y. unfold mem. cbn.
    rewrite (String.eqb_sym y x). destruct (existsb (String.eqb y) a), (String.eqb x y); reflexivity.
Qed.
Lemma firsts_nodup : forall l, NoDup l -> firsts l = l.
Proof.
  induction l as [|x l IH]; intros H; cbn; [reflexivity|]. apply NoDup_cons_iff in H as [H1 H2]. rewrite (IH H2). f_equal.
  clear IH H2. induction l as [|y l IH]; cbn in *; [reflexivity|]. destruct (String.eqb x y) eqn:E; [apply String.eqb_eq in E; subst; tauto|].
  cbn. f_equal. apply IH. tauto.
Qed.
Lemma update_keys : forall A (e d : list (string * A)), is_dict e ->
  map fst (update d e) = map fst d ++ filter (fun y => negb (mem y (map fst d))) (map fst e).
Proof.
  intros A e. unfold update. induction e as [|[k v] e IH]; intros d H; cbn [fold_left map filter fst snd]; [now rewrite app_nil_r|].
  unfold is_dict in *. cbn in H. apply NoDup_cons_iff in H as [H1 H2]. rewrite IH by exact H2. rewrite sset_keys_eq.
  destruct (mem k (map fst d)) eqn:E; cbn [negb].
  - reflexivity.
  - rewrite <- app_assoc. cbn [app]. f_equal. f_equal. apply filter_ext_in. intros y Hy. f_equal. unfold mem. rewrite existsb_app. cbn.
    destruct (String.eqb y k) eqn:E2; [apply String.eqb_eq in E2; subst; contradiction|]. now rewrite !orb_false_r.
Qed.
(** Two dicts with the same keys in the same order and the same values are equal. *)
Lemma dict_eq : forall A (a b : list (string * A)), is_dict a -> map fst a = map fst b ->
  (forall n, sget n a = sget n b) -> a = b.
Proof.
  intros A a. induction a as [|[k v] a IH]; intros [|[k' v'] b] H HK HG; cbn in HK; try discriminate; [reflexivity|].
  injection HK as <- HK. unfold is_dict in *. cbn in H. apply NoDup_cons_iff in H as [H1 H2].
  pose proof (HG k) as G. cbn in G. rewrite String.eqb_refl in G. injection G as <-. f_equal. apply IH; [exact H2|exact HK|].
  intros n. specialize (HG n). cbn in HG. destruct (String.eqb n k) eqn:E; [|exact HG]. apply String.eqb_eq in E. subst n.
  assert (N : forall (d : list (string * A)), ~ In k (map fst d) -> sget k d = None).
  { intros d Hd. induction d as [|[y w] d IHd]; cbn in *; [reflexivity|].
    destruct (String.eqb k y) eqn:E; [apply String.eqb_eq in E; subst; tauto|]. apply IHd. tauto. }
  rewrite !N; [reflexivity|now rewrite <- HK|exact H1].
Qed.
Lemma update_again : forall A (d e : list (string * A)), is_dict d -> is_dict e -> update d (update d e) = update d e.
Proof.
  intros A d e Hd He. assert (Hu : is_dict (update d e)) by now apply update_dict. apply dict_eq.
  - now apply update_dict.
  - rewrite (update_keys A (update d e) d Hu), (update_keys A e d He). rewrite filter_app.
    replace (filter (fun y => negb (mem y (map fst d))) (map fst d)) with (@nil string).
    + cbn [app]. f_equal. generalize (map fst e). intros q. induction q as [|y q IH]; cbn; [reflexivity|].
      destruct (mem y (map fst d)) eqn:E; cbn; [exact IH|]. rewrite E. cbn. now rewrite IH.
    + symmetry. assert (G : forall q, incl q (map fst d) -> filter (fun y => negb (mem y (map fst d))) q = []).
      { induction q as [|y q IH]; intros Hq; cbn; [reflexivity|]. replace (mem y (map fst d)) with true.
        - cbn. apply IH. intros z Hz. apply Hq. now right.
        - symmetry. apply mem_in, Hq. now left. }
      apply G, incl_refl.
  - intros n. rewrite (update_get A (update d e) d n Hu), (update_get A e d n He). destruct (sget n e); [reflexivity|]. now destruct (sget n d).
Qed.
Lemma update_same : forall A (d : list (string * A)), is_dict d -> update d d = d.
Proof.
  intros A d Hd. pose proof (update_again A d [] Hd (NoDup_nil _)) as H. exact H.
Qed.

Hypothesis bodies : forall s, In s l0 -> is_dict (st_own s).
Lemma own_dict : forall c, is_dict (own c).
Proof.
  intros c. unfold own. destruct (nth_error l0 c) as [s|] eqn:E; [|constructor]. apply bodies. now apply nth_error_In in E.
Qed.
Lemma total_dict : forall m, is_dict (total m).
Proof. induction m as [|c m IH]; cbn; [constructor|]. destruct (is_dc c); [now apply update_dict|exact IH]. Qed.

(** What the classes of the module are like. *)
Definition good (w : world) (c : nat) (m : list nat) : Prop :=
  c_bases (w c) = tl m /\ c_dc (w c) = (if is_dc c then Some (total m) else None)
  /\ c_pydantic (w c) = None /\ c_attrs (w c) = None /\ c_struct (w c) = None.
Inductive suffixes (P : nat -> list nat -> Prop) : list nat -> Prop :=
| su_nil : suffixes P []
| su_cons : forall c m, P c (c :: m) -> suffixes P m -> suffixes P (c :: m).
Lemma lookup_dc : forall w m, suffixes (good w) m ->
  lookup c_dc w m = if existsb is_dc m then Some (total m) else None.
Proof.
  intros w m H. induction H as [|c m (G1 & G2 & _) H IH]; cbn [lookup existsb total]; [reflexivity|].
  rewrite G2. destruct (is_dc c) eqn:E; cbn [orb]; [|exact IH]. f_equal. cbn [total]. now rewrite E.
Qed.
Lemma total_none : forall m, existsb is_dc m = false -> total m = [].
Proof.
  induction m as [|c m IH]; cbn; [reflexivity|]. destruct (is_dc c); [discriminate|exact IH].
Qed.
Lemma base_fields_total : forall w m, suffixes (good w) m -> base_fields w m [] = total m.
Proof.
  intros w m H. induction H as [|c m G H IH]; cbn [base_fields]; [reflexivity|]. rewrite IH. unfold class_attr.
  pose proof (lookup_dc w (c :: m) (su_cons _ _ _ G H)) as L. destruct G as (G1 & _). rewrite G1. cbn [tl]. rewrite L.
  destruct (existsb is_dc (c :: m)) eqn:E.
  - cbn [total]. destruct (is_dc c); [|now apply update_same, total_dict]. apply update_again; [apply total_dict|apply own_dict].
  - cbn [existsb] in E. apply orb_false_iff in E as [E1 E2]. cbn [total]. now rewrite E1.
Qed.

End C89.

Lemma module_snoc : forall l s c w, module (l ++ [s]) c w = define (module l c w) (c + length l) s.
Proof.
  induction l as [|a l IH]; intros s c w; cbn [app module length]; [now rewrite Nat.add_0_r|]. rewrite IH. now rewrite Nat.add_succ_r.
Qed.
Lemma ancestry_head : forall l c m, ancestry l c m -> exists m', m = c :: m'.
Proof. intros l c m H. destruct H; eexists; reflexivity. Qed.
Lemma ancestry_lt : forall l c m, ancestry l c m -> c < length l.
Proof. intros l c m H. apply nth_error_Some. destruct H; congruence. Qed.
Lemma ancestry_le : forall l c m, ancestry l c m -> forall x, In x m -> x <= c.
Proof.
  intros l c m H. induction H as [c s E B|c s b m E B L H IH]; intros x [X|X]; subst; try lia; [destruct X|]. specialize (IH x X). lia.
Qed.
Lemma ancestry_fun : forall l c m, ancestry l c m -> forall m', ancestry l c m' -> m = m'.
Proof.
  intros l c m H. induction H as [c s E B|c s b m E B L H IH]; intros m' H'; inversion H'; subst; try congruence.
  f_equal. apply IH. match goal with E1 : nth_error l c = Some ?s1, B1 : st_base ?s1 = Some ?b1, H1 : ancestry l ?b1 _ |- _ =>
    assert (s1 = s) by congruence; subst s1; assert (b1 = b) by congruence; subst b1; exact H1 end.
Qed.
Lemma ancestry_pre : forall l s c m, c < length l -> ancestry (l ++ [s]) c m -> ancestry l c m.
Proof.
  intros l s c m L H. induction H as [c s' E B|c s' b m E B Lb H IH].
  - rewrite nth_error_app1 in E by exact L. now apply (an_root l c s').
  - rewrite nth_error_app1 in E by exact L. apply (an_base l c s' b m E B Lb). apply IH. lia.
Qed.

(** Everything about classes of a longer module that were there before. *)
Lemma total_pre : forall l s m, (forall x, In x m -> x < length l) -> total (l ++ [s]) m = total l m.
Proof.
  intros l s m H. induction m as [|c m IH]; cbn; [reflexivity|]. rewrite IH by (intros x Hx; apply H; now right).
  unfold is_dc, own. rewrite nth_error_app1 by (apply H; now left). reflexivity.
Qed.
Lemma module_good : forall l, (forall s, In s l -> is_dict (st_own s)) ->
  forall c m, ancestry l c m -> suffixes (good l (module l 0 empty)) m.
Proof.
  intros l. induction l as [|s l IH] using rev_ind; intros HD c m H.
  - apply ancestry_lt in H. cbn in H. lia.
  - rewrite module_snoc. cbn [Nat.add]. set (w := module l 0 empty) in *.
    assert (HD' : forall s, In s l -> is_dict (st_own s)) by (intros q Hq; apply HD, in_or_app; now left). specialize (IH HD').
    assert (OLD : forall x, x < length l -> define w (length l) s x = w x).
    { intros x Hx. unfold define, dataclass, set_class. destruct (st_dc s); cbv beta; destruct (Nat.eqb_spec x (length l)); try lia; reflexivity. }
    assert (PRE : forall m', (forall x, In x m' -> x < length l) -> suffixes (good l w) m' ->
                    suffixes (good (l ++ [s]) (define w (length l) s)) m').
    { intros m' HL HS. induction HS as [|c' m' G HS IHS]; constructor.
      - unfold good in *. rewrite OLD by (apply HL; now left). rewrite total_pre by exact HL.
        unfold is_dc in *. rewrite nth_error_app1 by (apply HL; now left). exact G.
      - apply IHS. intros x Hx. apply HL. now right. }
    assert (LT : c < length l \/ c = length l) by (apply ancestry_lt in H; rewrite app_length in H; cbn in H; lia).
    destruct LT as [LT| ->].
    + apply PRE.
      * intros x Hx. pose proof (ancestry_le _ _ _ H x Hx). lia.
      * apply (IH c). now apply ancestry_pre in H.
    + assert (NS : nth_error (l ++ [s]) (length l) = Some s) by (rewrite nth_error_app2, Nat.sub_diag by lia; reflexivity).
      inversion H; subst; (match goal with E1 : nth_error _ _ = Some ?s1 |- _ => assert (s1 = s) by congruence; subst s1 end).
      * constructor; [|constructor]. unfold good, define, is_dc. rewrite NS. match goal with B : st_base _ = None |- _ => rewrite B end. cbn [total]. unfold is_dc, own. rewrite NS.
        unfold dataclass, set_class. destruct (st_dc s) eqn:D; rewrite ?Nat.eqb_refl; cbn; auto.
      * match goal with B : st_base _ = Some ?b1, H1 : ancestry _ ?b1 ?m1 |- _ => rename b1 into b, m1 into q end.
        assert (HQ : ancestry l b q) by (apply (ancestry_pre l s); [lia|assumption]).
        assert (LQ : forall x, In x q -> x < length l) by (intros x Hx; pose proof (ancestry_le _ _ _ HQ x Hx); lia).
        pose proof (IH b q HQ) as SQ. constructor; [|now apply PRE].
        destruct (ancestry_head _ _ _ HQ) as [q' ->]. assert (GB : c_bases (w b) = q') by (inversion SQ; subst; firstorder).
        unfold good, define, is_dc. rewrite NS. match goal with B : st_base _ = Some b |- _ => rewrite B end.
        cbn [total tl]. unfold is_dc at 1 2. rewrite NS. rewrite <- GB.
        assert (SAME : forall v k, set_class v (length l) k (length l) = k) by (intros v k; unfold set_class; now rewrite Nat.eqb_refl).
        assert (ON : own (l ++ [s]) (length l) = st_own s) by (unfold own; now rewrite NS). unfold dataclass. destruct (st_dc s) eqn:D.
        -- rewrite !SAME. cbn [c_bases c_own c_dc c_pydantic c_attrs c_struct].
           rewrite ON. repeat split; try reflexivity. f_equal. f_equal. rewrite GB.
           assert (X : suffixes (good (l ++ [s]) (set_class w (length l) (Cls (b :: q') (st_own s) None None None None))) (b :: q')).
           { generalize (Cls (b :: q') (st_own s) None None None None). intros kk. clear -SQ LQ. induction SQ as [|c' m' G HS IHS]; constructor.
             - unfold good in *. unfold set_class. assert (c' < length l) by (apply LQ; now left). destruct (Nat.eqb_spec c' (length l)); [lia|].
               rewrite total_pre by exact LQ. unfold is_dc in *. rewrite nth_error_app1 by lia. exact G.
             - apply IHS. intros x Hx. apply LQ. now right. }
           pose proof (base_fields_total (l ++ [s]) HD _ _ X) as Y. cbn [total] in Y. unfold is_dc, own in Y. exact Y.
        -- rewrite !SAME. cbn. auto.
Qed.

(** ** C89: which fields of a class get a signal *)

Lemma total_nearest : forall l, (forall s, In s l -> is_dict (st_own s)) ->
  forall n f m, sget n (total l m) = Some f <-> nearest l n f m.
Proof.
  intros l HD n f m. revert f. induction m as [|c m IH]; intros f; cbn [total].
  - split; [discriminate|intros H; inversion H].
  - unfold is_dc, own. destruct (nth_error l c) as [s|] eqn:E.
    + destruct (st_dc s) eqn:D.
      * rewrite update_get by (apply HD; now apply nth_error_In in E). destruct (sget n (st_own s)) as [g|] eqn:G.
        -- split; intros H.
           ++ injection H as <-. constructor. now exists s.
           ++ inversion H; subst.
              ** match goal with X : declares _ _ _ _ |- _ => destruct X as (s' & E' & _ & G') end. assert (s' = s) by congruence. subst. congruence.
              ** exfalso. match goal with X : forall g, ~ _ |- _ => apply (X g) end. now exists s.
        -- rewrite IH. split; intros H.
           ++ apply ne_there; [|exact H]. intros g (s' & E' & _ & G'). assert (s' = s) by congruence. subst. congruence.
           ++ inversion H; subst; [|assumption]. match goal with X : declares _ _ _ _ |- _ => destruct X as (s' & E' & _ & G') end. assert (s' = s) by congruence. subst. congruence.
      * rewrite IH. split; intros H.
        -- apply ne_there; [|exact H]. intros g (s' & E' & D' & G'). assert (s' = s) by congruence. subst. congruence.
        -- inversion H; subst; [|assumption]. match goal with X : declares _ _ _ _ |- _ => destruct X as (s' & E' & D' & G') end. assert (s' = s) by congruence. subst. congruence.
    + rewrite IH. split; intros H.
      * apply ne_there; [|exact H]. intros g (s' & E' & _). congruence.
      * inversion H; subst; [|assumption]. match goal with X : declares _ _ _ _ |- _ => destruct X as (s' & E' & _) end. congruence.
Qed.
Lemma total_names : forall l, (forall s, In s l -> is_dict (st_own s)) ->
  forall m, map fst (total l m) = declared l m.
Proof.
  intros l HD m. unfold declared. induction m as [|c m IH]; cbn [total rev]; [reflexivity|].
  rewrite flat_map_app. cbn [flat_map]. rewrite app_nil_r. rewrite firsts_app, <- IH. unfold is_dc, own, own_names.
  destruct (nth_error l c) as [s|] eqn:E; [|cbn; now rewrite app_nil_r]. destruct (st_dc s); [|cbn; now rewrite app_nil_r].
  assert (Hs : is_dict (st_own s)) by (apply HD; now apply nth_error_In in E). rewrite update_keys by exact Hs.
  f_equal. rewrite (firsts_nodup _ Hs). apply filter_ext. intros y. f_equal. apply eq_true_iff_eq. rewrite !mem_in, IH. apply firsts_in.
Qed.
Lemma sget_in : forall A (d : list (string * A)) n f, is_dict d -> (In (n, f) d <-> sget n d = Some f).
Proof.
  intros A d n f. unfold is_dict. induction d as [|[k v] d IH]; cbn; intros H; [split; [intros []|discriminate]|].
  apply NoDup_cons_iff in H as [H1 H2]. specialize (IH H2). destruct (String.eqb n k) eqn:E.
  - apply String.eqb_eq in E. subst k. split.
    + intros [X|X]; [congruence|]. exfalso. apply H1. apply in_map_iff. now exists (n, f).
    + intros X. left. congruence.
  - apply String.eqb_neq in E. rewrite <- IH. split; [intros [X|X]; [congruence|exact X]|auto].
Qed.
Lemma filter_names : forall A (d : list (string * A)) (p : A -> bool),
  is_dict d ->
  map fst (filter (fun kv => p (snd kv)) d) = filter (fun n => match sget n d with Some f => p f | None => false end) (map fst d).
Proof.
  intros A d p. unfold is_dict. induction d as [|[k v] d IH]; intros H; [reflexivity|]. cbn [map fst] in H. apply NoDup_cons_iff in H as [H1 H2].
  cbn [filter map fst snd sget]. rewrite String.eqb_refl.
  assert (R : filter (fun n => match (if String.eqb n k then Some v else sget n d) with Some f => p f | None => false end) (map fst d)
              = filter (fun n => match sget n d with Some f => p f | None => false end) (map fst d)).
  { apply filter_ext_in. intros y Hy. destruct (String.eqb y k) eqn:E; [apply String.eqb_eq in E; subst; contradiction|reflexivity]. }
  destruct (p v); cbn [map fst]; rewrite (IH H2), R; reflexivity.
Qed.

(** In a module of class statements, with or without @dataclass, a class gets a signal for
    exactly the names that the nearest decorated class declares as an ordinary field (not as
    ClassVar or InitVar), each once and with the type of that declaration, in the order of the
    first declarations, the most basic class first. *)
Theorem C89_dataclass_partial : forall l, (forall s, In s l -> is_dict (st_own s)) ->
  forall c m, ancestry l c m ->
  let r := iter_fields (module l 0 empty) c in
  NoDup (map fst r)
  /\ (forall n t, In (n, t) r <-> exists f, nearest l n f m /\ f_kind f = Regular /\ t = Some (f_type f))
  /\ exists keep, map fst r = filter keep (declared l m).
Proof.
  intros l HD c m HA r. pose proof (module_good l HD c m HA) as HS. destruct (ancestry_head _ _ _ HA) as [q ->].
  assert (HR : r = map (fun kv => (fst kv, Some (f_type (snd kv)))) (filter (fun kv => is_regular (snd kv)) (total l (c :: q)))).
  { unfold r, iter_fields, class_attr. assert (GB : c_bases (module l 0 empty c) = q) by (inversion HS; subst; firstorder).
    rewrite GB. rewrite (lookup_dc l _ _ HS). destruct (existsb (is_dc l) (c :: q)) eqn:E; [reflexivity|].
    rewrite (total_none l _ E).
    assert (N : forall A (get : cls -> option A), (forall c m, good l (module l 0 empty) c m -> get (module l 0 empty c) = None) ->
                 forall m, suffixes (good l (module l 0 empty)) m -> lookup get (module l 0 empty) m = None).
    { intros A get Hg m' Hm'. induction Hm' as [|c' m' G' HS' IH']; cbn [lookup]; [reflexivity|]. now rewrite (Hg _ _ G'). }
    rewrite !N; auto; intros ? ? (_ & _ & G1 & G2 & G3); assumption. }
  pose proof (total_dict l (c :: q)) as TD.
  assert (NM : map fst r = filter (fun n => match sget n (total l (c :: q)) with Some f => is_regular f | None => false end) (declared l (c :: q))).
  { rewrite HR, map_map, <- (total_names l HD). cbn [fst]. apply (filter_names field _ is_regular TD). }
  split; [|split].
  - rewrite NM. apply NoDup_filter, firsts_dict.
  - intros n t. rewrite HR, in_map_iff. split.
    + intros ([n' f] & E & Hin). cbn in E. injection E as -> <-. apply filter_In in Hin as [Hin Hr]. cbn in Hr. exists f.
      apply sget_in in Hin; [|exact TD]. apply total_nearest in Hin; [|exact HD]. split; [exact Hin|]. split; [|reflexivity].
      unfold is_regular in Hr. now destruct (f_kind f).
    + intros (f & Hn & Hk & ->). exists (n, f). split; [reflexivity|]. apply filter_In. split.
      * apply sget_in; [exact TD|]. now apply total_nearest.
      * cbn. unfold is_regular. now rewrite Hk.
  - eexists. exact NM.
Qed.
Definition C89_module : list stmt :=
  [ Stmt None [("x", Field Regular 1); ("y", Field Regular 2); ("z", Field ClassVar 3)] true;
    Stmt (Some 0) [("x", Field Regular 9); ("q", Field Regular 9)] false;
    Stmt (Some 1) [("w", Field Regular 4); ("y", Field Regular 5); ("i", Field InitVar 6)] true ].
(** The class in the middle has no decorator: its annotations are no fields. *)
Example C89_case : (forall s, In s C89_module -> is_dict (st_own s)) /\ ancestry C89_module 2 [2; 1; 0]
  /\ iter_fields (module C89_module 0 empty) 2 = [("x", Some 1); ("y", Some 5); ("w", Some 4)].
Proof.
  split; [|split; [|reflexivity]].
  - intros s [<-|[<-|[<-|[]]]]; unfold is_dict; cbn; repeat constructor; cbn; intuition discriminate.
  - eapply an_base; [reflexivity|reflexivity|lia|]. eapply an_base; [reflexivity|reflexivity|lia|]. eapply an_root; reflexivity.
Qed.
Print Assumptions C89_dataclass_partial.

(** A class that knows of one other library only gets a signal for each field that library
    lists; of a pydantic class, for those that are not frozen. *)
Theorem C89_libraries : forall w c, class_attr c_dc w c = None ->
  (forall d, class_attr c_pydantic w c = Some d ->
     forall n t, In (n, t) (iter_fields w c) <-> exists ty, In (n, (ty, false)) d /\ t = Some ty)
  /\ (forall d, class_attr c_pydantic w c = None -> class_attr c_attrs w c = Some d ->
        map fst (iter_fields w c) = map fst d /\ forall n t, In (n, t) (iter_fields w c) <-> exists ty, In (n, ty) d /\ t = Some ty)
  /\ (forall d, class_attr c_pydantic w c = None -> class_attr c_attrs w c = None -> class_attr c_struct w c = Some d ->
        map fst (iter_fields w c) = d)
  /\ (class_attr c_pydantic w c = None -> class_attr c_attrs w c = None -> class_attr c_struct w c = None ->
        iter_fields w c = []).
Proof.
  intros w c HD. unfold iter_fields. rewrite HD. repeat split.
  - rewrite H. intros X. apply in_map_iff in X as ([n' [ty fr]] & E & X). apply filter_In in X as [X F]. cbn in *. injection E as -> <-.
    exists ty. destruct fr; [discriminate|]. auto.
  - rewrite H. intros (ty & X & ->). apply in_map_iff. exists (n, (ty, false)). split; [reflexivity|]. apply filter_In. auto.
  - rewrite H, H0, map_map. now apply map_ext.
  - rewrite H, H0. intros X. apply in_map_iff in X as ([n' ty] & E & X). cbn in E. injection E as -> <-. now exists ty.
  - rewrite H, H0. intros (ty & X & ->). apply in_map_iff. now exists (n, ty).
  - intros d -> -> ->. rewrite map_map. cbn [fst]. apply map_id.
  - intros -> -> ->. reflexivity.
Qed.
Example C89_pydantic : class_attr c_dc (fun _ => Cls [] [] None (Some [("x", (1, false)); ("y", (2, true))]) None None) 0 = None
  /\ iter_fields (fun _ => Cls [] [] None (Some [("x", (1, false)); ("y", (2, true))]) None None) 0 = [("x", Some 1)].
Proof. split; reflexivity. Qed.
Print Assumptions C89_libraries.

(** "including inherited fields ... recognizes dataclasses, attrs classes, msgspec Structs, and
    pydantic models" (DU:144-147) is false of a class of two libraries: the class 1 is an attrs
    class derived from a dataclass; only the inherited field is found. *)
Theorem C89_mixed_refuted : exists w c d, c_attrs (w c) = Some d /\ In "y" (map fst d)
  /\ map fst (iter_fields w c) = ["x"].
Proof.
  exists (fun c => match c with
                   | 0 => Cls [] [("x", Field Regular 1)] (Some [("x", Field Regular 1)]) None None None
                   | _ => Cls [0] [("y", Field Regular 2)] None None (Some [("y", 2)]) None
                   end), 1, [("y", 2)]. cbn. auto.
Qed.
Print Assumptions C89_mixed_refuted.
(** The type of an inherited field of a msgspec.Struct is not found, so that its operator of
    comparison is chosen without it (C87). *)
Theorem C89_inherited_refuted : exists w, In 0 (c_bases (w 1))
  /\ iter_fields w 0 = [("x", Some 5)] /\ iter_fields w 1 = [("x", None); ("y", Some 7)].
Proof.
  exists (fun c => match c with
                   | 0 => Cls [] [("x", Field Regular 5)] None None None (Some ["x"])
                   | _ => Cls [0] [("y", Field Regular 7)] None None None (Some ["x"; "y"])
                   end). cbn. auto.
Qed.
Print Assumptions C89_inherited_refuted.
