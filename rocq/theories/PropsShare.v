(** C61: descriptors that share a SignalGroup class. *)

From Verif Require Import Base Core Evented SpecEvented PropsEvented Share.

(** Nothing used yet. *)
Definition fresh (s : state) : Prop := forall o w, nth_error (st_owners s) o = Some w -> w_group w = None.
(** The signal for field [f] as documented: its own aliases first, then those of the group class
    as it was written. *)
Definition documented (g : gclass) (m : list (string * option string)) (f : string) : option string :=
  match match sget f m with Some n => n | None => match sget f (g_aliases g) with Some n => n | None => Some f end end with
  | None => None
  | Some n => if mem n (g_signals g) then Some n else None
  end.

Lemma nth_upd : forall A (f : A -> A) l n m,
  nth_error (upd n f l) m = if Nat.eqb m n then option_map f (nth_error l m) else nth_error l m.
Proof.
  intros A f l. induction l as [|x l IH]; intros [|n] [|m]; cbn; try reflexivity.
  - now destruct (Nat.eqb m n).
  - apply IH.
Qed.

Section Share.
Variable D : nat -> gdesc.
Lemma use_owner : forall o s s' o' w', use D o s = Some s' -> nth_error (st_owners s') o' = Some w' ->
  exists w, nth_error (st_owners s) o' = Some w /\ w_desc w' = w_desc w /\ w_fields w' = w_fields w /\ (w' = w \/ (o' = o /\ w_group w = None)).
Proof.
  intros o s s' o' w' H Hw. unfold use in H. destruct (nth_error (st_owners s) o) as [w|] eqn:E; [|discriminate].
  destruct (w_group w) eqn:Eg; [injection H as <-; exists w'; auto|].
  destruct (nth_error (st_groups s) _) as [g|]; [|discriminate].
  assert (Q : forall i b, nth_error (upd o (set_group i b) (st_owners s)) o' = Some w' ->
    exists w, nth_error (st_owners s) o' = Some w /\ w_desc w' = w_desc w /\ w_fields w' = w_fields w /\ (w' = w \/ (o' = o /\ w_group w = None))).
  { intros i b K. rewrite nth_upd in K. destruct (Nat.eqb_spec o' o) as [->|].
    - rewrite E in K. cbn in K. injection K as <-. exists w. split; [exact E|]. split; [reflexivity|]. split; [reflexivity|]. auto.
    - exists w'. auto. }
  destruct (gd_collect _).
  - destruct (build_group _ _ _); [|discriminate]. injection H as <-. eapply Q. exact Hw.
  - injection H as <-. eapply Q. exact Hw.
Qed.

(** ** Without collect_fields *)
Section Plain.
Variables (c : nat) (g0 : gclass) (m : list (string * option string)).
Hypothesis Hm : is_dict m.
Hypothesis agree : forall d, gd_collect (D d) = false -> gd_class (D d) = c -> gd_aliases (D d) = m.
Definition merged (l : list (string * option string)) : Prop :=
  forall f, sget f l = match sget f m with Some v => Some v | None => sget f (g_aliases g0) end.
Definition inv (s : state) : Prop := exists g, nth_error (st_groups s) c = Some g /\ g_signals g = g_signals g0
  /\ (g_aliases g = g_aliases g0 \/ merged (g_aliases g))
  /\ forall o w i, nth_error (st_owners s) o = Some w -> gd_collect (D (w_desc w)) = false -> gd_class (D (w_desc w)) = c ->
       w_group w = Some i -> i = c /\ merged (g_aliases g) /\ (w_with w = false -> merged []).
Lemma merged_update : forall l, l = g_aliases g0 \/ merged l -> merged (supdate l m).
Proof.
  intros l H f. unfold supdate. rewrite sget_merge by exact Hm. destruct (sget f m) eqn:E; [reflexivity|].
  destruct H as [->|H]; [reflexivity|]. specialize (H f). now rewrite E in H.
Qed.
Lemma use_inv : forall o s s', use D o s = Some s' -> inv s -> inv s'.
Proof.
  intros o s s' H (g & G1 & G2 & G3 & G4). pose proof H as HU. unfold use in H.
  destruct (nth_error (st_owners s) o) as [w|] eqn:E; [|discriminate].
  destruct (w_group w) eqn:Eg; [injection H as <-; exists g; auto|].
  destruct (nth_error (st_groups s) (gd_class (D (w_desc w)))) as [g1|] eqn:E1; [|discriminate].
  destruct (gd_collect (D (w_desc w))) eqn:Ec.
  - destruct (build_group _ _ _) as [g2|]; [|discriminate]. injection H as <-. exists g. cbn.
    split; [rewrite nth_error_app1; [exact G1|apply nth_error_Some; congruence]|]. split; [exact G2|]. split; [exact G3|].
    intros o' w' i K1 K2 K3 K4. destruct (use_owner _ _ _ o' w' HU K1) as (w1 & X1 & X2 & X3 & [->|[-> X4]]); [eapply G4; eauto|].
    exfalso. rewrite E in X1. injection X1 as <-. rewrite X2 in K2. congruence.
  - injection H as <-. destruct (Nat.eq_dec (gd_class (D (w_desc w))) c) as [Hc|Hc].
    + rewrite Hc in *. rewrite G1 in E1. injection E1 as <-. rewrite (agree _ Ec Hc) in *.
      assert (M := merged_update (g_aliases g) G3). exists (add_aliases m g).
      split; [cbn; rewrite nth_upd, Nat.eqb_refl, G1; reflexivity|]. split; [exact G2|]. split; [now right|].
      intros o' w' i K1 K2 K3 K4. destruct (use_owner _ _ _ o' w' HU K1) as (w1 & X1 & X2 & X3 & [->|[-> X4]]).
      * destruct (G4 o' w1 i X1 K2 K3 K4) as (-> & _ & Y). auto.
      * rewrite E in X1. injection X1 as <-. cbn in K1. rewrite nth_upd, Nat.eqb_refl, E in K1. injection K1 as <-. cbn in *.
        injection K4 as <-. split; [reflexivity|]. split; [exact M|]. destruct (supdate (g_aliases g) m); [intros _; exact M|discriminate].
    + exists g. split; [cbn; rewrite nth_upd; destruct (Nat.eqb_spec c (gd_class (D (w_desc w)))); [congruence|exact G1]|].
      split; [exact G2|]. split; [exact G3|]. intros o' w' i K1 K2 K3 K4.
      destruct (use_owner _ _ _ o' w' HU K1) as (w1 & X1 & X2 & X3 & [->|[-> X4]]); [eapply G4; eauto|].
      exfalso. rewrite E in X1. injection X1 as <-. rewrite X2 in K3. congruence.
Qed.
Lemma uses_inv : forall l s s', uses D l s = Some s' -> inv s -> inv s'.
Proof.
  intros l. induction l as [|o l IH]; intros s s' H I; cbn in H; [injection H as <-; exact I|].
  destruct (use D o s) as [s1|] eqn:E; [|discriminate]. eapply IH; eauto. eapply use_inv; eauto.
Qed.
End Plain.
Lemma use_kept : forall o s s' o' w i, use D o s = Some s' -> nth_error (st_owners s) o' = Some w -> w_group w = Some i ->
  nth_error (st_owners s') o' = Some w.
Proof.
  intros o s s' o' w i H Hw Hi. unfold use in H. destruct (nth_error (st_owners s) o) as [w1|] eqn:E; [|discriminate].
  destruct (w_group w1) eqn:Eg; [injection H as <-; exact Hw|].
  destruct (nth_error (st_groups s) _) as [g1|]; [|discriminate].
  assert (N : o' <> o) by (intros ->; congruence).
  destruct (gd_collect _); [destruct (build_group _ _ _); [|discriminate]|]; injection H as <-; cbn; rewrite nth_upd;
    (destruct (Nat.eqb_spec o' o); [congruence|exact Hw]).
Qed.
Lemma use_used : forall o s s', use D o s = Some s' -> exists w i, nth_error (st_owners s') o = Some w /\ w_group w = Some i.
Proof.
  intros o s s' H. unfold use in H. destruct (nth_error (st_owners s) o) as [w1|] eqn:E; [|discriminate].
  destruct (w_group w1) eqn:Eg; [injection H as <-; eauto|].
  destruct (nth_error (st_groups s) _) as [g1|]; [|discriminate].
  destruct (gd_collect _); [destruct (build_group _ _ _); [|discriminate]|]; injection H as <-; cbn; rewrite nth_upd, Nat.eqb_refl, E; cbn; do 2 eexists; split; reflexivity.
Qed.
Lemma uses_used : forall l s s' o, uses D l s = Some s' -> In o l -> exists w i, nth_error (st_owners s') o = Some w /\ w_group w = Some i.
Proof.
  intros l. assert (K : forall l s s' o w i, uses D l s = Some s' -> nth_error (st_owners s) o = Some w -> w_group w = Some i -> nth_error (st_owners s') o = Some w).
  { clear. intros l. induction l as [|p l IH]; intros s s' o w i H H1 H2; cbn in H; [injection H as <-; exact H1|].
    destruct (use D p s) as [s1|] eqn:E; [|discriminate]. eapply IH; eauto. eapply use_kept; eauto. }
  induction l as [|p l IH]; intros s s' o H Ho; [destruct Ho|]. cbn in H. destruct (use D p s) as [s1|] eqn:E; [|discriminate].
  destruct Ho as [->|Ho]; [|eapply IH; eauto]. destruct (use_used o s s1 E) as (w & i & H1 & H2). exists w, i. split; [eapply K; eauto|exact H2].
Qed.
Lemma uses_owner : forall l s s' o w', uses D l s = Some s' -> nth_error (st_owners s') o = Some w' ->
  exists w, nth_error (st_owners s) o = Some w /\ w_desc w' = w_desc w /\ w_fields w' = w_fields w.
Proof.
  intros l. induction l as [|p l IH]; intros s s' o w' H H1; cbn in H; [injection H as <-; eauto|].
  destruct (use D p s) as [s1|] eqn:E; [|discriminate]. destruct (IH s1 s' o w' H H1) as (w1 & X1 & X2 & X3).
  destruct (use_owner p s s1 o w1 E X1) as (w & Y1 & Y2 & Y3 & _). exists w. repeat split; congruence.
Qed.
End Share.

(** Without collect_fields: whatever classes were used before, the signals are the documented ones.
    Partial: all descriptors that use the group class without collect_fields have the same
    signal_aliases. *)
Theorem C61_plain_partial : forall D l s s' o w g f,
  let d := D (w_desc w) in
  fresh s -> uses D l s = Some s' -> In o l ->
  nth_error (st_owners s) o = Some w -> nth_error (st_groups s) (gd_class d) = Some g ->
  gd_collect d = false -> is_dict (gd_aliases d) ->
  (forall d', gd_collect (D d') = false -> gd_class (D d') = gd_class d -> gd_aliases (D d') = gd_aliases d) ->
  emits s' o f = documented g (gd_aliases d) f.
Proof.
  intros D l s s' o w g f d HF H Ho Hw Hg Hc Hd Ha.
  assert (I : inv D (gd_class d) g (gd_aliases d) s).
  { exists g. repeat split; auto; rewrite (HF _ _ H0) in H3; discriminate. }
  apply (uses_inv D _ _ _ Hd Ha l s s' H) in I as (g' & G1 & G2 & _ & G4).
  destruct (uses_used D l s s' o H Ho) as (w' & i & W1 & W2).
  destruct (uses_owner D l s s' o w' H W1) as (w1 & X1 & X2 & X3). rewrite Hw in X1. injection X1 as <-.
  destruct (G4 o w' i W1) as (-> & M & MF); [now rewrite X2|now rewrite X2|exact W2|].
  unfold emits, documented. rewrite W1, W2, G1. destruct (w_with w') eqn:Ew.
  - unfold field_signal_name. rewrite M, G2. now destruct (sget f (gd_aliases d)).
  - specialize (MF eq_refl f). cbn in MF. rewrite G2. destruct (sget f (gd_aliases d)); [discriminate|]. now rewrite <- MF.
Qed.
(** With collect_fields: the signals are those of a group built from the group class as it was
    written (C46 says which those are).  Partial: no descriptor uses it with signal_aliases but without
    collect_fields. *)
Theorem C61_collect_partial : forall D l s s' o w g g' f,
  let d := D (w_desc w) in
  fresh s -> uses D l s = Some s' -> In o l ->
  nth_error (st_owners s) o = Some w -> nth_error (st_groups s) (gd_class d) = Some g ->
  (forall d', gd_class (D d') < length (st_groups s)) ->
  gd_collect d = true -> build_group (w_fields w) g (Some (AMap (gd_aliases d))) = inl g' ->
  (forall d', gd_collect (D d') = false -> gd_class (D d') = gd_class d -> gd_aliases (D d') = []) ->
  emits s' o f = field_signal_name g' f.
Proof.
  intros D l s s' o w g g' f d HF H Ho Hw Hg HN Hc Hb Ha.
  remember (length (st_groups s)) as n0 eqn:En.
  set (P := fun s : state => nth_error (st_groups s) (gd_class d) = Some g /\
    (exists w', nth_error (st_owners s) o = Some w' /\ w_desc w' = w_desc w /\ w_fields w' = w_fields w /\
      forall i, w_group w' = Some i -> n0 <= i /\ nth_error (st_groups s) i = Some g' /\ (w_with w' = nonempty (g_aliases g')))
    /\ n0 <= length (st_groups s)).
  assert (Step : forall p s s', use D p s = Some s' -> P s -> P s').
  { clear s s' H HF Hw Hg En. intros p s s' H (P1 & (w0 & P2 & P3 & P4 & P5) & P6). unfold use in H.
    destruct (nth_error (st_owners s) p) as [wp|] eqn:E; [|discriminate].
    destruct (w_group wp) eqn:Eg; [injection H as <-; split; [exact P1|split; [exists w0; auto|exact P6]]|].
    destruct (nth_error (st_groups s) (gd_class (D (w_desc wp)))) as [g1|] eqn:E1; [|discriminate].
    assert (Len : gd_class d < length (st_groups s)) by (apply nth_error_Some; congruence).
    destruct (gd_collect (D (w_desc wp))) eqn:Ec.
    - destruct (build_group (w_fields wp) g1 _) as [g2|] eqn:Eb; [|discriminate]. injection H as <-.
      assert (App : forall i x, nth_error (st_groups s) i = Some x -> nth_error (st_groups s ++ [g2]) i = Some x).
      { intros i x K. rewrite nth_error_app1; [exact K|]. apply nth_error_Some. congruence. }
      split; [cbn; now apply App|]. split.
      + cbn. rewrite nth_upd, P2. destruct (Nat.eqb_spec o p) as [->|N].
        * rewrite E in P2. injection P2 as <-. cbn. eexists. split; [reflexivity|]. cbn. split; [exact P3|]. split; [exact P4|].
          intros i K. injection K as <-. split; [lia|]. rewrite P3 in *. fold d in E1, Eb.
          rewrite P1 in E1. injection E1 as <-. rewrite P4, Hb in Eb. injection Eb as <-. rewrite nth_error_app2, Nat.sub_diag by lia. auto.
        * exists w0. split; [reflexivity|]. split; [exact P3|]. split; [exact P4|]. intros i K. destruct (P5 i K) as (Q1 & Q2 & Q3). auto.
      + cbn. rewrite app_length. lia.
    - injection H as <-.
      assert (Lup : forall n (h : gclass -> gclass) l, length (upd n h l) = length l).
      { intros n h l0. revert n. induction l0 as [|x l0 IH0]; intros [|n]; cbn; auto. }
      assert (Nth : nth_error (upd (gd_class (D (w_desc wp))) (fun _ => add_aliases (gd_aliases (D (w_desc wp))) g1) (st_groups s)) (gd_class d) = Some g).
      { rewrite nth_upd. destruct (Nat.eqb_spec (gd_class d) (gd_class (D (w_desc wp)))) as [Q|]; [|exact P1].
        rewrite P1. cbn. rewrite <- Q, P1 in E1. injection E1 as <-. rewrite (Ha _ Ec (eq_sym Q)). now destruct g. }
      split; [exact Nth|]. split.
      + cbn. rewrite nth_upd, P2. destruct (Nat.eqb_spec o p) as [->|N].
        * exfalso. rewrite E in P2. injection P2 as <-. rewrite P3 in Ec. unfold d in Hc. congruence.
        * exists w0. split; [reflexivity|]. split; [exact P3|]. split; [exact P4|]. intros i K. destruct (P5 i K) as (Q1 & Q2 & Q3).
          split; [exact Q1|]. split; [|exact Q3]. rewrite nth_upd. destruct (Nat.eqb_spec i (gd_class (D (w_desc wp)))) as [Q|]; [|exact Q2].
          exfalso. specialize (HN (w_desc wp)). lia.
      + cbn. rewrite Lup. exact P6. }
  assert (P0 : P s).
  { split; [exact Hg|]. split; [|lia]. exists w. repeat split; auto; rewrite (HF _ _ Hw) in H0; discriminate. }
  assert (PE : P s').
  { clear -Step P0 H. revert s P0 H. induction l as [|p l IH]; intros s P0 H; cbn in H; [injection H as <-; exact P0|].
    destruct (use D p s) as [s1|] eqn:E; [|discriminate]. apply (IH s1); auto. eapply Step; eauto. }
  destruct PE as (_ & (w' & Q1 & _ & _ & Q2) & _). destruct (uses_used D l s s' o H Ho) as (w2 & i & W1 & W2).
  rewrite Q1 in W1. injection W1 as <-. destruct (Q2 i W2) as (_ & Q3 & Q4). unfold emits. rewrite Q1, W2, Q3, Q4.
  unfold field_signal_name. destruct (g_aliases g'); reflexivity.
Qed.

(** class G(SignalGroup): x, y; descriptor 0: no aliases; 1: {"x": "y"}; 2: collect_fields=True *)
Open Scope string_scope.
Definition G : gclass := Gclass ["x"; "y"] [].
Definition descriptors (d : nat) : gdesc :=
  match d with 0 => GDesc 0 false [] | 1 => GDesc 0 false [("x", Some "y")] | _ => GDesc 0 true [] end.
Definition both (d1 d2 : nat) (f : list string) : state := State [G] [Owner d1 f None false; Owner d2 f None false].
(** Assigning to x of a class emits another signal when another class was used before. *)
Theorem C61_refuted : exists s1 s2,
  uses descriptors [0] (both 0 1 []) = Some s1 /\ emits s1 0 "x" = Some "x"
  /\ uses descriptors [1; 0] (both 0 1 []) = Some s2 /\ emits s2 0 "x" = Some "y"
  /\ fresh (both 0 1 []) /\ documented G (gd_aliases (descriptors 0)) "x" = Some "x".
Proof.
  do 2 eexists. repeat split; try reflexivity. intros [|[|[|o]]] w H; cbn in H; try discriminate; injection H as <-; reflexivity.
Qed.
(** … also of a class that collects its fields: z gets no signal, because the aliases say so. *)
Definition hiding (d : nat) : gdesc := match d with 0 => GDesc 0 true [] | _ => GDesc 0 false [("z", None)] end.
Theorem C61_collect_refuted : exists s1 s2,
  uses hiding [0] (both 0 1 ["z"]) = Some s1 /\ emits s1 0 "z" = Some "z"
  /\ uses hiding [1; 0] (both 0 1 ["z"]) = Some s2 /\ emits s2 0 "z" = None.
Proof. do 2 eexists. repeat split; reflexivity. Qed.
Example C61_case : exists s, let D := fun d => match d with 0 => GDesc 0 false [("x", Some "y")] | _ => GDesc 0 true [("z", Some "w")] end in
  uses D [0; 1] (both 0 1 ["z"]) = Some s /\ emits s 0 "x" = Some "y" /\ emits s 1 "z" = Some "w"
  /\ forall d', gd_collect (D d') = false -> gd_class (D d') = 0 -> gd_aliases (D d') = [("x", Some "y")].
Proof. eexists. cbn. split; [reflexivity|]. split; [reflexivity|]. split; [reflexivity|]. intros [|d']; cbn; [reflexivity|discriminate]. Qed.
Example C61_collect_case : exists s g', let D := fun d => match d with 0 => GDesc 0 false [] | _ => GDesc 0 true [("z", Some "w")] end in
  uses D [0; 1] (both 0 1 ["z"]) = Some s /\ build_group ["z"] G (Some (AMap [("z", Some "w")])) = inl g' /\ emits s 1 "z" = Some "w"
  /\ (forall d', gd_class (D d') < 1) /\ forall d', gd_collect (D d') = false -> gd_class (D d') = 0 -> gd_aliases (D d') = [].
Proof.
  do 2 eexists. cbn. split; [reflexivity|]. split; [reflexivity|]. split; [reflexivity|]. split; [intros [|d']; cbn; lia|].
  intros [|d']; cbn; [reflexivity|discriminate].
Qed.

Print Assumptions C61_plain_partial.
Print Assumptions C61_collect_partial.
