(** Methods and operators of EventedSet that do not change it: C70, C71. *)

From Verif Require Import Base Core Spec Frame Fuel Demo Client Prog Does PySet ESet ESetRead SpecSet SetFacts PropsSet PropsOrder.
From Coq Require Import Permutation.
Open Scope string_scope.
Open Scope list_scope.

(** ** The operations of the builtin set *)

Inductive rop :=
| RCopy | RDifference (s : list iarg) | RIntersection (s : list iarg) | RSymmetric (a : iarg) | RUnion (s : list iarg)
| RAnd (a : iarg) | ROr (a : iarg) | RSub (a : iarg) | RRsub (a : iarg) | RXor (a : iarg)
| RIssubset (a : iarg) | RIssuperset (a : iarg) | RIsdisjoint (a : iarg)
| RLe (a : iarg) | RLt (a : iarg) | RGe (a : iarg) | RGt (a : iarg) | REq (a : iarg)
| RContains (x : val) | RLen.

Section Spec.
Variable same : val -> val -> bool.
Definition in_arg (x : val) (l : list val) (a : iarg) : Prop :=
  match a with IList m | IIter m | ISet m => inside same x m | ISelf => inside same x l end.
(** [x] is in the set that the operation gives for a builtin set with the elements [l]. *)
Definition member_of (o : rop) (l : list val) (x : val) : Prop :=
  match o with
  | RCopy => inside same x l
  | RDifference s => inside same x l /\ ~ Exists (in_arg x l) s
  | RIntersection s => inside same x l /\ Forall (in_arg x l) s
  | RSymmetric a | RXor a => (inside same x l /\ ~ in_arg x l a) \/ (~ inside same x l /\ in_arg x l a)
  | RUnion s => inside same x l \/ Exists (in_arg x l) s
  | RAnd a => inside same x l /\ in_arg x l a
  | ROr a => inside same x l \/ in_arg x l a
  | RSub a => inside same x l /\ ~ in_arg x l a
  | RRsub a => ~ inside same x l /\ in_arg x l a
  | _ => False
  end.
Definition subset (l : list val) (a : iarg) : Prop := forall x, inside same x l -> in_arg x l a.
Definition superset (l : list val) (a : iarg) : Prop := forall x, in_arg x l a -> inside same x l.
(** What a question about the set asks. *)
Definition asks (o : rop) (l : list val) : option Prop :=
  match o with
  | RIssubset a | RLe a => Some (subset l a)
  | RIssuperset a | RGe a => Some (superset l a)
  | RIsdisjoint a => Some (forall x, in_arg x l a -> ~ inside same x l)
  | RLt a => Some (subset l a /\ ~ superset l a)
  | RGt a => Some (superset l a /\ ~ subset l a)
  | REq a => Some (subset l a /\ superset l a)
  | RContains x => Some (inside same x l)
  | _ => None
  end.
Inductive answer (o : rop) (l : list val) : val -> Prop :=
| an_set : forall m, asks o l = None -> o <> RLen -> distinct same m ->
    (forall x, inside same x m <-> member_of o l x) -> answer o l (VTuple m)
| an_bool : forall P b, asks o l = Some P -> (b = true <-> P) -> answer o l (VBool b)
| an_len : o = RLen -> answer o l (VInt (Z.of_nat (List.length l))).
End Spec.

(** The same operation of an EventedSet. *)
Definition reads (same : val -> val -> bool) (order : list val -> list val) (o : rop) : prog sdata :=
  match o with
  | RCopy => rd_copy same order
  | RDifference s => rd_difference same order s
  | RIntersection s => rd_intersection same order s
  | RSymmetric a => rd_symmetric_difference same order a
  | RUnion s => rd_union same order s
  | RAnd a => rd_and same order a
  | ROr a => rd_or same order a
  | RSub a => rd_sub same order a
  | RRsub a => rd_rsub same a
  | RXor a => rd_xor same order a
  | RIssubset a => rd_issubset same order a
  | RIssuperset a => rd_issuperset same order a
  | RIsdisjoint a => rd_isdisjoint same order a
  | RLe a => rd_le same a
  | RLt a => rd_lt same a
  | RGe a => rd_ge same a
  | RGt a => rd_gt same a
  | REq a => rd_eq same a
  | RContains x => rd_contains same x
  | RLen => rd_len
  end.
(** Arguments for which the operations work: no iterator for symmetric_difference(), some argument
    for intersection(); comparisons are with sets (as for the builtin set), and arguments that are
    sets have no repetitions. *)
Definition proper_arg (same : val -> val -> bool) (a : iarg) : Prop := forall l, a = ISet l -> distinct same l.
Definition is_set (a : iarg) : Prop := match a with ISet _ | ISelf => True | _ => False end.
Definition readable (same : val -> val -> bool) (o : rop) : Prop :=
  match o with
  | RIntersection s => s <> []
  | RSymmetric a => forall l, a <> IIter l
  | RAnd a | ROr a | RSub a | RRsub a | RXor a => proper_arg same a
  | RLe a | RLt a | RGe a | RGt a | REq a => is_set a /\ proper_arg same a
  | _ => True
  end.

Section C70.
Variable same : val -> val -> bool.
Hypothesis HQ : equivalence same.
Let refl := proj1 HQ.
Let sym := proj1 (proj2 HQ).
Let trans := proj2 (proj2 HQ).
Variable order : list val -> list val.
Hypothesis HP : forall l, Permutation (order l) l.
Notation mem := (mem same).
Notation distinct := (distinct same).

Lemma mem_order : forall x l, mem x (order l) = mem x l.
Proof. intros. apply mem_perm, HP. Qed.
Lemma mem_filter : forall x f l, (forall y, same x y = true -> f x = f y) -> mem x (filter f l) = mem x l && f x.
Proof.
  intros x f l Hf; induction l as [|y l IH]; [reflexivity|]. cbn [filter]. destruct (f y) eqn:HY.
  - rewrite !mem_cons. rewrite IH. destruct (same x y) eqn:HS; [|reflexivity]. cbn. now rewrite (Hf y HS), HY.
  - rewrite mem_cons, IH. destruct (same x y) eqn:HS; [|reflexivity]. cbn. rewrite (Hf y HS), HY. apply andb_false_r.
Qed.
Lemma mem_dedup : forall x l, mem x (dedup same l) = mem x l.
Proof. intros. now apply dedup_ok. Qed.
Lemma mem_pass : forall x a u, mem x (first_pass order a u) = true <-> in_arg same x u a.
Proof. intros x [l|l|l|] u; cbn; rewrite ?mem_order; apply mem_inside. Qed.
Lemma mem_passes : forall x s u, mem x (flat_map (fun a => first_pass order a u) s) = true <-> Exists (in_arg same x u) s.
Proof.
  intros x s u. induction s as [|a s IH]; cbn [flat_map].
  - split; [discriminate|inversion 1].
  - rewrite mem_app, orb_true_iff, mem_pass, IH, Exists_cons. reflexivity.
Qed.
Lemma all_passes : forall x s u, forallb (fun a => mem x (dedup same (first_pass order a u))) s = true <-> Forall (in_arg same x u) s.
Proof.
  intros x s u. rewrite forallb_forall, Forall_forall. split; intros H a Ha.
  - apply mem_pass. rewrite <- mem_dedup. auto.
  - rewrite mem_dedup. apply mem_pass. auto.
Qed.
Lemma mem_as_set : forall x a u, mem x (as_set same a u) = true <-> in_arg same x u a.
Proof. intros x [l|l|l|] u; cbn; rewrite ?mem_dedup; apply mem_inside. Qed.
Lemma mem_minus : forall x l m, mem x (minus same l m) = mem x l && negb (mem x m).
Proof.
  intros x l m. unfold minus. rewrite mem_dedup. apply mem_filter. intros y Hy. now rewrite (mem_same same sym trans x y m Hy).
Qed.
Lemma all_in : forall l m, forallb (fun i => mem i m) l = true <-> forall x, inside same x l -> inside same x m.
Proof.
  intros l m. rewrite forallb_forall. split.
  - intros H x (y & Hy & Hs). apply mem_inside. rewrite (mem_same same sym trans x y m Hs). auto.
  - intros H x Hx. apply mem_inside, H. exists x. auto.
Qed.
Lemma length_sdel : forall x l, mem x l = true -> S (List.length (sdel same x l)) = List.length l.
Proof.
  intros x l; induction l as [|y l IH]; [discriminate|]. rewrite mem_cons. cbn [PySet.sdel].
  destruct (same x y) eqn:HS; [reflexivity|]. cbn. intros H. now rewrite IH.
Qed.
(** A set is no larger than a set that contains it. *)
Lemma subset_length : forall l m, distinct l -> distinct m -> (forall x, inside same x l -> inside same x m) ->
  List.length l <= List.length m.
Proof.
  induction l as [|y l IH]; intros m Hl Hm H; cbn; [lia|]. destruct Hl as [H1 H2].
  assert (Hy : mem y m = true) by (apply mem_inside, H; exists y; cbn; auto).
  rewrite <- (length_sdel y m Hy). apply le_n_S. apply IH; [exact H2|now apply distinct_sdel|].
  intros x Hx. apply mem_inside. rewrite mem_sdel by assumption. apply andb_true_iff. split.
  - apply mem_inside, H. destruct Hx as (z & Hz & Hs). exists z. cbn. auto.
  - apply negb_true_iff. destruct (same x y) eqn:HS; [|reflexivity]. apply mem_inside in Hx.
    rewrite (mem_same same sym trans x y l HS) in Hx. congruence.
Qed.
(** ... and strictly smaller if they differ. *)
Lemma subset_strict : forall l m, distinct l -> distinct m -> (forall x, inside same x l -> inside same x m) ->
  (List.length l < List.length m <-> ~ (forall x, inside same x m -> inside same x l)).
Proof.
  intros l m Hl Hm H. split.
  - intros Hlt H'. pose proof (subset_length m l Hm Hl H'). lia.
  - intros HN. assert (HE : exists x, mem x m = true /\ mem x l = false).
    { destruct (forallb (fun i => mem i l) m) eqn:HF.
      - exfalso. apply HN. now apply all_in.
      - clear - HF refl. assert (exists x, In x m /\ mem x l = false) as (x & Hx & HX).
        { induction m as [|y m IH]; [discriminate|]. cbn in HF. destruct (mem y l) eqn:HY; [|exists y; cbn; auto].
          destruct (IH HF) as (x & Hx & HX). exists x. cbn. auto. }
        exists x. split; [|exact HX]. apply mem_inside. exists x. auto. }
    destruct HE as (x & Hx & HX). rewrite <- (length_sdel x m Hx). apply le_n_S. apply subset_length; [exact Hl|now apply distinct_sdel|].
    intros y Hy. apply mem_inside. rewrite mem_sdel by assumption. apply andb_true_iff. split; [now apply mem_inside, H|].
    apply negb_true_iff. destruct (same y x) eqn:HS; [|reflexivity]. apply mem_inside in Hy.
    rewrite (mem_same same sym trans y x l HS) in Hy. congruence.
Qed.

Definition set_elems (a : iarg) (u : list val) : list val := match a with ISet l => l | ISelf => u | _ => [] end.
Lemma set_of_elems : forall a u, is_set a -> set_of a u = Some (set_elems a u).
Proof. intros [l|l|l|] u H; try destruct H; reflexivity. Qed.
Lemma le_ok : forall a u, is_set a -> distinct u -> distinct (set_elems a u) -> (le same u (set_elems a u) = true <-> subset same u a).
Proof.
  intros a u Ha Hu Hd. unfold le, subset. rewrite andb_true_iff, Nat.leb_le, all_in.
  assert (HI : forall x, inside same x (set_elems a u) <-> in_arg same x u a) by (destruct a; destruct Ha; reflexivity).
  split.
  - intros [_ H] x Hx. apply HI. auto.
  - intros H. assert (H' : forall x, inside same x u -> inside same x (set_elems a u)) by (intros x Hx; apply HI; auto).
    split; [now apply subset_length|exact H'].
Qed.
Lemma ge_ok : forall a u, is_set a -> distinct u -> distinct (set_elems a u) -> (ge same u (set_elems a u) = true <-> superset same u a).
Proof.
  intros a u Ha Hu Hd. unfold ge, superset. rewrite andb_true_iff, Nat.leb_le, all_in.
  assert (HI : forall x, inside same x (set_elems a u) <-> in_arg same x u a) by (destruct a; destruct Ha; reflexivity).
  split.
  - intros [_ H] x Hx. apply H. now apply HI.
  - intros H. assert (H' : forall x, inside same x (set_elems a u) -> inside same x u) by (intros x Hx; apply H; now apply HI).
    split; [now apply subset_length|exact H'].
Qed.
Lemma lt_ok : forall a u, is_set a -> distinct u -> distinct (set_elems a u) -> subset same u a ->
  (List.length u < List.length (set_elems a u) <-> ~ superset same u a).
Proof.
  intros a u Ha Hu Hd H.
  assert (HI : forall x, inside same x (set_elems a u) <-> in_arg same x u a) by (destruct a; destruct Ha; reflexivity).
  rewrite subset_strict; [|assumption|assumption|intros x Hx; apply HI; auto]. unfold superset.
  split; intros K L; apply K; intros x Hx; apply L; now apply HI.
Qed.
Lemma gt_ok : forall a u, is_set a -> distinct u -> distinct (set_elems a u) -> superset same u a ->
  (List.length (set_elems a u) < List.length u <-> ~ subset same u a).
Proof.
  intros a u Ha Hu Hd H.
  assert (HI : forall x, inside same x (set_elems a u) <-> in_arg same x u a) by (destruct a; destruct Ha; reflexivity).
  rewrite subset_strict; [|assumption|assumption|intros x Hx; apply H; now apply HI]. unfold subset.
  split; intros K L; apply K; intros x Hx; [apply HI|apply HI]; apply L; exact Hx.
Qed.

Lemma fresh_set : forall o u l, asks same o u = None -> o <> RLen ->
  (forall x, mem x l = true <-> member_of same o u x) -> answer same o u (new_set same l).
Proof.
  intros o u l H1 H2 H. destruct (dedup_ok same refl sym trans l) as [D1 D2]. apply an_set; auto.
  intros x. rewrite <- mem_inside, D2. apply H.
Qed.
Lemma like_set : forall o u, distinct u -> readable same o ->
  exists f v, reads same order o = reading f /\ f u = inl v /\ answer same o u v.
Proof.
  intros o u Hu Hr.
  assert (Hord : forall (f : val -> bool) x, (forall y, same x y = true -> f x = f y) -> mem x (filter f (order u)) = mem x u && f x).
  { intros f x Hf. rewrite mem_filter by exact Hf. now rewrite mem_order. }
  assert (Hms : forall m x y, same x y = true -> mem x m = mem y m) by (intros; now apply mem_same).
  destruct o as [|s|s|a|s|a|a|a|a|a|a|a|a|a|a|a|a|a|x|]; cbn [reads readable] in *;
    eexists; eexists; (split; [reflexivity|]).
  - split; [reflexivity|]. apply fresh_set; try easy. intros x. rewrite mem_order. apply mem_inside.
  - split; [reflexivity|]. apply fresh_set; try easy. intros x. rewrite Hord.
    + rewrite mem_dedup, andb_true_iff, mem_inside, negb_true_iff. cbn. rewrite <- mem_passes.
      destruct (mem x (flat_map _ s)); intuition congruence.
    + intros y Hy. now rewrite (Hms _ x y Hy).
  - destruct s as [|a s]; [congruence|]. split; [reflexivity|]. apply fresh_set; try easy. intros x. rewrite Hord.
    + rewrite andb_true_iff, mem_inside, (all_passes x (a :: s) u). reflexivity.
    + intros y Hy. set (L := a :: s). clearbody L. induction L as [|b L IH]; [reflexivity|]. cbn. rewrite IH.
      now rewrite (Hms _ x y Hy).
  - split; [reflexivity|]. apply fresh_set; try easy. intros x. rewrite mem_app, orb_true_iff, mem_filter, Hord.
    + rewrite !andb_true_iff, !negb_true_iff, mem_pass. cbn.
      assert (HL : later_in same x a u = true <-> in_arg same x u a).
      { destruct a as [l|l|l|]; cbn; try apply mem_inside. exfalso. now apply (Hr l). }
      rewrite <- HL, <- mem_inside. destruct (later_in same x a u), (mem x u); intuition congruence.
    + intros y Hy. f_equal. destruct a as [l|l|l|]; cbn; auto.
    + intros y Hy. f_equal. auto.
  - split; [reflexivity|]. destruct (dedup_ok same refl sym trans (order u)) as [D1 D2].
    destruct (dedup_gen same refl sym trans (flat_map (fun a => first_pass order a u) s) _ D1) as [G1 G2].
    apply an_set; try easy. intros x. rewrite <- mem_inside, G2, orb_true_iff, mem_passes, D2, mem_order, mem_inside. cbn. tauto.
  - split; [reflexivity|]. apply fresh_set; try easy. intros x. rewrite mem_filter by auto.
    rewrite andb_true_iff, mem_pass, mem_inside. cbn. tauto.
  - split; [reflexivity|]. apply fresh_set; try easy. intros x. rewrite mem_app, orb_true_iff, mem_order, mem_pass, mem_inside.
    reflexivity.
  - split; [reflexivity|]. destruct (dedup_ok same refl sym trans (filter (fun i => negb (mem i (as_set same a u))) (order u))) as [D1 _].
    apply an_set; try easy. intros x. rewrite <- mem_inside, mem_minus, mem_order, andb_true_iff, negb_true_iff, mem_inside. cbn.
    rewrite <- mem_as_set. destruct (mem x (as_set same a u)); intuition congruence.
  - split; [reflexivity|]. destruct (dedup_ok same refl sym trans (filter (fun i => negb (mem i u)) (as_set same a u))) as [D1 _].
    apply an_set; try easy. intros x. rewrite <- mem_inside, mem_minus, andb_true_iff, negb_true_iff, mem_as_set. cbn.
    rewrite mem_outside. tauto.
  - split; [reflexivity|]. apply fresh_set; try easy. intros x. rewrite mem_app, !mem_order, !mem_minus, mem_order.
    cbn. rewrite <- mem_as_set, <- mem_inside. destruct (mem x u), (mem x (as_set same a u)); cbn; intuition congruence.
  - split; [reflexivity|]. eapply an_bool; [reflexivity|]. rewrite all_in. unfold subset.
    split; intros H x Hx; specialize (H x Hx).
    + apply mem_inside in H. rewrite mem_dedup in H. now apply mem_pass in H.
    + apply mem_inside. rewrite mem_dedup. now apply mem_pass.
  - split; [reflexivity|]. eapply an_bool; [reflexivity|]. rewrite all_in. unfold superset.
    split; intros H x Hx; apply H; [apply mem_inside; now apply mem_pass|apply (mem_pass x a u); now apply mem_inside].
  - split; [reflexivity|]. eapply an_bool; [reflexivity|]. rewrite forallb_forall. split.
    + intros H x Hx Hi. apply mem_pass in Hx. apply mem_inside in Hx as (y & Hy & Hs).
      specialize (H y Hy). apply negb_true_iff in H. apply mem_inside in Hi. rewrite (Hms _ x y Hs) in Hi. congruence.
    + intros H x Hx. apply negb_true_iff. apply mem_outside. apply H. apply mem_pass. apply mem_inside. exists x. auto.
  - destruct Hr as [Hs Hd]. assert (De : distinct (set_elems a u)) by (destruct a; cbn; auto; apply I).
    cbv beta. rewrite set_of_elems by exact Hs. split; [reflexivity|]. eapply an_bool; [reflexivity|]. now apply le_ok.
  - destruct Hr as [Hs Hd]. assert (De : distinct (set_elems a u)) by (destruct a; cbn; auto; apply I).
    cbv beta. rewrite set_of_elems by exact Hs. split; [reflexivity|]. eapply an_bool; [reflexivity|].
    rewrite andb_true_iff, Nat.ltb_lt, (le_ok a u Hs Hu De). pose proof (lt_ok a u Hs Hu De). tauto.
  - destruct Hr as [Hs Hd]. assert (De : distinct (set_elems a u)) by (destruct a; cbn; auto; apply I).
    cbv beta. rewrite set_of_elems by exact Hs. split; [reflexivity|]. eapply an_bool; [reflexivity|]. now apply ge_ok.
  - destruct Hr as [Hs Hd]. assert (De : distinct (set_elems a u)) by (destruct a; cbn; auto; apply I).
    cbv beta. rewrite set_of_elems by exact Hs. split; [reflexivity|]. eapply an_bool; [reflexivity|].
    rewrite andb_true_iff, Nat.ltb_lt, (ge_ok a u Hs Hu De). pose proof (gt_ok a u Hs Hu De). tauto.
  - destruct Hr as [Hs Hd]. assert (De : distinct (set_elems a u)) by (destruct a; cbn; auto; apply I).
    cbv beta. rewrite set_of_elems by exact Hs. split; [reflexivity|]. eapply an_bool; [reflexivity|].
    rewrite andb_true_iff, Nat.eqb_eq, (le_ok a u Hs Hu De).
    assert (HI : forall x, inside same x (set_elems a u) <-> in_arg same x u a) by (destruct a; destruct Hs; reflexivity).
    split.
    + intros [H1 H2]. split; [exact H2|]. intros x Hx.
      destruct (mem x u) eqn:Hm; [now apply mem_inside|]. exfalso.
      assert (HN : ~ superset same u a). { intros K. specialize (K x Hx). apply mem_inside in K. congruence. }
      apply (lt_ok a u Hs Hu De H2) in HN. lia.
    + intros [H1 H2]. split; [|exact H1].
      assert (List.length u <= List.length (set_elems a u)) by (apply subset_length; auto; intros x Hx; apply HI; auto).
      assert (List.length (set_elems a u) <= List.length u) by (apply subset_length; auto; intros x Hx; apply H2; now apply HI).
      lia.
  - split; [reflexivity|]. eapply an_bool; [reflexivity|]. apply mem_inside.
  - split; [reflexivity|]. now apply an_len.
Qed.
End C70.

Lemma runs_reading : forall (E : env sdata) f w w' r, runs E (reading f) w w' r <-> w' = w /\ r = result (f (w_usr w)).
Proof.
  intros E f w w' r. unfold reading. rewrite runs_look. destruct (f (w_usr w)); cbn [result].
  - apply runs_ret.
  - apply runs_throw.
Qed.
(** Whatever is connected and whatever the listeners do: nothing changes, nothing is emitted
    ([w' = w] includes the trace), and the result is that of the builtin set. *)
Theorem C70_like_set_partial : forall E same order o w w' r,
  equivalence same -> (forall l, Permutation (order l) l) -> distinct same (w_usr w) -> readable same o ->
  runs E (reads same order o) w w' r -> w' = w /\ exists v, r = Ok v /\ answer same o (w_usr w) v.
Proof.
  intros E same order o w w' r HQ HP HD Hr H.
  destruct (like_set same HQ order HP o (w_usr w) HD Hr) as (f & v & Hf & Hv & Ha).
  rewrite Hf in H. apply runs_reading in H as [-> ->]. split; [reflexivity|]. exists v. split; [exact (f_equal result Hv)|exact Ha].
Qed.
(** Comparisons with lists and iterators: == is False, the others raise TypeError, as for the builtin set. *)
Theorem C70_not_sets : forall E same order a w w' r o,
  ~ is_set a -> runs E (reads same order o) w w' r ->
  (o = REq a -> w' = w /\ r = Ok (VBool false))
  /\ (o = RLe a \/ o = RLt a \/ o = RGe a \/ o = RGt a -> w' = w /\ r = Err EType).
Proof.
  intros E same order a w w' r o Ha H. split.
  - intros ->. apply runs_reading in H as [-> ->]. destruct a; cbn; auto; exfalso; now apply Ha.
  - intros [->|[->|[->| ->]]]; apply runs_reading in H as [-> ->]; (destruct a; cbn; auto; exfalso; now apply Ha).
Qed.
Example C70_not_sets_case :
  let res o := outcome set_env 300 (reads val_eqb (@rev val) o) (set_world [VInt 5]) in
  ~ is_set (IList [VInt 5]) /\ res (REq (IList [VInt 5])) = Some (Ok (VBool false)) /\ res (RLe (IIter [VInt 5])) = Some (Err EType).
Proof. cbv zeta. split; [intros []|]. vm_compute. now split. Qed.
Print Assumptions C70_not_sets.
Example C70_case :
  let l := [VInt 5; VInt 6; VInt 7] in
  let res o := outcome set_env 300 (reads val_eqb (@rev val) o) (set_world l) in
  distinct val_eqb (w_usr (set_world l))
  /\ readable val_eqb (RXor (ISet [VInt 6; VInt 8])) /\ readable val_eqb (RLt (ISet [VInt 6; VInt 8]))
  /\ res (RXor (ISet [VInt 6; VInt 8])) = Some (Ok (VTuple [VInt 5; VInt 7; VInt 8]))
  /\ res (RLt (ISet [VInt 6; VInt 8; VInt 5; VInt 7])) = Some (Ok (VBool true))
  /\ res (RUnion [IIter [VInt 9; VInt 5]; ISelf]) = Some (Ok (VTuple [VInt 7; VInt 6; VInt 5; VInt 9]))
  /\ res (RIntersection [IIter [VInt 9; VInt 5]; ISelf]) = Some (Ok (VTuple [VInt 5]))
  /\ res (REq (ISet [VInt 7; VInt 6; VInt 5])) = Some (Ok (VBool true)).
Proof.
  cbv zeta. split; [vm_compute; auto|].
  assert (HD : forall m, ISet [VInt 6; VInt 8] = ISet m -> distinct val_eqb m) by (intros m H; injection H as <-; vm_compute; auto).
  split; [exact HD|]. split; [split; [exact I|exact HD]|]. vm_compute. repeat split.
Qed.
Print Assumptions C70_like_set_partial.
(** s.symmetric_difference(iter([6, 8])) for s = {5, 6} contains 6. *)
Theorem C70_iterator_refuted : exists (E : env sdata) same order w m,
  equivalence same /\ (forall l, Permutation (order l) l) /\ reachable E w /\ distinct same (w_usr w)
  /\ runs E (reads same order (RSymmetric (IIter m))) w w (Ok (VTuple [VInt 8; VInt 5; VInt 6]))
  /\ forall v, answer same (RSymmetric (IIter m)) (w_usr w) v -> v <> VTuple [VInt 8; VInt 5; VInt 6].
Proof.
  set (l := [VInt 5; VInt 6]).
  assert (H1 : w_usr (set_world l) = l) by (vm_compute; reflexivity).
  exists set_env, val_eqb, (fun l => l), (set_world l), [VInt 6; VInt 8].
  split; [apply val_eqb_equivalence|]. split; [auto|]. split; [reach|]. rewrite H1.
  split; [vm_compute; auto|]. split; [apply runs_reading; split; [reflexivity|]; rewrite H1; vm_compute; reflexivity|].
  intros v Hv ->. inversion Hv as [m _ _ _ HM| |]; subst.
  assert (HI : inside val_eqb (VInt 6) [VInt 8; VInt 5; VInt 6]) by (exists (VInt 6); cbn; auto).
  assert (HJ : inside val_eqb (VInt 6) l) by (exists (VInt 6); cbn; auto).
  assert (HK : in_arg val_eqb (VInt 6) l (IIter [VInt 6; VInt 8])) by (exists (VInt 6); cbn; auto).
  apply HM in HI as [[_ HI]|[HI _]]; contradiction.
Qed.
(** intersection() without arguments raises TypeError; the builtin set gives a copy. *)
Theorem C70_no_argument_refuted : exists (E : env sdata) same order w,
  equivalence same /\ (forall l, Permutation (order l) l) /\ reachable E w /\ distinct same (w_usr w)
  /\ runs E (reads same order (RIntersection [])) w w (Err EType).
Proof.
  exists set_env, val_eqb, (fun l => l), (set_world []).
  split; [apply val_eqb_equivalence|]. split; [auto|]. split; [reach|]. split; [vm_compute; auto|].
  apply runs_reading. auto.
Qed.
Print Assumptions C70_iterator_refuted.
Print Assumptions C70_no_argument_refuted.

(** * C71 *)

(** The elements an operation may add to those of the set, in order. *)
Definition own_elems (a : iarg) : list val := match a with IList l | IIter l | ISet l => l | ISelf => [] end.
Definition added_by (o : rop) : list val :=
  match o with RUnion s => flat_map own_elems s | ROr a | RXor a => own_elems a | _ => [] end.
(** What of [l] is in the result comes first, in the same order; then what is new. *)
Definition in_order (same : val -> val -> bool) (l new m : list val) : Prop :=
  m = filter (fun x => mem same x m) l ++ newly same l new.
(** All but symmetric_difference() and &. *)
Definition keeps_order (o : rop) : bool :=
  match o with RCopy | RDifference _ | RIntersection _ | RUnion _ | ROr _ | RSub _ | RXor _ => true | _ => false end.

Section C71.
Variable same : val -> val -> bool.
Hypothesis HQ : equivalence same.
Let refl := proj1 HQ.
Let sym := proj1 (proj2 HQ).
Let trans := proj2 (proj2 HQ).
Notation mem := (mem same).
Notation distinct := (distinct same).

Lemma distinct_filter : forall f l, distinct l -> distinct (filter f l).
Proof.
  intros f l; induction l as [|x l IH]; cbn; [auto|]. intros [H1 H2]. destruct (f x); [|auto]. cbn. split; [|auto].
  apply mem_outside. intros (y & Hy & Hs). apply filter_In in Hy as [Hy _]. apply mem_outside in H1. apply H1. exists y. auto.
Qed.
Lemma dedup_distinct : forall l, distinct l -> dedup same l = l.
Proof.
  intros l H. rewrite dedup_newly, (newly_distinct same HQ) by exact H. apply PropsOrder.filter_all. intros x _. reflexivity.
Qed.
Lemma dedup_two : forall a b, dedup same (a ++ b) = dedup same a ++ newly same (dedup same a) b.
Proof. intros a b. unfold dedup. rewrite fold_left_app. apply (turn_add same b). Qed.
Lemma newly_skip : forall l a b seen, (forall x, In x l -> mem x seen = true) -> newly same seen (a ++ l ++ b) = newly same seen (a ++ b).
Proof.
  intros l a; induction a as [|y a IH]; intros b seen H; cbn.
  - induction l as [|x l IHl]; [reflexivity|]. cbn. rewrite H by now left. apply IHl. intros z Hz. apply H. now right.
  - assert (H' : forall x, In x l -> mem x (y :: seen) = true) by (intros x Hx; rewrite mem_cons, H by exact Hx; apply orb_true_r).
    destruct (mem y seen); [now apply IH|]. now rewrite IH.
Qed.
Lemma newly_own : forall l s a, newly same l (a ++ flat_map (fun x => first_pass (fun l => l) x l) s) = newly same l (a ++ flat_map own_elems s).
Proof.
  intros l s; induction s as [|x s IH]; intros a; [reflexivity|]. cbn [flat_map]. destruct x as [m|m|m|]; cbn [first_pass own_elems];
    try (rewrite !app_assoc; apply IH).
  rewrite newly_skip; [apply IH|]. intros y Hy. now apply mem_in.
Qed.
Lemma filter_none : forall (f : val -> bool) l, (forall x, In x l -> f x = false) -> filter f l = [].
Proof. intros f l H; induction l as [|x l IH]; [reflexivity|]. cbn. rewrite H by now left. apply IH. intros y Hy. apply H. now right. Qed.
Lemma kept : forall (f : val -> bool) l, distinct l -> (forall x y, same x y = true -> f x = f y) -> in_order same l [] (dedup same (filter f l)).
Proof.
  intros f l Hl Hf. rewrite dedup_distinct by now apply distinct_filter. apply (arrange same HQ f); [exact Hf|].
  cbn. now rewrite app_nil_r.
Qed.
Lemma ordered : forall o u, distinct u -> readable same o -> keeps_order o = true ->
  exists f m, reads same (fun l => l) o = reading f /\ f u = inl (VTuple m) /\ in_order same u (added_by o) m.
Proof.
  intros o u Hu Hr Ho.
  assert (Hm : forall m x y, same x y = true -> mem x m = mem y m) by (intros; now apply mem_same).
  destruct o as [|s|s|a|s|a|a|a|a|a|a|a|a|a|a|a|a|a|x|]; try discriminate Ho; cbn [reads readable added_by] in *;
    eexists; eexists; (split; [reflexivity|]).
  - split; [reflexivity|]. rewrite dedup_distinct by exact Hu. apply (arrange same HQ (fun _ => true)); [auto|].
    cbn. rewrite app_nil_r. symmetry. apply PropsOrder.filter_all. auto.
  - split; [reflexivity|]. apply kept; [exact Hu|]. intros x y H. f_equal. auto.
  - destruct s as [|a s]; [congruence|]. split; [reflexivity|]. apply kept; [exact Hu|]. intros x y H.
    set (L := a :: s). clearbody L. induction L as [|b L IH]; [reflexivity|]. cbn. rewrite IH. now rewrite (Hm _ x y H).
  - split; [reflexivity|]. rewrite dedup_distinct by exact Hu. apply (arrange same HQ (fun _ => true)); [auto|].
    rewrite PropsOrder.filter_all by auto. pose proof (newly_own u s []) as HN. cbn [app] in HN. rewrite <- HN. apply (turn_add same).
  - split; [reflexivity|]. apply (arrange same HQ (fun _ => true)); [auto|]. rewrite PropsOrder.filter_all by auto.
    rewrite dedup_two, dedup_distinct by exact Hu. f_equal. pose proof (newly_own u [a] []) as HN. cbn in HN.
    now rewrite !app_nil_r in HN.
  - split; [reflexivity|]. unfold minus. apply kept; [exact Hu|]. intros x y H. f_equal. auto.
  - split; [reflexivity|].
    assert (HS : distinct (as_set same a u)).
    { destruct a as [l|l|l|]; cbn [as_set]; try exact Hu; try (apply dedup_ok; auto). now apply Hr. }
    apply (arrange same HQ (fun i => negb (mem i (as_set same a u)))); [intros x y H; f_equal; auto|].
    unfold minus. rewrite (dedup_distinct (filter _ u)) by now apply distinct_filter.
    rewrite (dedup_distinct (filter _ (as_set same a u))) by now apply distinct_filter.
    rewrite dedup_two, dedup_distinct by now apply distinct_filter. f_equal.
    rewrite <- (newly_distinct same HQ (as_set same a u) u HS).
    assert (HE : newly same u (as_set same a u) = newly same u (own_elems a)).
    { destruct a as [l|l|l|]; cbn [as_set own_elems]; try reflexivity;
        try (rewrite dedup_newly; apply (newly_newly same HQ); discriminate).
      rewrite (newly_distinct same HQ u u Hu). cbn. apply filter_none. intros x Hx. rewrite mem_in; auto. }
    rewrite HE, (newly_distinct same HQ).
    + apply PropsOrder.filter_all. intros x Hx. apply negb_true_iff. rewrite mem_filter by (intros y Hy; f_equal; auto).
      destruct (mem x u) eqn:HX; [|reflexivity]. exfalso. rewrite <- HE in Hx.
      rewrite (newly_distinct same HQ (as_set same a u) u HS) in Hx. apply filter_In in Hx as [_ Hx]. rewrite HX in Hx. discriminate.
    + rewrite <- HE, (newly_distinct same HQ) by exact HS. now apply distinct_filter.
Qed.
End C71.

(** [order = fun l => l]: the iteration order of EventedOrderedSet (ES:199-216) is that of
    insertion. *)
Theorem C71_order_partial : forall E same o w w' r,
  equivalence same -> distinct same (w_usr w) -> readable same o -> keeps_order o = true ->
  runs E (reads same (fun l => l) o) w w' r ->
  w' = w /\ exists m, r = Ok (VTuple m) /\ in_order same (w_usr w) (added_by o) m.
Proof.
  intros E same o w w' r HQ HD Hr Ho H. destruct (ordered same HQ o (w_usr w) HD Hr Ho) as (f & m & Hf & Hm & Hi).
  rewrite Hf in H. apply runs_reading in H as [-> ->]. split; [reflexivity|]. exists m. split; [exact (f_equal result Hm)|exact Hi].
Qed.
Example C71_case :
  let l := [VInt 7; VInt 5; VInt 6] in
  let o := RXor (IList [VInt 9; VInt 5; VInt 8; VInt 9]) in
  distinct val_eqb (w_usr (set_world l)) /\ readable val_eqb o /\ keeps_order o = true
  /\ outcome set_env 300 (reads val_eqb (fun l => l) o) (set_world l) = Some (Ok (VTuple [VInt 7; VInt 6; VInt 9; VInt 8]))
  /\ in_order val_eqb l (added_by o) [VInt 7; VInt 6; VInt 9; VInt 8]
  /\ ~ in_order val_eqb l (added_by o) [VInt 6; VInt 7; VInt 9; VInt 8].
Proof.
  cbv zeta. split; [vm_compute; auto|]. split; [intros m H; discriminate H|]. vm_compute. repeat split. intros H. discriminate H.
Qed.
(** symmetric_difference() puts the new elements first, unlike ^. *)
Theorem C71_symmetric_refuted : exists (E : env sdata) same w o m,
  equivalence same /\ reachable E w /\ distinct same (w_usr w) /\ readable same (RSymmetric o)
  /\ runs E (reads same (fun l => l) (RSymmetric o)) w w (Ok (VTuple m))
  /\ ~ in_order same (w_usr w) (own_elems o) m
  /\ exists m', runs E (reads same (fun l => l) (RXor o)) w w (Ok (VTuple m')) /\ m' <> m.
Proof.
  set (l := [VInt 5; VInt 6]).
  assert (H1 : w_usr (set_world l) = l) by (vm_compute; reflexivity).
  exists set_env, val_eqb, (set_world l), (IList [VInt 6; VInt 8]), [VInt 8; VInt 5]. rewrite H1.
  split; [apply val_eqb_equivalence|]. split; [reach|].
  split; [vm_compute; auto|]. split; [intros m H; discriminate H|].
  split; [apply runs_reading; split; [reflexivity|]; rewrite H1; vm_compute; reflexivity|].
  split; [vm_compute; discriminate|]. exists [VInt 5; VInt 8].
  split; [apply runs_reading; split; [reflexivity|]; rewrite H1; vm_compute; reflexivity|discriminate].
Qed.
(** s & other is in the order of other; s.intersection(other) is in that of s. *)
Theorem C71_and_refuted : exists (E : env sdata) same w o m,
  equivalence same /\ reachable E w /\ distinct same (w_usr w) /\ readable same (RAnd o)
  /\ runs E (reads same (fun l => l) (RAnd o)) w w (Ok (VTuple m))
  /\ ~ in_order same (w_usr w) [] m
  /\ exists m', runs E (reads same (fun l => l) (RIntersection [o])) w w (Ok (VTuple m')) /\ m' <> m.
Proof.
  set (l := [VInt 5; VInt 6]).
  assert (H1 : w_usr (set_world l) = l) by (vm_compute; reflexivity).
  exists set_env, val_eqb, (set_world l), (IList [VInt 6; VInt 5]), [VInt 6; VInt 5]. rewrite H1.
  split; [apply val_eqb_equivalence|]. split; [reach|].
  split; [vm_compute; auto|]. split; [intros m H; discriminate H|].
  split; [apply runs_reading; split; [reflexivity|]; rewrite H1; vm_compute; reflexivity|].
  split; [vm_compute; discriminate|]. exists [VInt 5; VInt 6].
  split; [apply runs_reading; split; [reflexivity|]; rewrite H1; vm_compute; reflexivity|discriminate].
Qed.
Print Assumptions C71_order_partial.
Print Assumptions C71_symmetric_refuted.
Print Assumptions C71_and_refuted.
