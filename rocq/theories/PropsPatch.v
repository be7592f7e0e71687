(** Assignments to evented objects in class hierarchies (C83). *)

From Verif Require Import Base Core Evented Patch.
Open Scope string_scope.
Open Scope list_scope.

Section C83.
Variable H : hier.
(** The __mro__ of a class starts with the class. *)
Definition linear : Prop := forall c, exists l, h_mro H c = c :: l.
Definition start (a : nat -> string -> option val) : pstate := PState (fun _ => None) [] a.
(** The class [k] comes after [d] in the __mro__ of [c]. *)
Definition after_in (c d k : nat) : Prop := exists l1 l2, h_mro H c = l1 ++ d :: l2 /\ In k l2.

(** Invariant: what psygnal has put into classes. *)
Definition shape (ns : string) (acts : nat -> Prop) (s : pstate) : Prop :=
  (forall c f, ps_dict s c = Some f -> acts c /\ exists al g, f = FPatch ns al g /\ (g = FObject \/ exists d, g = FOwn d /\ In d (h_mro H c)))
  /\ (forall c m, In (c, m) (ps_made s) -> patched (find H (ps_dict s) (h_mro H c)) = true).

Lemma find_in : forall d l f, find H d l = f -> f = FObject \/ (exists c, In c l /\ d c = Some f) \/ exists c, In c l /\ f = FOwn c.
Proof.
  intros d l. induction l as [|c l IH]; cbn; intros f <-; [now left|].
  destruct (d c) as [g|] eqn:E; [right; left; exists c; auto|].
  destruct (h_own H c); [right; right; exists c; auto|].
  destruct (IH _ eq_refl) as [K|[(x & Hx & K)|(x & Hx & K)]]; [now left|right; left; exists x; auto|right; right; exists x; auto].
Qed.
Lemma find_more : forall d c f l, patched f = true -> patched (find H d l) = true -> patched (find H (set_dict c f d) l) = true.
Proof.
  intros d c f l Hf. induction l as [|x l IH]; cbn; [trivial|]. unfold set_dict at 1. destruct (Nat.eqb_spec x c) as [->|]; [now rewrite Hf|].
  destruct (d x); [trivial|]. destruct (h_own H x); [trivial|exact IH].
Qed.
Lemma access_shape : forall ns (acts : nat -> Prop) o s, linear -> acts (h_class H o) -> shape ns acts s -> shape ns acts (access H o ns s).
Proof.
  intros ns acts o s HL Ho [S1 S2]. unfold access. cbv zeta. destruct (existsb _ _); [now split|].
  set (c := h_class H o) in *. destruct (HL c) as (l & Hl). destruct (patched (find H (ps_dict s) (h_mro H c))) eqn:HP.
  - split; [exact S1|]. cbn. intros x m [K|K]; [injection K as <- <-; exact HP|now apply (S2 x m)].
  - assert (HF : find H (ps_dict s) (h_mro H c) = FObject \/ exists d, find H (ps_dict s) (h_mro H c) = FOwn d /\ In d (h_mro H c)).
    { destruct (find_in _ _ _ eq_refl : find H (ps_dict s) (h_mro H c) = _ \/ _) as [K|[(x & _ & K)|(x & Hx & K)]]; [now left| |right; eauto].
      apply S1 in K as (_ & al & g & K & _). rewrite K in HP. discriminate. }
    split; cbn.
    + intros x f. unfold set_dict. destruct (Nat.eqb_spec x c) as [->|]; [|apply S1].
      intros K. injection K as <-. split; [exact Ho|]. eauto.
    + intros x m K. assert (HN : forall y, patched (find H (ps_dict s) (h_mro H y)) = true ->
        patched (find H (set_dict c (FPatch ns (h_aliases H c ns) (find H (ps_dict s) (h_mro H c))) (ps_dict s)) (h_mro H y)) = true)
        by (intros y Hy; now apply find_more).
      destruct K as [K|K]; [|now apply HN, (S2 x m)]. injection K as <- <-. rewrite Hl at 2. cbn [find]. unfold set_dict at 1. now rewrite Nat.eqb_refl.
Qed.
Lemma access_made : forall o ns s, (exists m, In (h_class H o, m) (ps_made (access H o ns s))) /\ incl (ps_made s) (ps_made (access H o ns s)).
Proof.
  intros o ns s. unfold access. cbv zeta. destruct (existsb _ _) eqn:E; [|split; [exists ns; now left|now right]].
  split; [|apply incl_refl]. apply existsb_exists in E as ([c m] & Hc & E). apply andb_true_iff in E as [E _].
  apply Nat.eqb_eq in E. cbn in E. subst c. eauto.
Qed.
Lemma access_attr : forall o ns s, ps_attr (access H o ns s) = ps_attr s.
Proof. intros. unfold access. cbv zeta. destruct (existsb _ _); reflexivity. Qed.
(** The order of the classes in an __mro__ is that of their own __mro__. *)
Definition monotone : Prop := forall c l1 k l2 y, h_mro H c = l1 ++ k :: l2 -> In y (h_mro H k) -> y = k \/ In y l2.
(** Classes whose __setattr__ psygnal may have changed, or that of a base. *)
Definition touched (A : nat -> Prop) (c : nat) : Prop := exists y, In y (h_mro H c) /\ A y.
Lemma touched_up : monotone -> forall A c x, In x (h_mro H c) -> touched A x -> touched A c.
Proof.
  intros HM A c x Hx (y & Hy & Ha). exists y. split; [|exact Ha]. apply in_split in Hx as (l1 & l2 & Hl).
  rewrite Hl. apply in_or_app. right. destruct (HM _ _ _ _ _ Hl Hy) as [->|K]; [now left|now right].
Qed.
Fixpoint patches (ns : string) (f : sfun) : Prop :=
  match f with FPatch m _ g => m = ns /\ patches ns g | _ => True end.
Lemma shape_patches : forall ns A s l, shape ns A s -> patches ns (find H (ps_dict s) l).
Proof.
  intros ns A s l HS. destruct (find_in (ps_dict s) l _ eq_refl) as [K|[(x & _ & K)|(x & _ & K)]]; try (rewrite K; exact I).
  apply (proj1 HS) in K as (_ & al & g & K & K'). rewrite K. cbn. split; [reflexivity|].
  destruct K' as [->|(d & -> & _)]; exact I.
Qed.
Lemma find_touched : monotone -> forall ns A s o l, shape ns (touched A) s -> incl l (h_mro H (h_class H o)) ->
  patched (find H (ps_dict s) l) = true -> touched A (h_class H o).
Proof.
  intros HM ns A s o l HS Hl HP. destruct (find_in (ps_dict s) l _ eq_refl) as [K|[(x & Hx & K)|(x & _ & K)]];
    try (rewrite K in HP; discriminate).
  apply (proj1 HS) in K as (K & _). eapply touched_up; [exact HM| |exact K]. now apply Hl.
Qed.
Lemma beyond_incl : forall c l, incl (beyond c l) l.
Proof.
  intros c l. induction l as [|x l IH]; cbn; [apply incl_refl|]. destruct (Nat.eqb x c); [now right|].
  intros y Hy. right. now apply IH.
Qed.
Lemma call_shape : monotone -> linear -> forall ns A k f o n v s s' ev, shape ns (touched A) s ->
  patches ns f -> (patched f = true -> touched A (h_class H o)) -> call H k f o n v s = Some (s', ev) ->
  shape ns (touched A) s' /\ incl (ps_made s) (ps_made s').
Proof.
  intros HM HL ns A k. induction k as [|k IH]; intros f o n v s s' ev HS HPf HT HC; cbn [call] in HC; [discriminate|].
  destruct f as [|c|ns' al g].
  - injection HC as <- _. split; [exact HS|apply incl_refl].
  - destruct (h_own H c) as [[| |]|]; [|injection HC as <- _; split; [exact HS|apply incl_refl]..].
    eapply IH; [exact HS| | |exact HC]; [eapply shape_patches, HS|].
    intros K. eapply find_touched; [exact HM|exact HS| |exact K]. apply beyond_incl.
  - destruct HPf as [-> HPf]. specialize (HT eq_refl).
    destruct (String.eqb n ns); [exact (IH _ _ _ _ _ _ _ HS HPf (fun _ => HT) HC)|]. cbv zeta in HC.
    pose proof (access_shape ns (touched A) o s HL HT HS) as HS1. destruct (access_made o ns s) as [_ HI].
    assert (G : forall s1 e1, call H k g o n v (access H o ns s) = Some (s1, e1) -> shape ns (touched A) s1 /\ incl (ps_made s) (ps_made s1)).
    { intros s1 e1 E. destruct (IH _ _ _ _ _ _ _ HS1 HPf (fun _ => HT) E) as [K1 K2]. split; [exact K1|]. eapply incl_tran; eassumption. }
    destruct (h_signal H al _ ns n); [|eauto].
    destruct (call H k g o n v _) as [[s1 e1]|]; [|discriminate]. injection HC as <- _. eauto.
Qed.
Lemma perform_shape : forall k ns (A : nat -> Prop) l s s' ev, monotone -> linear ->
  (forall o m, In (PAccess o m) l -> m = ns /\ A (h_class H o)) ->
  shape ns (touched A) s -> perform H k l s = Some (s', ev) ->
  shape ns (touched A) s' /\ (forall o, In (PAccess o ns) l -> exists m, In (h_class H o, m) (ps_made s')) /\ incl (ps_made s) (ps_made s').
Proof.
  intros k ns A l. induction l as [|[o m|o n v] l IH]; intros s s' ev HM HL HA HS HP; cbn [perform] in HP.
  - injection HP as <- <-. split; [exact HS|]. split; [intros o []|apply incl_refl].
  - destruct (HA o m (or_introl eq_refl)) as [-> Ho].
    assert (Hot : touched A (h_class H o)).
    { exists (h_class H o). split; [|exact Ho]. destruct (HL (h_class H o)) as (r & ->). now left. }
    destruct (IH (access H o ns s) s' ev HM HL) as (K1 & K2 & K3); [intros; apply HA; now right|now apply access_shape|exact HP|].
    destruct (access_made o ns s) as [KM KI]. split; [exact K1|]. split; [|eapply incl_tran; eassumption].
    intros o' [K|K]; [injection K as <-; destruct KM as (m & Hm); exists m; now apply K3|now apply K2].
  - destruct (assign H k o n v s) as [[s1 ev1]|] eqn:EA; [|discriminate].
    destruct (perform H k l s1) as [[s2 ev2]|] eqn:EP; [|discriminate]. injection HP as <- <-.
    destruct (call_shape HM HL ns A k _ o n v s s1 ev1 HS (shape_patches _ _ _ _ HS)
                (find_touched HM _ _ _ o _ HS (incl_refl _)) EA) as [S1 I1].
    destruct (IH s1 s2 ev2 HM HL) as (K1 & K2 & K3); [intros; apply HA; now right|exact S1|exact EP|].
    split; [exact K1|]. split; [|eapply incl_tran; eassumption]. intros o' [K|K]; [discriminate|now apply K2].
Qed.
Lemma beyond_after : forall d l k, In k (beyond d l) -> exists l1 l2, l = l1 ++ d :: l2 /\ In k l2.
Proof.
  intros d l k. induction l as [|x l IH]; cbn; [intros []|]. destruct (Nat.eqb_spec x d) as [->|].
  - intros Hk. now exists [], l.
  - intros Hk. destruct (IH Hk) as (l1 & l2 & -> & K). now exists (x :: l1), l2.
Qed.
(** Functions that call nothing of psygnal's. *)
Lemma call_own : forall ns (acts : nat -> Prop) s o n v, shape ns acts s ->
  (forall d k, h_own H d <> None -> after_in (h_class H o) d k -> ~ acts k) ->
  forall k f s' ev, (f = FObject \/ exists d, f = FOwn d) -> call H k f o n v s = Some (s', ev) -> ev = [].
Proof.
  intros ns acts s o n v HS HO k. induction k as [|k IH]; intros f s' ev Hf HC; cbn [call] in HC; [discriminate|].
  destruct Hf as [->|(d & ->)]; [now injection HC as <- <-|].
  destruct (h_own H d) as [[| |]|] eqn:E; [|now injection HC as <- <-|now injection HC as <- <-|now injection HC as <- <-].
  eapply IH; [|exact HC]. destruct (find_in _ _ _ eq_refl : find H (ps_dict s) (beyond d (h_mro H (h_class H o))) = _ \/ _) as [K|[(x & Hx & K)|(x & Hx & K)]]; [now left| |right; eauto].
  exfalso. destruct HS as [S1 _]. apply S1 in K as [K _]. apply beyond_after in Hx as (l1 & l2 & Hl & Hx).
  apply (HO d x); [congruence|now exists l1, l2|exact K].
Qed.
Lemma oval_eqb_eq : forall a b, oval_eqb a b = true <-> a = b.
Proof.
  intros [a|] [b|]; cbn; try (split; congruence). rewrite val_eqb_eq. split; congruence.
Qed.
(** C83: for any program that reads the group under one name [ns], in any hierarchy: an assignment to an object whose group was
    read emits the signal of the field once if the value is another one, and not otherwise - if no class of the object that defines
    __setattr__ comes before one to whose instances' groups were read. *)
Theorem C83_once_partial : forall k acts ns a s ev o n v s' ev',
  linear -> monotone -> (forall p m, In (PAccess p m) acts -> m = ns) -> In (PAccess o ns) acts ->
  (forall d c p, h_own H d <> None -> after_in (h_class H o) d c -> In (PAccess p ns) acts -> h_class H p <> c) ->
  n <> ns -> (forall al, h_signal H al (h_class H o) ns n = true) ->
  perform H k acts (start a) = Some (s, ev) -> assign H k o n v s = Some (s', ev') ->
  (ps_attr s' o n = ps_attr s o n -> ev' = [])
  /\ (ps_attr s' o n <> ps_attr s o n -> ev' = [(o, ns, n, ps_attr s' o n, ps_attr s o n)]).
Proof.
  intros k acts ns a s ev o n v s' ev' HL HMo HN Ho HO Hn HG HP HA.
  enough (HE : ev' = (if oval_eqb (ps_attr s o n) (ps_attr s' o n) then [] else [(o, ns, n, ps_attr s' o n, ps_attr s o n)])).
  { destruct (oval_eqb _ _) eqn:Q in HE; [apply oval_eqb_eq in Q|]; (split; [intros Hx|intros Hx]); auto; [congruence|].
    symmetry in Hx. apply oval_eqb_eq in Hx. congruence. }
  revert k acts ns a s ev o n v s' ev' HL HMo HN Ho HO Hn HG HP HA.
  intros k acts ns a s ev o n v s' ev' HL HMo HN Ho HO Hn HG HP HA.
  set (A := fun c => exists p, In (PAccess p ns) acts /\ h_class H p = c).
  destruct (perform_shape k ns A acts (start a) s ev HMo HL) as (HS & HM & _).
  { intros p m Hp. pose proof (HN p m Hp) as ->. split; [reflexivity|]. exists p. auto. }
  { split; cbn; [discriminate|intros ? ? []]. }
  { exact HP. }
  destruct (HM o Ho) as (m & Hm). pose proof (proj2 HS _ _ Hm) as HF. unfold assign in HA.
  destruct (find H (ps_dict s) (h_mro H (h_class H o))) as [| |ns' al g] eqn:EF; try discriminate.
  assert (HX : ns' = ns /\ (g = FObject \/ exists d, g = FOwn d)).
  { destruct (find_in _ _ _ EF) as [K|[(x & _ & K)|(x & _ & K)]]; try discriminate.
    apply (proj1 HS) in K as (_ & al' & g' & K & K'). injection K as -> -> ->. split; [reflexivity|].
    destruct K' as [K'|(d & K' & _)]; [now left|right; eauto]. }
  destruct HX as [-> Hg]. destruct k as [|k]; cbn [call] in HA; [discriminate|].
  destruct (String.eqb_spec n ns); [contradiction|]. rewrite HG in HA. cbv zeta in HA.
  destruct (call H k g o n v (access H o ns s)) as [[s1 e1]|] eqn:HC1; [|discriminate]. injection HA as <- <-.
  rewrite access_attr. assert (e1 = []) as ->; [|reflexivity].
  assert (HT : touched A (h_class H o)).
  { exists (h_class H o). split; [destruct (HL (h_class H o)) as (r & ->); now left|]. exists o. auto. }
  eapply (call_own ns (touched A) (access H o ns s) o n v (access_shape _ _ _ _ HL HT HS)); [|exact Hg|exact HC1].
  intros d c Hd (l1 & l2 & Hl & Hc) (y & Hy & p & Hp & Hcl).
  apply (HO d y p Hd); [|exact Hp|exact Hcl]. apply in_split in Hc as (m1 & m2 & ->). exists l1, (m1 ++ c :: m2). split; [exact Hl|].
  apply in_or_app. right. destruct (HMo (h_class H o) (l1 ++ d :: m1) c m2 y) as [->|K]; [now rewrite <- app_assoc|exact Hy|now left|now right].
Qed.

(** What an assignment does without psygnal: the first class that defines __setattr__ decides. *)
Fixpoint stores (l : list nat) : bool :=
  match l with
  | [] => true
  | c :: l => match h_own H c with Some USuper => stores l | Some UStore => true | Some UIgnore => false | None => stores l end
  end.
(** Single inheritance: the rest of an __mro__ is an __mro__. *)
Definition single : Prop := forall c l1 x l2, h_mro H c = l1 ++ x :: l2 -> h_mro H x = x :: l2.
Fixpoint sem (f : sfun) : bool :=
  match f with
  | FObject => true
  | FOwn c => match h_own H c with Some USuper => stores (tl (h_mro H c)) | Some UStore => true | _ => false end
  | FPatch _ _ g => sem g
  end.
Fixpoint within (l : list nat) (f : sfun) : Prop :=
  match f with FObject => True | FOwn c => In c l | FPatch _ _ g => within l g end.
Lemma within_incl : forall l l' f, incl l l' -> within l f -> within l' f.
Proof. intros l l' f K. induction f; cbn; auto. Qed.
Definition faithful (d : nat -> option sfun) : Prop :=
  forall c f, d c = Some f -> sem f = stores (h_mro H c) /\ within (h_mro H c) f.
Lemma find_faithful : single -> forall d c, faithful d -> forall l1 l, h_mro H c = l1 ++ l ->
  sem (find H d l) = stores l /\ within (h_mro H c) (find H d l).
Proof.
  intros HS d c HF l1 l. revert l1. induction l as [|x l IH]; intros l1 Hm; cbn [find stores]; [now split|].
  pose proof (HS _ _ _ _ Hm) as Hx. destruct (d x) as [f|] eqn:E.
  - apply HF in E as [E1 E2]. rewrite Hx in E1. cbn [stores] in E1. split; [exact E1|].
    eapply within_incl; [|exact E2]. rewrite Hx, Hm. intros y Hy. apply in_or_app. now right.
  - destruct (h_own H x) as [u|] eqn:O.
    + cbn [sem within]. rewrite O, Hx, Hm. cbn [tl]. split; [now destruct u|]. apply in_or_app. right. now left.
    + destruct (IH (l1 ++ [x])) as [K1 K2]; [now rewrite <- app_assoc|]. split; [exact K1|exact K2].
Qed.
Lemma beyond_split : forall d l, In d l -> exists l1, l = l1 ++ d :: beyond d l.
Proof.
  intros d l. induction l as [|x l IH]; cbn; [intros []|]. destruct (Nat.eqb_spec x d) as [->|]; [now exists []|].
  intros [K|K]; [congruence|]. destruct (IH K) as (l1 & K1). exists (x :: l1). cbn. now rewrite <- K1.
Qed.
Lemma access_faithful : single -> forall o ns s, faithful (ps_dict s) -> faithful (ps_dict (access H o ns s)).
Proof.
  intros HS o ns s HF. unfold access. cbv zeta. destruct (existsb _ _); [exact HF|].
  destruct (patched _); [exact HF|]. cbn. intros c f. unfold set_dict. destruct (Nat.eqb_spec c (h_class H o)) as [->|]; [|apply HF].
  intros K. injection K as <-. cbn [sem within]. exact (find_faithful HS _ (h_class H o) HF [] _ eq_refl).
Qed.
Lemma call_stores : single -> forall o n v k f s s' ev, faithful (ps_dict s) ->
  within (h_mro H (h_class H o)) f -> call H k f o n v s = Some (s', ev) ->
  faithful (ps_dict s')
  /\ forall o' n', ps_attr s' o' n' = if Nat.eqb o' o && String.eqb n' n && sem f then Some v else ps_attr s o' n'.
Proof.
  intros HS o n v k. induction k as [|k IH]; intros f s s' ev HF Hw HC; cbn [call] in HC; [discriminate|].
  destruct f as [|c|ns al g].
  - injection HC as <- <-. split; [exact HF|]. intros o' n'. cbn. unfold upd. now rewrite andb_true_r.
  - cbn [sem]. destruct (h_own H c) as [[| |]|] eqn:O.
    + cbn in Hw. destruct (beyond_split _ _ Hw) as (l1 & Hl). pose proof (HS _ _ _ _ Hl) as Hc.
      destruct (find_faithful HS (ps_dict s) (h_class H o) HF (l1 ++ [c]) (beyond c (h_mro H (h_class H o)))) as [K1 K2];
        [now rewrite <- app_assoc|].
      rewrite Hc. cbn [tl]. rewrite <- K1. exact (IH _ _ _ _ HF K2 HC).
    + injection HC as <- <-. split; [exact HF|]. intros o' n'. cbn. unfold upd. now rewrite andb_true_r.
    + injection HC as <- <-. split; [exact HF|]. intros o' n'. now rewrite andb_false_r.
    + injection HC as <- <-. split; [exact HF|]. intros o' n'. now rewrite andb_false_r.
  - cbn [sem]. cbn in Hw. destruct (String.eqb n ns); [exact (IH _ _ _ _ HF Hw HC)|]. cbv zeta in HC.
    pose proof (access_faithful HS o ns s HF) as HF1. rewrite <- (access_attr o ns s).
    destruct (h_signal H al _ ns n); [|exact (IH _ _ _ _ HF1 Hw HC)].
    destruct (call H k g o n v _) as [[a1 e1]|] eqn:E; [|discriminate]. injection HC as <- _. exact (IH _ _ _ _ HF1 Hw E).
Qed.
Lemma assign_stores : single -> forall k o n v s s' ev, faithful (ps_dict s) -> assign H k o n v s = Some (s', ev) ->
  faithful (ps_dict s')
  /\ forall o' n', ps_attr s' o' n'
    = if Nat.eqb o' o && String.eqb n' n && stores (h_mro H (h_class H o)) then Some v else ps_attr s o' n'.
Proof.
  intros HS k o n v s s' ev HF HA. destruct (find_faithful HS _ (h_class H o) HF [] _ eq_refl) as [K1 K2].
  rewrite <- K1. exact (call_stores HS o n v k _ _ _ _ HF K2 HA).
Qed.
Lemma perform_faithful : single -> forall k l s s' ev, faithful (ps_dict s) ->
  perform H k l s = Some (s', ev) -> faithful (ps_dict s').
Proof.
  intros HS k l. induction l as [|[o m|o n v] l IH]; intros s s' ev HF HP; cbn [perform] in HP.
  - injection HP as <- _. exact HF.
  - apply IH in HP; [exact HP|]. now apply access_faithful.
  - destruct (assign H k o n v s) as [[s1 e1]|] eqn:E; [|discriminate].
    destruct (perform H k l s1) as [[s2 e2]|] eqn:E2; [|discriminate]. injection HP as <- _.
    apply IH in E2; [exact E2|]. now apply assign_stores in E.
Qed.
(** In every hierarchy of single inheritance, whichever groups were read: an assignment stores what it would store
    without psygnal, and nothing else. *)
Theorem C83_stored_partial : forall k acts a s ev o n v s' ev',
  single -> perform H k acts (start a) = Some (s, ev) -> assign H k o n v s = Some (s', ev') ->
  forall o' n', ps_attr s' o' n'
    = if Nat.eqb o' o && String.eqb n' n && stores (h_mro H (h_class H o)) then Some v else ps_attr s o' n'.
Proof.
  intros k acts a s ev o n v s' ev' HS HP HA.
  assert (HF : faithful (ps_dict s)) by (eapply perform_faithful; [exact HS| |exact HP]; cbn; discriminate).
  now apply (assign_stores HS k o n v s s' ev').
Qed.
(** In every hierarchy: what is emitted concerns the object and field assigned to, whose value has changed, and a signal that
    the field has in this group. *)
Theorem C83_only : forall k o n v s s' ev, assign H k o n v s = Some (s', ev) ->
  forall o' ns n' new old, In (o', ns, n', new, old) ev ->
    o' = o /\ n' = n /\ n <> ns /\ (exists al, h_signal H al (h_class H o) ns n = true)
    /\ old = ps_attr s o n /\ new = ps_attr s' o n /\ old <> new.
Proof.
  intros k o n v s s' ev HC.
  enough (HE : forall o' ns n' new old, In (o', ns, n', new, old) ev ->
    o' = o /\ n' = n /\ n <> ns /\ (exists al, h_signal H al (h_class H o) ns n = true)
    /\ old = ps_attr s o n /\ new = ps_attr s' o n /\ oval_eqb old new = false).
  { intros o' ns n' new old Hi. destruct (HE _ _ _ _ _ Hi) as (A1 & A2 & A3 & A4 & A5 & A6 & A7). repeat (split; [assumption|]).
    intros Hx. apply oval_eqb_eq in Hx. congruence. }
  revert k o n v s s' ev HC.
  intros k o n v s s' ev HC. unfold assign in HC.
  revert HC. generalize (find H (ps_dict s) (h_mro H (h_class H o))) as f.
  intros f. revert f s s' ev. induction k as [|k IH]; intros f s s' ev HC; cbn [call] in HC; [discriminate|].
  destruct f as [|c|ns al g].
  - injection HC as <- <-. intros ? ? ? ? ? [].
  - destruct (h_own H c) as [[| |]|]; [exact (IH _ _ _ _ HC)|..]; injection HC as <- <-; intros ? ? ? ? ? [].
  - destruct (String.eqb_spec n ns) as [|Hn]; [exact (IH _ _ _ _ HC)|]. cbv zeta in HC. rewrite <- (access_attr o ns s).
    destruct (h_signal H al _ ns n) eqn:G; [|exact (IH _ _ _ _ HC)].
    destruct (call H k g o n v _) as [[a1 e1]|] eqn:E; [|discriminate]. injection HC as <- <-. specialize (IH _ _ _ _ E).
    intros o' ns' n' new old Hin. destruct (oval_eqb _ _) eqn:Q; [exact (IH _ _ _ _ _ Hin)|].
    apply in_app_or in Hin as [Hin|[Hin|[]]]; [exact (IH _ _ _ _ _ Hin)|].
    injection Hin as <- <- <- <- <-. repeat split; eauto.
Qed.

(** Assignments end: no __setattr__ is called for ever. *)
Definition wfd (d : nat -> option sfun) : Prop :=
  forall c f, d c = Some f -> exists ns al g, f = FPatch ns al g /\ (g = FObject \/ exists e, g = FOwn e /\ In e (h_mro H c)).
Lemma access_wfd : forall o ns s, wfd (ps_dict s) -> wfd (ps_dict (access H o ns s)).
Proof.
  intros o ns s HW. unfold access. cbv zeta. destruct (existsb _ _); [exact HW|].
  destruct (patched _) eqn:HP; [exact HW|]. cbn. intros c f. unfold set_dict. destruct (Nat.eqb_spec c (h_class H o)) as [->|]; [|apply HW].
  intros K. injection K as <-. do 3 eexists. split; [reflexivity|].
  destruct (find_in (ps_dict s) (h_mro H (h_class H o)) _ eq_refl) as [K|[(x & _ & K)|(x & Hx & K)]]; [now left| |right; eauto].
  apply HW in K as (? & ? & ? & K & _). rewrite K in HP. discriminate.
Qed.
Lemma beyond_here : forall l1 x l2, NoDup (l1 ++ x :: l2) -> beyond x (l1 ++ x :: l2) = l2.
Proof.
  intros l1 x l2. induction l1 as [|y l1 IH]; cbn; intros HN; [now rewrite Nat.eqb_refl|].
  apply NoDup_cons_iff in HN as [H1 H2]. destruct (Nat.eqb_spec y x) as [->|]; [|auto].
  destruct H1. apply in_or_app. right. now left.
Qed.
Lemma call_ends : monotone -> (forall c, NoDup (h_mro H c)) -> forall o n v k l1 l s, wfd (ps_dict s) ->
  h_mro H (h_class H o) = l1 ++ l -> 2 * List.length l + 1 <= k ->
  exists s' ev, call H k (find H (ps_dict s) l) o n v s = Some (s', ev) /\ wfd (ps_dict s').
Proof.
  intros HM HN o n v k. induction k as [k IH] using lt_wf_ind. intros l1 l s HW Hl Hk.
  assert (OWN : forall s0, wfd (ps_dict s0) -> forall d, In d l -> forall j, 2 * List.length l <= j -> j <= k ->
            exists s' ev, call H j (FOwn d) o n v s0 = Some (s', ev) /\ wfd (ps_dict s')).
  { intros s0 HW0 d Hd i Hi Hik. apply in_split in Hd as (m1 & m2 & ->). rewrite app_length in *. cbn [List.length] in *.
    destruct i as [|i]; [lia|]. cbn [call].
    assert (B : beyond d (h_mro H (h_class H o)) = m2).
    { rewrite Hl, app_assoc. apply beyond_here. rewrite <- app_assoc, <- Hl. apply HN. }
    destruct (h_own H d) as [[| |]|]; [|do 2 eexists; split; [reflexivity|exact HW0]..].
    rewrite B. apply (IH i ltac:(lia) ((l1 ++ m1) ++ [d]) m2 s0 HW0); [rewrite Hl, <- !app_assoc; reflexivity|lia]. }
  assert (OWNS : forall m, incl [m] l -> exists s' ev, call H k (FOwn m) o n v s = Some (s', ev) /\ wfd (ps_dict s')).
  { intros m Hm. apply OWN; [exact HW|apply Hm; now left|lia|lia]. }
  destruct (find_in (ps_dict s) l _ eq_refl) as [K|[(x & Hx & K)|(x & Hx & K)]].
  - rewrite K. destruct k as [|k]; [lia|]. do 2 eexists. split; [reflexivity|exact HW].
  - set (f := find H (ps_dict s) l) in *. clearbody f. destruct (HW _ _ K) as (ns & al & g & -> & Hg).
    destruct k as [|k]; [lia|]. cbn [call]. cbv zeta.
    assert (G : forall s0, wfd (ps_dict s0) -> exists s' ev, call H k g o n v s0 = Some (s', ev) /\ wfd (ps_dict s')).
    { intros s0 HW0. destruct Hg as [->|(d & -> & Hd)].
      - destruct k as [|k]; [destruct l; [destruct Hx|cbn in Hk; lia]|]. do 2 eexists. split; [reflexivity|exact HW0].
      - apply OWN; [exact HW0| |lia|lia]. apply in_split in Hx as (m1 & m2 & ->).
        destruct (HM (h_class H o) (l1 ++ m1) x m2 d) as [->|Q]; [now rewrite <- app_assoc|exact Hd| |]; apply in_or_app; right; [now left|now right]. }
    destruct (String.eqb n ns); [apply G, HW|]. destruct (G _ (access_wfd o ns s HW)) as (s1 & e1 & -> & W1).
    destruct (h_signal H al _ ns n); eauto.
  - rewrite K. apply OWNS. intros y [<-|[]]. exact Hx.
Qed.
Theorem C83_ends : forall k acts a, linear -> monotone -> (forall c, NoDup (h_mro H c)) ->
  (forall o n v, In (PAssign o n v) acts -> 2 * List.length (h_mro H (h_class H o)) + 1 <= k) ->
  perform H k acts (start a) <> None.
Proof.
  intros k acts a HL HM HN HK. assert (HW : wfd (ps_dict (start a))) by (cbn; discriminate).
  revert HK HW. generalize (start a) as s. induction acts as [|[o m|o n v] acts IH]; intros s HK HW; cbn [perform]; [discriminate| |].
  - apply IH; [intros; eapply HK; right; eassumption|now apply access_wfd].
  - destruct (call_ends HM HN o n v k [] (h_mro H (h_class H o)) s HW eq_refl) as (s1 & e1 & E & W);
      [eapply HK; now left|].
    unfold assign. rewrite E. specialize (IH s1). destruct (perform H k acts s1) as [[? ?]|]; [discriminate|].
    exfalso. apply IH; [intros; eapply HK; right; eassumption|exact W|reflexivity].
Qed.
End C83.

(** Class 0: a dataclass with the field x and a descriptor "events"; 1: derived from it; 2: derived from it and with a __setattr__ that
    calls super(); 3: derived from 0, with a second descriptor "more".  Object n is an instance of class n. *)
Definition T_hier : hier := Hier (fun c => match c with 0 => [0] | S _ => [c; 0] end)
  (fun c => if Nat.eqb c 2 then Some USuper else None) (fun _ _ => false)
  (fun _ c ns n => String.eqb n "x" && (String.eqb ns "events" || (Nat.eqb c 3 && String.eqb ns "more"))) (fun o => o).
Definition T_start : pstate := start (fun _ _ => Some (VInt 0)).
Lemma T_linear : linear T_hier.
Proof. intros [|c]; cbn; eauto. Qed.
Definition events_of (acts : list pact) : option (list event) := option_map snd (perform T_hier 9 acts T_start).
Lemma T_monotone : monotone T_hier.
Proof.
  intros c l1 k l2 y Hl Hy. assert (D : h_mro T_hier c = [c] \/ h_mro T_hier c = [c; 0]) by (destruct c; cbn; auto).
  destruct D as [D|D]; rewrite D in Hl; destruct l1 as [|x l1]; cbn in Hl.
  - injection Hl as <- <-. rewrite D in Hy. cbn in Hy. intuition congruence.
  - injection Hl as _ Hl. destruct l1; discriminate.
  - injection Hl as <- <-. rewrite D in Hy. cbn in *. intuition congruence.
  - injection Hl as _ Hl. destruct l1 as [|z l1]; cbn in Hl; [injection Hl as <- <-; cbn in Hy; intuition congruence|].
    injection Hl as _ Hl. destruct l1; discriminate.
Qed.
Lemma T_nodup : forall c, NoDup (h_mro T_hier c).
Proof. intros [|c]; cbn; repeat constructor; cbn; intuition discriminate. Qed.
Example C83_case :
  linear T_hier /\ monotone T_hier /\ (forall c, NoDup (h_mro T_hier c))
  /\ (forall d c p, h_own T_hier d <> None -> after_in T_hier (h_class T_hier 1) d c -> In (PAccess p "events") [PAccess 0 "events"; PAccess 1 "events"] -> h_class T_hier p <> c)
  /\ (forall al, h_signal T_hier al (h_class T_hier 1) "events" "x" = true)
  /\ events_of [PAccess 0 "events"; PAccess 1 "events"; PAssign 1 "x" (VInt 5); PAssign 1 "x" (VInt 5); PAssign 0 "x" (VInt 6)]
     = Some [(1, "events", "x", Some (VInt 5), Some (VInt 0)); (0, "events", "x", Some (VInt 6), Some (VInt 0))]
  /\ events_of [PAccess 2 "events"; PAssign 2 "x" (VInt 5)] = Some [(2, "events", "x", Some (VInt 5), Some (VInt 0))].
Proof.
  split; [apply T_linear|]. split; [apply T_monotone|]. split; [apply T_nodup|]. split.
  { intros d c p Hd (l1 & l2 & Hl & _). exfalso. apply Hd. cbn in *. destruct l1 as [|? [|? l1]]; cbn in Hl.
    - injection Hl as <- _. reflexivity.
    - injection Hl as _ <- _. reflexivity.
    - destruct l1; discriminate. }
  repeat split; reflexivity.
Qed.
(** Class 4, without field x in "events", ignores assignments; object 5 has a class derived from 0. *)
Definition V_hier : hier := Hier (fun c => match c with 0 | 4 => [c] | 6 => [6; 4] | _ => [c; 0] end)
  (fun c => if Nat.eqb c 2 then Some USuper else if Nat.eqb c 4 then Some UIgnore else None) (fun _ _ => false)
  (fun _ c ns n => String.eqb n "x" && negb (Nat.eqb c 4)) (fun o => o).
Definition V_after (acts : list pact) (o : nat) (n : string) : option (option val) :=
  option_map (fun r => ps_attr (fst r) o n) (perform V_hier 9 acts T_start).
Example C83_stored_case :
  single V_hier
  /\ V_after [PAccess 2 "events"; PAccess 0 "events"; PAssign 2 "x" (VInt 5)] 2 "x" = Some (Some (VInt 5))
  /\ V_after [PAccess 2 "events"; PAccess 0 "events"; PAssign 2 "x" (VInt 5)] 5 "x" = Some (Some (VInt 0))
  /\ V_after [PAccess 6 "events"; PAssign 6 "x" (VInt 5)] 6 "x" = Some (Some (VInt 0))
  /\ option_map snd (perform V_hier 9 [PAccess 6 "events"; PAssign 6 "x" (VInt 5); PAccess 5 "events"; PAssign 5 "events" (VInt 5); PAssign 5 "y" (VInt 5)] T_start) = Some [].
Proof.
  split; [|vm_compute; auto].
  intros c l1 x l2 K. assert (C : h_mro V_hier c = [c] \/ (exists d, h_mro V_hier c = [c; d] /\ h_mro V_hier d = [d])).
  { destruct c as [|[|[|[|[|[|[|c]]]]]]]; cbn; eauto. }
  destruct C as [C|(d & C & D)]; rewrite C in K; destruct l1 as [|y l1]; cbn in K.
  - injection K as <- <-. exact C.
  - injection K as _ K. destruct l1; discriminate.
  - injection K as <- <-. exact C.
  - injection K as _ K. destruct l1 as [|z l1]; cbn in K; [injection K as <- <-; exact D|]. injection K as _ K. destruct l1; discriminate.
Qed.
(** False of the code with several bases: class 3 derives from the evented dataclass 0 and from 1, whose __setattr__ refuses
    assignments.  Without psygnal (or before the group of an object of class 0 is read), assignments to object 3 are
    refused; after that they are not, since the __setattr__ put into class 0 calls object.__setattr__, not super(). *)
Definition W_hier : hier := Hier (fun c => match c with 3 => [3; 0; 1] | c => [c] end)
  (fun c => if Nat.eqb c 1 then Some UIgnore else None) (fun _ _ => false)
  (fun _ c ns n => String.eqb n "x") (fun o => o).
Theorem C83_bypass_refuted :
  stores W_hier (h_mro W_hier 3) = false
  /\ option_map (fun r => ps_attr (fst r) 3 "x") (perform W_hier 9 [PAssign 3 "x" (VInt 5)] T_start) = Some (Some (VInt 0))
  /\ option_map (fun r => ps_attr (fst r) 3 "x") (perform W_hier 9 [PAccess 0 "events"; PAssign 3 "x" (VInt 5)] T_start)
     = Some (Some (VInt 5)).
Proof. vm_compute. auto. Qed.
(** False of the code: a class that defines __setattr__ with super(): once the group of an instance of its base was read,
    every change is emitted twice. *)
Theorem C83_twice_refuted :
  events_of [PAccess 2 "events"; PAccess 0 "events"; PAssign 2 "x" (VInt 5)]
  = Some [(2, "events", "x", Some (VInt 5), Some (VInt 0)); (2, "events", "x", Some (VInt 5), Some (VInt 0))].
Proof. reflexivity. Qed.
(** (Here nobody read the group of object 2, but its first assignment does, in the __setattr__ of class 0.) *)
Theorem C83_implicit_refuted :
  events_of [PAccess 0 "events"; PAssign 2 "x" (VInt 5); PAssign 2 "x" (VInt 6)]
  = Some [(2, "events", "x", Some (VInt 5), Some (VInt 0));
          (2, "events", "x", Some (VInt 6), Some (VInt 5)); (2, "events", "x", Some (VInt 6), Some (VInt 5))].
Proof. reflexivity. Qed.
(** False of the code: of two descriptors only the one read first gets anything. *)
Theorem C83_two_refuted :
  events_of [PAccess 3 "events"; PAccess 3 "more"; PAssign 3 "x" (VInt 5)] = Some [(3, "events", "x", Some (VInt 5), Some (VInt 0))]
  /\ events_of [PAccess 3 "more"; PAccess 3 "events"; PAssign 3 "x" (VInt 5)] = Some [(3, "more", "x", Some (VInt 5), Some (VInt 0))].
Proof. split; reflexivity. Qed.
Print Assumptions C83_once_partial.
Print Assumptions C83_twice_refuted.
Print Assumptions C83_two_refuted.
Print Assumptions C83_implicit_refuted.
Print Assumptions C83_stored_partial.
Print Assumptions C83_only.
Print Assumptions C83_bypass_refuted.
Print Assumptions C83_ends.
