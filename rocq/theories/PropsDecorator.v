(** The decorator evented: C111. *)

From Verif Require Import Base Core Evented Uniform EnumFacts Decorator SpecDecorator.
Open Scope string_scope.
Open Scope nat_scope.

Lemma own_attr : forall c n v s k, own (set_attr c n v s) k = if Nat.eqb k c then sset n v (own s c) else own s k.
Proof. intros. unfold own, set_attr, set_cls, own. cbn. now destruct (Nat.eqb k c). Qed.
Lemma anns_attr : forall c n v s k, pc_anns (py_cls (set_attr c n v s) k) = pc_anns (py_cls s k).
Proof. intros. unfold set_attr, set_cls. cbn. destruct (Nat.eqb_spec k c); subst; reflexivity. Qed.
Lemma own_name : forall d c n s k, own (set_name d c n s) k = if Nat.eqb k c then sset flag (AFlag n) (own s c) else own s k.
Proof. intros. unfold set_name. now rewrite own_attr. Qed.
Lemma anns_name : forall d c n s k, pc_anns (py_cls (set_name d c n s) k) = pc_anns (py_cls s k).
Proof. intros. unfold set_name. now rewrite anns_attr. Qed.
Lemma name_all_anns : forall c l s k, pc_anns (py_cls (name_all c l s) k) = pc_anns (py_cls s k).
Proof.
  intros c l. induction l as [|[n [d|x|v]] l IH]; intros s k; cbn; auto. now rewrite IH, anns_name.
Qed.
Lemma name_all_flag : forall c l s k n, (k = c -> sget flag (own s c) = option_map AFlag n) ->
  sget flag (own (name_all c l s) k) = if Nat.eqb k c then option_map AFlag (last_descr l n) else sget flag (own s k).
Proof.
  intros c l. induction l as [|[x [d|y|v]] l IH]; intros s k n H; cbn; auto.
  - destruct (Nat.eqb_spec k c); [subst; auto|reflexivity].
  - rewrite (IH _ _ (Some x)).
    + rewrite own_name. destruct (Nat.eqb k c); reflexivity.
    + intros _. rewrite own_name, Nat.eqb_refl. apply get_set.
Qed.
Lemma sget_notin : forall {A} n (o : list (string * A)), ~ In n (map fst o) -> sget n o = None.
Proof.
  intros A n o. induction o as [|[x v] o IH]; cbn; intros H; [reflexivity|]. destruct (String.eqb_spec n x); [subst; tauto|]. apply IH. tauto.
Qed.
Lemma flag_inj : forall a b, option_map AFlag a = option_map AFlag b -> a = b.
Proof. intros [a|] [b|]; cbn; congruence. Qed.
Lemma refused_b : forall s c, existsb (starts "_psygnal") (pc_anns (py_cls s c)) = true <-> refused s c.
Proof. intros. unfold refused, starts. apply existsb_exists. Qed.

Lemma declared_flag : forall l s c n bad, Forall polite l -> sget flag (own s c) = option_map AFlag n -> (refused s c <-> bad) ->
  forall r, declared c l n bad r <-> sget flag (own (stmts l s) c) = option_map AFlag r.
Proof.
  induction l as [|a l IH]; intros s c n bad HP HN HB r.
  { cbn. rewrite HN. split; [now intros ->|apply flag_inj]. }
  inversion HP as [|? ? Ha HP']; subst. cbn [stmts declared].
  destruct a as [c' o an fr|c' d ns|c' x v]; cbn [stmt_step polite] in *.
  - destruct (Nat.eqb_spec c c') as [<-|NE].
    + apply IH; auto.
      * rewrite (name_all_flag _ _ _ _ None), Nat.eqb_refl; [reflexivity|]. intros _. unfold own, set_cls. cbn. rewrite Nat.eqb_refl. cbn.
        now apply sget_notin.
      * unfold refused. rewrite name_all_anns. unfold set_cls. cbn. rewrite Nat.eqb_refl. reflexivity.
    + apply IH; auto.
      * rewrite (name_all_flag _ _ _ _ None) by congruence. destruct (Nat.eqb_spec c c'); [congruence|]. unfold own, set_cls. cbn.
        destruct (Nat.eqb_spec c c'); [congruence|]. exact HN.
      * unfold refused. rewrite name_all_anns. unfold set_cls. cbn. destruct (Nat.eqb_spec c c'); [congruence|]. exact HB.
  - unfold decorate. destruct (existsb (starts "_psygnal") (pc_anns (py_cls s c'))) eqn:E.
    + destruct (Nat.eqb_spec c c') as [<-|NE]; [|now apply IH]. apply refused_b, HB in E. rewrite <- (IH s c n bad HP' HN HB). tauto.
    + destruct (Nat.eqb_spec c c') as [<-|NE].
      * assert (NB : ~ bad) by (rewrite <- HB, <- refused_b; congruence).
        rewrite <- (IH _ c (Some ns) bad HP'); [tauto| |].
        -- rewrite own_attr, Nat.eqb_refl, get_set_o by congruence. rewrite own_name, Nat.eqb_refl. apply get_set.
        -- unfold refused. now rewrite anns_attr, anns_name.
      * apply IH; auto.
        -- rewrite own_attr. destruct (Nat.eqb_spec c c'); [congruence|]. rewrite own_name. destruct (Nat.eqb_spec c c'); [congruence|exact HN].
        -- unfold refused. now rewrite anns_attr, anns_name.
  - apply IH; auto.
    + rewrite own_attr. destruct (Nat.eqb_spec c c') as [<-|]; [rewrite get_set_o by congruence|]; exact HN.
    + unfold refused. now rewrite anns_attr.
Qed.

Lemma flag_kind : forall l s, Forall polite l -> (forall c, exists n, sget flag (own s c) = option_map AFlag n) ->
  forall c, exists n, sget flag (own (stmts l s) c) = option_map AFlag n.
Proof.
  induction l as [|a l IH]; intros s HP HN; [exact HN|]. inversion HP as [|? ? Ha HP']; subst. cbn [stmts]. apply IH; [exact HP'|]. intros c.
  destruct a as [c' o an fr|c' d ns|c' x v]; cbn [stmt_step polite] in *.
  - rewrite (name_all_flag _ _ _ _ None).
    + destruct (Nat.eqb_spec c c') as [<-|NE]; [eauto|]. unfold own, set_cls. cbn. destruct (Nat.eqb_spec c c'); [congruence|]. apply HN.
    + intros <-. unfold own, set_cls. cbn. rewrite Nat.eqb_refl. cbn. now apply sget_notin.
  - unfold decorate. destruct (existsb (starts "_psygnal") (pc_anns (py_cls s c'))); [apply HN|].
    rewrite own_attr. destruct (Nat.eqb_spec c c') as [<-|NE]; [|rewrite own_name; destruct (Nat.eqb_spec c c'); [congruence|apply HN]].
    rewrite get_set_o by congruence. rewrite own_name, Nat.eqb_refl, get_set. now exists (Some ns).
  - rewrite own_attr. destruct (Nat.eqb_spec c c') as [<-|NE]; [|apply HN]. rewrite get_set_o by congruence. apply HN.
Qed.

(** get_evented_namespace is the name declared for the class, or for the first of its bases that has one. *)
Theorem C111_namespace : forall mro l k, Forall polite l ->
  (forall r, nearest l (mro k) r <-> get_evented_namespace mro k (stmts l blank) = option_map AFlag r) /\
  (is_evented mro k (stmts l blank) = true <-> exists n, nearest l (mro k) (Some n)).
Proof.
  intros mro l k HP.
  assert (D : forall c r, declared c l None False r <-> sget flag (own (stmts l blank) c) = option_map AFlag r).
  { intros c. apply declared_flag; [exact HP|reflexivity|]. unfold refused. cbn. split; [intros (x & [] & _)|tauto]. }
  assert (N : forall r, nearest l (mro k) r <-> get mro k flag (stmts l blank) = option_map AFlag r).
  { unfold get. induction (mro k) as [|c cs IH]; intros r; cbn [nearest find_in].
    - destruct r; cbn; split; congruence.
    - split.
      + intros (n & Hn & R). apply D in Hn. rewrite Hn. destruct n as [x|]; cbn; [now rewrite R|]. now apply IH.
      + intros H. destruct (sget flag (own (stmts l blank) c)) as [v|] eqn:E.
        * destruct r as [x|]; cbn in H; [|discriminate]. injection H as ->. exists (Some x). split; [now apply D|reflexivity].
        * exists None. split; [now apply D|]. now apply IH. }
  split; [exact N|]. unfold is_evented. split.
  - destruct (get mro k flag (stmts l blank)) as [v|] eqn:E; [|discriminate]. intros _.
    assert (F : exists x, v = AFlag x).
    { clear N. unfold get in E. induction (mro k) as [|c cs IH]; cbn in E; [discriminate|].
      destruct (sget flag (own (stmts l blank) c)) as [v'|] eqn:E'; [|auto]. injection E as ->. 
      assert (X : exists r, sget flag (own (stmts l blank) c) = option_map AFlag r) by (apply flag_kind; [exact HP|]; intros; now exists None).
      destruct X as [[x|] X]; rewrite E' in X; [|discriminate]. injection X as ->. eauto. }
    destruct F as [x ->]. exists x. now apply N.
  - intros [n Hn]. apply N in Hn. now rewrite Hn.
Qed.

(** Used as a decorator on a class (or by a class statement): the class and those derived from it, unless another class comes
    first, have the descriptor under the namespace, and the descriptor knows the name. *)
Theorem C111_evented : forall mro s c d ns s' k pre post, ns <> flag -> stmt_step (SEvented c d ns) s = inl s' -> mro k = (pre ++ c :: post)%list ->
  (forall b, In b pre -> b <> c /\ sget flag (own s b) = None /\ sget ns (own s b) = None) ->
  is_evented mro k s' = true /\ get_evented_namespace mro k s' = Some (AFlag ns) /\ get mro k ns s' = Some (ADescr d) /\ py_name s' d = Some ns.
Proof.
  intros mro s c d ns s' k pre post NF H HM HP. cbn in H. unfold decorate in H.
  destruct (existsb _ _); [discriminate|]. injection H as <-.
  assert (F : forall n v, (forall b, In b pre -> b <> c /\ sget n (own s b) = None) -> sget n (own (set_attr c ns (ADescr d) (set_name d c ns s)) c) = Some v ->
    get mro k n (set_attr c ns (ADescr d) (set_name d c ns s)) = Some v).
  { intros n v Hb Hv. unfold get. rewrite HM. clear HM HP. induction pre as [|b pre IH]; cbn [app find_in]; [now rewrite Hv|].
    destruct (Hb b (or_introl eq_refl)) as [N E]. rewrite own_attr. destruct (Nat.eqb_spec b c); [congruence|].
    rewrite own_name. destruct (Nat.eqb_spec b c); [congruence|]. rewrite E. apply IH. intros; apply Hb; now right. }
  assert (G : get mro k flag (set_attr c ns (ADescr d) (set_name d c ns s)) = Some (AFlag ns)).
  { apply F; [intros b Hb; now destruct (HP b Hb) as (? & ? & ?)|].
    rewrite own_attr, Nat.eqb_refl, get_set_o by congruence. rewrite own_name, Nat.eqb_refl. apply get_set. }
  unfold is_evented, get_evented_namespace. rewrite G. repeat split.
  - apply F; [intros b Hb; now destruct (HP b Hb) as (? & ? & ?)|]. rewrite own_attr, Nat.eqb_refl. apply get_set.
  - cbn. now rewrite Nat.eqb_refl.
Qed.

(** No other attribute of any class, no attribute of other classes, no other descriptor's name, no annotation changes. *)
Theorem C111_others : forall mro s c d ns s', stmt_step (SEvented c d ns) s = inl s' ->
  (forall k n, ~ In c (mro k) -> get mro k n s' = get mro k n s) /\
  (forall k n, n <> ns -> n <> flag -> get mro k n s' = get mro k n s) /\
  (forall e, e <> d -> py_name s' e = py_name s e) /\
  (forall k, pc_anns (py_cls s' k) = pc_anns (py_cls s k) /\ pc_frozen (py_cls s' k) = pc_frozen (py_cls s k)).
Proof.
  intros mro s c d ns s' H. cbn in H. unfold decorate in H. destruct (existsb _ _); [discriminate|]. injection H as <-.
  split; [|split; [|split]].
  - intros k n N. unfold get. induction (mro k) as [|b l IH]; cbn [find_in]; [reflexivity|]. cbn in N.
    rewrite IH by tauto. rewrite own_attr. destruct (Nat.eqb_spec b c); [subst; tauto|]. rewrite own_name. destruct (Nat.eqb_spec b c); [subst; tauto|]. reflexivity.
  - intros k n N1 N2. unfold get. induction (mro k) as [|b l IH]; cbn [find_in]; [reflexivity|]. rewrite IH.
    rewrite own_attr. destruct (Nat.eqb_spec b c) as [->|].
    + rewrite get_set_o by congruence. rewrite own_name, Nat.eqb_refl, get_set_o by congruence. reflexivity.
    + rewrite own_name. destruct (Nat.eqb_spec b c); [congruence|]. reflexivity.
  - intros e N. cbn. destruct (Nat.eqb_spec e d); [congruence|reflexivity].
  - intros k. split; [now rewrite anns_attr, anns_name|]. unfold set_name, set_attr, set_cls. cbn.
    destruct (Nat.eqb_spec k c) as [->|]; [now rewrite Nat.eqb_refl|reflexivity].
Qed.

(** It is refused exactly for classes that annotate a name with the prefix themselves, with TypeError. *)
Theorem C111_rejects : forall c d ns s, stmt_step (SEvented c d ns) s = inr EType <-> refused s c.
Proof.
  intros. cbn. unfold decorate. rewrite <- refused_b. destruct (existsb _ _); split; congruence.
Qed.
Theorem C111_only_type : forall a s e, stmt_step a s = inr e -> e = EType /\ exists c d ns, a = SEvented c d ns.
Proof.
  intros [c o an fr|c d ns|c n v] s e H; cbn in H; try discriminate. unfold decorate in H. destruct (existsb _ _); [|discriminate].
  injection H as <-. eauto 6.
Qed.

(** The docstring says TypeError for frozen classes (DE:103-106); they are accepted. *)
Theorem C111_frozen_refuted : exists s c d ns s',
  pc_frozen (py_cls s c) = true /\ stmt_step (SEvented c d ns) s = inl s' /\ is_evented (fun k => [k]) c s' = true.
Proof. exists (stmts [SClass 0 [] ["x"] true] blank), 0, 0, "events". eexists. vm_compute. repeat split; reflexivity. Qed.

(** A field with the refused prefix inherited from a base is not noticed. *)
Theorem C111_inherited_refuted : exists mro s c d ns s', In 0 (mro c) /\ refused s 0 /\ stmt_step (SEvented c d ns) s = inl s'.
Proof.
  exists (fun k => if Nat.eqb k 1 then [1; 0] else [k]), (stmts [SClass 0 [] ["_psygnal_x"] false; SClass 1 [] ["y"] false] blank), 1, 0, "events".
  eexists. split; [cbn; auto|]. split; [|reflexivity]. exists "_psygnal_x". split; [now left|reflexivity].
Qed.

(** A derived class can be evented under a name that is not a group any more: its own attribute comes first. *)
Theorem C111_hidden_refuted : exists mro l k ns, Forall polite l /\ get_evented_namespace mro k (stmts l blank) = Some (AFlag ns) /\
  forall d, get mro k ns (stmts l blank) <> Some (ADescr d).
Proof.
  exists (fun k => if Nat.eqb k 1 then [1; 0] else [k]), [SClass 0 [] ["x"] false; SEvented 0 0 "events"; SClass 1 [("events", AAny (VInt 3))] [] false], 1, "events".
  split; [|split; [reflexivity|vm_compute; congruence]].
  repeat apply Forall_cons; try apply Forall_nil; cbn; unfold flag; intuition discriminate.
Qed.

(** A base evented under "events"; a derived class with a descriptor "sig"; a class whose own annotations are refused. *)
Definition demo_mro (k : nat) : list nat := match k with 1 => [1; 0] | 2 => [2; 1; 0] | _ => [k] end.
Definition demo_prog : list stmt :=
  [ SClass 0 [] ["x"] false; SEvented 0 0 "events"; SClass 1 [("a", AAny (VInt 1)); ("sig", ADescr 1)] [] false
  ; SClass 2 [] [] false; SClass 3 [] ["_psygnal_y"] false; SEvented 3 2 "events"; SAssign 0 "z" (AAny (VInt 2)) ].
Example C111_case :
  Forall polite demo_prog /\
  get_evented_namespace demo_mro 0 (stmts demo_prog blank) = Some (AFlag "events") /\
  get_evented_namespace demo_mro 2 (stmts demo_prog blank) = Some (AFlag "sig") /\
  get demo_mro 2 "events" (stmts demo_prog blank) = Some (ADescr 0) /\
  is_evented demo_mro 3 (stmts demo_prog blank) = false /\
  stmt_step (SEvented 3 2 "events") (stmts demo_prog blank) = inr EType.
Proof.
  split; [|repeat split; reflexivity].
  unfold demo_prog. repeat apply Forall_cons; try apply Forall_nil; cbn; unfold flag; intuition discriminate.
Qed.

Print Assumptions C111_namespace.
Print Assumptions C111_evented.
Print Assumptions C111_others.
Print Assumptions C111_rejects.
Print Assumptions C111_only_type.
Print Assumptions C111_frozen_refuted.
Print Assumptions C111_inherited_refuted.
Print Assumptions C111_hidden_refuted.
