(** == of EventedModels (C82). *)

From Verif Require Import Base Core Evented SpecEvented PropsEvented Uniform PropsUniform ModelEq.
Open Scope string_scope.
Open Scope list_scope.

Section C82.
Variable P : values.
Variable below : nat -> nat -> bool.
Variable dump : mobj -> list (string * val).
Variable foreign : list (string * val) -> val -> bool + exn.

(** The two models have the same value in the field [n], as its operator says. *)
Definition field_equal (T : tables) (a b : mobj) (n : string) : Prop :=
  exists x y, mo_attr a n = Some x /\ mo_attr b n = Some y /\ equals P (op_of (T (mo_class a)) n) (Some y) (Some x) (inl true).
Definition field_differs (T : tables) (a b : mobj) (n : string) : Prop :=
  mo_attr a n = None \/ mo_attr b n = None
  \/ exists x y, mo_attr a n = Some x /\ mo_attr b n = Some y /\ equals P (op_of (T (mo_class a)) n) (Some y) (Some x) (inl false).

Lemma check_keeps : forall n x y ops ops' r m, check_equal P n (Some x) y ops = (ops', r) -> m <> n -> sget m ops' = sget m ops.
Proof.
  intros n x y ops ops' r m H Hm. unfold check_equal in H. cbv zeta in H.
  repeat match type of H with
         | (match ?c with _ => _ end) = _ => destruct c
         | (if ?c then _ else _) = _ => destruct c
         end; injection H as <- <-; rewrite ?sget_sset; destruct (String.eqb_spec m n); congruence.
Qed.
Lemma eq_fields_spec : forall names a b ops ops' r, NoDup names -> eq_fields P names a b ops = (ops', r) ->
  match r with
  | inl true => forall n, In n names -> exists x y, mo_attr a n = Some x /\ mo_attr b n = Some y
                  /\ equals P (op_of ops n) (Some y) (Some x) (inl true)
  | inl false => exists n, In n names /\ (mo_attr a n = None \/ mo_attr b n = None
                  \/ exists x y, mo_attr a n = Some x /\ mo_attr b n = Some y /\ equals P (op_of ops n) (Some y) (Some x) (inl false))
  | inr e => exists n k x y, In n names /\ e = EBase k /\ mo_attr a n = Some x /\ mo_attr b n = Some y
                  /\ equals P (op_of ops n) (Some y) (Some x) (inr e)
  end.
Proof.
  intros names. induction names as [|n names IH]; intros a b ops ops' r ND H; cbn [eq_fields] in H.
  - injection H as <- <-. intros n [].
  - inversion ND as [|? ? Hn ND']; subst.
    destruct (mo_attr a n) as [x|] eqn:HA; [|injection H as <- <-; exists n; split; [now left|auto]].
    destruct (mo_attr b n) as [y|] eqn:HB; [|injection H as <- <-; exists n; split; [now left|auto]].
    destruct (check_equal P n (Some x) (Some y) ops) as [ops1 r1] eqn:HC.
    pose proof (check_equal_spec _ _ _ _ _ _ _ HC) as HS. destruct r1 as [[|]|e].
    + assert (HO : forall m, In m names -> op_of ops1 m = op_of ops m).
      { intros m Hm. unfold op_of. rewrite (check_keeps _ _ _ _ _ _ m HC); [reflexivity|]. intros ->. contradiction. }
      specialize (IH a b ops1 ops' r ND' H). destruct r as [[|]|e].
      * intros m [<-|Hm]; [now exists x, y|]. rewrite <- HO by exact Hm. now apply IH.
      * destruct IH as (m & Hm & K). exists m. split; [now right|]. now rewrite <- HO.
      * destruct IH as (m & k & x' & y' & Hm & K). exists m, k, x', y'. split; [now right|]. now rewrite <- HO.
    + injection H as <- <-. exists n. split; [now left|]. right. right. now exists x, y.
    + injection H as <- <-. destruct HS as (k & -> & _ & HS). exists n, k, x, y. split; [now left|]. auto.
Qed.
(** C82: m.__eq__(other) for any two models: True if every field of m has the same value in both, False if one has not;
    only BaseExceptions come out. *)
Theorem C82_fields : forall a b T T' r,
  NoDup (map fst (T (mo_class a))) -> model_eq P dump foreign a (PModel b) T = (T', r) ->
  match r with
  | inl true => forall n, In n (map fst (T (mo_class a))) -> field_equal T a b n
  | inl false => exists n, In n (map fst (T (mo_class a))) /\ field_differs T a b n
  | inr e => exists n k x y, In n (map fst (T (mo_class a))) /\ e = EBase k /\ mo_attr a n = Some x /\ mo_attr b n = Some y
      /\ equals P (op_of (T (mo_class a)) n) (Some y) (Some x) (inr e)
  end.
Proof.
  intros a b T T' r ND H. unfold model_eq in H. destruct (eq_fields P _ a b _) as [ops r'] eqn:HE.
  injection H as <- <-. exact (eq_fields_spec _ _ _ _ _ _ ND HE).
Qed.

(** Operators that answer. *)
Definition quiet (T : tables) (c : nat) : Prop := forall n x y, exists b, answers P (op_of (T c) n) (Some x) (Some y) (inl b).
Definition says (T : tables) (c : nat) (n : string) (x y : val) : Prop := answers P (op_of (T c) n) (Some x) (Some y) (inl true).
(** The model has values for all fields of its class. *)
Definition filled (T : tables) (m : mobj) : Prop := forall n, In n (map fst (T (mo_class m))) -> mo_attr m n <> None.
(** The operators of all fields are equivalences. *)
Definition equalities (T : tables) (c : nat) : Prop :=
  (forall n x, says T c n x x) /\ (forall n x y, says T c n x y -> says T c n y x)
  /\ (forall n x y z, says T c n x y -> says T c n y z -> says T c n x z).

Lemma answers_one : forall op x y r s, answers P op x y r -> answers P op x y s -> r = s.
Proof. intros op x y r s H1 H2. inversion H1; subst; inversion H2; subst; congruence. Qed.
Lemma quiet_eq : forall a b T T' r, NoDup (map fst (T (mo_class a))) -> quiet T (mo_class a) ->
  model_eq P dump foreign a (PModel b) T = (T', r) ->
  exists v, r = inl v /\ (v = true <-> forall n, In n (map fst (T (mo_class a))) ->
     exists x y, mo_attr a n = Some x /\ mo_attr b n = Some y /\ says T (mo_class a) n y x).
Proof.
  intros a b T T' r ND HQ H. pose proof (C82_fields _ _ _ _ _ ND H) as HF. destruct r as [[|]|e].
  - exists true. split; [reflexivity|]. split; [|reflexivity]. intros _ n Hn. destruct (HF n Hn) as (x & y & Hx & Hy & HE).
    exists x, y. split; [exact Hx|]. split; [exact Hy|]. destruct (HQ n y x) as [v Hv].
    pose proof (eq_plain P _ _ _ _ Hv) as HE'. pose proof (equals_fun _ _ _ _ _ _ HE HE') as K. injection K as <-. exact Hv.
  - exists false. split; [reflexivity|]. split; [discriminate|]. intros HA. exfalso. destruct HF as (n & Hn & HD).
    destruct (HA n Hn) as (x & y & Hx & Hy & HS). destruct HD as [HD|[HD|(x' & y' & Hx' & Hy' & HE)]]; [congruence|congruence|].
    rewrite Hx in Hx'. injection Hx' as <-. rewrite Hy in Hy'. injection Hy' as <-.
    pose proof (equals_fun _ _ _ _ _ _ HE (eq_plain P _ _ _ _ HS)). discriminate.
  - exfalso. destruct HF as (n & k & x & y & _ & -> & _ & _ & HE). destruct (HQ n y x) as [v Hv].
    pose proof (equals_fun _ _ _ _ _ _ HE (eq_plain P _ _ _ _ Hv)). discriminate.
Qed.
(** C82: if == of the field values is an equivalence (and raises nothing), == of models of one class is one; it tells whether
    all fields are equal. *)
Theorem C82_equivalence_partial : forall T c, NoDup (map fst (T c)) -> quiet T c -> equalities T c ->
  (forall k, below k k = false) ->
  (forall a b, mo_class a = c -> mo_class b = c -> exists v, snd (equal_models P below dump foreign a b T) = inl v
     /\ (v = true <-> forall n, In n (map fst (T c)) -> exists x y, mo_attr a n = Some x /\ mo_attr b n = Some y /\ says T c n x y))
  /\ (forall a, mo_class a = c -> filled T a -> snd (equal_models P below dump foreign a a T) = inl true)
  /\ (forall a b, mo_class a = c -> mo_class b = c ->
        snd (equal_models P below dump foreign a b T) = snd (equal_models P below dump foreign b a T))
  /\ (forall a b d, mo_class a = c -> mo_class b = c -> mo_class d = c ->
        snd (equal_models P below dump foreign a b T) = inl true -> snd (equal_models P below dump foreign b d T) = inl true ->
        snd (equal_models P below dump foreign a d T) = inl true).
Proof.
  intros T c ND HQ (ER & ES & ET) HB.
  assert (HX : forall a b, mo_class a = c -> mo_class b = c -> exists v, snd (equal_models P below dump foreign a b T) = inl v
     /\ (v = true <-> forall n, In n (map fst (T c)) -> exists x y, mo_attr a n = Some x /\ mo_attr b n = Some y /\ says T c n x y)).
  { intros a b Ha Hb. unfold equal_models. rewrite Ha, Hb, HB.
    destruct (model_eq P dump foreign a (PModel b) T) as [T' r] eqn:HE. subst c.
    destruct (quiet_eq _ _ _ _ _ ND HQ HE) as (v & -> & Hv). exists v. split; [reflexivity|]. rewrite Hv.
    split; intros HA n Hn; destruct (HA n Hn) as (x & y & Hx & Hy & HS); exists x, y; eauto. }
  split; [exact HX|]. split; [|split].
  - intros a Ha HF. destruct (HX a a Ha Ha) as (v & -> & Hv). f_equal. apply Hv. intros n Hn. subst c.
    specialize (HF n Hn). destruct (mo_attr a n) as [x|]; [|congruence]. now exists x, x.
  - intros a b Ha Hb. destruct (HX a b Ha Hb) as (v & -> & Hv). destruct (HX b a Hb Ha) as (v' & -> & Hv'). f_equal.
    apply eq_true_iff_eq. rewrite Hv, Hv'. split; intros HA n Hn; destruct (HA n Hn) as (x & y & Hx & Hy & HS); exists y, x; eauto.
  - intros a b d Ha Hb Hd H1 H2. destruct (HX a b Ha Hb) as (v1 & E1 & V1). destruct (HX b d Hb Hd) as (v2 & E2 & V2).
    destruct (HX a d Ha Hd) as (v3 & -> & V3). f_equal. apply V3. rewrite H1 in E1. injection E1 as <-. rewrite H2 in E2. injection E2 as <-.
    intros n Hn. destruct (proj1 V1 eq_refl n Hn) as (x & y & Hx & Hy & S1). destruct (proj1 V2 eq_refl n Hn) as (y' & z & Hy' & Hz & S2).
    rewrite Hy in Hy'. injection Hy' as <-. exists x, z. split; [exact Hx|]. split; [exact Hz|]. now apply (ET n x y z).
Qed.
(** C82: a model and one of a derived class: the same answer from both sides, and no False from fields of the derived class
    that the other has not is missed. *)
Theorem C82_derived : forall T a b, below (mo_class b) (mo_class a) = true -> below (mo_class a) (mo_class b) = false ->
  equal_models P below dump foreign a b T = equal_models P below dump foreign b a T
  /\ (NoDup (map fst (T (mo_class b))) -> forall n, In n (map fst (T (mo_class b))) -> mo_attr a n = None ->
       snd (equal_models P below dump foreign a b T) <> inl true).
Proof.
  intros T a b H1 H2. unfold equal_models. rewrite H1, H2. split; [reflexivity|]. intros ND n Hn HA HR.
  destruct (model_eq P dump foreign b (PModel a) T) as [T' r] eqn:HE. cbn [snd] in HR. subst r.
  destruct (C82_fields _ _ _ _ _ ND HE n Hn) as (x & y & _ & Hy & _). congruence.
Qed.
(** C82: with a dict, its content is compared with that of model_dump(). *)
Theorem C82_dict : forall a d T, (forall x y e, p_eval P OpEq x y <> inr e) -> is_dict (dump a) ->
  exists v, model_eq P dump foreign a (PDict d) T = (T, inl v)
  /\ (v = true <-> List.length (dump a) = List.length d /\
       forall k x, sget k (dump a) = Some x -> exists y, sget k d = Some y
         /\ (p_is P (Some x) (Some y) = true \/ p_eval P OpEq (Some x) (Some y) = inl true)).
Proof.
  intros a d T HE HD. cbn [model_eq]. unfold dicts_eq. destruct (Nat.eqb_spec (List.length (dump a)) (List.length d)) as [HL|HL].
  2:{ exists false. split; [reflexivity|]. split; [discriminate|]. intros [H _]. contradiction. }
  assert (HV : exists v, values_eq P (dump a) d = inl v /\ (v = true <-> forall k x, In (k, x) (dump a) -> exists y, sget k d = Some y
         /\ (p_is P (Some x) (Some y) = true \/ p_eval P OpEq (Some x) (Some y) = inl true))).
  { clear HD HL. induction (dump a) as [|[k x] l IH]; cbn [values_eq].
    - exists true. split; [reflexivity|]. split; [intros _ ? ? []|reflexivity].
    - destruct IH as (v & Hv & IH).
      assert (HT : forall y, sget k d = Some y -> (p_is P (Some x) (Some y) = true \/ p_eval P OpEq (Some x) (Some y) = inl true) ->
        (v = true <-> forall k0 x0, In (k0, x0) ((k, x) :: l) -> exists y, sget k0 d = Some y
         /\ (p_is P (Some x0) (Some y) = true \/ p_eval P OpEq (Some x0) (Some y) = inl true))).
      { intros y Hy HX. rewrite IH. split; intros H k0 x0 Hk; [|apply H; now right].
        destruct Hk as [Hk|Hk]; [injection Hk as <- <-; now exists y|now apply H]. }
      destruct (sget k d) as [y|] eqn:Hy.
      + destruct (p_is P (Some x) (Some y)) eqn:HI; [exists v; split; [exact Hv|apply (HT y); auto]|].
        destruct (p_eval P OpEq (Some x) (Some y)) as [[|]|e] eqn:HQ; [exists v; split; [exact Hv|apply (HT y); auto]| |now apply HE in HQ].
        exists false. split; [reflexivity|]. split; [discriminate|]. intros H. destruct (H k x) as (z & Hz & K); [now left|].
        rewrite Hy in Hz. injection Hz as <-. destruct K; congruence.
      + exists false. split; [reflexivity|]. split; [discriminate|]. intros H. destruct (H k x) as (z & Hz & _); [now left|]. congruence. }
  destruct HV as (v & -> & HV). exists v. split; [reflexivity|]. rewrite HV. split.
  - intros H. split; [exact HL|]. intros k x Hk. apply H. now apply sget_In.
  - intros [_ H] k x Hk. apply H. now apply sget_In in Hk.
Qed.
End C82.

(** Classes: 0 has x; 1, derived from it, has x and y; 2, unrelated, has x and y too. *)
Definition Q_tables : tables := fun c => match c with 0 => [("x", OpEq)] | _ => [("x", OpEq); ("y", OpEq)] end.
Definition Q_below (c d : nat) : bool := Nat.eqb c 1 && Nat.eqb d 0.
Definition plain_values : values := Values
  (fun _ x y => match x, y with Some a, Some b => inl (val_eqb a b) | _, _ => inl false end)
  (fun x y => match x, y with Some a, Some b => val_eqb a b | _, _ => false end) (fun _ => false) false.
Definition Q_obj (c : nat) (x : val) (y : option val) : mobj :=
  Mobj c (fun n => if String.eqb n "x" then Some x else if String.eqb n "y" then y else None).
Definition Q_dump (m : mobj) : list (string * val) :=
  match mo_attr m "x", mo_attr m "y" with Some x, Some y => [("x", x); ("y", y)] | Some x, None => [("x", x)] | _, _ => [] end.
Definition Q_eq (P : values) (a b : mobj) (T : tables) : bool + exn := snd (equal_models P Q_below Q_dump (fun _ _ => inl false) a b T).
Example C82_case :
  NoDup (map fst (Q_tables 1)) /\ quiet plain_values Q_tables 1 /\ equalities plain_values Q_tables 1
  /\ filled Q_tables (Q_obj 1 (VInt 1) (Some (VInt 2)))
  /\ Q_eq plain_values (Q_obj 1 (VInt 1) (Some (VInt 2))) (Q_obj 1 (VInt 1) (Some (VInt 2))) Q_tables = inl true
  /\ Q_eq plain_values (Q_obj 1 (VInt 1) (Some (VInt 2))) (Q_obj 1 (VInt 1) (Some (VInt 3))) Q_tables = inl false
  /\ Q_eq plain_values (Q_obj 0 (VInt 1) None) (Q_obj 1 (VInt 1) (Some (VInt 3))) Q_tables = inl false
  /\ snd (model_eq plain_values Q_dump (fun _ _ => inl false) (Q_obj 1 (VInt 1) (Some (VInt 2))) (PDict [("y", VInt 2); ("x", VInt 1)]) Q_tables) = inl true.
Proof.
  assert (HO : forall n, op_of (Q_tables 1) n = OpEq).
  { intros n. unfold op_of. cbn. destruct (String.eqb n "x"), (String.eqb n "y"); reflexivity. }
  assert (HS : forall n x y, says plain_values Q_tables 1 n x y <-> x = y).
  { intros n x y. unfold says. rewrite HO. rewrite <- (val_eqb_eq x y). split.
    - intros H. assert (K : answers plain_values OpEq (Some x) (Some y) (inl (val_eqb x y))) by (apply (an_op plain_values OpEq); discriminate).
      pose proof (answers_one _ _ _ _ _ _ H K). congruence.
    - intros H. replace (inl true : bool + exn) with (p_eval plain_values OpEq (Some x) (Some y)); [constructor; discriminate|]. cbn. now rewrite H. }
  split. { cbn. repeat constructor; cbn; intuition discriminate. }
  split. { intros n x y. rewrite HO. exists (val_eqb x y). apply (an_op plain_values OpEq). discriminate. }
  split. { split; [|split]; intros *; rewrite ?HS; congruence. }
  split. { intros n [<-|[<-|[]]]; discriminate. }
  repeat split; reflexivity.
Qed.
(** False of the code: models of unrelated classes can be equal in one direction only; x and y equal, y and z, but not x and z. *)
Theorem C82_unrelated_refuted :
  (exists a b, Q_eq plain_values a b Q_tables = inl true /\ Q_eq plain_values b a Q_tables = inl false)
  /\ (exists a b c, Q_eq plain_values a b Q_tables = inl true /\ Q_eq plain_values b c Q_tables = inl true
        /\ Q_eq plain_values a c Q_tables = inl false).
Proof.
  split.
  - exists (Q_obj 0 (VInt 1) None), (Q_obj 2 (VInt 1) (Some (VInt 3))). split; reflexivity.
  - exists (Q_obj 0 (VInt 1) None), (Q_obj 2 (VInt 1) (Some (VInt 3))), (Q_obj 1 (VInt 1) (Some (VInt 3))). repeat split; reflexivity.
Qed.
(** False of the code: a comparison that raises once changes the later ones of the class: two models that were equal are not
    any more. *)
Theorem C82_sticky_refuted : exists (P : values) a b d T', p_is P (mo_attr a "x") (mo_attr b "x") = false
  /\ Q_eq P a b Q_tables = inl true
  /\ equal_models P Q_below Q_dump (fun _ _ => inl false) a d Q_tables = (T', inl false)
  /\ Q_eq P a b T' = inl false.
Proof.
  set (P := Values (fun _ x y => match x, y with Some (VObj 9), _ | _, Some (VObj 9) => inr EValue | _, _ => inl true end)
    (fun x y => match x, y with Some a, Some b => val_eqb a b | _, _ => false end) (fun _ => false) false).
  exists P, (Q_obj 0 (VObj 1) None), (Q_obj 0 (VObj 2) None), (Q_obj 0 (VObj 9) None). eexists. repeat split; reflexivity.
Qed.
Print Assumptions C82_fields.
Print Assumptions C82_equivalence_partial.
Print Assumptions C82_derived.
Print Assumptions C82_dict.
Print Assumptions C82_unrelated_refuted.
Print Assumptions C82_sticky_refuted.
