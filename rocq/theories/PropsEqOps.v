(** The operators fields are compared with: C87. *)

From Verif Require Import Base Core Evented SpecEvented PropsEvented EqOps.
Open Scope string_scope.
Open Scope list_scope.

(** The operator a user expects for a field of a class whose group was built: the one given
    to the descriptor, or else the default of the field's type. *)
Definition expected (given fields : list (string * eqop)) (name : string) : option eqop :=
  match sget name fields with
  | None => None
  | Some default => Some (match sget name given with Some op => op | None => default end)
  end.

Section C87.
Variable mro : cls -> list cls.
Variable P : values.

(** Two classes use the same dict: the same __eq_operators__, or it is the same class. *)
Definition share (h : heap) (c c' : cls) : Prop :=
  match lookup h (mro c), lookup h (mro c') with
  | Some d, Some d' => d = d'
  | None, None => c = c'
  | _, _ => False
  end.
(** The comparison needs no other operator than [op]. *)
Definition answered (op : eqop) (before after : option val) : Prop :=
  before = None \/ (exists b, answers P op after before (inl b))
  \/ exists n, answers P op after before (inr (EBase n)).

(** [calm c name op h l]: in the history [l], which starts in [h], nothing happens to classes
    that share their dict with [c], except comparisons that can be answered by the operator
    [op] of the field [name], and comparisons of other fields. *)
Inductive calm (c : cls) (name : string) (op : eqop) : heap -> list action -> Prop :=
| calm_nil : forall h, calm c name op h []
| calm_build : forall h c' given fields l, ~ share h c c' ->
    calm c name op (fst (act mro P (Build c' given fields) h)) l ->
    calm c name op h (Build c' given fields :: l)
| calm_other : forall h c' name' before after l, ~ share h c c' \/ name' <> name ->
    calm c name op (fst (act mro P (Compare c' name' before after) h)) l ->
    calm c name op h (Compare c' name' before after :: l)
| calm_same : forall h c' before after l, answered op before after ->
    calm c name op (fst (act mro P (Compare c' name before after) h)) l ->
    calm c name op h (Compare c' name before after :: l)
| calm_declare : forall h c' d t l, ~ In c' (mro c) -> lookup h (mro c) <> Some d ->
    calm c name op (fst (act mro P (Declare c' d t) h)) l ->
    calm c name op h (Declare c' d t :: l).

Lemma lookup_set : forall h c t l, lookup (set_table mro h c t) l = lookup h l.
Proof.
  intros h c t l. induction l as [|x l IH]; cbn; [reflexivity|]. rewrite IH.
  unfold set_table. destruct (lookup h (mro c)); reflexivity.
Qed.
Lemma table_same : forall h c t, table mro (set_table mro h c t) c = t.
Proof.
  intros h c t. unfold table. rewrite lookup_set. unfold set_table.
  destruct (lookup h (mro c)); cbn; now rewrite Nat.eqb_refl.
Qed.
Lemma share_table : forall h c c' t, share h c c' -> table mro (set_table mro h c' t) c = t.
Proof.
  intros h c c' t H. unfold share in H. unfold table. rewrite lookup_set. unfold set_table.
  destruct (lookup h (mro c)), (lookup h (mro c')); cbn; try contradiction; subst; now rewrite Nat.eqb_refl.
Qed.
Lemma share_read : forall h c c', share h c c' -> table mro h c' = table mro h c.
Proof.
  intros h c c' H. unfold share in H. unfold table.
  destruct (lookup h (mro c)), (lookup h (mro c')); try contradiction; now subst.
Qed.
Lemma table_other : forall h c c' t, ~ share h c c' -> table mro (set_table mro h c' t) c = table mro h c.
Proof.
  intros h c c' t H. unfold share in H. unfold table. rewrite lookup_set. unfold set_table.
  destruct (lookup h (mro c)) as [d|], (lookup h (mro c')) as [d'|]; cbn; try reflexivity.
  - replace (Nat.eqb d d') with false; [reflexivity|]. symmetry. now apply Nat.eqb_neq.
  - replace (Nat.eqb c c') with false; [reflexivity|]. symmetry. now apply Nat.eqb_neq.
Qed.
Lemma share_dec : forall h c c', share h c c' \/ ~ share h c c'.
Proof.
  intros h c c'. unfold share. destruct (lookup h (mro c)) as [d|], (lookup h (mro c')) as [d'|]; try tauto.
  - destruct (Nat.eq_dec d d'); tauto.
  - destruct (Nat.eq_dec c c'); tauto.
Qed.
Lemma check_other : forall name name' before after t t' r,
  check_equal P name' before after t = (t', r) -> name' <> name -> sget name t' = sget name t.
Proof.
  intros name name' before after t t' r H Hn. unfold check_equal in H.
  destruct before as [b|]; [|now injection H as <- <-].
  assert (E : String.eqb name name' = false) by (apply String.eqb_neq; congruence).
  cbv zeta in H.
  repeat match type of H with
         | context [match ?x with _ => _ end] => destruct x; try (injection H as <- <-)
         end; rewrite ?sget_sset, ?E; try reflexivity.
Qed.
Lemma check_same : forall name op before after t t' r,
  check_equal P name before after t = (t', r) -> sget name t = Some op -> answered op before after ->
  sget name t' = Some op.
Proof.
  intros name op before after t t' r H Ht Ha. unfold check_equal in H.
  destruct before as [b|]; [|injection H as <- <-; exact Ht]. cbv zeta in H. rewrite Ht in H.
  destruct Ha as [Ha|[(x & Ha)|(n & Ha)]]; [discriminate| |]; apply answers_fun in Ha; rewrite <- Ha in H.
  - injection H as <- <-. now rewrite sget_sset, String.eqb_refl.
  - cbn in H. injection H as <- <-. now rewrite sget_sset, String.eqb_refl.
Qed.
Lemma calm_table : forall c name op l h, calm c name op h l ->
  sget name (table mro h c) = Some op -> sget name (table mro (history mro P l h) c) = Some op.
Proof.
  intros c name op l. induction l as [|a l IH]; intros h H Ht; cbn [history]; [exact Ht|].
  inversion H; subst; (apply IH; [assumption|]).
  - cbn [act fst]. now rewrite table_other.
  - cbn [act]. destruct (check_equal P name' before after (table mro h c')) as [t r] eqn:E. cbn [fst].
    destruct (share_dec h c c') as [S|S]; [|now rewrite table_other].
    rewrite share_table by exact S. rewrite (share_read _ _ _ S) in E.
    match goal with X : ~ share h c c' \/ _ |- _ => destruct X as [X|X]; [contradiction|] end.
    match goal with X : name' <> name |- _ => now rewrite (check_other _ _ _ _ _ _ _ E X) end.
  - cbn [act]. destruct (check_equal P name before after (table mro h c')) as [t r] eqn:E. cbn [fst].
    destruct (share_dec h c c') as [S|S]; [|now rewrite table_other].
    rewrite share_table by exact S. rewrite (share_read _ _ _ S) in E. eapply check_same; eauto.
  - cbn [act fst]. unfold table in *. cbn [h_dict h_global].
    assert (L : forall m, ~ In c' m -> lookup (Heap (fun x => if Nat.eqb x c' then Some d else h_attr h x)
              (fun x => if Nat.eqb x d then t else h_dict h x) (h_global h)) m = lookup h m).
    { induction m as [|x m IHm]; intros Hm; cbn; [reflexivity|].
      destruct (Nat.eqb_spec x c') as [->|]; [destruct Hm; now left|]. rewrite IHm; [reflexivity|].
      intros X. apply Hm. now right. }
    rewrite L by assumption. destruct (lookup h (mro c)) as [d0|]; [|exact Ht].
    destruct (Nat.eqb_spec d0 d) as [->|]; [congruence|exact Ht].
Qed.

(** As long as the history is calm, the field is compared by its operator.  (If that raises,
    by the rules of [equals].) *)
Theorem C87_kept_partial : forall c name op l h before after,
  sget name (table mro h c) = Some op -> calm c name op h l ->
  match snd (act mro P (Compare c name before after) (history mro P l h)) with
  | inl true => unchanged P op before after
  | inl false => changed P op before after
  | inr e => (exists n, e = EBase n) /\ equals P op after before (inr e)
  end.
Proof.
  intros c name op l h before after Ht Hc. pose proof (calm_table _ _ _ _ _ Hc Ht) as K.
  cbn [act]. destruct (check_equal P name before after _) as [t r] eqn:E. cbn [snd].
  apply check_equal_spec in E. unfold op_of in E. rewrite K in E.
  destruct r as [[|]|e]; auto. destruct E as (n & -> & _ & E). split; [eauto|exact E].
Qed.
Lemma fill_sget : forall given fields t name, is_dict fields ->
  sget name (fill given fields t)
  = match expected given fields name with Some op => Some op | None => sget name t end.
Proof.
  intros given fields. unfold expected, is_dict. induction fields as [|[x d] fields IH]; intros t name H; cbn; [reflexivity|].
  cbn in H. apply NoDup_cons_iff in H as [H1 H2]. rewrite IH by exact H2. rewrite sget_sset.
  destruct (String.eqb name x) eqn:E; [|reflexivity]. apply String.eqb_eq in E. subst x.
  replace (sget name fields) with (@None eqop); [reflexivity|].
  symmetry. clear -H1. induction fields as [|[y z] fields IH]; cbn in *; [reflexivity|].
  destruct (String.eqb name y) eqn:E; [apply String.eqb_eq in E; subst; tauto|]. apply IH. tauto.
Qed.
(** Building the group gives each field the expected operator, whatever was there before;
    other names keep theirs. *)
Theorem C87_built : forall c given fields h name, is_dict fields ->
  sget name (table mro (fst (act mro P (Build c given fields) h)) c)
  = match expected given fields name with Some op => Some op | None => sget name (table mro h c) end.
Proof. intros c given fields h name H. cbn [act fst]. rewrite table_same. now apply fill_sget. Qed.
(** Declaring __eq_operators__ in a class gives it these operators. *)
Theorem C87_declared : forall c d t h, hd_error (mro c) = Some c ->
  table mro (fst (act mro P (Declare c d t) h)) c = t.
Proof.
  intros c d t h H. cbn [act fst]. unfold table. destruct (mro c) as [|x m]; [discriminate|].
  cbn in H. injection H as ->. cbn. now rewrite !Nat.eqb_refl.
Qed.
(** Both together. *)
Theorem C87_used_partial : forall c given fields l h name op before after,
  is_dict fields -> expected given fields name = Some op ->
  calm c name op (fst (act mro P (Build c given fields) h)) l ->
  match snd (act mro P (Compare c name before after) (history mro P (Build c given fields :: l) h)) with
  | inl true => unchanged P op before after
  | inl false => changed P op before after
  | inr e => (exists n, e = EBase n) /\ equals P op after before (inr e)
  end.
Proof.
  intros c given fields l h name op before after Hd He Hc. cbn [history].
  apply C87_kept_partial; [|exact Hc]. rewrite C87_built by exact Hd. now rewrite He.
Qed.
End C87.

(** Class 1 derives from class 0.  User operator 0 compares like ==, 1 calls everything
    equal, and 2 raises for the string "odd".  Strings are arrays. *)
Definition C87_mro (c : cls) : list cls := match c with 1 => [1; 0] | 3 => [3; 2] | c => [c] end.
Definition val_eqb (a b : option val) : bool :=
  match a, b with
  | Some (VInt x), Some (VInt y) => Z.eqb x y
  | Some (VStr x), Some (VStr y) => String.eqb x y
  | _, _ => false
  end.
Definition C87_values : values := Values
  (fun op a b => match op with
                 | OpUser 1 => inl true
                 | OpUser 2 => match a with Some (VStr "odd") => inr EValue | _ => inl (val_eqb a b) end
                 | _ => inl (val_eqb a b)
                 end)
  (fun a b => match a, b with Some (VInt x), Some (VInt y) => Z.eqb x y | _, _ => false end)
  (fun _ => false) false.
Definition C87_fields : list (string * eqop) := [("x", OpEq); ("y", OpEq)].
Definition C87_history : list action :=
  [Build 1 [("x", OpUser 0)] C87_fields; Compare 0 "x" (Some (VInt 1)) (Some (VInt 2));
   Compare 1 "y" (Some (VInt 1)) (Some (VInt 2)); Declare 2 7 [("x", OpIs)]; Build 3 [] C87_fields].
Example C87_case :
  is_dict C87_fields /\ expected [("x", OpUser 1)] C87_fields "x" = Some (OpUser 1)
  /\ expected [("x", OpUser 1)] C87_fields "y" = Some OpEq
  /\ calm C87_mro C87_values 0 "x" (OpUser 1)
       (fst (act C87_mro C87_values (Build 0 [("x", OpUser 1)] C87_fields) start)) C87_history
  /\ snd (act C87_mro C87_values (Compare 0 "x" (Some (VInt 1)) (Some (VInt 2)))
           (history C87_mro C87_values (Build 0 [("x", OpUser 1)] C87_fields :: C87_history) start)) = inl true
  /\ snd (act C87_mro C87_values (Compare 1 "x" (Some (VInt 1)) (Some (VInt 2)))
           (history C87_mro C87_values (Build 0 [("x", OpUser 1)] C87_fields :: C87_history) start)) = inl false.
Proof.
  split; [repeat constructor; cbn; intuition discriminate|]. split; [reflexivity|]. split; [reflexivity|].
  split; [|split; vm_compute; reflexivity].
  apply calm_build; [cbn; discriminate|].
  apply calm_same; [right; left; eexists; exact (an_op C87_values (OpUser 1) _ _ ltac:(discriminate))|].
  apply calm_other; [left; cbn; discriminate|].
  apply calm_declare; [cbn; intros [X|[]]; discriminate|cbn; discriminate|].
  apply calm_build; [cbn; intros []|]. apply calm_nil.
Qed.

(** False of the code: operators declared in __eq_operators__ are replaced by the defaults
    when the group is built (x is compared by == although 1 was declared for it). *)
Theorem C87_declared_refuted : exists h,
  h = history C87_mro C87_values [Declare 0 5 [("x", OpUser 1)]; Build 0 [] C87_fields] start
  /\ snd (act C87_mro C87_values (Compare 0 "x" (Some (VInt 1)) (Some (VInt 2)))
           (history C87_mro C87_values [Declare 0 5 [("x", OpUser 1)]] start)) = inl true
  /\ snd (act C87_mro C87_values (Compare 0 "x" (Some (VInt 1)) (Some (VInt 2))) h) = inl false.
Proof. eexists. split; [reflexivity|]. split; vm_compute; reflexivity. Qed.
(** Nor does a class keep the operators given to its descriptor, if it has a dict
    __eq_operators__ and the group of a derived class is built with others. *)
Theorem C87_inherited_refuted : exists h,
  h = history C87_mro C87_values
        [Declare 0 5 []; Build 0 [("x", OpUser 1)] C87_fields; Build 1 [] C87_fields] start
  /\ expected [("x", OpUser 1)] C87_fields "x" = Some (OpUser 1)
  /\ snd (act C87_mro C87_values (Compare 0 "x" (Some (VInt 1)) (Some (VInt 2))) h) = inl false.
Proof. eexists. split; [reflexivity|]. split; vm_compute; reflexivity. Qed.
(** Nor if a comparison raised once: equal strings are different from then on. *)
Theorem C87_sticky_refuted : exists h,
  h = history C87_mro C87_values
        [Build 0 [("x", OpUser 2)] C87_fields; Compare 0 "x" (Some (VInt 1)) (Some (VStr "odd"))] start
  /\ snd (act C87_mro C87_values (Compare 0 "x" (Some (VStr "a")) (Some (VStr "a")))
           (history C87_mro C87_values [Build 0 [("x", OpUser 2)] C87_fields] start)) = inl true
  /\ snd (act C87_mro C87_values (Compare 0 "x" (Some (VStr "a")) (Some (VStr "a"))) h) = inl false.
Proof. eexists. split; [reflexivity|]. split; vm_compute; reflexivity. Qed.
Print Assumptions C87_kept_partial.
Print Assumptions C87_built.
Print Assumptions C87_declared.
Print Assumptions C87_used_partial.
Print Assumptions C87_declared_refuted.
Print Assumptions C87_inherited_refuted.
Print Assumptions C87_sticky_refuted.
