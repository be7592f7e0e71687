(** Evented dataclasses: C45, C46. *)

From Coq Require Import Permutation.
From Verif Require Import Base Core Frame Fuel Conn Keep Spec Trace Inv Quiet Deliver Emission Demo
  Evented SpecEvented.
Open Scope string_scope.
Open Scope list_scope.

(** * C46 *)

Lemma mem_In : forall k l, mem k l = true <-> In k l.
Proof.
  intros k l. unfold mem. rewrite existsb_exists. split.
  - intros (x & Hi & Hx). apply String.eqb_eq in Hx. now subst.
  - intros H. exists k. split; [exact H|apply String.eqb_refl].
Qed.
Lemma mem_not_In : forall k l, mem k l = false <-> ~ In k l.
Proof. intros. rewrite <- mem_In. destruct (mem k l); intuition congruence. Qed.
Lemma sinsert_perm : forall k l, Permutation (k :: l) (sinsert k l).
Proof.
  intros k l. induction l as [|x l IH]; cbn; [reflexivity|]. destruct (String.leb k x); [reflexivity|].
  rewrite perm_swap. now constructor.
Qed.
Lemma ssort_perm : forall l, Permutation l (ssort l).
Proof. induction l as [|x l IH]; cbn; [constructor|]. rewrite <- sinsert_perm. now constructor. Qed.
Lemma ssort_In : forall n l, In n (ssort l) <-> In n l.
Proof. intros. split; apply Permutation_in; [symmetry|]; apply ssort_perm. Qed.
Lemma sget_sset : forall {A} k k' (v : A) d,
  sget k (sset k' v d) = if String.eqb k k' then Some v else sget k d.
Proof.
  intros A k k' v d. induction d as [|[x y] d IH]; cbn.
  - now destruct (String.eqb k k').
  - destruct (String.eqb k' x) eqn:E1; cbn.
    + apply String.eqb_eq in E1. subst. now destruct (String.eqb k x).
    + rewrite IH. destruct (String.eqb k x) eqn:E2; [|reflexivity].
      apply String.eqb_eq in E2. subst. destruct (String.eqb x k') eqn:E3; [|reflexivity].
      apply String.eqb_eq in E3. subst. now rewrite String.eqb_refl in E1.
Qed.
Lemma sset_keys : forall {A} k (v : A) d x, In x (map fst (sset k v d)) -> x = k \/ In x (map fst d).
Proof.
  intros A k v d. induction d as [|[y z] d IH]; cbn; intros x.
  - intros [<-|[]]. now left.
  - destruct (String.eqb k y); cbn; [tauto|]. intros [<-|H]; [tauto|]. apply IH in H. tauto.
Qed.
Lemma sset_dict : forall {A} k (v : A) d, is_dict d -> is_dict (sset k v d).
Proof.
  unfold is_dict. intros A k v d. induction d as [|[y z] d IH]; cbn; intros H.
  - constructor; [intros []|constructor].
  - inversion H as [|? ? H1 H2]; subst. destruct (String.eqb k y) eqn:E1; cbn; [exact H|].
    constructor; [|now apply IH]. intros Hi. apply sset_keys in Hi as [->|Hi]; [|now apply H1].
    now rewrite String.eqb_refl in E1.
Qed.
(** Updating a dict with another one. *)
Lemma sget_merge : forall {A} (al : list (string * A)) d k, is_dict al ->
  sget k (fold_left (fun d kv => sset (fst kv) (snd kv) d) al d)
  = match sget k al with Some v => Some v | None => sget k d end.
Proof.
  unfold is_dict. intros A al. induction al as [|[x v] al IH]; intros d k H; cbn; [reflexivity|].
  inversion H as [|? ? H1 H2]; subst. rewrite IH by exact H2. cbn. rewrite sget_sset.
  destruct (String.eqb k x) eqn:E1; [|reflexivity].
  apply String.eqb_eq in E1. subst. replace (sget x al) with (@None A); [reflexivity|].
  symmetry. clear -H1. induction al as [|[y z] al IH]; cbn in *; [reflexivity|].
  destruct (String.eqb x y) eqn:E1; [|apply IH; tauto]. apply String.eqb_eq in E1. subst. tauto.
Qed.

Lemma NoDup_app : forall {A} (l m : list A), NoDup l -> NoDup m -> (forall x, In x l -> ~ In x m) -> NoDup (l ++ m).
Proof.
  intros A l m Hl Hm Hd. induction l as [|x l IH]; cbn; [exact Hm|].
  inversion Hl as [|? ? H1 H2]; subst. constructor.
  - rewrite in_app_iff. intros [H|H]; [now apply H1|]. apply (Hd x); [now left|exact H].
  - apply IH; [exact H2|]. intros y Hy. apply Hd. now right.
Qed.

Definition trans (a : option alias_arg) := match a with Some (AFun f) => Some f | _ => None end.
Definition given (a : option alias_arg) := match a with Some (AMap m) => m | _ => [] end.
Section Collect.
Variable base : gclass.
Variable a : option alias_arg.

(** The table of aliases in the middle of the loop. *)
Record table (al : list (string * option string)) : Prop := {
  ta_dict : is_dict al;
  ta_given : forall k n, sget k (given a) = Some n -> sget k al = Some n;
  ta_known : forall k n, sget k al = Some n -> n = sig_for a base k
}.
Lemma given_sig : forall k n, sget k (given a) = Some n -> n = sig_for a base k.
Proof. intros k n H. unfold given in H. destruct a as [[m|f]|]; cbn in *; try discriminate. now rewrite H. Qed.
Lemma table_start : is_dict (given a) -> table (given a).
Proof. intros Hd. split; [exact Hd|auto|apply given_sig]. Qed.
Lemma resolve_table : forall f al, table al ->
  let (n, al1) := resolve (trans a) (g_aliases base) f al in
  table al1 /\ n = sig_for a base f /\ (forall k v, sget k al = Some v -> sget k al1 = Some v)
  /\ match sget f al1 with Some v => v | None => class_alias base f end = sig_for a base f.
Proof.
  intros f al T. unfold resolve. destruct (sget f al) as [n|] eqn:E1.
  { split; [exact T|]. pose proof (ta_known _ T _ _ E1). rewrite E1. auto. }
  assert (Hs : forall v, v = sig_for a base f -> table (sset f v al)
            /\ v = sig_for a base f /\ (forall k w, sget k al = Some w -> sget k (sset f v al) = Some w)
            /\ match sget f (sset f v al) with Some v => v | None => class_alias base f end = sig_for a base f).
  { intros v Hv. assert (K : forall k w, sget k al = Some w -> sget k (sset f v al) = Some w).
    { intros k w Hk. rewrite sget_sset. destruct (String.eqb k f) eqn:E2; [|exact Hk].
      apply String.eqb_eq in E2. congruence. }
    split; [|split; [exact Hv|split; [exact K|]]].
    - split; [apply sset_dict, T|intros k w Hk; apply K, T, Hk|].
      intros k w Hk. rewrite sget_sset in Hk. destruct (String.eqb k f) eqn:E2; [|now apply T].
      apply String.eqb_eq in E2. congruence.
    - rewrite sget_sset, String.eqb_refl. exact Hv. }
  assert (Hn : sget f (given a) = None).
  { destruct (sget f (given a)) eqn:E2; [|reflexivity]. apply (ta_given _ T) in E2. congruence. }
  clear -Hn Hs E1 T. destruct a as [[m|t]|]; cbn in *.
  - unfold class_alias in *. rewrite Hn in *. destruct (sget f (g_aliases base)) as [n|] eqn:E2; [now apply Hs|].
    split; [exact T|]. split; [reflexivity|]. split; [auto|]. now rewrite E1.
  - now apply Hs.
  - unfold class_alias in *. destruct (sget f (g_aliases base)) as [n|] eqn:E2; [now apply Hs|].
    split; [exact T|]. split; [reflexivity|]. split; [auto|]. now rewrite E1.
Qed.
Lemma collect_spec : forall fields sigs al out al1, table al -> NoDup sigs ->
  (forall n, In n sigs -> ~ In n (g_signals base)) ->
  collect (trans a) base fields sigs al = (out, al1) ->
  table al1 /\ NoDup out
  /\ (forall n, In n out <-> In n sigs
        \/ (~ In n (g_signals base) /\ exists f, In f fields /\ sig_for a base f = Some n))
  /\ (forall k v, sget k al = Some v -> sget k al1 = Some v)
  /\ (forall f, In f fields ->
        match sget f al1 with Some v => v | None => class_alias base f end = sig_for a base f).
Proof.
  induction fields as [|f fields IH]; intros sigs al out al1 T Hn Hb H; cbn [collect] in H.
  { injection H as <- <-. split; [exact T|]. split; [exact Hn|]. split; [|split; [auto|intros f []]].
    intros n. split; [tauto|]. intros [H|(_ & f & [] & _)]. exact H. }
  pose proof (resolve_table f al T) as R. destruct (resolve (trans a) (g_aliases base) f al) as [n al2].
  destruct R as (T2 & Hsig & K2 & F2).
  assert (Hlast : forall al1, (forall k v, sget k al2 = Some v -> sget k al1 = Some v) -> table al1 ->
            match sget f al1 with Some v => v | None => class_alias base f end = sig_for a base f).
  { intros al3 K3 T3. destruct (sget f al2) as [v|] eqn:E1; [now rewrite (K3 _ _ E1)|].
    destruct (sget f al3) as [v|] eqn:E2; [|exact F2]. symmetry. now rewrite (ta_known _ T3 _ _ E2). }
  destruct n as [n|].
  - assert (Hskip : forall out al1, In n sigs \/ In n (g_signals base) ->
              collect (trans a) base fields sigs al2 = (out, al1) ->
              table al1 /\ NoDup out
              /\ (forall n, In n out <-> In n sigs
                    \/ (~ In n (g_signals base) /\ exists f0, In f0 (f :: fields) /\ sig_for a base f0 = Some n))
              /\ (forall k v, sget k al = Some v -> sget k al1 = Some v)
              /\ (forall f0, In f0 (f :: fields) ->
                    match sget f0 al1 with Some v => v | None => class_alias base f0 end = sig_for a base f0)).
    { intros out' al3 Hin H'. destruct (IH _ _ _ _ T2 Hn Hb H') as (A1 & A2 & A3 & A4 & A5).
      split; [exact A1|]. split; [exact A2|]. split.
      - intros m. rewrite A3. split.
        + intros [Hm|(Hm & g & Hg & Hs)]; [now left|]. right. split; [exact Hm|]. exists g. cbn. auto.
        + intros [Hm|(Hm & g & [<-|Hg] & Hs)]; [now left| |right; eauto].
          rewrite <- Hsig in Hs. injection Hs as <-. tauto.
      - split; [auto|]. intros g [<-|Hg]; [|now apply A5]. now apply Hlast. }
    destruct (mem n sigs) eqn:M1; [apply mem_In in M1; now apply Hskip; [left|]|].
    destruct (mem n (g_signals base)) eqn:M2; [apply mem_In in M2; now apply Hskip; [right|]|].
    apply mem_not_In in M1. apply mem_not_In in M2. clear Hskip.
    destruct (IH (sigs ++ [n]) al2 out al1 T2) as (A1 & A2 & A3 & A4 & A5); [| |exact H|].
    + apply NoDup_rev in Hn. rewrite <- (rev_involutive (sigs ++ [n])).
      apply NoDup_rev. rewrite rev_app_distr. cbn. constructor; [now rewrite <- in_rev|exact Hn].
    + intros m Hm. apply in_app_iff in Hm as [Hm|[<-|[]]]; auto.
    + split; [exact A1|]. split; [exact A2|]. split.
      * intros m. rewrite A3, in_app_iff. cbn. split.
        -- intros [[Hm|[<-|[]]]|(Hm & g & Hg & Hs)]; [now left| |right; eauto].
           right. split; [exact M2|]. exists f. auto.
        -- intros [Hm|(Hm & g & [<-|Hg] & Hs)]; [tauto| |right; eauto].
           rewrite <- Hsig in Hs. injection Hs as <-. tauto.
      * split; [auto|]. intros g [<-|Hg]; [|now apply A5]. now apply Hlast.
  - destruct (IH _ _ _ _ T2 Hn Hb H) as (A1 & A2 & A3 & A4 & A5).
    split; [exact A1|]. split; [exact A2|]. split.
    + intros m. rewrite A3. split.
      * intros [Hm|(Hm & g & Hg & Hs)]; [now left|]. right. split; [exact Hm|]. exists g. cbn. auto.
      * intros [Hm|(Hm & g & [<-|Hg] & Hs)]; [now left|congruence|right; eauto].
    + split; [auto|]. intros g [<-|Hg]; [|now apply A5]. now apply Hlast.
Qed.
End Collect.

(** The signals of the group are those of the base class and those of the fields. *)
Theorem C46_signals : forall fields base a g,
  NoDup (g_signals base) -> (forall m, a = Some (AMap m) -> is_dict m) ->
  build_group fields base a = inl g ->
  NoDup (g_signals g)
  /\ (forall n, In n (g_signals g) <->
        In n (g_signals base) \/ exists f, In f fields /\ sig_for a base f = Some n).
Proof.
  intros fields base a g HB HM H. unfold build_group in H. cbv zeta in H.
  match type of H with (let (_, _) := ?c in _) = _ => destruct c as [out al] eqn:C end.
  apply (collect_spec base a fields [] (given a)) in C; [|apply table_start|constructor|intros n []].
  2:{ destruct a as [[m|t]|]; [now apply HM|constructor|constructor]. }
  destruct C as (_ & A2 & A3 & _ & _). unfold init_subclass in H.
  destruct (existsb _ out); [discriminate|]. injection H as <-. cbn [g_signals].
  assert (Hin : forall n, In n (filter (fun n => negb (mem n (g_signals base))) (ssort out)) <->
                 ~ In n (g_signals base) /\ exists f, In f fields /\ sig_for a base f = Some n).
  { intros n. rewrite filter_In, ssort_In, A3, negb_true_iff, mem_not_In. cbn. tauto. }
  split.
  - apply NoDup_app; [exact HB|apply NoDup_filter; now rewrite <- ssort_perm|]. intros x Hx. rewrite Hin. tauto.
  - intros n. rewrite in_app_iff, Hin. split; [tauto|].
    intros [Hn|Hn]; [now left|]. destruct (in_dec string_dec n (g_signals base)); tauto.
Qed.

(** A field's signal is found under the field's name (get_signal_from_field). *)
Theorem C46_lookup : forall fields base a g f,
  NoDup (g_signals base) -> (forall m, a = Some (AMap m) -> is_dict m) ->
  build_group fields base a = inl g -> In f fields ->
  field_signal_name g f = sig_for a base f.
Proof.
  intros fields base a g f HB HM H Hf.
  assert (HN := proj2 (C46_signals fields base a g HB HM H)).
  unfold field_signal_name. unfold build_group in H. cbv zeta in H.
  match type of H with (let (_, _) := ?c in _) = _ => destruct c as [out al] eqn:C end.
  apply (collect_spec base a fields [] (given a)) in C; [|apply table_start|constructor|intros n []].
  2:{ destruct a as [[m|t]|]; [now apply HM|constructor|constructor]. }
  destruct C as (A1 & _ & _ & _ & A5). specialize (A5 f Hf). unfold init_subclass in H.
  destruct (existsb _ out); [discriminate|]. injection H as <-. cbn [g_signals g_aliases] in *.
  rewrite sget_merge by apply A1.
  assert (Hs : match match sget f al with Some v => Some v | None => sget f (g_aliases base) end with
               | Some n => n | None => Some f end = sig_for a base f).
  { rewrite <- A5. destruct (sget f al); reflexivity. }
  rewrite Hs. destruct (sig_for a base f) as [n|] eqn:En; [|reflexivity].
  replace (mem n _) with true; [reflexivity|]. symmetry. apply mem_In, HN. right. eauto.
Qed.
(** The only failure: a new signal whose name starts with "_psygnal". *)
Theorem C46_reserved : forall fields base a e,
  (forall m, a = Some (AMap m) -> is_dict m) ->
  build_group fields base a = inr e ->
  e = EType /\ exists f n, In f fields /\ sig_for a base f = Some n /\ String.prefix "_psygnal" n = true.
Proof.
  intros fields base a e HM H. unfold build_group in H. cbv zeta in H.
  match type of H with (let (_, _) := ?c in _) = _ => destruct c as [out al] eqn:C end.
  apply (collect_spec base a fields [] (given a)) in C; [|apply table_start|constructor|intros n []].
  2:{ destruct a as [[m|t]|]; [now apply HM|constructor|constructor]. }
  destruct C as (_ & _ & A3 & _ & _). unfold init_subclass in H.
  destruct (existsb _ out) eqn:X; [|discriminate]. injection H as <-. split; [reflexivity|].
  apply existsb_exists in X as (n & Hn & Hp). apply A3 in Hn as [[]|(_ & f & Hf & Hs)]. eauto.
Qed.
(** Fields a, b, c, d, e: a is aliased to "c", b has no signal, d has a signal in the base
    class, e an alias there; c comes second and shares the signal with a. *)
Definition C46_base : gclass := Gclass ["d"; "ready"] [("e", Some "ee"); ("a", Some "no")].
Example C46_case :
  build_group ["a"; "b"; "c"; "d"; "e"] C46_base (Some (AMap [("a", Some "c"); ("b", None)]))
  = inl (Gclass ["d"; "ready"; "c"; "ee"]
                [("e", Some "ee"); ("a", Some "c"); ("b", None)])
  /\ build_group ["a"; "b"] C46_base (Some (AFun (fun n => if String.eqb n "b" then None else Some (String.append n "_"))))
  = inl (Gclass ["d"; "ready"; "a_"] [("e", Some "ee"); ("a", Some "a_"); ("b", None)])
  /\ build_group ["_psygnal_x"] C46_base None = inr EType
  /\ NoDup (g_signals C46_base) /\ is_dict [("a", Some "c"); ("b", None)].
Proof.
  split; [reflexivity|]. split; [reflexivity|]. split; [reflexivity|].
  split; repeat constructor; cbn; intuition discriminate.
Qed.
Print Assumptions C46_signals.
Print Assumptions C46_lookup.
Print Assumptions C46_reserved.

(** * C45 *)

Lemma answers_run : forall P op x y, answers P op x y (run_op P op x y).
Proof. intros. destruct op; try (constructor; discriminate). Qed.
Lemma answers_fun : forall P op x y a, answers P op x y a -> a = run_op P op x y.
Proof. intros P op x y a H. inversion H; subst; [reflexivity|]. destruct op; try reflexivity. congruence. Qed.
Lemma caught_ordinary : forall e, caught e = true -> ordinary e.
Proof. intros e H n ->. discriminate. Qed.
Lemma ordinary_caught : forall e, ordinary e -> caught e = true.
Proof. intros e H. destruct e; try reflexivity. now specialize (H n). Qed.
Lemma eqop_eqb_eq : forall a b, eqop_eqb a b = true <-> a = b.
Proof.
  intros a b. destruct a, b; cbn; split; intros H; try discriminate; try reflexivity.
  - apply Nat.eqb_eq in H. congruence.
  - injection H as ->. apply Nat.eqb_refl.
Qed.
(** The verdict is determined. *)
Lemma equals_fun : forall P op x y a b, equals P op x y a -> equals P op x y b -> a = b.
Proof.
  intros P op x y a b Ha Hb.
  inversion Ha; subst; inversion Hb; subst;
    repeat match goal with H : answers _ _ _ _ _ |- _ => apply answers_fun in H end;
    repeat match goal with H1 : _ = run_op P op x y, H2 : _ = run_op P op x y |- _ =>
             rewrite <- H1 in H2; try discriminate H2; injection H2 as ?; subst end;
    repeat match goal with H1 : _ = run_op P OpArray x y, H2 : _ = run_op P OpArray x y |- _ =>
             rewrite <- H1 in H2; try discriminate H2; injection H2 as ?; subst end;
    try reflexivity; try (now exfalso; eapply H; reflexivity);
    try (exfalso; match goal with H : ordinary (EBase ?n) |- _ => now apply (H n) end);
    exfalso; match goal with H : p_array P x = true -> _ |- _ =>
      destruct H as (e2 & Ho & H); auto; apply answers_fun in H end; try congruence;
    match goal with Ho : ordinary ?e, H1 : inr ?e = ?t, H2 : inr (EBase ?n) = ?t |- _ =>
      rewrite <- H1 in H2; injection H2 as H2; now apply (Ho n)
    end.
Qed.
Theorem C45_exclusive : forall P op before after,
  changed P op before after -> unchanged P op before after -> False.
Proof.
  intros P op [v|] after H1 H2; cbn in *; [|congruence].
  pose proof (equals_fun _ _ _ _ _ _ H1 H2). discriminate.
Qed.
Lemma check_equal_spec : forall P name before after ops ops' a,
  check_equal P name before after ops = (ops', a) ->
  match a with
  | inl true => unchanged P (op_of ops name) before after
  | inl false => changed P (op_of ops name) before after
  | inr e => exists n, e = EBase n /\ before <> None /\ equals P (op_of ops name) after before (inr e)
  end.
Proof.
  intros P name before after ops ops' a H. unfold check_equal in H. destruct before as [b|].
  2:{ injection H as <- <-. destruct after; cbn; congruence. }
  cbv zeta in H. unfold op_of. set (op := match sget name ops with Some op => op | None => OpEq end) in *.
  assert (K : equals P op after (Some b) a).
  { pose proof (answers_run P op after (Some b)) as A1.
    pose proof (answers_run P OpArray after (Some b)) as A2.
    destruct (run_op P op after (Some b)) as [x|e] eqn:R1.
    { injection H as <- <-. now constructor. }
    destruct (caught e) eqn:C1; cbn [negb] in H.
    2:{ destruct e; try discriminate. injection H as <- <-. now constructor. }
    apply caught_ordinary in C1.
    destruct (p_array P after) eqn:Pa; cbn [andb] in H.
    2:{ injection H as <- <-. eapply eq_identity; eauto. congruence. }
    destruct (p_numpy P) eqn:Pn; cbn [andb] in H.
    2:{ injection H as <- <-. eapply eq_identity; eauto. congruence. }
    destruct (eqop_eqb op OpArray) eqn:Eo; cbn [negb] in H.
    { apply eqop_eqb_eq in Eo. injection H as <- <-. eapply eq_identity; eauto. congruence. }
    assert (Hne : op <> OpArray) by (intros X; apply eqop_eqb_eq in X; congruence).
    destruct (run_op P OpArray after (Some b)) as [x|e'] eqn:R2.
    { injection H as <- <-. eapply eq_array; eauto. }
    destruct (caught e') eqn:C2; cbn [negb] in H.
    - injection H as <- <-. eapply eq_identity; eauto using caught_ordinary.
    - destruct e'; try discriminate. injection H as <- <-. eapply eq_array_base; eauto. }
  destruct a as [[|]|e]; try exact K.
  inversion K; subst; eexists; split; try reflexivity; split; try discriminate; exact K.
Qed.

(** The signal of the field [name]. *)
Definition field_signal (aliases : list (string * option string)) (sigs : list (string * sid))
  (name : string) : option sid :=
  match match sget name aliases with Some n => n | None => Some name end with
  | None => None
  | Some n => sget n sigs
  end.
(** How an assignment ends after its announcement: an exception of the announcement
    replaces the one of the assignment. *)
Definition then_ (r1 r2 : out) : out := match r2 with Ok _ => r1 | _ => r2 end.

Section C45.
Context {X : Type}.
Implicit Types w : world (fields X).
Definition value_of w (o : oid) (name : string) : option val := f_val (w_usr w) o name.
Definition field_op w (name : string) : eqop := op_of (f_ops (w_usr w)) name.

(** The assignment [sup] (any code) is made as it is; then, if the field's signal has
    listeners, the value before and the value after are compared, also when the assignment
    raised; the signal is emitted iff they differ. *)
Theorem C45_assigned : forall (E : env (fields X)) P gname wa aliases sigs o name sup w w' r,
  name <> gname -> (wa = false -> aliases = []) ->
  runs E (setattr_and_emit P gname wa aliases sigs o name sup) w w' r ->
  match field_signal aliases sigs name with
  | None => runs E sup w w' r
  | Some s =>
      (s_slots (w_sg w s) = [] /\ runs E sup w w' r)
      \/ (s_slots (w_sg w s) <> [] /\ exists w1 r1, runs E sup w w1 r1
          /\ (r1 = Halted -> w' = w1 /\ r = Halted)
          /\ (done r1 -> exists ops,
                let w2 := set_usr (set_ops ops (w_usr w1)) w1 in
                let old := value_of w o name in
                let new := value_of w1 o name in
                let op := field_op w1 name in
                (unchanged P op old new /\ w' = w2 /\ r = r1)
                \/ (changed P op old new
                    /\ exists r2, steps E (OEmit s [shown new; shown old] false false) w2 w' r2
                                  /\ r = then_ r1 r2)
                \/ (exists n, old <> None /\ equals P op new old (inr (EBase n)) /\ w' = w2 /\ r = Err (EBase n))))
  end.
Proof.
  intros E P gname wa aliases sigs o name sup w w' r Hg Ha H. unfold setattr_and_emit in H.
  destruct (String.eqb name gname) eqn:Eg; [apply String.eqb_eq in Eg; contradiction|].
  assert (Hsig : (if wa then match match sget name aliases with Some n => n | None => Some name end with
                             | None => None | Some n => sget n sigs end else sget name sigs)
                 = field_signal aliases sigs name).
  { destruct wa; [reflexivity|]. now rewrite Ha. }
  cbv zeta in H. rewrite Hsig in H.
  destruct (negb wa && negb (has name sigs)) eqn:Ew.
  { apply andb_true_iff in Ew as [E1 E2]. apply negb_true_iff in E1, E2. subst wa.
    rewrite <- Hsig. unfold has in E2. destruct (sget name sigs); [discriminate|exact H]. }
  clear Hsig Ew Eg. destruct (field_signal aliases sigs name) as [s|]; [|exact H].
  apply runs_do in H as (w0 & r0 & H0 & H). apply steps_pure in H0; [|reflexivity].
  injection H0 as <- <-.
  destruct (s_slots (w_sg w s)) as [|c l] eqn:Es.
  { left. split; [reflexivity|]. exact H. }
  right. split; [discriminate|]. cbn [List.length] in H.
  replace (Z.ltb (Z.of_nat (S (List.length l))) 1) with false in H by (symmetry; apply Z.ltb_ge; lia).
  unfold changes_emitted in H. apply runs_look in H. apply runs_catch in H as (w1 & r1 & H1 & H).
  exists w1, r1. split; [exact H1|]. split; [now intros ->|]. intros Hd.
  assert (K : exists x, match r1 with Ok v => x = inl v | Err e => x = inr e | Halted => False end
    /\ runs E (Look (fun u1 : fields X =>
         Do (OUsr (fun u => let (l, b) := check_equal P name (f_val (w_usr w) o name) (f_val u1 o name) (f_ops u) in
                           (set_ops l u, match b with inl b => inl (VBool b) | inr e => inr e end)))
          (fun y =>
             match y with
             | inr e => Throw e
             | inl (VBool true) => finish x
             | inl _ =>
                 Do (OEmit s [shown (f_val u1 o name); shown (f_val (w_usr w) o name)] false false)
                    (fun y => match y with inl _ => finish x | inr e => Throw e end)
             end))) w1 w' r).
  { destruct r1; [eexists; split; [reflexivity|exact H]|eexists; split; [reflexivity|exact H]|now destruct Hd]. }
  clear H. destruct K as (x & Hx & H). apply runs_look in H. apply runs_do in H as (w2 & r2 & H2 & H).
  apply steps_pure in H2; [|reflexivity]. unfold pure_step in H2. cbn [step] in H2.
  destruct (check_equal P name (f_val (w_usr w) o name) (f_val (w_usr w1) o name) (f_ops (w_usr w1)))
    as [ops a] eqn:C.
  apply check_equal_spec in C. exists ops. cbv zeta.
  assert (Hfin : runs E (finish x) w2 w' r -> w' = w2 /\ r = r1).
  { destruct r1 as [v|e|]; [subst x; intros F; now apply runs_ret in F|subst x; intros F; now apply runs_throw in F|
    contradiction]. }
  destruct a as [[|]|e].
  - left. injection H2 as <- <-. destruct (Hfin H) as [-> ->]. auto.
  - right. left. split; [exact C|]. injection H2 as <- <-.
    apply runs_do in H as (w3 & r3 & H3 & H). exists r3.
    destruct r3 as [v|e|]; cbn [then_].
    + assert (F : w' = w3 /\ r = r1).
      { destruct r1 as [v1|e1|]; [subst x; now apply runs_ret in H|subst x; now apply runs_throw in H|contradiction]. }
      destruct F as [-> ->]. split; [exact H3|reflexivity].
    + apply runs_throw in H as [-> ->]. split; [exact H3|reflexivity].
    + destruct H as [-> ->]. split; [exact H3|reflexivity].
  - right. right. injection H2 as <- <-. destruct C as (n & -> & C0 & C). exists n.
    apply runs_throw in H as [-> ->]. auto.
Qed.

Lemma usr_sound : forall (E : env (fields X)) u w, sound E w -> sound E (set_usr u w).
Proof. intros E u w ([L1 L2 L3 L4] & F & Q). split; [constructor; eauto|split; [exact F|exact Q]]. Qed.

(** What the listeners see.  The assignment itself runs no signal code ([f]: what it does to
    the program's own data, possibly raising after having done something). *)
Theorem C45_announced : forall (E0 E : env (fields X)) P gname wa aliases sigs o name s f w w' r,
  reachable E0 w -> same_objects E0 E -> env_all (leaves_alone (members_of w) s) E ->
  name <> gname -> (wa = false -> aliases = []) ->
  field_signal aliases sigs name = Some s ->
  runs E (setattr_and_emit P gname wa aliases sigs o name (Do (OUsr f) finish)) w w' r -> done r ->
  s_blocked (w_sg w s) = false -> s_paused (w_sg w s) = false -> w_hook w = None ->
  s_mode (w_sg w s) = Immediate -> (in_progress s (w_tr w) < 300)%Z -> s_slots (w_sg w s) <> [] ->
  let old := f_val (w_usr w) o name in
  let new := f_val (fst (f (w_usr w))) o name in
  let op := op_of (f_ops (fst (f (w_usr w)))) name in
  let how := match snd (f (w_usr w)) with inl v => Ok v | inr e => Err e end in
  s_slots (w_sg w' s) = s_slots (w_sg w s)
  /\ ((unchanged P op old new /\ w_tr w' = w_tr w /\ r = how)
      \/ (exists n, equals P op new old (inr (EBase n)) /\ w_tr w' = w_tr w /\ r = Err (EBase n))
      \/ (changed P op old new /\ exists eid t called uncalled u,
            w_tr w' = w_tr w ++ EEmit s [shown new; shown old] u
                        :: EStart eid s [shown new; shown old] :: t ++ [EEnd eid s]
            /\ f_val u o name = new
            /\ s_slots (w_sg w s) = called ++ uncalled
            /\ notices eid t = map (due (w_me w) [shown new; shown old]) called
            /\ ((uncalled = [] /\ raised eid t = [] /\ r = how)
                \/ (called <> [] /\ exists e e', raised eid t = [e] /\ surfaces s e e' /\ r = Err e')))).
Proof.
  intros E0 E P gname wa aliases sigs o name s f w w' r HR HO HE Hn Ha Hs H Hd Hb Hp Hh Hm Hl Hne.
  cbv zeta.
  apply C45_assigned in H; [|exact Hn|exact Ha]. rewrite Hs in H. destruct H as [[K _]|[_ H]]; [contradiction|].
  destruct H as (w1 & r1 & H1 & _ & H).
  apply runs_do in H1 as (w0 & r0 & H0 & H1). apply steps_pure in H0; [|reflexivity].
  cbn in H0. destruct (f (w_usr w)) as [u1 x] eqn:F. injection H0 as <- <-. cbn [fst snd].
  assert (K : w1 = set_usr u1 w /\ r1 = match x with inl v => Ok v | inr e => Err e end).
  { destruct x; [now apply runs_ret in H1|now apply runs_throw in H1]. }
  destruct K as [-> ->]. clear H1.
  destruct H as (ops & H). { destruct x; discriminate. }
  cbv zeta in H. unfold value_of, field_op in H. cbn [w_usr set_usr] in H.
  set (w2 := set_usr (set_ops ops u1) (set_usr u1 w)) in *.
  destruct H as [(C & -> & ->)|[(C & r2 & S2 & ->)|(n & _ & C & -> & ->)]].
  - split; [reflexivity|]. left. auto.
  - assert (HD : s_depth (w_sg w s) < RECURSION_LIMIT).
    { destruct (reachable_depth_ok E0 w HR s) as [_ Hpr]. rewrite Hpr in Hl. unfold RECURSION_LIMIT. lia. }
    assert (HE' : env_all (allows (members_of w2) s None) E).
    { destruct HE as [A B]. split; intros; (eapply prog_all_impl; [|eauto]); intros q Hq; now left. }
    assert (Hd2 : done r2). { intros ->. now apply Hd. }
    destruct (emit_delivers_from E None s w2 (usr_sound E _ _ (usr_sound E _ _ (reachable_sound E0 E w HR HO))) HE'
                (fun p (Hp : None = Some p) => ltac:(discriminate Hp)) _ _ _ w' r2 S2 Hd2)
      as (eid & t & cl & un & T & S & N & G & K); try assumption.
    { split; [exact Hb|]. split; [exact Hp|]. split; discriminate. }
    apply grows_none in G. split; [exact G|]. right. right. split; [exact C|].
    exists eid, t, cl, un, (w_usr w2). split; [exact T|]. split; [reflexivity|].
    split; [change (s_slots (w_sg w s)) with (s_slots (w_sg w2 s)); congruence|]. split; [exact N|].
    destruct r2 as [v|e|]; [left; tauto| |now destruct Hd2].
    right. destruct K as (Hc & e0 & K1 & K2). split; [exact Hc|]. exists e0, e. auto.
  - split; [reflexivity|]. right. left. eauto.
Qed.
End C45.
Print Assumptions C45_assigned.
Print Assumptions C45_announced.

(** Values for the cases: comparing with a string raises; tuples are equal but never
    identical. *)
Definition C45_values : values := Values
  (fun _ x y => match x, y with
                | Some (VStr _), _ => inr EValue
                | Some (VInt a), Some (VInt b) => inl (Z.eqb a b)
                | Some (VTuple _), Some (VTuple _) => inl true
                | _, _ => inl false
                end)
  (fun x y => match x, y with Some (VInt a), Some (VInt b) => Z.eqb a b | _, _ => false end)
  (fun _ => false) false.
(** Assign [v] to field x of object 7, then raise if it is negative. *)
Definition C45_set (v : Z) (u : fields unit) : fields unit * (val + exn) :=
  (Fields (fun o n => if Nat.eqb o 7 && String.eqb n "x" then Some (VInt v) else f_val u o n)
          (f_ops u) tt,
   if Z.ltb v 0 then inr EValue else inl VNone).
Definition C45_env : env (fields unit) := demo (fun f a =>
  match f, a with 2, [VInt 5; _] => Throw (EUser 1) | _, _ => Ret VNone end).
Definition C45_start : fields unit := Fields (fun _ _ => Some (VInt 3)) [] tt.
Definition C45_world := world_of C45_env (all_plain Immediate 2) C45_start 50 [conn 4 1 0; conn 4 2 0].
Definition C45_do (v : Z) : prog (fields unit) :=
  setattr_and_emit C45_values "events" true [("x", Some "x_changed")] [("x_changed", 4)] 7 "x"
    (Do (OUsr (C45_set v)) finish).
Definition C45_after (v : Z) := after C45_env 50 (C45_do v) C45_world.
Example C45_case :
  reachable C45_env C45_world
  /\ env_all (leaves_alone (members_of C45_world) 4) C45_env
  /\ field_signal [("x", Some "x_changed")] [("x_changed", 4)] "x" = Some 4
  /\ runs C45_env (C45_do 3) C45_world (C45_after 3) (Ok VNone)
  /\ w_tr (C45_after 3) = w_tr C45_world
  /\ runs C45_env (C45_do (-1)) C45_world (C45_after (-1)) (Err EValue)
  /\ notices 2 (w_tr (C45_after (-1)))
     = [Called 0 [VInt (-1)%Z; VInt 3%Z]; Called 1 [VInt (-1)%Z; VInt 3%Z]]
  /\ outcome C45_env 50 (C45_do 5) C45_world = Some (Err (EEmitLoop (Some 4) 0 (EUser 1)))
  /\ s_blocked (w_sg C45_world 4) = false /\ s_paused (w_sg C45_world 4) = false
  /\ w_hook C45_world = None /\ s_mode (w_sg C45_world 4) = Immediate
  /\ in_progress 4 (w_tr C45_world) = 0%Z /\ s_slots (w_sg C45_world 4) <> [].
Proof.
  split; [reach|]. split.
  { generalize (members_of C45_world). intros m. apply demo_all; intros f a. allp. }
  split; [reflexivity|]. split; [apply after_runs; vm_compute; reflexivity|].
  split; [vm_compute; reflexivity|]. split; [apply after_runs; vm_compute; reflexivity|].
  vm_compute. repeat split; auto; discriminate.
Qed.

(** The class itself: with the group class and the __setattr__ that are made for the fields of the class, the signal is
    the one meant for the field. *)
Lemma alias_lookup : forall fields base a g f,
  (forall m, a = Some (AMap m) -> is_dict m) -> build_group fields base a = inl g -> In f fields ->
  match sget f (g_aliases g) with Some n => n | None => Some f end = sig_for a base f.
Proof.
  intros fields base a g f HM H Hf. unfold build_group in H. cbv zeta in H.
  match type of H with (let (_, _) := ?c in _) = _ => destruct c as [out al] eqn:C end.
  apply (collect_spec base a fields [] (given a)) in C; [|apply table_start|constructor|intros n []].
  2:{ destruct a as [[m|t]|]; [now apply HM|constructor|constructor]. }
  destruct C as (A1 & _ & _ & _ & A5). specialize (A5 f Hf). unfold init_subclass in H.
  destruct (existsb _ out); [discriminate|]. injection H as <-. cbn [g_aliases].
  rewrite sget_merge by apply A1. rewrite <- A5. destruct (sget f al); reflexivity.
Qed.
Theorem C45_class : forall X (E : env (fields X)) P gname fnames base a g sigs o name sup w w' r,
  (forall m, a = Some (AMap m) -> is_dict m) -> build_group fnames base a = inl g ->
  In name fnames -> name <> gname ->
  runs E (setattr_and_emit P gname (patch_setattr None g) (g_aliases g) sigs o name sup) w w' r ->
  match sig_for a base name with
  | None => runs E sup w w' r
  | Some n =>
      forall s, sget n sigs = Some s ->
      (s_slots (w_sg w s) = [] /\ runs E sup w w' r)
      \/ (s_slots (w_sg w s) <> [] /\ exists w1 r1, runs E sup w w1 r1
          /\ (done r1 -> changed P (field_op w1 name) (value_of w o name) (value_of w1 o name) -> exists ops r2,
                steps E (OEmit s [shown (value_of w1 o name); shown (value_of w o name)] false false)
                  (set_usr (set_ops ops (w_usr w1)) w1) w' r2 /\ r = then_ r1 r2)
          /\ (done r1 -> unchanged P (field_op w1 name) (value_of w o name) (value_of w1 o name) ->
                w_tr w' = w_tr w1 /\ r = r1))
  end.
Proof.
  intros X E P gname fnames base a g sigs o name sup w w' r HM HB Hf Hn H.
  apply C45_assigned in H; [|exact Hn|].
  2:{ unfold patch_setattr. destruct (g_aliases g); [reflexivity|discriminate]. }
  unfold field_signal in H. rewrite (alias_lookup _ _ _ _ _ HM HB Hf) in H.
  destruct (sig_for a base name) as [n|]; [|exact H]. intros s Hs. rewrite Hs in H.
  destruct H as [H|(H0 & w1 & r1 & H1 & _ & H2)]; [now left|]. right. split; [exact H0|]. exists w1, r1.
  split; [exact H1|]. split; intros Hd Hc; destruct (H2 Hd) as (ops & [(U & -> & ->)|[(K & r2 & S & T)|(j & N & Q & -> & ->)]]).
  - exfalso. eapply C45_exclusive; eauto.
  - exists ops, r2. now split.
  - exfalso. destruct (value_of w o name) eqn:V; [|now apply N]. cbn in Hc. pose proof (equals_fun _ _ _ _ _ _ Hc Q). discriminate.
  - split; reflexivity.
  - exfalso. eapply C45_exclusive; eauto.
  - exfalso. destruct (value_of w o name) eqn:V; [|now apply N]. cbn in Hc. pose proof (equals_fun _ _ _ _ _ _ Hc Q). discriminate.
Qed.
Example C45_class_case :
  let g := Gclass ["x_changed"] [("x", Some "x_changed"); ("y", None)] in
  build_group ["x"; "y"] (Gclass [] []) (Some (AMap [("x", Some "x_changed"); ("y", None)])) = inl g
  /\ patch_setattr None g = true /\ is_dict [("x", Some "x_changed"); ("y", None)]
  /\ sig_for (Some (AMap [("x", Some "x_changed"); ("y", None)])) (Gclass [] []) "x" = Some "x_changed"
  /\ notices 2 (w_tr (after C45_env 50 (setattr_and_emit C45_values "events" (patch_setattr None g) (g_aliases g)
       [("x_changed", 4)] 7 "x" (Do (OUsr (C45_set 4)) finish)) C45_world))
     = [Called 0 [VInt 4%Z; VInt 3%Z]; Called 1 [VInt 4%Z; VInt 3%Z]].
Proof. split; [reflexivity|]. split; [reflexivity|]. split; [repeat constructor; cbn; intuition discriminate|]. vm_compute. auto. Qed.
Print Assumptions C45_class.

(** Where a signal is missed or emitted for equal values.

    The operator of a field is a setting of the class: one comparison that raises replaces
    it for all later assignments (GD:99-117).  Here one assignment of a string makes the
    next assignment of an equal tuple an event. *)
Theorem C45_sticky_refuted : exists P name before bad ops,
  check_equal P name before bad [] = (ops, inl false)
  /\ op_of [] name = OpEq
  /\ exists x y, p_eval P OpEq y x = inl true
     /\ snd (check_equal P name x y []) = inl true
     /\ snd (check_equal P name x y ops) = inl false.
Proof.
  exists C45_values, "x", (Some (VInt 1)), (Some (VStr "")). eexists. split; [reflexivity|].
  split; [reflexivity|]. exists (Some (VTuple [])), (Some (VTuple [])). repeat split.
Qed.
(** A class without fields whose descriptor has an alias function gets a __setattr__ that
    knows no aliases; its subclasses keep it (GD:566-567, 654), and their fields are assigned
    silently. *)
Definition C45_alias : alias_arg := AFun (fun n => Some (String.append n "_changed")).
Definition C45_quiet (wa : bool) : prog (fields unit) :=
  setattr_and_emit C45_values "events" wa [("x", Some "x_changed")] [("x_changed", 4)] 7 "x"
    (Do (OUsr (C45_set 4)) finish).
Definition C45_missed := after C45_env 50 (C45_quiet false) C45_world.
Theorem C45_subclass_refuted : exists g0 g1,
  build_group [] (Gclass [] []) (Some C45_alias) = inl g0
  /\ build_group ["x"] (Gclass [] []) (Some C45_alias) = inl g1
  /\ g_aliases g1 = [("x", Some "x_changed")] /\ g_signals g1 = ["x_changed"]
  /\ reachable C45_env C45_world
  /\ runs C45_env (C45_quiet (patch_setattr (Some (patch_setattr None g0)) g1)) C45_world C45_missed (Ok VNone)
  /\ s_slots (w_sg C45_world 4) <> []
  /\ f_val (w_usr C45_world) 7 "x" = Some (VInt 3) /\ f_val (w_usr C45_missed) 7 "x" = Some (VInt 4)
  /\ w_tr C45_missed = w_tr C45_world.
Proof.
  eexists. eexists. split; [reflexivity|]. split; [reflexivity|]. split; [reflexivity|]. split; [reflexivity|].
  split; [reach|]. split.
  { change (patch_setattr _ _) with false. apply after_runs. vm_compute. reflexivity. }
  split; [vm_compute; discriminate|]. split; [vm_compute; reflexivity|]. split; vm_compute; reflexivity.
Qed.
Print Assumptions C45_exclusive.
Print Assumptions C45_sticky_refuted.
Print Assumptions C45_subclass_refuted.
