(** Checks of arguments and types by emit and connect, connecting to and blocking all
    signals of a group: C64-C68.  Each theorem is followed by a concrete case that meets its
    hypotheses, and by its assumptions. *)

From Verif Require Import Base Core Spec Frame Fuel Demo Conn Keep Trace Inv Dead Rest Quiet
  Emission Gone Shrink Ctl Block Arity PropsConn PropsSlot PropsBlock.
Open Scope Z_scope.
Open Scope string_scope.
Open Scope nat_scope.
Open Scope list_scope.

(** * C64 *)

Lemma filter_all : forall {A} (f : A -> bool) l, Forall (fun x => f x = true) l -> filter f l = l.
Proof. intros A f l H; induction H; cbn; [reflexivity|]. now rewrite H, IHForall. Qed.
Lemma filter_no : forall {A} (f : A -> bool) l, Forall (fun x => f x = false) l -> filter f l = [].
Proof. intros A f l H; induction H; cbn; [reflexivity|]. now rewrite H, IHForall. Qed.
Lemma existsb_no : forall {A} (f : A -> bool) l, Forall (fun x => f x = false) l -> existsb f l = false.
Proof. intros A f l H; induction H; cbn; [reflexivity|]. now rewrite H, IHForall. Qed.
Lemma bind_accepts : forall ps n, well_formed ps -> (bind_ok ps n = true <-> accepts ps n).
Proof.
  intros ps n (req & opt & star & kws & kwargs & -> & Hr & Ho & Hs1 & Hs & Hk & Hw1 & Hw).
  rewrite accepts_req by assumption. unfold bind_ok.
  assert (Hpos : filter is_positional (req ++ opt ++ star ++ kws ++ kwargs) = req ++ opt).
  { rewrite !filter_app. rewrite (filter_all _ req), (filter_all _ opt), (filter_no _ star), (filter_no _ kws),
      (filter_no _ kwargs), app_nil_r; [reflexivity|..].
    all: eapply Forall_impl; [|eassumption]; cbn; unfold is_positional; intros p.
    1,2,3: intros ->; reflexivity.
    all: intros [[->| ->] _]; reflexivity. }
  assert (Hvp : existsb is_varpos (req ++ opt ++ star ++ kws ++ kwargs) = negb (Nat.eqb (List.length star) 0)).
  { rewrite !existsb_app. rewrite (existsb_no _ req), (existsb_no _ opt), (existsb_no _ kws), (existsb_no _ kwargs).
    - destruct star as [|p star]; [reflexivity|]. inversion Hs; subst. cbn. unfold is_varpos. now rewrite H1.
    - eapply Forall_impl; [|exact Hw]; cbn; unfold is_varpos; intros p ->; reflexivity.
    - eapply Forall_impl; [|exact Hk]; cbn; unfold is_varpos; intros p ->; reflexivity.
    - eapply Forall_impl; [|exact Ho]; cbn; unfold is_varpos; intros p [[->| ->] _]; reflexivity.
    - eapply Forall_impl; [|exact Hr]; cbn; unfold is_varpos; intros p [[->| ->] _]; reflexivity. }
  assert (Hrk : negb (existsb is_required_kw (req ++ opt ++ star ++ kws ++ kwargs)) = forallb p_default kws).
  { rewrite !existsb_app. rewrite (existsb_no _ req), (existsb_no _ opt), (existsb_no _ star), (existsb_no _ kwargs).
    - cbn. rewrite orb_false_r. clear - Hk. induction Hk as [|p l H _ IH]; [reflexivity|]. cbn.
      unfold is_required_kw at 1. rewrite H, negb_orb, negb_involutive, IH. reflexivity.
    - eapply Forall_impl; [|exact Hw]; cbn; unfold is_required_kw; intros p ->; reflexivity.
    - eapply Forall_impl; [|exact Hs]; cbn; unfold is_required_kw; intros p ->; reflexivity.
    - eapply Forall_impl; [|exact Ho]; cbn; unfold is_required_kw; intros p [[->| ->] _]; reflexivity.
    - eapply Forall_impl; [|exact Hr]; cbn; unfold is_required_kw; intros p [[->| ->] _]; reflexivity. }
  assert (Hsk : forallb p_default (skipn n (req ++ opt)) = true <-> List.length req <= n).
  { split.
    - intros H. destruct (Nat.le_gt_cases (List.length req) n) as [|Hlt]; [assumption|]. exfalso.
      rewrite skipn_app in H. replace (n - List.length req) with 0 in H by lia. rewrite forallb_app in H.
      apply andb_prop in H as [H _].
      destruct (skipn n req) as [|p l] eqn:HE.
      { apply (f_equal (@List.length _)) in HE. rewrite skipn_length in HE. cbn in HE. lia. }
      cbn in H. apply andb_prop in H as [H _]. rewrite Forall_forall in Hr.
      assert (In p req). { rewrite <- (firstn_skipn n req), HE. apply in_or_app. right. now left. }
      apply Hr in H0 as [_ H0]. congruence.
    - intros H. rewrite skipn_app, skipn_all2 by lia. cbn. apply forallb_forall. intros p Hp.
      rewrite Forall_forall in Ho. apply Ho. rewrite <- (firstn_skipn (n - List.length req) opt).
      apply in_or_app. now right. }
  rewrite Hpos, Hvp, Hrk. rewrite !andb_true_iff, Hsk, orb_true_iff, Nat.leb_le, app_length, negb_true_iff, Nat.eqb_neq.
  rewrite <- forallb_Forall. destruct star as [|p star]; cbn [List.length]; intuition (try lia; try congruence; auto).
Qed.
Theorem C64_rejected : forall U (E : env U) s args ct w w' r,
  s_blocked (w_sg w s) = false -> well_formed (s_params (w_sg w s)) ->
  ~ accepts (s_params (w_sg w s)) (List.length args) ->
  (steps E (OEmit s args true ct) w w' r <->
   r = Err EType /\ w' = set_tr (w_tr w ++ [EEmit s args (w_usr w)]) w).
Proof.
  intros U E s args ct w w' r Hb Hw Ha.
  assert (HE : forall n, step (exec E n) E n (OEmit s args true ct) w
                 = Some (set_tr (w_tr w ++ [EEmit s args (w_usr w)]) w, Err EType)).
  { intros n. cbn [step]. unfold do_emit. cbn [log w_sg set_tr]. rewrite Hb.
    destruct (bind_ok (s_params (w_sg w s)) (List.length args)) eqn:HB.
    - apply bind_accepts in HB; tauto.
    - reflexivity. }
  split.
  - intros [n H]. rewrite HE in H. injection H as <- <-. auto.
  - intros [-> ->]. exists 0. apply HE.
Qed.
Theorem C64_accepted : forall U (E : env U) s args ct w w' r,
  well_formed (s_params (w_sg w s)) -> accepts (s_params (w_sg w s)) (List.length args) ->
  (steps E (OEmit s args true ct) w w' r <-> steps E (OEmit s args false ct) w w' r).
Proof.
  intros U E s args ct w w' r Hw Ha. apply bind_accepts in Ha; [|exact Hw].
  assert (HE : forall n, step (exec E n) E n (OEmit s args true ct) w = step (exec E n) E n (OEmit s args false ct) w).
  { intros n. cbn [step]. unfold do_emit. cbn [log w_sg set_tr]. now rewrite Ha. }
  unfold steps. split; intros [n H]; exists n; [rewrite <- HE|rewrite HE]; exact H.
Qed.
(** Signal(a, b, c=0, *, k=0) accepts two or three arguments (a Signature may be given to
    Signal, _signal.py:252-276). *)
Definition C64_world : world unit :=
  world_of C12_env (fun _ => new_signal Immediate (C04_params 2)) tt 50 [conn 0 1 0].
Example C64_case :
  s_blocked (w_sg C64_world 0) = false /\ well_formed (s_params (w_sg C64_world 0))
  /\ accepts (s_params (w_sg C64_world 0)) 2 /\ ~ accepts (s_params (w_sg C64_world 0)) 1
  /\ outcome1 C12_env 9 (OEmit 0 [VInt 1] true false) C64_world = Some (Err EType)
  /\ outcome1 C12_env 9 (OEmit 0 [VInt 1; VInt 2] true false) C64_world = Some (Ok VNone)
  /\ outcome1 C12_env 9 (OEmit 0 [VInt 1] false false) C64_world = Some (Ok VNone).
Proof.
  assert (HW : well_formed (s_params (w_sg C64_world 0))) by (exact (C04_well_formed 2)).
  split; [reflexivity|]. split; [exact HW|]. split; [apply (proj1 (bind_accepts _ 2 HW)); reflexivity|].
  split; [intros H; apply (proj2 (bind_accepts _ 1 HW)) in H; discriminate H|].
  vm_compute. auto.
Qed.
Print Assumptions C64_rejected.
Print Assumptions C64_accepted.

(** * C65 *)

(** Every value is an instance of the class, or of one of the classes of the union, that is
    declared at its position.  A parameter declared without type takes every value. *)
Definition instance_of {U} (E : env U) (v : val) (a : ann) : Prop :=
  match a with
  | AEmpty => True
  | AClass c => e_subclass E (e_type E v) c = true
  | AUnion cs => exists c, In c cs /\ e_subclass E (e_type E v) c = true
  | AStr _ => False
  end.
Definition fits {U} (E : env U) (ps : list param) (args : list val) : Prop :=
  forall i p v, nth_error ps i = Some p -> nth_error args i = Some v -> instance_of E v (p_ann p).

(** Signal(Signature with an unannotated parameter): every emission is refused. *)
Theorem C65_refuted_unannotated : exists (E : env unit) w args w',
  reachable E w /\ s_blocked (w_sg w 0) = false
  /\ accepts (s_params (w_sg w 0)) (List.length args) /\ fits E (s_params (w_sg w 0)) args
  /\ steps E (OEmit 0 args true true) w w' (Err EType).
Proof.
  pose (E := demo (U:=unit) (fun _ _ => Ret VNone)).
  pose (E' := Env (e_body E) (e_lib E) (e_weakref E) (e_fname E) (e_sig E) (e_subclass E) (fun _ => 1) (e_hasattr E)).
  pose (w := world_of E' (all_plain Immediate 1) tt 50 []).
  exists E', w, [VInt 5], (after1 E' 5 (OEmit 0 [VInt 5] true true) w).
  split; [reach|]. split; [reflexivity|]. split; [apply acc_pos; [now left|apply acc_nil]|].
  split; [|ran]. intros [|[|i]] p v Hp _; [injection Hp as <-; exact I|discriminate Hp|discriminate Hp].
Qed.

Lemma types_match_spec : forall {U} (E : env U) ps args,
  Forall (fun p => p_ann p <> AEmpty /\ forall r, p_ann p <> AStr r) ps ->
  let b := types_match E (map (fun a => Param PosOnly false (AClass (e_type E a))) args) ps in
  (b = inl true /\ fits E ps args) \/ (b = inl false /\ ~ fits E ps args).
Proof.
  intros U E ps args H b. subst b. revert args; induction H as [|p ps [Hp Hs] _ IH]; intros args.
  { left. split; [destruct args; reflexivity|]. intros [|i] p v Hp; discriminate Hp. }
  destruct args as [|v args].
  { left. split; [reflexivity|]. intros i q v _ Hv. destruct i; discriminate Hv. }
  assert (HI : forall b, is_subclass E (AClass (e_type E v)) (p_ann p) = inl b -> (b = true <-> instance_of E v (p_ann p))).
  { intros b Hb. unfold is_subclass in Hb. destruct (p_ann p) as [|c|cs|r]; cbn in *; [congruence| | |discriminate].
    - injection Hb as <-. rewrite orb_false_r. tauto.
    - injection Hb as <-. rewrite existsb_exists. tauto. }
  assert (HC : fits E (p :: ps) (v :: args) <-> instance_of E v (p_ann p) /\ fits E ps args).
  { split.
    - intros HF. split; [apply (HF 0 p v); reflexivity|]. intros i q u Hq Hu. now apply (HF (S i) q u).
    - intros [H1 H2] [|i] q u Hq Hu; cbn in *; [congruence|]. eapply H2; eauto. }
  cbn [map types_match p_ann].
  destruct (is_subclass E (AClass (e_type E v)) (p_ann p)) as [[|]|e] eqn:HB.
  - pose proof (proj1 (HI _ eq_refl) eq_refl) as H1. destruct (IH args) as [[H2 H3]|[H2 H3]]; [left|right]; split; try exact H2; tauto.
  - right. split; [reflexivity|]. intros HF. apply HC in HF as [HF _]. apply (HI _ eq_refl) in HF. discriminate.
  - exfalso. unfold is_subclass in HB. destruct (p_ann p) as [|c|cs|r]; cbn in *; try discriminate. now apply (Hs r).
Qed.
(** Missing for the full property: parameters declared without type. *)
Theorem C65_rejected_partial : forall U (E : env U) s args w w' r,
  s_blocked (w_sg w s) = false ->
  Forall (fun p => p_ann p <> AEmpty /\ forall r, p_ann p <> AStr r) (s_params (w_sg w s)) ->
  ~ fits E (s_params (w_sg w s)) args ->
  (steps E (OEmit s args false true) w w' r <->
   r = Err EType /\ w' = set_tr (w_tr w ++ [EEmit s args (w_usr w)]) w).
Proof.
  intros U E s args w w' r Hb Hw Ha.
  assert (HE : forall n, step (exec E n) E n (OEmit s args false true) w
                 = Some (set_tr (w_tr w ++ [EEmit s args (w_usr w)]) w, Err EType)).
  { intros n. cbn [step]. unfold do_emit. cbn [log w_sg set_tr]. rewrite Hb. cbn [andb].
    destruct (types_match_spec E _ args Hw) as [[_ H]|[H _]]; [tauto|]. now rewrite H. }
  split.
  - intros [n H]. rewrite HE in H. injection H as <- <-. auto.
  - intros [-> ->]. exists 0. apply HE.
Qed.
Theorem C65_accepted_partial : forall U (E : env U) s args cn w w' r,
  Forall (fun p => p_ann p <> AEmpty /\ forall r, p_ann p <> AStr r) (s_params (w_sg w s)) ->
  fits E (s_params (w_sg w s)) args ->
  (steps E (OEmit s args cn true) w w' r <-> steps E (OEmit s args cn false) w w' r).
Proof.
  intros U E s args cn w w' r Hw Ha.
  assert (HE : forall n, step (exec E n) E n (OEmit s args cn true) w = step (exec E n) E n (OEmit s args cn false) w).
  { intros n. cbn [step]. unfold do_emit. cbn [log w_sg set_tr].
    destruct (types_match_spec E _ args Hw) as [[H _]|[_ H]]; [|tauto]. now rewrite H. }
  unfold steps. split; intros [n H]; exists n; [rewrite <- HE|rewrite HE]; exact H.
Qed.
(** Classes 1, 2 and 3; 2 is a subclass of 1.  The integer n is of class n.
    Signal(class 1, Union[class 2, class 3]). *)
Definition typed_env (sigs : oid -> list param) (body : oid -> list val -> prog unit) : env unit :=
  Env (e_body (demo body)) (e_lib (demo body)) (e_weakref (demo body)) (e_fname (demo body))
      (fun c => match c with CBase (BFunc n) => SSig (sigs n) | _ => SNone end)
      (fun a b => Nat.eqb a b || (Nat.eqb a 2 && Nat.eqb b 1))
      (fun v => match v with VInt z => Z.to_nat z | _ => 0 end) (e_hasattr (demo body)).
Definition C65_env : env unit := typed_env (fun _ => []) (fun _ _ => Throw (EUser 7)).
Definition C65_world : world unit :=
  world_of C65_env (fun _ => new_signal Immediate [Param PosOnly false (AClass 1); Param PosOnly false (AUnion [2; 3])])
    tt 50 [conn 0 1 0].
Example C65_case :
  s_blocked (w_sg C65_world 0) = false
  /\ Forall (fun p => p_ann p <> AEmpty /\ forall r, p_ann p <> AStr r) (s_params (w_sg C65_world 0))
  /\ fits C65_env (s_params (w_sg C65_world 0)) [VInt 2; VInt 3]
  /\ ~ fits C65_env (s_params (w_sg C65_world 0)) [VInt 2; VInt 1]
  /\ outcome1 C65_env 9 (OEmit 0 [VInt 2; VInt 3] true true) C65_world = Some (Err (EEmitLoop (Some 0) 0 (EUser 7)))
  /\ outcome1 C65_env 9 (OEmit 0 [VInt 2; VInt 1] true true) C65_world = Some (Err EType).
Proof.
  split; [reflexivity|]. split; [repeat constructor; discriminate|]. split; [|split; [|vm_compute; auto]].
  - intros [|[|i]] p v Hp Hv; [injection Hp as <-; injection Hv as <-; reflexivity| |destruct i; discriminate Hp].
    injection Hp as <-; injection Hv as <-. exists 3. split; [right; now left|reflexivity].
  - intros H. destruct (H 1 _ _ eq_refl eq_refl) as (c & [<-|[<-|[]]] & Hc); discriminate Hc.
Qed.
Print Assumptions C65_refuted_unannotated.
Print Assumptions C65_rejected_partial.
Print Assumptions C65_accepted_partial.

(** * C66 *)

Definition with_types (b : bool) (o : copts) : copts :=
  Copts (c_thread o) (c_check_nargs o) (Some b) (c_unique o) (c_max o) (c_onref o) (c_prio o).
(** What the annotation of a parameter of the callback means. *)
Definition resolved (a : ann) : ann := match a with AStr r => r | _ => a end.

(** def f(x: B), B a subclass of A, is accepted by Signal(A), and is then passed a value
    that is no B although the types are checked when emitting. *)
Theorem C66_refuted_unsound : exists (E : env unit) w w1 w2 v ps,
  reachable E w /\ e_sig E (fn 1) = SSig ps
  /\ steps E (OConnect 0 (fn 1) (with_types true default_opts)) w w1 (Ok VNone)
  /\ steps E (OEmit 0 [v] true true) w1 w2 (Err (EEmitLoop (Some 0) 0 (EUser 7)))
  /\ (exists eid uid, In (ECall eid 0 uid [v]) (w_tr w2))
  /\ ~ fits E ps [v].
Proof.
  pose (ps := [Param PosOrKw false (AClass 2)]).
  pose (E := typed_env (fun _ => ps) (fun _ _ => Throw (EUser 7))).
  pose (w := world_of E (fun _ => new_signal Immediate [Param PosOnly false (AClass 1)]) tt 50 []).
  pose (w1 := after1 E 5 (OConnect 0 (fn 1) (with_types true default_opts)) w).
  pose (w2 := after1 E 9 (OEmit 0 [VInt 1] true true) w1).
  exists E, w, w1, w2, (VInt 1), ps.
  split; [eapply after_reachable; [intros; apply fresh_new|intros r ms x y H; discriminate H|vm_compute; reflexivity]|].
  split; [reflexivity|]. split; [ran|]. split; [ran|].
  split; [exists 1, 0; vm_compute; tauto|].
  intros H. specialize (H 0 _ _ eq_refl eq_refl). discriminate H.
Qed.
(** def f(x: A) is refused by Signal(B) although every B is an A. *)
Theorem C66_refuted_incomplete : exists (E : env unit) w ps,
  reachable E w /\ e_sig E (fn 1) = SSig ps
  /\ (forall v, fits E (s_params (w_sg w 0)) [v] -> fits E ps [v])
  /\ steps E (OConnect 0 (fn 1) (with_types true default_opts)) w w (Err EValue).
Proof.
  pose (ps := [Param PosOrKw false (AClass 1)]).
  pose (E := typed_env (fun _ => ps) (fun _ _ => Throw (EUser 7))).
  pose (w := world_of E (fun _ => new_signal Immediate [Param PosOnly false (AClass 2)]) tt 50 []).
  exists E, w, ps.
  split; [eapply after_reachable; [intros; apply fresh_new|intros r ms x y H; discriminate H|vm_compute; reflexivity]|].
  split; [reflexivity|]. split.
  - intros v H [|[|i]] p u Hp Hu; [|discriminate Hp|discriminate Hp]. injection Hp as <-. injection Hu as <-.
    specialize (H 0 _ _ eq_refl eq_refl). cbn in *. rewrite andb_false_r, orb_false_r in H.
    apply Nat.eqb_eq in H. rewrite H. reflexivity.
  - exists 5. vm_compute. reflexivity.
Qed.

(** What is checked: the parameters are compared one by one, and one of the classes of the
    annotation must be a subclass of one of the declared classes.
    Missing for the full property: this is not what makes a callback safe to call. *)
Inductive one_of : ann -> nat -> Prop :=
| one_class : forall c, one_of (AClass c) c
| one_union : forall c cs, In c cs -> one_of (AUnion cs) c.
Definition checked {U} (E : env U) (fs ps : list param) : Prop :=
  forall i f p, nth_error fs i = Some f -> nth_error ps i = Some p -> p_ann f <> AEmpty ->
    exists c d, one_of (resolved (p_ann f)) c /\ one_of (p_ann p) d /\ e_subclass E c d = true.
Definition proper_type (a : ann) : Prop := (exists c, a = AClass c) \/ (exists cs, a = AUnion cs).
Lemma types_match_checked : forall {U} (E : env U) fs ps,
  Forall (fun p => p_ann p = AEmpty \/ proper_type (resolved (p_ann p))) fs ->
  Forall (fun p => proper_type (p_ann p)) ps ->
  (types_match E fs ps = inl true /\ checked E fs ps) \/ (types_match E fs ps = inl false /\ ~ checked E fs ps).
Proof.
  intros U E fs ps Hf Hp. revert ps Hp; induction Hf as [|f fs Ha _ IH]; intros ps Hp.
  { left. split; [destruct ps; reflexivity|]. intros [|i] f p H; discriminate H. }
  destruct Hp as [|p ps Hp Hps].
  { left. split; [reflexivity|]. intros i g p _ H. destruct i; discriminate H. }
  set (ok := p_ann f <> AEmpty ->
    exists c d, one_of (resolved (p_ann f)) c /\ one_of (p_ann p) d /\ e_subclass E c d = true).
  assert (HC : checked E (f :: fs) (p :: ps) <-> ok /\ checked E fs ps).
  { split.
    - intros HF. split; [exact (HF 0 f p eq_refl eq_refl)|]. intros i q u Hq Hu. now apply (HF (S i) q u).
    - intros [H1 H2] [|i] q u Hq Hu; cbn in *; [|eapply H2; eauto].
      injection Hq as <-. injection Hu as <-. exact H1. }
  assert (HB : (p_ann f = AEmpty /\ types_match E (f :: fs) (p :: ps) = types_match E fs ps)
            \/ (p_ann f <> AEmpty /\ types_match E (f :: fs) (p :: ps) =
                  match is_subclass E (resolved (p_ann f)) (p_ann p) with
                  | inl true => types_match E fs ps | r => r end)).
  { cbn [types_match]. destruct (p_ann f); [left; auto|..]; right; split; try discriminate; reflexivity. }
  destruct HB as [[He ->]|[He ->]].
  - assert (ok) by (intros Hx; congruence). destruct (IH ps Hps) as [[H1 H2]|[H1 H2]]; [left|right]; split; try exact H1; tauto.
  - destruct Ha as [Ha|Ha]; [congruence|].
    assert (HI : exists b, is_subclass E (resolved (p_ann f)) (p_ann p) = inl b /\ (b = true <-> ok)).
    { subst ok. destruct Ha as [[c ->]|[cs ->]]; destruct Hp as [[d ->]|[ds ->]]; cbn.
      - eexists; split; [reflexivity|]. rewrite orb_false_r. split.
        + intros H _. exists c, d. repeat split; [constructor|constructor|exact H].
        + intros H. destruct (H He) as (x & y & H1 & H2 & H3). inversion H1; inversion H2; subst; exact H3.
      - eexists; split; [reflexivity|]. rewrite existsb_exists. split.
        + intros (d & Hd & H) _. exists c, d. repeat split; [constructor|now constructor|exact H].
        + intros H. destruct (H He) as (x & y & H1 & H2 & H3). inversion H1; inversion H2; subst; eauto.
      - eexists; split; [reflexivity|]. rewrite existsb_exists. split.
        + intros (c & Hc & H) _. rewrite orb_false_r in H. exists c, d. repeat split; [now constructor|constructor|exact H].
        + intros H. destruct (H He) as (x & y & H1 & H2 & H3). inversion H1; inversion H2; subst.
          exists x. now rewrite orb_false_r.
      - eexists; split; [reflexivity|]. rewrite existsb_exists. split.
        + intros (c & Hc & H) _. rewrite existsb_exists in H. destruct H as (d & Hd & H).
          exists c, d. repeat split; [now constructor|now constructor|exact H].
        + intros H. destruct (H He) as (x & y & H1 & H2 & H3). inversion H1; inversion H2; subst.
          exists x. rewrite existsb_exists. eauto. }
    destruct HI as ([|] & -> & HI).
    + destruct (IH ps Hps) as [[H1 H2]|[H1 H2]]; [left|right]; split; try exact H1; tauto.
    + right. split; [reflexivity|]. intros H. apply HC in H as [H _]. apply HI in H. discriminate.
Qed.
Theorem C66_accepts_partial : forall U (E : env U) s c o fs w w' r,
  e_sig E c = SSig fs ->
  Forall (fun p => p_ann p = AEmpty \/ proper_type (resolved (p_ann p))) fs ->
  Forall (fun p => proper_type (p_ann p)) (s_params (w_sg w s)) ->
  checked E fs (s_params (w_sg w s)) ->
  (steps E (OConnect s c (with_types true o)) w w' r <-> steps E (OConnect s c (with_types false o)) w w' r).
Proof.
  intros U E s c o fs w w' r Hs Hf Hp Hc.
  assert (HT : types_match E fs (s_params (w_sg w s)) = inl true).
  { destruct (types_match_checked E _ _ Hf Hp) as [[H _]|[_ H]]; tauto. }
  rewrite !steps_pure by reflexivity. unfold pure_step. cbn [step].
  assert (HE : connect E s c (with_types true o) w = connect E s c (with_types false o) w).
  { unfold connect. cbn [with_types c_check_nargs c_check_types c_unique c_max c_onref c_thread c_prio].
    rewrite Hs, HT. reflexivity. }
  now rewrite HE.
Qed.
Theorem C66_rejects_partial : forall U (E : env U) s c o fs w w' r w1 r1,
  e_sig E c = SSig fs ->
  Forall (fun p => p_ann p = AEmpty \/ proper_type (resolved (p_ann p))) fs ->
  Forall (fun p => proper_type (p_ann p)) (s_params (w_sg w s)) ->
  ~ checked E fs (s_params (w_sg w s)) ->
  steps E (OConnect s c (with_types true o)) w w' r ->
  steps E (OConnect s c (with_types false o)) w w1 r1 ->
  w' = w /\ (r = Err EValue \/ (w1 = w /\ r = r1)).
Proof.
  intros U E s c o fs w w' r w1 r1 Hs Hf Hp Hc H1 H2.
  assert (HT : types_match E fs (s_params (w_sg w s)) = inl false).
  { destruct (types_match_checked E _ _ Hf Hp) as [[_ H]|[H _]]; tauto. }
  apply steps_pure in H1; [|reflexivity]. injection H1 as H1.
  apply steps_pure in H2; [|reflexivity]. injection H2 as H2.
  unfold connect in H1, H2.
  cbn [with_types c_check_nargs c_check_types c_unique c_max c_onref c_thread c_prio] in H1, H2.
  rewrite Hs, HT in H1.
  destruct (callable_dead w c); [injection H1 as <- <-; injection H2 as <- <-; auto|].
  destruct (match c_unique o with UFalse => inl false | _ => _ end) as [[|]|e];
    [injection H1 as <- <-; injection H2 as <- <-; auto| |injection H1 as <- <-; injection H2 as <- <-; auto].
  destruct (match (match c_check_nargs o with Some b => b | None => _ end), c_max o with
            | true, None => _ | _, _ => _ end) as [[mx onref]|e];
    [injection H1 as <- <-; auto|injection H1 as <- <-; injection H2 as <- <-; auto].
Qed.
(** Whatever the annotations are: checking types changes nothing, or raises ValueError or TypeError and connects nothing. *)
Theorem C66_any : forall U (E : env U) s c o fs w w' r w1 r1,
  e_sig E c = SSig fs ->
  steps E (OConnect s c (with_types true o)) w w' r ->
  steps E (OConnect s c (with_types false o)) w w1 r1 ->
  (w' = w1 /\ r = r1) \/ (w' = w /\ (r = Err EValue \/ r = Err EType)).
Proof.
  intros U E s c o fs w w' r w1 r1 Hs H1 H2.
  assert (HT : forall fs ps, types_match E fs ps = inl true \/ types_match E fs ps = inl false \/ types_match E fs ps = inr EType).
  { clear. induction fs as [|f fs IH]; intros [|p ps]; cbn [types_match]; auto.
    assert (HB : forall l r, (exists b, is_subclass E l r = inl b) \/ is_subclass E l r = inr EType)
      by (intros l r; unfold is_subclass; destruct l, (ann_classes r); eauto).
    destruct (p_ann f) as [|a|a|a]; [apply IH|..];
      match goal with |- context[is_subclass E ?l ?r] => destruct (HB l r) as [[[|] ->]| ->] end; auto. }
  apply steps_pure in H1; [|reflexivity]. injection H1 as H1.
  apply steps_pure in H2; [|reflexivity]. injection H2 as H2.
  unfold connect in H1, H2.
  cbn [with_types c_check_nargs c_check_types c_unique c_max c_onref c_thread c_prio] in H1, H2.
  rewrite Hs in H1.
  destruct (callable_dead w c); [injection H1 as <- <-; injection H2 as <- <-; auto|].
  destruct (match c_unique o with UFalse => inl false | _ => _ end) as [[|]|e];
    [injection H1 as <- <-; injection H2 as <- <-; auto| |injection H1 as <- <-; injection H2 as <- <-; auto].
  destruct (match (match c_check_nargs o with Some b => b | None => _ end), c_max o with
            | true, None => _ | _, _ => _ end) as [[mx onref]|e];
    [|injection H1 as <- <-; injection H2 as <- <-; auto].
  destruct (HT fs (s_params (w_sg w s))) as [HT1|[HT1|HT1]]; rewrite HT1 in H1; [|injection H1 as <- <-; auto..].
  left. rewrite H1 in H2. injection H2 as <- <-. auto.
Qed.
(** Signal(class 1), def f(x: list[int]): neither a class nor a union. *)
Example C66_any_case :
  let E := typed_env (fun _ => [Param PosOrKw false (AStr (AStr AEmpty))]) (fun _ _ => Ret VNone) in
  outcome1 E 9 (OConnect 0 (fn 1) (with_types true default_opts)) C65_world = Some (Err EType)
  /\ outcome1 E 9 (OConnect 0 (fn 1) (with_types false default_opts)) C65_world = Some (Ok VNone).
Proof. vm_compute. auto. Qed.
(** Signal(class 1, Union[class 2, class 3]) and
    def f1(x: "class 2", y: Union[class 1, class 3]), def f2(x: class 3, y). *)
Definition C66_sigs (f : oid) : list param :=
  match f with
  | 1 => [Param PosOrKw false (AStr (AClass 2)); Param PosOrKw false (AUnion [1; 3])]
  | _ => [Param PosOrKw false (AClass 3); Param PosOrKw false AEmpty]
  end.
Definition C66_env : env unit := typed_env C66_sigs (fun _ _ => Throw (EUser 7)).
Example C66_case :
  Forall (fun p => p_ann p = AEmpty \/ proper_type (resolved (p_ann p))) (C66_sigs 1)
  /\ Forall (fun p => p_ann p = AEmpty \/ proper_type (resolved (p_ann p))) (C66_sigs 2)
  /\ Forall (fun p => proper_type (p_ann p)) (s_params (w_sg C65_world 0))
  /\ checked C66_env (C66_sigs 1) (s_params (w_sg C65_world 0))
  /\ ~ checked C66_env (C66_sigs 2) (s_params (w_sg C65_world 0))
  /\ outcome1 C66_env 9 (OConnect 0 (fn 1) (with_types true default_opts)) C65_world = Some (Ok VNone)
  /\ outcome1 C66_env 9 (OConnect 0 (fn 2) (with_types true default_opts)) C65_world = Some (Err EValue)
  /\ outcome1 C66_env 9 (OConnect 0 (fn 2) (with_types false default_opts)) C65_world = Some (Ok VNone).
Proof.
  assert (HF : forall f, Forall (fun p => p_ann p = AEmpty \/ proper_type (resolved (p_ann p))) (C66_sigs f)).
  { intros [|[|f]]; repeat apply Forall_cons; try apply Forall_nil; unfold proper_type; cbn; eauto. }
  assert (HP : Forall (fun p => proper_type (p_ann p)) (s_params (w_sg C65_world 0))).
  { change (s_params (w_sg C65_world 0)) with [Param PosOnly false (AClass 1); Param PosOnly false (AUnion [2; 3])].
    repeat apply Forall_cons; try apply Forall_nil; unfold proper_type; cbn; eauto. }
  split; [apply HF|]. split; [apply HF|]. split; [exact HP|].
  split. { destruct (types_match_checked C66_env _ _ (HF 1) HP) as [[_ H]|[H _]]; [exact H|discriminate H]. }
  split. { destruct (types_match_checked C66_env _ _ (HF 2) HP) as [[H _]|[_ H]]; [discriminate H|exact H]. }
  vm_compute. auto.
Qed.
Print Assumptions C66_refuted_unsound.
Print Assumptions C66_refuted_incomplete.
Print Assumptions C66_accepts_partial.
Print Assumptions C66_rejects_partial.
Print Assumptions C66_any.

(** * C67 *)

(** The callback needs one argument; member a gives one, member b none: connect_direct raises,
    but the callback is connected to a. *)
Theorem C67_refuted_atomic : exists (E : env unit) w w',
  reachable E w
  /\ s_members (w_sg w 0) = Some [("a", 1); ("b", 2)]
  /\ s_slots (w_sg w 1) = []
  /\ steps E (OConnectDirect 0 (fn 1) default_opts) w w' (Err EValue)
  /\ List.length (s_slots (w_sg w' 1)) = 1.
Proof.
  pose (E := typed_env (fun _ => [Param PosOrKw false AEmpty]) (fun _ _ => Ret VNone)).
  pose (cfg := fun s => match s with
                        | 0 => new_relay [("a", 1); ("b", 2)]
                        | 1 => new_signal Immediate [Param PosOnly false AEmpty]
                        | _ => new_signal Immediate []
                        end).
  pose (w := world_of E cfg tt 50 []).
  exists E, w, (after1 E 5 (OConnectDirect 0 (fn 1) default_opts) w).
  split.
  { eapply after_reachable; [intros [|[|s]]; repeat split| |vm_compute; reflexivity].
    intros [|[|s]] ms x y H Hi; [|discriminate H|discriminate H]. injection H as <-.
    destruct Hi as [Hi|[Hi|[]]]; injection Hi as <- <-; reflexivity. }
  split; [reflexivity|]. split; [reflexivity|]. split; [ran|]. vm_compute. reflexivity.
Qed.

Lemma flat_no_members : forall {U} (w : world U) r n m ms, flat w -> s_members (w_sg w r) = Some ms ->
  In (n, m) ms -> members_of w m = [].
Proof. intros U w r n m ms HF Hm Hi. unfold members_of. now rewrite (HF r ms n m Hm Hi). Qed.
Lemma keeps_flat : forall {U} (w w' : world U), keeps w w' -> flat w -> flat w'.
Proof.
  intros U w w' (H & _) HF r ms n m Hr Hi.
  assert (HM : forall s, s_members (w_sg w' s) = s_members (w_sg w s)).
  { intros s. destruct (H s) as [Hs _]. unfold static in Hs. now injection Hs as _ _ _ _ ->. }
  rewrite HM in *. eapply HF; eauto.
Qed.
Lemma connect_each_spec : forall {U} (E : env U) c o k ms (w w' : world U) v,
  flat w -> (forall m, In m (map snd ms) -> members_of w m = []) -> key_of E c = inl k ->
  connect_each E ms c o w = (w', Ok v) ->
  v = VNone
  /\ (forall m, In m (map snd ms) -> exists y, In y (s_slots (w_sg w' m)) /\ w_key y = k)
  /\ (forall s, ~ In s (map snd ms) -> s_slots (w_sg w' s) = s_slots (w_sg w s))
  /\ (NoDup (map snd ms) -> forall m, In m (map snd ms) ->
      (c_unique o = UTrue /\ s_slots (w_sg w' m) = s_slots (w_sg w m)
         /\ exists y, In y (s_slots (w_sg w m)) /\ w_key y = k)
      \/ exists x pre post, w_key x = k /\ s_slots (w_sg w m) = pre ++ post /\ s_slots (w_sg w' m) = pre ++ x :: post
           /\ (c_unique o <> UFalse -> forall y, In y (s_slots (w_sg w m)) -> w_key y <> k))
  /\ (forall m y, In m (map snd ms) -> In y (s_slots (w_sg w m)) -> In y (s_slots (w_sg w' m))).
Proof.
  intros U E c o k ms. induction ms as [|[nm m] ms IH]; intros w w' v HF HM Hk H; cbn [connect_each map snd] in *.
  - injection H as <- <-. repeat split; try contradiction.
  - destruct (connect E m c o w) as [w1 [v1|e|]] eqn:HC; try discriminate.
    pose proof (keeps_connect E _ _ _ _ _ _ HC) as HKp.
    assert (HM1 : forall x, members_of w1 x = members_of w x) by (now apply keeps_members).
    assert (Hoth : forall s, s <> m -> s_slots (w_sg w1 s) = s_slots (w_sg w s)).
    { intros s Hs. eapply connect_other; [| |exact HC]; [auto|]. rewrite HM by (now left). intros []. }
    assert (Hself : (c_unique o = UTrue /\ s_slots (w_sg w1 m) = s_slots (w_sg w m)
         /\ exists y, In y (s_slots (w_sg w m)) /\ w_key y = k)
      \/ exists x pre post, w_key x = k /\ s_slots (w_sg w m) = pre ++ post /\ s_slots (w_sg w1 m) = pre ++ x :: post
           /\ (c_unique o <> UFalse -> forall y, In y (s_slots (w_sg w m)) -> w_key y <> k)).
    { destruct (connect_cases E _ _ _ _ _ _ HC) as [(_ & e & He)|[(-> & _ & Hu & k' & Hk' & Hh)|(_ & x & -> & Hx & _ & _ & _ & Hu)]].
      - discriminate.
      - left. rewrite Hk in Hk'. injection Hk' as <-. apply has_key_spec in Hh. auto.
      - right. destruct (add_wcb_self m x w HF) as (a & b & Ha & Hb). exists x, a, b.
        assert (w_key x = k) by congruence. repeat (split; [assumption|]).
        intros Hq y Hy Hyk. specialize (Hu Hq).
        assert (has_key (w_key x) (s_slots (w_sg w m)) = true); [|congruence].
        apply has_key_spec. exists y. split; [exact Hy|congruence]. }
    destruct (IH w1 w' v) as (I0 & I1 & I2 & I3 & I4);
      [eapply keeps_flat; eauto|intros x Hx; rewrite HM1; apply HM; now right|exact Hk|exact H|].
    assert (Hkeep : forall y, In y (s_slots (w_sg w1 m)) -> In y (s_slots (w_sg w' m))).
    { intros y Hy. destruct (in_dec Nat.eq_dec m (map snd ms)) as [Hi|Hi]; [auto|now rewrite I2]. }
    split; [exact I0|]. split; [|split; [|split]].
    + intros x [<-|Hx]; [|auto].
      destruct Hself as [(_ & Hs & y & Hy & Hyk)|(x & a & b & Hx & _ & Hb & _)].
      * exists y. split; [apply Hkeep; now rewrite Hs|exact Hyk].
      * exists x. split; [apply Hkeep; rewrite Hb; apply in_elt|exact Hx].
    + intros s Hs. rewrite I2 by (intros Hc; apply Hs; now right). apply Hoth. intros ->. apply Hs. now left.
    + intros HN x [<-|Hx]; inversion HN; subst.
      * rewrite I2 by assumption. exact Hself.
      * destruct (I3 H3 x Hx) as [D|D]; rewrite !Hoth in D by (intros ->; contradiction); auto.
    + intros x y [<-|Hx] Hy.
      * apply Hkeep. destruct Hself as [(_ & Hs & _)|(z & a & b & _ & Ha & Hb & _)]; [now rewrite Hs|].
        rewrite Hb. rewrite Ha in Hy. apply in_app_or in Hy. apply in_or_app. cbn. tauto.
      * apply I4; [exact Hx|]. destruct (Nat.eq_dec x m) as [->|Hne]; [|now rewrite Hoth].
        destruct Hself as [(_ & Hs & _)|(z & a & b & _ & Ha & Hb & _)]; [now rewrite Hs|].
        rewrite Hb. rewrite Ha in Hy. apply in_app_or in Hy. apply in_or_app. cbn. tauto.
Qed.
(** connect_direct returns: every signal of the group has one connection more, or had it
    already and unique=True was given; no other signal changes. *)
Theorem C67_every_member_partial : forall U (E0 E : env U) r ms c o k w w' v,
  reachable E0 w -> s_members (w_sg w r) = Some ms -> NoDup (map snd ms) -> key_of E c = inl k ->
  steps E (OConnectDirect r c o) w w' (Ok v) ->
  (forall n m, In (n, m) ms ->
      (c_unique o = UTrue /\ s_slots (w_sg w' m) = s_slots (w_sg w m)
         /\ exists y, In y (s_slots (w_sg w m)) /\ w_key y = k)
      \/ exists x pre post, w_key x = k /\ s_slots (w_sg w m) = pre ++ post /\ s_slots (w_sg w' m) = pre ++ x :: post
           /\ (c_unique o <> UFalse -> forall y, In y (s_slots (w_sg w m)) -> w_key y <> k))
  /\ (forall s, ~ In s (map snd ms) -> s_slots (w_sg w' s) = s_slots (w_sg w s)).
Proof.
  intros U E0 E r ms c o k w w' v HR Hm HN Hk HS. apply steps_pure in HS; [|reflexivity].
  injection HS as HS. unfold connect_direct in HS. rewrite Hm in HS.
  pose proof (reachable_flat E0 w HR) as HF.
  assert (HM : forall m, In m (map snd ms) -> members_of w m = []).
  { intros m Hi. apply in_map_iff in Hi as ([n x] & <- & Hi). eapply flat_no_members; eauto. }
  destruct (connect_each_spec E c _ k ms w w' v HF HM Hk HS) as (_ & _ & H2 & H3 & _).
  split; [|exact H2]. intros n m Hi. apply (H3 HN m). change m with (snd (n, m)). now apply in_map.
Qed.
(** f is connected to b already; unique=True. *)
Definition C67_env : env unit := demo (fun _ _ => Ret VNone).
Definition C67_world : world unit := world_of C67_env (group_of_two Immediate 1) tt 50 [conn 2 1 0; conn 1 5 0].
Definition C67_opts : copts := Copts None None None UTrue None RefWarn 0%Z.
Example C67_case :
  let w' := after1 C67_env 9 (OConnectDirect 0 (fn 1) C67_opts) C67_world in
  reachable C67_env C67_world /\ s_members (w_sg C67_world 0) = Some [("a", 1); ("b", 2)]
  /\ outcome1 C67_env 9 (OConnectDirect 0 (fn 1) C67_opts) C67_world = Some (Ok VNone)
  /\ map (fun s => List.length (s_slots (w_sg C67_world s))) [0; 1; 2; 3] = [0; 1; 1; 0]
  /\ map (fun s => List.length (s_slots (w_sg w' s))) [0; 1; 2; 3] = [0; 2; 1; 0].
Proof. cbv zeta. split; [reach|]. vm_compute. auto. Qed.
Print Assumptions C67_refuted_atomic.
Print Assumptions C67_every_member_partial.

(** * C68 *)

(** An exclusion list names the member, or contains the signal itself. *)
Definition spared (excl : list (string + sid)) (n : string) (m : sid) : Prop := In (inl n) excl \/ In (inr m) excl.
Lemma excluded_spared : forall excl n m, excluded n m excl = true <-> spared excl n m.
Proof.
  intros excl n m. unfold excluded, spared. rewrite existsb_exists. split.
  - intros ([n'|m'] & Hi & H); [apply String.eqb_eq in H|apply Nat.eqb_eq in H]; subst; auto.
  - intros [H|H]; [exists (inl n)|exists (inr m)]; split; auto; [apply String.eqb_refl|apply Nat.eqb_refl].
Qed.
Theorem C68_blocks : forall U (E0 E : env U) g excl ms w w' r,
  reachable E0 w -> s_members (w_sg w g) = Some ms -> NoDup (map fst ms) -> NoDup (map snd ms) ->
  steps E (OBlock g excl) w w' r ->
  r = Ok VNone /\ s_blocked (w_sg w' g) = true
  /\ (forall n m, In (n, m) ms -> ~ spared excl n m -> s_blocked (w_sg w' m) = true)
  /\ (forall n m, In (n, m) ms -> spared excl n m -> s_blocked (w_sg w' m) = s_blocked (w_sg w m))
  /\ (forall s, s <> g -> ~ In s (map snd ms) -> w_sg w' s = w_sg w s)
  /\ (forall s, s_slots (w_sg w' s) = s_slots (w_sg w s)).
Proof.
  intros U E0 E g excl ms w w' r HR Hm N1 N2 HS. apply steps_pure in HS; [|reflexivity].
  injection HS as <- <-. split; [reflexivity|]. split; [apply block_flag|].
  assert (Hg : ~ In g (map snd ms)).
  { intros Hi. apply in_map_iff in Hi as ([n x] & Hx & Hi). cbn in Hx. subst x.
    rewrite (reachable_flat E0 w HR g ms n g Hm Hi) in Hm. discriminate. }
  destruct (block_fold g excl ms (upd g (set_blocked true) w) N1 N2 Hg) as (_ & _ & B3).
  assert (HB : block g excl w = fold_left (block_member g excl) ms (upd g (set_blocked true) w))
    by (unfold block; now rewrite Hm).
  rewrite <- HB in B3. split; [|split; [|split]].
  - intros n m Hi Hs. specialize (B3 n m Hi). destruct (excluded n m excl) eqn:HX; [|tauto].
    apply excluded_spared in HX. tauto.
  - intros n m Hi Hs. specialize (B3 n m Hi). apply excluded_spared in Hs. rewrite Hs in B3. rewrite B3.
    rewrite upd_other; [reflexivity|]. intros ->. apply Hg. change g with (snd (n, g)). now apply in_map.
  - intros s Hs Hi. apply block_other; [exact Hs|]. unfold members_of. now rewrite Hm.
  - intros s. apply block_slots.
Qed.
Example C68_case :
  let w := world_of C67_env (group_of_two Immediate 1) tt 50 [conn 1 1 0; conn 0 2 0] in
  let w' := after1 C67_env 9 (OBlock 0 [inl "b"]) w in
  reachable C67_env w /\ s_members (w_sg w 0) = Some [("a", 1); ("b", 2)]
  /\ outcome1 C67_env 9 (OBlock 0 [inl "b"]) w = Some (Ok VNone)
  /\ map (fun s => s_blocked (w_sg w' s)) [0; 1; 2; 3] = [true; true; false; false].
Proof. cbv zeta. split; [reach|]. vm_compute. auto. Qed.
Print Assumptions C68_blocks.

(** * C69 *)

(** The group is blocked, except for member b; its listener is called when b is emitted. *)
Theorem C69_refuted : exists (E : env unit) w w',
  reachable E w /\ s_members (w_sg w 0) = Some [("a", 1); ("b", 2)]
  /\ s_blocked (w_sg w 0) = true
  /\ steps E (emit 2 [VInt 5]) w w' (Ok VNone)
  /\ exists eid x, In x (s_slots (w_sg w 0)) /\ In (ECall eid 0 (w_uid x) [VInfo 2 [VInt 5]]) (w_tr w').
Proof.
  pose (w := world_of C67_env (group_of_two Immediate 1) tt 50 [conn 0 7 0; OBlock 0 [inl "b"]]).
  exists C67_env, w, (after1 C67_env 20 (emit 2 [VInt 5]) w).
  split; [reach|]. split; [reflexivity|]. split; [reflexivity|]. split; [ran|].
  assert (HL : exists x, In x (s_slots (w_sg w 0)) /\ w_uid x = 0 /\ exists eid,
             In (ECall eid 0 0 [VInfo 2 [VInt 5]]) (w_tr (after1 C67_env 20 (emit 2 [VInt 5]) w))).
  { vm_compute. eexists. split; [left; reflexivity|]. split; [reflexivity|]. eexists. intuition eauto. }
  destruct HL as (x & Hx & Hu & eid & He). exists eid, x. rewrite Hu. auto.
Qed.
(** Missing for the full property: signals exempted from the block, or unblocked since. *)
Theorem C69_silent_partial : forall U (E0 E E' : env U) g excl ms n m args cn ct w w1 w2 r1 r2,
  reachable E0 w -> s_members (w_sg w g) = Some ms -> NoDup (map fst ms) -> NoDup (map snd ms) ->
  steps E (OBlock g excl) w w1 r1 -> In (n, m) ms -> ~ spared excl n m ->
  steps E' (OEmit m args cn ct) w1 w2 r2 ->
  r2 = Ok VNone /\ w2 = set_tr (w_tr w1 ++ [EEmit m args (w_usr w1)]) w1.
Proof.
  intros U E0 E E' g excl ms n m args cn ct w w1 w2 r1 r2 HR Hm N1 N2 HB Hi Hs HS.
  destruct (C68_blocks U E0 E g excl ms w w1 r1 HR Hm N1 N2 HB) as (_ & _ & H & _).
  eapply C15_silent; [exact (H n m Hi Hs)|right; eauto|exact HS].
Qed.
Example C69_case :
  let w := world_of C67_env (group_of_two Immediate 1) tt 50 [conn 1 1 0; conn 0 2 0] in
  let w1 := after1 C67_env 9 (OBlock 0 [inl "b"]) w in
  reachable C67_env w /\ s_members (w_sg w 0) = Some [("a", 1); ("b", 2)]
  /\ ~ spared [inl "b"] "a" 1
  /\ outcome1 C67_env 9 (emit 1 [VInt 1]) w1 = Some (Ok VNone)
  /\ List.length (w_tr (after1 C67_env 9 (emit 1 [VInt 1]) w)) > 1.
Proof.
  cbv zeta. split; [reach|]. split; [reflexivity|].
  split; [intros [[H|[]]|[H|[]]]; discriminate H|]. split; [vm_compute; reflexivity|]. vm_compute. repeat constructor.
Qed.
Print Assumptions C69_refuted.
Print Assumptions C69_silent_partial.
