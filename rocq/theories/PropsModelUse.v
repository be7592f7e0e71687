(** EventedModels whose listeners assign to the model: C105, C106. *)

From Coq Require Import Permutation.
From Verif Require Import Base Core Spec Frame Fuel Client Prog Evented SpecEvented PropsEvented
  EModel SpecModel ModelFacts ModelDelay PropsModel SpecSelect PropsReentry Heed SpecModelUse ModelHeed Demo.
Open Scope string_scope.
Open Scope list_scope.

(** * C105 *)
Section C105.
Context {X : Type}.

(** Models with dependent properties.  Whatever listeners and other code assign, in assignments and update(), also while events
    are emitted: if nothing raises, then in the end a listener that remembers the last value announced of each attribute has its
    value, and nothing is remembered by the model.  Everyone leaves the callbacks connected, does not emit the model's signals, and
    does not catch exceptions. *)
Theorem C105_told : forall (K : mclass X) (E : env (mstate X)) (same : val -> val -> Prop) p w w' v,
  readable K -> closed_deps K -> iterates K -> tame (k_values K) -> k_any K = true ->
  (forall n, k_sig K n <> None -> own_name n) -> own_signals K ->
  (forall a, same a a) -> (forall a b c, same a b -> same b c -> same a c) ->
  recognises (k_values K) same -> follows K same ->
  model_users K (used_model K) E -> model_user K (used_model K) p ->
  all_heard K w -> at_rest (w_usr w) -> runs E p w w' (Ok v) ->
  exists tr, w_tr w' = w_tr w ++ tr /\ at_rest (w_usr w')
    /\ informed K same (m_data (w_usr w)) (heard (fun _ => true) tr) (m_data (w_usr w')).
Proof.
  intros K E same p w w' v HR HC HO HT HA HN HI Sr St HG HF [HE1 HE2] Hp HL (Q1 & Q2 & Q3) H.
  set (C := fun s => match s_slots (w_sg w s) with [] => false | _ => true end).
  assert (HLC : forall n s, k_sig K n = Some s -> C s = true).
  { intros n s Hn. unfold C. specialize (HL n s Hn). now destruct (s_slots (w_sg w s)). }
  assert (US : forall q, model_user K (used_model K) q -> Heed.sound C (B K) (R K same) q) by (intros q Hq; eapply user_sound; eauto).
  destruct (heed_sound E C (B K) (R K same) (R_refl K same) (R_trans K same) (R_B K same)
    (conj (fun t a w => US _ (HE1 t a w)) (fun m a => US _ (HE2 m a))) p w w' v H (US p Hp)) as (tr & T & HRel).
  { intros s Hs. unfold C in Hs. intros H0. rewrite H0 in Hs. discriminate. }
  { split; [apply st_clean; now split|]. intros _. now split. }
  exists tr. split; [exact T|].
  destruct HRel as (_ & M & Rr & _ & F); [apply st_clean; now split|intros _; now split|]. rewrite Q3 in M. destruct (Rr M) as [C1 C2].
  split; [split; [exact C1|split; [exact C2|exact M]]|].
  apply (F Q3). intros n s Hn. destruct (HR n (m_data (w_usr w))) as [a Ha]; [congruence|]. exists a, a. cbn. auto.
Qed.
(** Models without: the same, for validators that keep the value (otherwise C47_refuted). *)
Theorem C105_plain : forall (K : mclass X) (E : env (mstate X)) (same : val -> val -> Prop) p w w' v,
  readable K -> tame (k_values K) -> k_any K = false -> (forall n, k_deps K n = []) ->
  (forall n, k_sig K n <> None -> own_name n) -> own_signals K ->
  (forall a, same a a) -> (forall a b c, same a b -> same b c -> same a c) -> recognises (k_values K) same ->
  model_users K (used_plain K) E -> model_user K (used_plain K) p ->
  all_heard K w -> runs E p w w' (Ok v) ->
  exists tr, w_tr w' = w_tr w ++ tr
    /\ informed K same (m_data (w_usr w)) (heard (fun _ => true) tr) (m_data (w_usr w')).
Proof.
  intros K E same p w w' v HR HT HA HD HN HI Sr St HG [HE1 HE2] Hp HL H.
  set (C := fun s => match s_slots (w_sg w s) with [] => false | _ => true end).
  assert (HLC : forall n s, k_sig K n = Some s -> C s = true).
  { intros n s Hn. unfold C. specialize (HL n s Hn). now destruct (s_slots (w_sg w s)). }
  assert (US : forall q, model_user K (used_plain K) q -> Heed.sound C BP (RP K same) q) by (intros q Hq; eapply plain_user_sound; eauto).
  destruct (heed_sound E C BP (RP K same) (RP_refl K same) (RP_trans K same) (RP_B K same)
    (conj (fun t a w => US _ (HE1 t a w)) (fun m a => US _ (HE2 m a))) p w w' v H (US p Hp)) as (tr & T & HRel).
  { intros s Hs. unfold C in Hs. intros H0. rewrite H0 in Hs. discriminate. }
  { exact I. }
  exists tr. split; [exact T|]. apply HRel. intros n s Hn. destruct (HR n (m_data (w_usr w))) as [a Ha]; [congruence|]. exists a, a. cbn. auto.
Qed.
End C105.

(** * C106 *)
(** In models without dependents, each value is announced while it is the attribute's value. *)
Theorem C106_plain : forall {X} (K : mclass X) (E : env (mstate X)) p w w' v,
  readable K -> tame (k_values K) -> k_any K = false ->
  (forall n, k_sig K n <> None -> own_name n) -> own_signals K ->
  model_users K (used_plain K) E -> model_user K (used_plain K) p ->
  all_heard K w -> runs E p w w' (Ok v) ->
  exists tr, w_tr w' = w_tr w ++ tr /\ current K (heard (fun _ => true) tr).
Proof.
  intros X K E p w w' v HR HT HA HN HI [HE1 HE2] Hp HL H.
  set (C := fun s => match s_slots (w_sg w s) with [] => false | _ => true end).
  assert (HLC : forall n s, k_sig K n = Some s -> C s = true).
  { intros n s Hn. unfold C. specialize (HL n s Hn). now destruct (s_slots (w_sg w s)). }
  assert (US : forall q, model_user K (used_plain K) q -> Heed.sound C BP (RC K) q) by (intros q Hq; eapply current_user; eauto).
  destruct (heed_sound E C BP (RC K) (RC_refl K) (RC_trans K) (RC_B K)
    (conj (fun t a w => US _ (HE1 t a w)) (fun m a => US _ (HE2 m a))) p w w' v H (US p Hp)) as (tr & T & HRel).
  { intros s Hs. unfold C in Hs. intros H0. rewrite H0 in Hs. discriminate. }
  { exact I. }
  exists tr. split; [exact T|]. apply HRel. intros n s a u _ [].
Qed.

(** * Cases *)
Lemma M_recognises : recognises M_values eq.
Proof.
  assert (A : forall op x y r, answers M_values op x y r -> r = run_op M_values op x y).
  { intros op x y r H. destruct H as [|op x y H]; [reflexivity|]. destruct op; congruence || reflexivity. }
  assert (Z : forall op x y, run_op M_values op (Some x) (Some y) = inl true -> x = y).
  { intros op x y H. unfold run_op in H. destruct op; cbn in H; destruct x, y; try discriminate;
      injection H as H; apply Z.eqb_eq in H; congruence. }
  assert (N : forall op x y e, run_op M_values op x y <> inr e).
  { intros op x y e. unfold run_op. destruct op; cbn; destruct x as [[]|], y as [[]|]; discriminate. }
  intros op old new H. cbn [unchanged] in H. remember (inl true) as r eqn:Er.
  destruct H as [b H|n H|e b H|e n H|e H]; apply A in H; try (symmetry in H; now apply N in H).
  injection Er as ->. symmetry in H. exact (Z _ _ _ H).
Qed.
Lemma M_own : forall n, k_sig M_class n <> None -> own_name n.
Proof. exact (proj1 C48_announced_case). Qed.
Lemma M_own_signals : own_signals M_class.
Proof.
  intros n m s Hn Hm. cbn [k_sig M_class] in *. unfold M_sig in *.
  repeat match goal with
  | H : context [String.eqb n ?c] |- _ => destruct (String.eqb_spec n c)
  | H : context [String.eqb m ?c] |- _ => destruct (String.eqb_spec m c)
  end; congruence.
Qed.
Lemma M_follows : follows M_class eq.
Proof.
  intros d d' H n Hn _.
  assert (HA : int_of (fst d) "a" = int_of (fst d') "a").
  { destruct (H "a") as (x & y & Hx & Hy & ->); [discriminate| |cbn in *; congruence].
    intros [m Hm]. cbn in Hm. unfold M_deps in Hm. destruct (String.eqb m "a"), (String.eqb m "b"); cbn in Hm; intuition discriminate. }
  assert (HB : int_of (fst d) "b" = int_of (fst d') "b").
  { destruct (H "b") as (x & y & Hx & Hy & ->); [discriminate| |cbn in *; congruence].
    intros [m Hm]. cbn in Hm. unfold M_deps in Hm. destruct (String.eqb m "a"), (String.eqb m "b"); cbn in Hm; intuition discriminate. }
  unfold stays. cbn [k_get M_class k_sig] in *. unfold M_get. unfold M_sig in Hn. rewrite HA, HB.
  destruct (String.eqb n "total"); [eauto|]. destruct (String.eqb n "low"); [eauto|].
  assert (Hab : n = "a" \/ n = "b").
  { destruct (String.eqb_spec n "a"); [now left|]. destruct (String.eqb_spec n "b"); [now right|]. congruence. }
  destruct Hab; subst n; [rewrite HA|rewrite HB]; eauto.
Qed.
Lemma M_declared : forall n v, n = "a" \/ n = "b" -> declared M_class n (M_field n v).
Proof.
  intros n v Hab d m Hs Hn. cbn [k_get M_class]. cbn beta.
  destruct (coerce v) as [ | ? |z| | | | | | ]; try reflexivity. destruct (Z.ltb z 0); [reflexivity|].
  assert (HP : forall k, k <> n -> int_of (put n (VInt z) (fst d)) k = int_of (fst d) k).
  { intros k Hk. unfold int_of, put. apply String.eqb_neq in Hk. now rewrite Hk. }
  unfold M_get. cbn [fst].
  destruct (String.eqb_spec m "total") as [->|]; [exfalso; apply Hn; destruct Hab; subst; cbn; intuition discriminate|].
  destruct (String.eqb_spec m "low") as [->|].
  { destruct Hab; subst n; [exfalso; apply Hn; cbn; intuition discriminate|]. rewrite HP by discriminate. reflexivity. }
  rewrite HP; [reflexivity|]. intros ->. apply Hn. destruct Hab; subst n; cbn; intuition discriminate.
Qed.
Lemma M_declared_total : forall v, declared M_class "total" (M_total v).
Proof. intros v. cbn [M_total declared]. split; [|split; [|exact I]]; apply M_declared; auto. Qed.

(** The listener of a assigns b := 9 when a is 5; b's listener updates a := 6 and b := 9 when b is 9, and assigns total := 8 when b is 3. *)
Definition U_set (n : string) (v : val) : prog (mstate unit) := model_setattr M_class 9 n v (todo_prog M_class 9 (M_field n v)).
Definition U_total (v : val) : prog (mstate unit) := model_setattr M_class 9 "total" v (todo_prog M_class 9 (M_total v)).
Definition U_update (a b : val) : prog (mstate unit) :=
  model_update M_class 9 [("a", a, todo_prog M_class 9 (M_field "a" a)); ("b", b, todo_prog M_class 9 (M_field "b" b))].
Definition U_body (f : oid) (a : list val) : prog (mstate unit) :=
  match f, a with
  | 1, [VInt 5] => U_set "b" (VInt 9)
  | 2, [VInt 9] => U_update (VInt 6) (VInt 9)
  | 2, [VInt 3] => U_total (VInt 8)
  | _, _ => Ret VNone
  end.
Definition U_env : env (mstate unit) := demo U_body.
Lemma U_uses : forall n v, n = "a" \/ n = "b" -> model_user M_class (used_model M_class) (U_set n v).
Proof. intros. apply mu_used, um_set. now apply M_declared. Qed.
Lemma U_uses_total : forall v, model_user M_class (used_model M_class) (U_total v).
Proof. intros. apply mu_used, um_set. apply M_declared_total. Qed.
Lemma U_uses_update : forall a b, model_user M_class (used_model M_class) (U_update a b).
Proof.
  intros. apply mu_used, um_update. intros n v sup [H|[H|[]]]; injection H as <- <- <-.
  - exists (M_field "a" a). split; [apply M_declared; auto|reflexivity].
  - exists (M_field "b" b). split; [apply M_declared; auto|reflexivity].
Qed.
Lemma U_users : model_users M_class (used_model M_class) U_env.
Proof.
  assert (Body : forall f a, model_user M_class (used_model M_class) (U_body f a)).
  { intros f a; unfold U_body.
    repeat match goal with
    | |- model_user _ _ (match ?x with _ => _ end) => destruct x
    | |- model_user _ _ (Ret _) => apply mu_ret
    | |- model_user _ _ (U_set _ _) => apply U_uses; auto
    | |- model_user _ _ (U_total _) => apply U_uses_total
    | |- model_user _ _ (U_update _ _) => apply U_uses_update
    end. }
  split; [|intros; apply mu_ret]. intros t a w. destruct t; cbn [U_env demo e_body]; try apply mu_ret; apply Body.
Qed.
Definition U_world := world_of U_env (all_plain Immediate 1) M_start 50 [conn 1 1 0; conn 2 2 0; conn 3 3 0; conn 4 4 0].
Lemma U_heard : all_heard M_class U_world.
Proof.
  intros n s H. cbn in H. unfold M_sig in H.
  repeat (match type of H with (if ?c then _ else _) = _ => destruct c end; [injection H as <-; vm_compute; discriminate|]). discriminate.
Qed.
(** total = 5: a = 5, b = 0; b = 9 by a's listener, then still b's event for 0, and for 9; then the update. *)
Example C105_told_case :
  readable M_class /\ closed_deps M_class /\ iterates M_class /\ tame (k_values M_class) /\ k_any M_class = true
  /\ (forall n, k_sig M_class n <> None -> own_name n) /\ own_signals M_class
  /\ recognises (k_values M_class) eq /\ follows M_class eq
  /\ model_users M_class (used_model M_class) U_env /\ model_user M_class (used_model M_class) (U_total (VInt 5))
  /\ all_heard M_class U_world /\ at_rest (w_usr U_world)
  /\ outcome U_env 200 (U_total (VInt 5)) U_world = Some (Ok VNone)
  /\ new_events (fun _ => true) U_world (after U_env 200 (U_total (VInt 5)) U_world)
     = [(3, [VInt 5]); (1, [VInt 5]); (2, [VInt 0]); (2, [VInt 9]); (3, [VInt 14]); (1, [VInt 6]); (3, [VInt 15])]
  /\ map (fun n => k_get M_class n (m_data (w_usr (after U_env 200 (U_total (VInt 5)) U_world)))) ["a"; "b"; "total"]
     = [inl (VInt 6); inl (VInt 9); inl (VInt 15)].
Proof.
  split; [apply M_readable|]. split; [apply M_closed|]. split; [apply M_iterates|]. split; [apply M_tame|]. split; [reflexivity|].
  split; [apply M_own|]. split; [apply M_own_signals|]. split; [apply M_recognises|]. split; [apply M_follows|].
  split; [apply U_users|]. split; [apply U_uses_total|]. split; [apply U_heard|]. split; [vm_compute; auto|].
  split; [vm_compute; reflexivity|]. split; vm_compute; reflexivity.
Qed.
Print Assumptions C105_told.

(** A class without dependents; the listener of a assigns b := 9 when a is 5, and the one of b updates a := 6 and b := 9. *)
Definition Y_set (n : string) (v : val) : prog (mstate unit) := model_setattr F_class 9 n v (todo_prog F_class 9 (M_field n v)).
Definition Y_update (a b : val) : prog (mstate unit) :=
  model_update F_class 9 [("a", a, todo_prog F_class 9 (M_field "a" a)); ("b", b, todo_prog F_class 9 (M_field "b" b))].
Definition Y_body (f : oid) (a : list val) : prog (mstate unit) :=
  match f, a with
  | 1, [VInt 5] => Y_set "b" (VInt 9)
  | 2, [VInt 9] => Y_update (VInt 6) (VInt 9)
  | _, _ => Ret VNone
  end.
Definition Y_env : env (mstate unit) := demo Y_body.
Lemma Y_declared : forall n z, n = "a" \/ n = "b" -> exists f, M_field n (VInt z) = Field f
  /\ declared F_class n (Field f) /\ (k_sig F_class n <> None -> stored F_class n (VInt z) f).
Proof.
  intros n z Hab. eexists. split; [reflexivity|]. split.
  - intros d m Hs Hn. cbn [coerce]. destruct (Z.ltb z 0); [reflexivity|]. cbn [k_get F_class fst k_sig] in *.
    assert (Hm : m = "a" \/ m = "b").
    { destruct (String.eqb_spec m "a"); [now left|]. destruct (String.eqb_spec m "b"); [now right|]. congruence. }
    destruct Hab, Hm; subst; try (exfalso; apply Hn; cbn; intuition discriminate); reflexivity.
  - intros _ d x. cbn [coerce]. destruct (Z.ltb z 0); [discriminate|]. intros _. destruct Hab; subst n; reflexivity.
Qed.
Lemma Y_uses : forall n z, n = "a" \/ n = "b" -> model_user F_class (used_plain F_class) (Y_set n (VInt z)).
Proof. intros n z H. destruct (Y_declared n z H) as (f & Hf & HD & HS). unfold Y_set. rewrite Hf. now apply mu_used, up_set. Qed.
Lemma Y_uses_update : forall a b, model_user F_class (used_plain F_class) (Y_update (VInt a) (VInt b)).
Proof.
  intros a b. destruct (Y_declared "a" a) as (f & Hf & HD & HS); [auto|]. destruct (Y_declared "b" b) as (g & Hg & GD & GS); [auto|].
  unfold Y_update. rewrite Hf, Hg. apply mu_used, up_update. intros n v sup [H|[H|[]]]; injection H as <- <- <-; eauto.
Qed.
Lemma Y_users : model_users F_class (used_plain F_class) Y_env.
Proof.
  assert (Body : forall f a, model_user F_class (used_plain F_class) (Y_body f a)).
  { intros f a; unfold Y_body.
    repeat match goal with
    | |- model_user _ _ (match ?x with _ => _ end) => destruct x
    | |- model_user _ _ (Ret _) => apply mu_ret
    | |- model_user _ _ (Y_set _ _) => apply Y_uses; auto
    | |- model_user _ _ (Y_update _ _) => apply Y_uses_update
    end. }
  split; [|intros; apply mu_ret]. intros t a w. destruct t; cbn [Y_env demo e_body]; try apply mu_ret; apply Body.
Qed.
Definition Y_world := world_of Y_env (all_plain Immediate 1) M_start 50 [conn 1 1 0; conn 2 2 0].
Example C105_plain_case :
  readable F_class /\ tame (k_values F_class) /\ k_any F_class = false /\ (forall n, k_deps F_class n = [])
  /\ (forall n, k_sig F_class n <> None -> own_name n) /\ own_signals F_class /\ recognises (k_values F_class) eq
  /\ model_users F_class (used_plain F_class) Y_env /\ model_user F_class (used_plain F_class) (Y_set "a" (VInt 5))
  /\ all_heard F_class Y_world
  /\ outcome Y_env 200 (Y_set "a" (VInt 5)) Y_world = Some (Ok VNone)
  /\ new_events (fun _ => true) Y_world (after Y_env 200 (Y_set "a" (VInt 5)) Y_world)
     = [(1, [VInt 5]); (2, [VInt 9]); (1, [VInt 6])]
  /\ map (fun n => k_get F_class n (m_data (w_usr (after Y_env 200 (Y_set "a" (VInt 5)) Y_world)))) ["a"; "b"] = [inl (VInt 6); inl (VInt 9)].
Proof.
  assert (HS : forall n, k_sig F_class n <> None -> n = "a" \/ n = "b").
  { intros n H. cbn [k_sig F_class] in H. destruct (String.eqb_spec n "a"); [now left|]. destruct (String.eqb_spec n "b"); [now right|]. congruence. }
  split; [intros n d _; cbn; unfold M_get; destruct (String.eqb n "total"), (String.eqb n "low"); eauto|].
  split; [apply M_tame|]. split; [reflexivity|]. split; [reflexivity|].
  split; [intros n H; destruct (HS n H); subst n; split; [cbn; intuition discriminate|intros r ?; discriminate|cbn; intuition discriminate|intros r ?; discriminate]|].
  split.
  { intros n m s Hn Hm. assert (An := HS n ltac:(congruence)). assert (Am := HS m ltac:(congruence)).
    destruct An, Am; subst; cbn in *; congruence. }
  split; [apply M_recognises|]. split; [apply Y_users|]. split; [apply Y_uses; auto|]. split.
  { intros n s H. destruct (HS n ltac:(congruence)); subst n; injection H as <-; vm_compute; discriminate. }
  split; [vm_compute; reflexivity|]. split; vm_compute; reflexivity.
Qed.
Print Assumptions C105_plain.
Example C106_plain_case : exists tr, w_tr (after Y_env 200 (Y_set "a" (VInt 5)) Y_world) = w_tr Y_world ++ tr
  /\ current F_class (heard (fun _ => true) tr) /\ List.length (heard (fun _ => true) tr) = 3.
Proof.
  destruct C105_plain_case as (H1 & H2 & H3 & H4 & H5 & H6 & H7 & H8 & H9 & H10 & H11 & _).
  destruct (C106_plain F_class Y_env (Y_set "a" (VInt 5)) Y_world _ VNone H1 H2 H3 H5 H6 H8 H9 H10 (after_runs _ _ _ _ _ H11)) as (tr & T & HC).
  exists tr. split; [exact T|]. split; [exact HC|].
  assert (HT : tr = skipn (List.length (w_tr Y_world)) (w_tr (after Y_env 200 (Y_set "a" (VInt 5)) Y_world))).
  { rewrite T, skipn_app, skipn_all, Nat.sub_diag. reflexivity. }
  rewrite HT. vm_compute. reflexivity.
Qed.
Print Assumptions C106_plain.

(** In models with dependents it is false: the values to announce are read before the first of them is announced. *)
Theorem C106_stale_refuted : exists (K : mclass unit) (E : env (mstate unit)) p w w' v tr,
  readable K /\ closed_deps K /\ iterates K /\ tame (k_values K) /\ k_any K = true
  /\ (forall n, k_sig K n <> None -> own_name n) /\ own_signals K
  /\ model_users K (used_model K) E /\ model_user K (used_model K) p
  /\ all_heard K w /\ at_rest (w_usr w) /\ reachable E w /\ runs E p w w' (Ok v) /\ w_tr w' = w_tr w ++ tr
  /\ ~ current K (heard (fun _ => true) tr).
Proof.
  set (p := U_total (VInt 5)). set (w' := after U_env 200 p U_world).
  exists M_class, U_env, p, U_world, w', VNone, (skipn (List.length (w_tr U_world)) (w_tr w')).
  split; [apply M_readable|]. split; [apply M_closed|]. split; [apply M_iterates|]. split; [apply M_tame|]. split; [reflexivity|].
  split; [apply M_own|]. split; [apply M_own_signals|]. split; [apply U_users|]. split; [apply U_uses_total|].
  split; [apply U_heard|]. split; [vm_compute; auto|]. split; [reach|].
  split; [apply after_runs; vm_compute; reflexivity|]. split; [vm_compute; reflexivity|].
  set (l := heard (fun _ => true) (skipn (List.length (w_tr U_world)) (w_tr w'))).
  assert (Hx : fst (nth 2 l (0, [], M_start)) = (2, [VInt 0]) /\ k_get M_class "b" (m_data (snd (nth 2 l (0, [], M_start)))) = inl (VInt 9)
    /\ List.length l = 7) by (vm_compute; auto).
  clearbody l. intros H. destruct Hx as (X1 & X2 & X3).
  assert (Hin : In (nth 2 l (0, [], M_start)) l) by (apply nth_In; lia).
  destruct (nth 2 l (0, [], M_start)) as [y u]. cbn [fst snd] in X1, X2. subst y.
  destruct (H "b" 2 [VInt 0] u eq_refl Hin) as (v & Hv & Hg). rewrite X2 in Hg. injection Hv as <-. discriminate Hg.
Qed.
Print Assumptions C106_stale_refuted.
