(** Fields of an EventedModel that are called like attributes of SignalGroup: C90. *)

From Verif Require Import Base Core Spec Frame Fuel Client Prog Evented SpecEvented PropsEvented
  EModel SpecModel Rely ModelFacts ModelDelay PropsModel Demo.
Open Scope string_scope.
Open Scope list_scope.

Lemma starts_app : forall a b, starts a b = true <-> exists r, b = (a ++ r)%string.
Proof.
  unfold starts. induction a as [|x a IH]; intros b.
  - split; [intros _; now exists b|intros _; now destruct b].
  - destruct b as [|y b]; [split; [discriminate|intros (r & H); discriminate]|]. simpl.
    destruct (ascii_dec x y) as [->|N]; [rewrite IH|split; [discriminate|]]; [|intros (r & H); congruence].
    split; intros (r & H); exists r; congruence.
Qed.
Section C90.
Context {X : Type}.

(** Fields with other names: a new value is announced by the signal of the field (fields without dependents, which are stored as
    given; for the others see C48_announced). *)
Theorem C90_own_partial : forall (K : mclass X) (E : env (mstate X)) C N name s v f w w' r x,
  readable K -> tame (k_values K) -> k_any K = false -> own_name name -> k_sig K name = Some s -> C s = true ->
  env_all (aloof C) E -> s_slots (w_sg w s) <> [] ->
  (forall d x, snd (f d) = inl x -> k_get K name (fst (f d)) = inl v) ->
  runs E (model_setattr K N name v (todo_prog K N (Field f))) w w' r -> done r ->
  snd (f (m_data (w_usr w))) = inl x ->
  differs K (m_ops (w_usr w)) (m_data (w_usr w)) (fst (f (m_data (w_usr w)))) name ->
  exists u tr, w_tr w' = w_tr w ++ tr /\ heard C tr = [(s, [v], u)].
Proof.
  intros K E C N name s v f w w' r x HR HT HA HW Hs HC HE HL HV H Hd Hx HD.
  destruct (C47_partial K E C N name s v f w w' r HR HT HA HW Hs HC HE HL HV H Hd) as (_ & tr & T & A).
  cbv zeta in A. rewrite Hx in A. destruct A as [(A & _)|(_ & u & _ & A & _)]; [contradiction|eauto].
Qed.

(** What an assignment of a new value to another field does: the value is stored, and then ... *)
Definition instead (K : mclass X) (name : string) (v : val) (h : list (sid * list val * mstate X)) (r : out) : Prop :=
  (name = "all" /\ exists u, h = [(k_all K, [v], u)])
  \/ (In name ["signals"; "pause"; "unblock"; "is_uniform"; "psygnals_uniform"] /\ h = [] /\ r = Err EType)
  \/ (In name ["blocked"; "paused"] /\ h = [] /\ r = Ok VNone)
  \/ (In name ["connect"; "connect_direct"] /\ h = [] /\ r = (match v with VNone => Ok VNone | _ => Err EType end))
  \/ (name = "disconnect" /\ v <> VNone /\ h = [] /\ r = Err EType)
  \/ ((exists q, name = ("psygnal" ++ q)%string) /\ h = [] /\ r = Err EAttribute).

(** ... False of the code: the signal of the field is not emitted, whatever the values are.  For the name [all] the relay emits
    the value itself, instead of an EmissionInfo; for other names the assignment raises although it was done, or says nothing. *)
Theorem C90_instead_refuted : forall (K : mclass X) (E : env (mstate X)) C N name s v f w w' r x,
  readable K -> tame (k_values K) -> k_any K = false -> ~ own_name name -> ~ In name ["block"; "resume"] ->
  (name = "disconnect" -> v <> VNone) ->
  k_sig K name = Some s -> C s = true -> C (k_all K) = true ->
  env_all (aloof C) E -> s_slots (w_sg w s) <> [] ->
  (forall d x, snd (f d) = inl x -> k_get K name (fst (f d)) = inl v) ->
  runs E (model_setattr K N name v (todo_prog K N (Field f))) w w' r -> done r ->
  snd (f (m_data (w_usr w))) = inl x ->
  differs K (m_ops (w_usr w)) (m_data (w_usr w)) (fst (f (m_data (w_usr w)))) name ->
  m_data (w_usr w') = fst (f (m_data (w_usr w)))
  /\ exists tr, w_tr w' = w_tr w ++ tr /\ instead K name v (heard C tr) r.
Proof.
  intros K E C N name s v f w w' r x HR HT HA HW HB HDis Hs HCs HCa HE HL HV H Hd Hx HD.
  unfold model_setattr in H. rewrite Hs, HA in H. unfold setattr_plain in H.
  apply runs_do in H as (w1 & r1 & H1 & H).
  apply steps_pure in H1; [|reflexivity]. unfold pure_step in H1. cbn [step] in H1. injection H1 as <- <-.
  assert (Hp : positive (inl (VInt (Z.of_nat (List.length (s_slots (w_sg w s)))))) = true).
  { apply Z.ltb_lt. destruct (s_slots (w_sg w s)); [congruence|cbn; lia]. }
  rewrite Hp in H. destruct (HR name (m_data (w_usr w))) as [old Hold]; [congruence|].
  set (u0 := w_usr w) in *. set (d := m_data u0) in *.
  destruct (wp_sound E C HE _ _ _ _ H Hd [] (fun u h r => m_data u = fst (f d) /\ instead K name v h r)) as (tr & T & A).
  { cbn [wp]. fold u0. unfold get_default. fold d. rewrite Hold. apply wp_bind.
    cbn [todo_prog act call wp fst snd]. fold d. specialize (HV d). rewrite Hx in HV |- *.
    specialize (HV x eq_refl). cbn [finish wp]. cbn [m_ops set_data].
    destruct (check_ok K HT name v (Some old) (m_ops u0)) as (ops & b & Hc). rewrite Hc.
    pose proof (check_equal_spec _ _ _ _ _ _ _ Hc) as Hb. apply wp_bind. cbn [own act call wp fst snd finish].
    destruct HD as (o & n & A1 & A2 & A3). fold d in A1. rewrite Hold in A1. injection A1 as <-. rewrite HV in A2. injection A2 as <-.
    destruct b; [exfalso; exact (changed_not K _ _ _ A3 Hb)|].
    assert (HN : In name group_names \/ (exists q, name = ("psygnal" ++ q)%string) /\ ~ In name group_names).
    { destruct (in_dec string_dec name group_names) as [HI|HI]; [now left|right]. split; [|exact HI].
      destruct (starts "psygnal" name) eqn:S; [now apply starts_app in S|]. exfalso. apply HW. split; [exact HI|].
      intros q ->. assert (S' : starts "psygnal" ("psygnal" ++ q) = true) by (apply starts_app; eauto). congruence. }
    unfold emit_event. cbn [fst snd]. destruct HN as [HN|[(q & HN) HI]].
    - destruct HN as [<-|HN].
      { change (group_call K "all" v) with (Some (@say (mstate X) (k_all K) [v])). unfold say, call. cbn [wp finish]. rewrite HCa. cbn [app].
        split; [intros y|intros e He]; (split; [reflexivity|]); left; (split; [reflexivity|]); eexists; reflexivity. }
      assert (HG : forall p y, group_call K name v = Some p -> (p = finish y) ->
        instead K name v [] (match y with inl z => Ok z | inr e => Err e end) ->
        wp E C (match group_call K name v with Some p => p | None => match k_sig K name with Some s => say s [v] | None => Throw EAttribute end end)
          (set_mops ops (set_data (fst (f d)) u0)) [] (fun u h r => m_data u = fst (f d) /\ instead K name v h r)).
      { intros p y -> -> HI. destruct y; cbn [finish wp]; split; assumption || reflexivity. }
      unfold instead in HG.
      repeat (destruct HN as [<-|HN];
        [first [ exfalso; apply HB; cbn; tauto
               | apply (HG _ (inr EType) eq_refl eq_refl); right; left; cbn; tauto
               | apply (HG _ (inl VNone) eq_refl eq_refl); right; right; left; cbn; tauto
               | destruct v; try (now destruct HDis);
                 first [ apply (HG _ (inl VNone) eq_refl eq_refl) | apply (HG _ (inr EType) eq_refl eq_refl) ];
                 first [ solve [right; right; right; left; cbn; tauto]
                       | solve [right; right; right; right; left; repeat split; discriminate || reflexivity] ] ]|]).
      destruct HN.
    - replace (group_call K name v) with (Some (Throw EAttribute : prog (mstate X))).
      + cbn [wp]. split; [reflexivity|]. unfold instead. do 5 right. eauto.
      + symmetry. unfold group_call, mem. cbn [existsb].
        repeat match goal with |- context [String.eqb name ?c] =>
          destruct (String.eqb_spec name c) as [K0|]; [exfalso; apply HI; rewrite K0; cbn; tauto|] end.
        cbn [orb]. assert (S : starts "psygnal" name = true) by (apply starts_app; eauto). now rewrite S. }
  destruct A as [A1 A2]. split; [exact A1|]. exists tr. split; [exact T|exact A2].
Qed.
End C90.

(** ** Cases *)

(** A class with a field of each kind, with listeners on each of the signals and on the relay (signal 0). *)
Definition N_fields : list (string * sid) :=
  [("width", 1); ("all", 2); ("pause", 3); ("blocked", 4); ("connect", 5); ("disconnect", 6); ("psygnal_x", 7)].
Definition N_class : mclass unit := MClass (fun n => sget n N_fields) 0 (fun _ => []) false
  (fun n d => match fst d n with Some v => inl v | None => inl VNone end) M_values (fun l => l).
Definition N_store (n : string) (v : val) : content unit -> content unit * (val + exn) :=
  fun d => ((put n v (fst d), snd d), inl VNone).
Definition N_do (n : string) (v : val) : prog (mstate unit) := model_setattr N_class 2 n v (todo_prog N_class 2 (Field (N_store n v))).
Definition N_env : env (mstate unit) := demo (fun f a => Ret VNone).
Definition N_world := world_of N_env (all_plain Immediate 1) M_start 50
  [conn 0 9 0; conn 1 1 0; conn 2 2 0; conn 3 3 0; conn 4 4 0; conn 5 5 0; conn 6 6 0; conn 7 7 0].
(** What is heard, the outcome, and whether the value is stored. *)
Definition N_result (n : string) (v : val) : list (sid * list val) * option out * (val + exn) :=
  (map (fun x => fst x) (heard (fun _ => true) (w_tr (after N_env 50 (N_do n v) N_world))),
   outcome N_env 50 (N_do n v) N_world, k_get N_class n (m_data (w_usr (after N_env 50 (N_do n v) N_world)))).

Example C90_case :
  readable N_class /\ env_all (aloof (fun _ => true)) N_env /\ own_name "width" /\ ~ own_name "all" /\ ~ own_name "psygnal_x"
  /\ s_slots (w_sg N_world 1) <> [] /\ s_slots (w_sg N_world 2) <> [] /\ s_slots (w_sg N_world 7) <> []
  /\ (forall n v d x, snd (N_store n v d) = inl x -> k_get N_class n (fst (N_store n v d)) = inl v)
  /\ N_result "width" (VInt 5) = ([(1, [VInt 5%Z])], Some (Ok VNone), inl (VInt 5))
  /\ N_result "all" (VInt 5) = ([(0, [VInt 5%Z])], Some (Ok VNone), inl (VInt 5))
  /\ N_result "pause" (VInt 5) = ([], Some (Err EType), inl (VInt 5))
  /\ N_result "blocked" (VInt 5) = ([], Some (Ok VNone), inl (VInt 5))
  /\ N_result "connect" (VInt 5) = ([], Some (Err EType), inl (VInt 5))
  /\ N_result "connect" VNone = ([], Some (Ok VNone), inl VNone)
  /\ N_result "disconnect" (VInt 5) = ([], Some (Err EType), inl (VInt 5))
  /\ N_result "psygnal_x" (VInt 5) = ([], Some (Err EAttribute), inl (VInt 5)).
Proof.
  split. { intros n d _. cbn. destruct (fst d n); eauto. }
  split; [apply demo_all; intros f a; allp|].
  split. { split; [cbn; intuition discriminate|intros r H; discriminate]. }
  split. { intros [H _]. apply H. cbn. tauto. }
  split. { intros [_ H]. exact (H "_x" eq_refl). }
  split; [vm_compute; discriminate|]. split; [vm_compute; discriminate|]. split; [vm_compute; discriminate|].
  split. { intros n v d x _. cbn. unfold put. now rewrite String.eqb_refl. }
  vm_compute. repeat split.
Qed.

(** Setting a field called disconnect to None disconnects the listeners of the whole group. *)
Theorem C90_disconnect_refuted : exists (E : env (mstate unit)) (w w' : world (mstate unit)) s,
  reachable E w /\ k_sig N_class "disconnect" = Some s /\ s_slots (w_sg w s) <> [] /\ s_slots (w_sg w (k_all N_class)) <> []
  /\ runs E (N_do "disconnect" VNone) w w' (Ok VNone)
  /\ s_slots (w_sg w' (k_all N_class)) = [] /\ s_slots (w_sg w' s) = s_slots (w_sg w s)
  /\ heard (fun _ => true) (w_tr w') = heard (fun _ => true) (w_tr w).
Proof.
  exists N_env, N_world, (after N_env 50 (N_do "disconnect" VNone) N_world), 6.
  split; [reach|]. split; [reflexivity|]. split; [vm_compute; discriminate|]. split; [vm_compute; discriminate|].
  split; [apply after_runs; vm_compute; reflexivity|]. vm_compute. repeat split.
Qed.
Print Assumptions C90_own_partial.
Print Assumptions C90_instead_refuted.
Print Assumptions C90_disconnect_refuted.
