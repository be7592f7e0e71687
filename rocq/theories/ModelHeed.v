(** EventedModels with listeners that use the model.  Proof infrastructure; models no code. *)

From Coq Require Import Permutation.
From Verif Require Import Base Core Spec Frame Fuel Client Prog Evented SpecEvented PropsEvented
  EModel SpecModel Rely ModelFacts ModelDelay PropsModel SpecSelect SelTold Calm Heed SpecModelUse.
Open Scope string_scope.
Open Scope list_scope.

Section ModelHeed.
Context {X : Type} (K : mclass X) (same : val -> val -> Prop) (C : sid -> bool).
Hypothesis HR : readable K.
Hypothesis HC : closed_deps K.
Hypothesis HO : iterates K.
Hypothesis HT : tame (k_values K).
Hypothesis HA : k_any K = true.
Hypothesis HN : forall n, k_sig K n <> None -> own_name n.
Hypothesis HI : own_signals K.
Hypothesis Sr : forall a, same a a.
Hypothesis St : forall a b c, same a b -> same b c -> same a c.
Hypothesis HG : recognises (k_values K) same.
Hypothesis HF : follows K same.
Hypothesis HL : forall n s, k_sig K n = Some s -> C s = true.
Implicit Types u : mstate X.
Notation hist := (list (sid * list val * mstate X)).
Notation tidy := (tidy K).

(** What an attribute counts as: the value remembered, or the present one. *)
Definition exp u (n : string) : val + exn :=
  match sget n (m_queue u) with
  | Some (Some v) => inl v
  | Some None => inr EAttribute
  | None => k_get K n (m_data u)
  end.
Record st u : Prop := {
  st_tidy : tidy u;
  st_deps : forall n, In n (map fst (m_queue u)) -> In n (m_prim u) \/ dependent K n
}.
Definition fits (d : content X) u (h : hist) : Prop := informed K same d h (m_data u).
Definition rests u : Prop := m_sema u = 0 -> clean u.
Definition R u (h : hist) u' (h' : hist) : Prop :=
  st u -> rests u ->
  st u' /\ m_sema u' = m_sema u /\ rests u'
  /\ (m_sema u <> 0 -> forall n s, k_sig K n = Some s -> (forall a, replay s a h' = replay s a h) /\ exp u' n = exp u n)
  /\ (m_sema u = 0 -> forall d, fits d u h -> fits d u' h').
Definition B u : Prop := st u /\ rests u.
Lemma R_B : forall u h u' h', B u -> R u h u' h' -> B u'.
Proof. intros u h u' h' [Su Ru] H. destruct (H Su Ru) as (A & _ & D & _). now split. Qed.
Lemma R_refl : forall u h, R u h u h.
Proof. intros u h H1 H2. split; [exact H1|]. split; [reflexivity|]. split; [exact H2|]. split; auto. Qed.
Lemma R_trans : forall a h b i c j, R a h b i -> R b i c j -> R a h c j.
Proof.
  intros a h b i c j H1 H2 Sa Ra. destruct (H1 Sa Ra) as (Sb & Mb & Rb & Pb & Zb). destruct (H2 Sb Rb) as (Sc & Mc & Rc & Pc & Zc).
  split; [exact Sc|]. split; [congruence|]. split; [exact Rc|]. split.
  - intros Hs n s Hn. destruct (Pb Hs n s Hn) as [P1 P2]. destruct (Pc ltac:(congruence) n s Hn) as [P3 P4]. split; [intros; rewrite P3; apply P1|congruence].
  - intros Hs d Hd. apply Zc; [congruence|]. now apply Zb.
Qed.
Notation hwp := (hwp C B R).
Notation sound := (sound C B R).

Lemma hwp_usr : forall f u h (Q : mstate X -> hist -> val -> Prop), (forall v, snd (f u) = inl v -> Q (fst (f u)) h v) -> hwp (act f) u h Q.
Proof. intros f u h Q H. cbn. destruct (snd (f u)) eqn:E0; [now apply H|exact I]. Qed.
Lemma emit_R : forall s a u h, (forall n, k_sig K n <> Some s) -> R u h u (h ++ [(s, a, u)]).
Proof.
  intros s a u h Hs Su Ru. split; [exact Su|]. split; [reflexivity|]. split; [exact Ru|].
  assert (HE : forall n t b, k_sig K n = Some t -> replay t b (h ++ [(s, a, u)]) = replay t b h).
  { intros n t b Hn. apply replay_other. intros ->. exact (Hs n Hn). }
  split.
  - intros _ n t Hn. split; [|reflexivity]. intros b. eapply HE; eauto.
  - intros _ d Hd n t Hn. destruct (Hd n t Hn) as (x & y & B1 & B2 & B3). exists x, y. rewrite (HE n t x Hn). auto.
Qed.

(** Comparison pending: [l] is still to be emitted. *)
Definition pending (d : content X) (l : list (string * val)) u (h : hist) : Prop :=
  exists d0, forall n s, k_sig K n = Some s -> exists a y, k_get K n d = inl a /\ exp u n = inl y /\ k_get K n d0 = inl y
    /\ same (match sget n l with Some v => v | None => replay s a h end) y.
Lemma pending_R : forall d l u h u' h', st u -> m_sema u <> 0 -> R u h u' h' -> pending d l u h -> pending d l u' h'.
Proof.
  intros d l u h u' h' Su Hs H [d0 Hp]. destruct (H Su) as (_ & _ & _ & P & _); [intros H0; contradiction|]. exists d0.
  intros n s Hn. destruct (Hp n s Hn) as (a & y & A1 & A2 & A3 & A4). destruct (P Hs n s Hn) as [P1 P2]. exists a, y. rewrite P2, P1. auto.
Qed.
Lemma emits_ok : forall l u h, NoDup (map fst l) -> (forall n v, In (n, v) l -> k_sig K n <> None) -> st u -> m_sema u <> 0 ->
  hwp (each (emit_event K) l) u h (fun u' h' _ => st u' /\ m_sema u' = m_sema u /\ forall d, pending d l u h -> pending d [] u' h').
Proof.
  induction l as [|[m v] l IH]; intros u h ND Hl Su Hs; cbn [each].
  - cbn. auto.
  - apply hwp_seq. unfold emit_event. cbn [fst snd]. assert (Hm : k_sig K m <> None) by (eapply Hl; now left).
    rewrite (own_call K m v (HN m Hm)). destruct (k_sig K m) as [s|] eqn:Hsm; [|congruence]. apply hwp_say; [split; [exact Su|intros H0; contradiction]|]. intros u' h' x H.
    inversion ND as [|? ? Hnin ND']; subst.
    destruct (H Su) as (Su' & Ms' & _ & _ & _); [intros H0; contradiction|].
    eapply hwp_mono; [|apply (IH u' h'); auto].
    + cbn. intros u2 h2 _ (A & B & D). split; [exact A|]. split; [congruence|]. intros d Hp. apply D.
      eapply pending_R; [exact Su|exact Hs|exact H|]. destruct Hp as [d0 Hp]. exists d0. intros n t Hn.
      destruct (Hp n t Hn) as (a & y & A1 & A2 & A3 & A4). exists a, y. repeat (split; [assumption|]). cbn [sget] in A4.
      destruct (String.eqb_spec n m) as [->|Hne].
      * assert (t = s) by congruence. subst t. assert (E0 : sget m l = None).
        { destruct (sget m l) eqn:E0; [|reflexivity]. exfalso. apply Hnin, sget_keys. congruence. }
        rewrite E0, replay_own. exact A4.
      * destruct (sget n l); [exact A4|]. rewrite replay_other; [exact A4|]. intros ->. apply Hne. eapply HI; eauto.
    + intros n w Hw. eapply Hl. right. exact Hw.
    + congruence.
Qed.

Lemma sget_in : forall {A} n (l : list (string * A)) v, sget n l = Some v -> In (n, v) l.
Proof.
  intros A n l v. induction l as [|[m x] l IH]; cbn; [discriminate|]. destruct (String.eqb_spec n m) as [->|]; [injection 1 as ->; auto|auto].
Qed.
(** Who is not announced has the value remembered. *)
Lemma quiet_ones : forall u n y v, st u -> In n (map fst (m_queue u)) -> exp u n = inl y -> k_get K n (m_data u) = inl v ->
  ~ moved K u n v -> same y v.
Proof.
  intros u n y v Su Hin He Hv Hnm. unfold exp in He. destruct (sget n (m_queue u)) as [o|] eqn:E0; [|now apply sget_keys in Hin].
  destruct o as [o|]; [|discriminate]. injection He as ->.
  destruct (check_ok K HT n v (Some y) (m_ops u)) as (ops & b & Hc). pose proof (check_equal_spec _ _ _ _ _ _ _ Hc) as Hb.
  destruct b; [exact (HG _ _ _ Hb)|]. exfalso. apply Hnm. split; [exact Hv|]. eauto.
Qed.
Lemma compare_pending : forall u h d u1 l, st u -> pending d [] u h -> compare K u = (u1, inl l) ->
  NoDup (map fst l) /\ (forall n v, In (n, v) l -> k_sig K n <> None) /\ clean u1 /\ m_data u1 = m_data u /\ m_sema u1 = m_sema u
  /\ pending d l u1 h.
Proof.
  intros u h d u1 l Su [d0 Hp] Hcmp. destruct (compare_spec K HR HO HT u (st_tidy u Su)) as (u2 & l1 & l2 & E2 & D2 & M2 & C2 & ND & L1 & L2).
  rewrite Hcmp in E2. injection E2 as -> ->. split; [exact ND|].
  assert (HS : forall n v, In (n, v) (l1 ++ l2) -> moved K u n v).
  { intros n v Hv. apply in_app_iff in Hv as [Hv|Hv]; [apply L1 in Hv|apply L2 in Hv]; tauto. }
  split. { intros n v Hv. apply HS in Hv as (_ & o & Ho & _). apply (td_sig K u (st_tidy u Su)), sget_keys. congruence. }
  split; [exact C2|]. split; [exact D2|]. split; [exact M2|]. exists (m_data u). intros n s Hn.
  destruct (Hp n s Hn) as (a & y & A1 & A2 & A3 & A4). cbn [sget] in A4. destruct (HR n (m_data u)) as [v Hv]; [congruence|].
  exists a, v. split; [exact A1|]. assert (E1 : exp u2 n = inl v) by (unfold exp; destruct C2 as [-> _]; cbn; now rewrite D2).
  split; [exact E1|]. split; [exact Hv|]. destruct (sget n (l1 ++ l2)) as [x|] eqn:Hx.
  { apply sget_in, HS in Hx as [Hx _]. replace x with v by congruence. apply Sr. }
  eapply St; [exact A4|].
  assert (Hnl : forall x, ~ In (n, x) (l1 ++ l2)).
  { intros x Hin. assert (In n (map fst (l1 ++ l2))) as Hk by (apply in_map_iff; now exists (n, x)). apply sget_keys in Hk. congruence. }
  (* an attribute assigned directly, or not at all *)
  assert (Hdir : forall m y v, k_sig K m <> None -> exp u m = inl y -> k_get K m (m_data u) = inl v -> In m (m_prim u) \/ ~ In m (map fst (m_queue u)) ->
            (forall x, ~ In (m, x) (l1 ++ l2)) -> same y v).
  { intros m y' v' Hm He Hv' [Hin|Hout] Hno.
    - eapply quiet_ones; [exact Su|apply (td_in K u (st_tidy u Su)); exact Hin|exact He|exact Hv'|]. intros Hmv. apply (Hno v'), in_app_iff. left. apply L1. auto.
    - unfold exp in He. destruct (sget m (m_queue u)) eqn:E0; [exfalso; apply Hout, sget_keys; congruence|]. replace v' with y' by congruence. apply Sr. }
  destruct (in_dec string_dec n (m_prim u)) as [Hin|Hin]; [eapply Hdir; eauto; congruence|].
  destruct (in_dec string_dec n (map fst (m_queue u))) as [Hq|Hq]; [|eapply Hdir; eauto; congruence].
  destruct (st_deps u Su n Hq) as [Hdp|Hdp]; [contradiction|].
  destruct (l1 ++ l2) as [|[m0 x0] l0] eqn:El.
  - (* nothing is announced *)
    destruct (HF d0 (m_data u)) with (n := n) as (a1 & b1 & B1 & B2 & B3); [|congruence|exact Hdp|congruence].
    intros m Hm Hnd. destruct (k_sig K m) as [sm|] eqn:Hsm; [|congruence]. destruct (Hp m sm Hsm) as (a2 & y2 & F1 & F2 & F3 & _).
    destruct (HR m (m_data u)) as [v2 Hv2]; [congruence|]. exists y2, v2. split; [exact F3|]. split; [exact Hv2|].
    eapply Hdir; eauto; [congruence|]. destruct (in_dec string_dec m (m_prim u)) as [Hmp|Hmp]; [now left|right]. intros Hmq.
    destruct (st_deps u Su m Hmq); contradiction.
  - (* something is *)
    assert (Hsome : exists m x, In m (m_prim u) /\ moved K u m x).
    { destruct l1 as [|[m x] l1']; [|exists m, x; apply L1; now left]. cbn in El. subst l2. apply (L2 m0 x0). now left. }
    eapply quiet_ones; [exact Su|exact Hq|exact A2|exact Hv|]. intros Hmv. apply (Hnl v). rewrite <- El. apply in_app_iff. right. apply L2. auto.
Qed.
Lemma st_clean : forall u, clean u -> st u.
Proof. intros u Hc. split; [now apply clean_tidy|]. destruct Hc as [-> _]. intros n []. Qed.
Lemma st_sema : forall u n, st u -> st (set_sema n u).
Proof. intros u n [A B]. split; [now apply tidy_sema|exact B]. Qed.
Lemma pending_fits : forall d u h, clean u -> pending d [] u h -> fits d u h.
Proof.
  intros d u h [Hq _] [d0 Hp] n s Hn. destruct (Hp n s Hn) as (a & y & A1 & A2 & A3 & A4). exists a, y. unfold exp in A2. rewrite Hq in A2.
  cbn in A2, A4. auto.
Qed.
Lemma fits_pending : forall d u h, clean u -> fits d u h -> pending d [] u h.
Proof.
  intros d u h [Hq _] Hf. exists (m_data u). intros n s Hn. destruct (Hf n s Hn) as (a & b & A1 & A2 & A3). exists a, b. unfold exp. rewrite Hq.
  cbn. auto.
Qed.
Lemma check_ok : forall N u h, st u -> m_sema u = 0 ->
  hwp (check_and_emit K N) u h (fun u' h' _ => clean u' /\ m_sema u' = 0 /\ forall d, pending d [] u h -> fits d u' h').
Proof.
  intros N u h Su Hs.
  enough (HP : forall D : content X -> Prop, (forall d, D d -> pending d [] u h) ->
    hwp (check_and_emit K N) u h (fun u' h' _ => clean u' /\ m_sema u' = 0 /\ forall d, D d -> fits d u' h')).
  { exact (HP (fun d => pending d [] u h) (fun d H => H)). }
  revert u h Su Hs. induction N as [|N IH]; intros u h Su Hs D HD; cbn [check_and_emit]; [exact I|]. cbn [Heed.hwp].
  rewrite Hs. cbn [Nat.ltb Nat.leb orb].
  destruct (m_queue u) as [|e0 q0] eqn:Hq.
  { assert (Hc : clean u).
    { split; [exact Hq|]. destruct (m_prim u) as [|p l] eqn:Hp; [reflexivity|]. exfalso.
      assert (Hin : In p (map fst (m_queue u))) by (apply (td_in K u (st_tidy u Su)); rewrite Hp; now left). rewrite Hq in Hin. exact Hin. }
    cbn. split; [exact Hc|]. split; [exact Hs|]. intros d Hd. apply pending_fits; auto. }
  destruct (compare_ok K HR HO HT u (st_tidy u Su)) as (u1 & l & Hcmp & D1 & S1 & C1). rewrite Hcmp.
  destruct l as [|e l].
  { cbn. split; [exact C1|]. split; [congruence|]. intros d Hd. apply pending_fits; [exact C1|].
    now apply (compare_pending u h d u1 []); auto. }
  assert (ND : NoDup (map fst (e :: l)) /\ forall n v, In (n, v) (e :: l) -> k_sig K n <> None).
  { destruct (compare_spec K HR HO HT u (st_tidy u Su)) as (u2 & l1 & l2 & E2 & D2 & M2 & C2 & ND & L1 & L2).
    rewrite Hcmp in E2. injection E2 as E3 E4. rewrite E4. split; [exact ND|].
    intros n v Hv. assert (Hmv : moved K u n v) by (apply in_app_iff in Hv as [Hv|Hv]; [apply L1 in Hv|apply L2 in Hv]; tauto).
    destruct Hmv as (_ & o & Ho & _). apply (td_sig K u (st_tidy u Su)), sget_keys. congruence. }
  destruct ND as [ND HS].
  apply hwp_seq. eapply hwp_act; [reflexivity|]. cbn [fst]. apply hwp_seq. eapply hwp_act; [reflexivity|]. cbn [fst].
  apply hwp_catch.
  { intros x. apply fails_then. intros v. exact I. }
  set (u2 := set_sema (S (m_sema u1)) u1).
  eapply hwp_mono; [|apply emits_ok; [exact ND|exact HS|now apply st_sema, st_clean|discriminate]]. intros u3 h3 v (S3 & M3 & P3). cbn [m_sema set_sema u2] in M3. apply hwp_bind. apply hwp_seq. eapply hwp_act; [reflexivity|]. cbn [fst].
  eapply hwp_mono; [|apply (IH (set_sema (m_sema u3 - 1) u3) h3) with (D := D)].
  - cbn. intros u4 h4 _ H4. exact H4.
  - now apply st_sema.
  - cbn. rewrite M3, S1, Hs. reflexivity.
  - intros d Hd. apply (P3 d). destruct (compare_pending u h d u1 (e :: l) Su (HD d Hd) Hcmp) as (_ & _ & _ & _ & _ & HPd).
    exact HPd.
Qed.

(** Noting values before an assignment changes nothing that counts. *)
Lemma note_exp : forall name u, k_sig K name <> None -> st u -> exists u',
  note K name (k_order K (k_deps K name)) u = (u', inl VNone) /\ st u' /\ m_sema u' = m_sema u
  /\ (forall n, k_sig K n <> None -> exp u' n = exp u n)
  /\ sget name (m_queue u') <> None /\ (forall m, In m (k_deps K name) -> sget m (m_queue u') <> None).
Proof.
  intros name u Hn Su. destruct (note_evolves K HR HC HO name u Hn (st_tidy u Su)) as (u' & E1 & V & D1).
  pose proof V as [A1 A2 A3 A4 A5 A6 A7 A8]. pose proof (st_tidy u Su) as Tu. exists u'. split; [exact E1|]. split; [|split; [exact A2|split]].
  - split; [auto|]. intros n Hq. apply A5 in Hq; [|exact Tu]. destruct Hq as [Hq|[[<-|[]]|(f & [<-|[]] & Hf)]].
    + destruct (st_deps u Su n Hq); [left; apply A4; now right|now right].
    + left. apply A4. left. now left.
    + right. now exists name.
  - intros n Hs. unfold exp. destruct (sget n (m_queue u)) as [o|] eqn:E0; [now rewrite (A6 Tu n o E0)|].
    destruct (sget n (m_queue u')) as [o|] eqn:E2; [|now rewrite D1]. destruct (A7 Tu n o E0 E2) as (x & -> & Hx). now rewrite Hx.
  - split.
    + apply sget_keys, A5; [exact Tu|]. right. left. now left.
    + intros m Hm. apply sget_keys, A5; [exact Tu|]. right. right. exists name. split; [now left|exact Hm].
Qed.
Lemma listening_hwp : forall l acc k u h (Q : mstate X -> hist -> val -> Prop), (forall d, In d l -> k_sig K d <> None) ->
  hwp (k (acc ++ l)) u h Q -> hwp (listening K l acc k) u h Q.
Proof.
  induction l as [|d l IH]; intros acc k u h Q Hl H; cbn [listening]; [now rewrite app_nil_r in H|].
  destruct (k_sig K d) as [s|] eqn:Hd; [|exfalso; apply (Hl d); [now left|exact Hd]]. cbn [Heed.hwp]. intros z Hz.
  assert (Hp : positive (inl (VInt z)) = true) by (apply Z.ltb_lt, Hz; eapply HL; eauto). rewrite Hp. apply IH.
  - intros x Hx. apply Hl. now right.
  - now rewrite <- app_assoc.
Qed.
Lemma impl_hwp : forall name sup u h (Q : mstate X -> hist -> val -> Prop), k_sig K name <> None ->
  hwp (act (note K name (k_order K (k_deps K name))) ;; sup) u h Q -> hwp (setattr_impl K name sup) u h Q.
Proof.
  intros name sup u h Q Hn H. unfold setattr_impl. destruct (k_sig K name) as [s|] eqn:Hs; [|congruence].
  apply listening_hwp. { intros d Hd. apply (proj1 (order_In K HO _ _)) in Hd. eauto. }
  cbn [app Heed.hwp]. intros z Hz. assert (Hp : positive (inl (VInt z)) = true) by (apply Z.ltb_lt, Hz; eapply HL; eauto).
  rewrite Hp. exact H.
Qed.
(** What assignments run, once the old values are noted. *)
Definition ready name u : Prop := k_sig K name <> None -> m_sema u <> 0 /\ sget name (m_queue u) <> None /\ forall m, In m (k_deps K name) -> sget m (m_queue u) <> None.
Definition todo_sound N name (t : todo X) : Prop := forall u h, st u -> rests u -> ready name u ->
  hwp (todo_prog K N t) u h (fun u' h' _ => R u h u' h').
Lemma same_R : forall u u' h, m_queue u' = m_queue u -> m_prim u' = m_prim u -> m_sema u' = m_sema u ->
  (forall n, k_sig K n <> None -> sget n (m_queue u) = None -> k_get K n (m_data u') = k_get K n (m_data u)) ->
  R u h u' h.
Proof.
  intros u u' h Q1 Q2 Q3 Hg [[T1 T2 T3 T4] J] Hr.
  split; [|split; [exact Q3|split; [unfold rests, clean; rewrite Q1, Q2, Q3; exact Hr|split]]].
  - split; [split; rewrite ?Q1, ?Q2; assumption|]. rewrite Q1, Q2. exact J.
  - intros _ n s Hn. split; [reflexivity|]. unfold exp. rewrite Q1. destruct (sget n (m_queue u)) eqn:E0; [reflexivity|]. apply Hg; congruence.
  - intros H0 d Hd n s Hn. destruct (Hd n s Hn) as (a & b & B1 & B2 & B3). exists a, b. split; [exact B1|]. split; [|exact B3].
    rewrite Hg; [exact B2|congruence|]. destruct (Hr H0) as [-> _]. reflexivity.
Qed.
Lemma set_sound : forall N name v t, todo_sound N name t -> sound (model_setattr K N name v (todo_prog K N t)).
Proof.
  intros N name v t Ht u h [Su Ru]. unfold model_setattr. destruct (k_sig K name) as [s|] eqn:Hs.
  2:{ apply Ht; [exact Su|exact Ru|]. intros H. congruence. }
  rewrite HA. unfold delayed. apply hwp_seq. eapply hwp_act; [reflexivity|]. cbn [fst].
  set (u0 := set_sema (S (m_sema u)) u). assert (S0 : st u0) by now apply st_sema.
  apply hwp_catch. { intros e. apply fails_then. intros x. exact I. }
  apply impl_hwp; [congruence|]. apply hwp_seq. destruct (note_exp name u0) as (u1 & E1 & S1 & M1 & X1 & G1 & G2); [congruence|exact S0|].
  eapply hwp_act; [now rewrite E1|]. rewrite E1. cbn [fst].
  assert (Hs1 : m_sema u1 <> 0) by (rewrite M1; discriminate).
  eapply hwp_mono; [|apply Ht; [exact S1|intros H0; contradiction|intros _; auto]].
  intros u2 h2 x H. destruct (H S1) as (S2 & M2 & _ & P2 & _); [intros H0; contradiction|]. specialize (P2 Hs1).
  assert (X2 : forall n s, k_sig K n = Some s -> (forall a, replay s a h2 = replay s a h) /\ exp u2 n = exp u n).
  { intros n s0 Hn. destruct (P2 n s0 Hn) as [P3 P4]. split; [exact P3|]. rewrite P4, X1 by congruence. reflexivity. }
  apply hwp_bind. apply hwp_seq. eapply hwp_act; [reflexivity|]. cbn [fst]. set (u3 := set_sema (m_sema u2 - 1) u2).
  assert (M3 : m_sema u3 = m_sema u) by (cbn; rewrite M2, M1; cbn; lia). assert (S3 : st u3) by now apply st_sema.
  assert (X3 : forall n, exp u3 n = exp u2 n) by reflexivity.
  clearbody u3. destruct (Nat.eq_dec (m_sema u) 0) as [Hz|Hz].
  - eapply hwp_mono; [|apply (check_ok N u3 h2 S3); congruence]. cbn [Heed.hwp]. intros u4 h4 _ (C4 & M4 & F4).
    split; [now apply st_clean|]. split; [congruence|]. split; [intros _; exact C4|]. split; [contradiction|].
    intros _ d Hd. apply F4. apply fits_pending in Hd; [|apply Ru, Hz]. destruct Hd as [d0 Hd]. exists d0. intros n s0 Hn.
    destruct (Hd n s0 Hn) as (a & y & B1 & B2 & B3 & B4). destruct (X2 n s0 Hn) as [P3 P4]. exists a, y. rewrite X3, P4.
    cbn [sget] in *. rewrite P3. auto.
  - destruct N as [|N]; [exact I|]. cbn [check_and_emit Heed.hwp]. destruct (Nat.ltb_spec 0 (m_sema u3)) as [_|Hlt]; [|lia]. cbn [orb Heed.hwp].
    split; [exact S3|]. split; [exact M3|]. split; [intros Hz0; lia|]. split; [|contradiction].
    intros _ n s0 Hn. destruct (X2 n s0 Hn) as [P3 P4]. split; [exact P3|]. now rewrite X3.
Qed.
Lemma todo_is_sound : forall N t name, declared K name t -> todo_sound N name t.
Proof.
  intros N t. induction t as [f|l IH] using todo_ind2; intros name HD u h Su Ru Hq.
  - cbn [todo_prog]. apply hwp_usr. intros v Hv. cbn [fst snd] in *. apply same_R; try reflexivity. cbn [m_data set_data].
    intros n Hn Hnone. apply HD; [exact Hn|]. intros [Hname Hx]. destruct (Hq Hname) as (_ & Q1 & Q2). destruct Hx as [->|Hx]; [contradiction|].
    now apply (Q2 n Hx).
  - enough (HS : sound (todo_prog K N (Setter l))) by (apply HS; now split). clear Su Ru Hq u h.
    induction l as [|[[n v] t] l IHl]; [intros u h _; apply R_refl|].
    destruct HD as [HD HDl].
    change (todo_prog K N (Setter ((n, v, t) :: l))) with (model_setattr K N n v (todo_prog K N t) ;; todo_prog K N (Setter l)).
    apply (sound_bind C B R R_trans R_B); [apply set_sound, (IH n v t); [now left|exact HD]|]. intros _. apply IHl; [|exact HDl].
    intros n' v' t' Hin. apply (IH n' v' t'). now right.
Qed.
Lemma used_sound : forall p, used_model K p -> sound p.
Proof.
  intros p [N name v t HD|N l Hl].
  - now apply set_sound, todo_is_sound.
  - unfold model_update. apply (sound_paused C B R R_refl R_trans R_B). apply (sound_each C B R R_refl R_trans R_B). intros [[name v] sup] Hin.
    apply sound_look. intros u. destruct (k_get K name (m_data u)); [|exact (sound_throw C B R _)].
    destruct (Hl name v sup Hin) as (t & HD & ->). now apply set_sound, todo_is_sound.
Qed.
Lemma apart_sound : forall o, apart K o -> sound (call o).
Proof.
  intros o Ho. destruct o; try (apply (sound_call C B R R_refl); [exact Ho|exact I]).
  - intros u h HB. cbn. right. split; [exact HB|]. split; [|auto]. intros u' h' v H. eapply R_trans; [|exact H]. apply emit_R. exact Ho.
  - intros u h HB. cbn. right. split; [exact HB|]. split; [|auto]. intros u' h' v H. eapply R_trans; [|exact H]. apply emit_R. exact Ho.
  - intros u h _. apply hwp_usr. intros v Hv. destruct (Ho u) as [(Q1 & Q2 & Q3) Hg]. apply same_R; auto.
Qed.
Lemma user_sound : forall p, model_user K (used_model K) p -> sound p.
Proof.
  intros p H. induction H as [v|e| |k Hk IH|o Ho|p k Hp IHp Hk IH|p Hp].
  - exact (sound_ret C B R R_refl v).
  - exact (sound_throw C B R e).
  - intros u h _. exact I.
  - now apply sound_look.
  - now apply apart_sound.
  - now apply (sound_bind C B R R_trans R_B).
  - now apply used_sound.
Qed.
End ModelHeed.

(** ** Models without dependents *)
Section Plain.
Context {X : Type} (K : mclass X) (same : val -> val -> Prop) (C : sid -> bool).
Hypothesis HR : readable K.
Hypothesis HT : tame (k_values K).
Hypothesis HA : k_any K = false.
Hypothesis HD0 : forall n, k_deps K n = [].
Hypothesis HN : forall n, k_sig K n <> None -> own_name n.
Hypothesis HI : own_signals K.
Hypothesis Sr : forall a, same a a.
Hypothesis St : forall a b c, same a b -> same b c -> same a c.
Hypothesis HG : recognises (k_values K) same.
Hypothesis HL : forall n s, k_sig K n = Some s -> C s = true.
Implicit Types u : mstate X.
Notation hist := (list (sid * list val * mstate X)).
Definition RP u (h : hist) u' (h' : hist) : Prop := forall d, informed K same d h (m_data u) -> informed K same d h' (m_data u').
Definition BP u : Prop := True.
Lemma RP_refl : forall u h, RP u h u h.
Proof. intros u h d H. exact H. Qed.
Lemma RP_trans : forall a h b i c j, RP a h b i -> RP b i c j -> RP a h c j.
Proof. intros a h b i c j H1 H2 d H. auto. Qed.
Lemma RP_B : forall u h u' h', BP u -> RP u h u' h' -> BP u'.
Proof. intros. exact I. Qed.
Notation hwp := (Heed.hwp C BP RP).
Notation sound := (Heed.sound C BP RP).
Lemma usr_RP : forall u u' h, (forall n, k_sig K n <> None -> k_get K n (m_data u') = k_get K n (m_data u)) -> RP u h u' h.
Proof.
  intros u u' h Hg d Hd n s Hn. destruct (Hd n s Hn) as (a & b & A1 & A2 & A3). exists a, b. rewrite Hg by congruence. auto.
Qed.
Lemma hwp_usr_p : forall f u h (Q : mstate X -> hist -> val -> Prop), (forall v, snd (f u) = inl v -> Q (fst (f u)) h v) -> hwp (act f) u h Q.
Proof. intros f u h Q H. cbn. destruct (snd (f u)) eqn:E0; [now apply H|exact I]. Qed.
Lemma plain_set : forall N name v f, declared K name (Field f) -> (k_sig K name <> None -> stored K name v f) ->
  sound (model_setattr K N name v (todo_prog K N (Field f))).
Proof.
  intros N name v f HD HS u h _. unfold model_setattr. destruct (k_sig K name) as [s|] eqn:Hs.
  2:{ cbn [todo_prog]. apply hwp_usr_p. cbn [fst]. intros x _. apply usr_RP. cbn. intros n Hn. apply HD; [exact Hn|]. intros [H0 _]. congruence. }
  rewrite HA. unfold setattr_plain. cbn [Heed.hwp]. intros z Hz.
  assert (Hp : positive (inl (VInt z)) = true) by (apply Z.ltb_lt, Hz; eapply HL; eauto). rewrite Hp. cbn [Heed.hwp].
  destruct (HR name (m_data u)) as [old Hold]; [congruence|]. unfold get_default. rewrite Hold.
  apply hwp_seq. cbn [todo_prog]. apply hwp_usr_p. cbn [fst snd]. intros x Hx. specialize (HS ltac:(congruence) _ _ Hx).
  set (u1 := set_data (fst (f (m_data u))) u). cbn [Heed.hwp].
  assert (Hother : forall n, k_sig K n <> None -> n <> name -> k_get K n (m_data u1) = k_get K n (m_data u)).
  { intros n Hn Hne. apply HD; [exact Hn|]. intros [_ [H0|H0]]; [contradiction|]. rewrite HD0 in H0. exact H0. }
  destruct (ModelFacts.check_ok K HT name v (Some old) (m_ops u1)) as (ops & b & Hc). rewrite Hc.
  pose proof (check_equal_spec _ _ _ _ _ _ _ Hc) as Hb. apply hwp_seq. eapply hwp_act; [reflexivity|]. cbn [fst].
  destruct b.
  - cbn [Heed.hwp]. intros d Hd n t Hn. destruct (Hd n t Hn) as (a & b & A1 & A2 & A3). exists a. cbn [m_data set_mops].
    destruct (string_dec n name) as [->|Hne].
    + exists v. split; [exact A1|]. split; [exact HS|]. eapply St; [exact A3|]. replace b with old by congruence. exact (HG _ _ _ Hb).
    + exists b. split; [exact A1|]. split; [|exact A3]. rewrite Hother by congruence. exact A2.
  - unfold emit_event. cbn [fst snd]. rewrite (own_call K name v (HN name ltac:(congruence))), Hs. apply hwp_say; [exact I|].
    intros u2 h2 y H d Hd. apply H. intros n t Hn. destruct (Hd n t Hn) as (a & b & A1 & A2 & A3). exists a. cbn [m_data set_mops].
    destruct (string_dec n name) as [->|Hne].
    + exists v. split; [exact A1|]. split; [exact HS|]. assert (t = s) by congruence. subst t. rewrite replay_own. apply Sr.
    + exists b. split; [exact A1|]. split; [rewrite Hother by congruence; exact A2|]. rewrite replay_other; [exact A3|]. intros ->.
      apply Hne. eapply HI; eauto.
Qed.
Lemma used_plain_sound : forall p, used_plain K p -> sound p.
Proof.
  intros p [N name v f HD HS|N l Hl].
  - now apply plain_set.
  - unfold model_update. apply (sound_paused C BP RP RP_refl RP_trans RP_B). apply (sound_each C BP RP RP_refl RP_trans RP_B). intros [[name v] sup] Hin.
    apply sound_look. intros u. destruct (k_get K name (m_data u)); [|exact (sound_throw C BP RP _)].
    destruct (Hl name v sup Hin) as (f & HD & HS & ->). now apply plain_set.
Qed.
Lemma apart_plain : forall o, apart K o -> sound (call o).
Proof.
  assert (HEm : forall s a u h, (forall n, k_sig K n <> Some s) -> RP u h u (h ++ [(s, a, u)])).
  { intros s a u h Hs d Hd n t Hn. destruct (Hd n t Hn) as (x & y & B1 & B2 & B3). exists x, y. rewrite replay_other; [auto|].
    intros ->. exact (Hs n Hn). }
  intros o Ho. destruct o; try (apply (sound_call C BP RP RP_refl); [exact Ho|exact I]).
  - intros u h HB. cbn. right. split; [exact HB|]. split; [|auto]. intros u' h' v H. eapply RP_trans; [|exact H]. apply HEm. exact Ho.
  - intros u h HB. cbn. right. split; [exact HB|]. split; [|auto]. intros u' h' v H. eapply RP_trans; [|exact H]. apply HEm. exact Ho.
  - intros u h _. apply hwp_usr_p. intros v Hv. destruct (Ho u) as [_ Hg]. now apply usr_RP.
Qed.
Lemma plain_user_sound : forall p, model_user K (used_plain K) p -> sound p.
Proof.
  intros p H. induction H as [v|e| |k Hk IH|o Ho|p k Hp IHp Hk IH|p Hp].
  - exact (sound_ret C BP RP RP_refl v).
  - exact (sound_throw C BP RP e).
  - intros u h _. exact I.
  - now apply sound_look.
  - now apply apart_plain.
  - now apply (sound_bind C BP RP RP_trans RP_B).
  - now apply used_plain_sound.
Qed.

(** Values when they are announced. *)
Definition RC u (h : hist) u' (h' : hist) : Prop := current K h -> current K h'.
Lemma RC_refl : forall u h, RC u h u h.
Proof. intros u h H. exact H. Qed.
Lemma RC_trans : forall a h b i c j, RC a h b i -> RC b i c j -> RC a h c j.
Proof. intros a h b i c j H1 H2 H. auto. Qed.
Lemma RC_B : forall u h u' h', BP u -> RC u h u' h' -> BP u'.
Proof. intros. exact I. Qed.
Lemma current_set : forall N name v f, declared K name (Field f) -> (k_sig K name <> None -> stored K name v f) ->
  Heed.sound C BP RC (model_setattr K N name v (todo_prog K N (Field f))).
Proof.
  intros N name v f HD HS u h _. unfold model_setattr. destruct (k_sig K name) as [s|] eqn:Hs.
  2:{ cbn. destruct (snd (f (m_data u))); [intros Hh; exact Hh|exact I]. }
  rewrite HA. unfold setattr_plain. cbn [Heed.hwp]. intros z Hz.
  assert (Hp : positive (inl (VInt z)) = true) by (apply Z.ltb_lt, Hz; eapply HL; eauto). rewrite Hp. cbn [Heed.hwp].
  destruct (HR name (m_data u)) as [old Hold]; [congruence|]. unfold get_default. rewrite Hold.
  apply hwp_seq. cbn [todo_prog act call Heed.hwp fst snd]. destruct (snd (f (m_data u))) as [x|e] eqn:Hx; [|exact I]. cbn [finish Heed.hwp].
  specialize (HS ltac:(congruence) _ _ Hx). cbn [m_ops set_data].
  destruct (ModelFacts.check_ok K HT name v (Some old) (m_ops u)) as (ops & b & Hc). rewrite Hc.
  apply hwp_seq. eapply hwp_act; [reflexivity|]. cbn [fst]. destruct b; [intros Hh; exact Hh|].
  unfold emit_event. cbn [fst snd]. rewrite (own_call K name v (HN name ltac:(congruence))), Hs. apply hwp_say; [exact I|].
  intros u2 h2 y H Hh. apply H. intros n t a u0 Hn Hin. apply in_app_iff in Hin as [Hin|[Hin|[]]]; [exact (Hh n t a u0 Hn Hin)|].
  injection Hin as <- <- <-. exists v. split; [reflexivity|]. assert (n = name) by (eapply HI; eauto). subst n. exact HS.
Qed.
Lemma current_user : forall p, model_user K (used_plain K) p -> Heed.sound C BP RC p.
Proof.
  assert (HEm : forall s a u h, (forall n, k_sig K n <> Some s) -> RC u h u (h ++ [(s, a, u)])).
  { intros s a u h Hs Hh n t b u0 Hn Hin. apply in_app_iff in Hin as [Hin|[Hin|[]]]; [eauto|]. injection Hin as <- <- <-. destruct (Hs n Hn). }
  intros p H. induction H as [v|e| |k Hk IH|o Ho|p k Hp IHp Hk IH|p Hp].
  - exact (sound_ret C BP RC RC_refl v).
  - exact (sound_throw C BP RC e).
  - intros u h _. exact I.
  - now apply sound_look.
  - destruct o; try (apply (sound_call C BP RC RC_refl); [exact Ho|exact I]).
    + intros u h HB. cbn. right. split; [exact HB|]. split; [|auto]. intros u' h' v H. eapply RC_trans; [|exact H]. apply HEm. exact Ho.
    + intros u h HB. cbn. right. split; [exact HB|]. split; [|auto]. intros u' h' v H. eapply RC_trans; [|exact H]. apply HEm. exact Ho.
    + intros u h _. cbn. destruct (snd (f u)); [intros Hh; exact Hh|exact I].
  - now apply (sound_bind C BP RC RC_trans RC_B).
  - destruct Hp as [N name v f HD HS|N l Hl]; [now apply current_set|].
    unfold model_update. apply (sound_paused C BP RC RC_refl RC_trans RC_B). apply (sound_each C BP RC RC_refl RC_trans RC_B). intros [[name v] sup] Hin.
    apply sound_look. intros u. destruct (k_get K name (m_data u)); [|exact (sound_throw C BP RC _)].
    destruct (Hl name v sup Hin) as (f & HD & HS & ->). now apply current_set.
Qed.
End Plain.
