(** Facts about the bookkeeping of EventedModel.  Proof infrastructure. *)

From Coq Require Import Permutation.
From Verif Require Import Base Core Spec Frame Fuel Client Prog Evented SpecEvented PropsEvented
  EModel SpecModel Rely.
Open Scope string_scope.
Open Scope list_scope.

Section Facts.
Context {X : Type} (K : mclass X).
Hypothesis HR : readable K.
Hypothesis HC : closed_deps K.
Hypothesis HO : iterates K.
Hypothesis HT : tame (k_values K).
Implicit Types u : mstate X.

(** The bookkeeping is consistent. *)
Record tidy u : Prop := {
  td_dict : is_dict (m_queue u);
  td_prim : NoDup (m_prim u);
  td_in : forall n, In n (m_prim u) -> In n (map fst (m_queue u));
  td_sig : forall n, In n (map fst (m_queue u)) -> k_sig K n <> None
}.
Definition clean u : Prop := m_queue u = [] /\ m_prim u = [].
Definition inv u : Prop := tidy u /\ (m_sema u = 0 -> clean u).
Definition R u u' : Prop := inv u -> inv u' /\ m_sema u' = m_sema u.
Lemma R_refl : forall u, R u u.
Proof. intros u H. auto. Qed.
Lemma R_trans : forall a b c, R a b -> R b c -> R a c.
Proof. intros a b c H1 H2 Ha. destruct (H1 Ha) as [Hb E1]. destruct (H2 Hb) as [Hc E2]. split; congruence. Qed.
Lemma clean_tidy : forall u, clean u -> tidy u.
Proof.
  intros u [H1 H2]. split; rewrite ?H1, ?H2; cbn; try constructor; contradiction.
Qed.

Lemma sget_keys : forall {A} k (d : list (string * A)), sget k d <> None <-> In k (map fst d).
Proof.
  intros A k d. induction d as [|[x v] d IH]; cbn; [tauto|].
  destruct (String.eqb_spec k x) as [->|Hn]; [intuition discriminate|]. rewrite IH. intuition congruence.
Qed.
Lemma has_keys : forall {A} k (d : list (string * A)), has k d = true <-> In k (map fst d).
Proof.
  intros A k d. rewrite <- sget_keys. unfold has. destruct (sget k d); intuition congruence.
Qed.
Lemma sdel_keys : forall {A} k (d : list (string * A)) n,
  In n (map fst (sdel k d)) <-> In n (map fst d) /\ n <> k.
Proof.
  intros A k d n. induction d as [|[x v] d IH]; cbn; [tauto|].
  destruct (String.eqb_spec k x) as [->|Hn]; cbn; rewrite IH; intuition congruence.
Qed.
Lemma sdel_dict : forall {A} k (d : list (string * A)), is_dict d -> is_dict (sdel k d).
Proof.
  intros A k d H. unfold is_dict in *. induction d as [|[x v] d IH]; cbn; [constructor|].
  inversion H as [|? ? H1 H2]; subst. destruct (String.eqb_spec k x) as [->|Hn]; cbn; [auto|].
  constructor; [|auto]. change (~ In x (map fst (sdel k d))). rewrite sdel_keys. tauto.
Qed.
Lemma sdel_sget : forall {A} k n (d : list (string * A)), n <> k -> sget n (sdel k d) = sget n d.
Proof.
  intros A k n d Hn. unfold sdel. induction d as [|[x v] d IH]; cbn; [reflexivity|].
  destruct (String.eqb_spec k x) as [->|Hk]; cbn.
  - rewrite IH. destruct (String.eqb_spec n x); congruence.
  - now rewrite IH.
Qed.

Lemma check_ok : forall name new old ops, exists ops' b,
  check_equal (k_values K) name (Some new) old ops = (ops', inl b).
Proof.
  intros name new old ops.
  destruct (check_equal (k_values K) name (Some new) old ops) as [ops' [b|e]] eqn:E; [eauto|].
  apply check_equal_spec in E. destruct E as (n & -> & _ & E). exfalso.
  inversion E; subst; match goal with H : answers _ _ _ _ (inr (EBase _)) |- _ => apply answers_fun in H; symmetry in H; now apply HT in H end.
Qed.

(** Reading the values before an assignment. *)
Lemma get_ok : forall n u, k_sig K n <> None -> exists v, get_default K n u = inl (Some v)
  /\ k_get K n (m_data u) = inl v.
Proof. intros n u H. destruct (HR n (m_data u) H) as [v Hv]. exists v. unfold get_default. now rewrite Hv. Qed.
Lemma note_all_ok : forall names u, (forall n, In n names -> k_sig K n <> None) ->
  is_dict (m_queue u) -> (forall n, In n (map fst (m_queue u)) -> k_sig K n <> None) ->
  exists u', note_all K names u = (u', inl VNone)
    /\ m_data u' = m_data u /\ m_prim u' = m_prim u /\ m_sema u' = m_sema u /\ m_ops u' = m_ops u
    /\ is_dict (m_queue u')
    /\ (forall n, In n (map fst (m_queue u')) <-> In n (map fst (m_queue u)) \/ In n names)
    /\ (forall n v, sget n (m_queue u) = Some v -> sget n (m_queue u') = Some v)
    /\ (forall n v, sget n (m_queue u) = None -> sget n (m_queue u') = Some v ->
          exists x, v = Some x /\ k_get K n (m_data u) = inl x).
Proof.
  induction names as [|n names IH]; intros u Hs Hd Hk; cbn [note_all].
  - exists u. repeat (split; [reflexivity|]). split; [exact Hd|]. split; [intros n; cbn; tauto|]. split; [auto|].
    intros n v H1 H2. congruence.
  - destruct (has n (m_queue u)) eqn:Hn.
    + apply has_keys in Hn. destruct (IH u) as (u' & A & B & C & D & F & G & H & I & J); auto using in_cons.
      exists u'. repeat (split; [assumption|]). split; [|split; assumption].
      intros m. rewrite H. cbn. intuition congruence.
    + assert (Hn' : ~ In n (map fst (m_queue u))) by (rewrite <- has_keys; congruence).
      destruct (get_ok n u) as (v & -> & Hv); [apply Hs; now left|].
      destruct (IH (set_queue (m_queue u ++ [(n, Some v)]) u)) as (u' & A & B & C & D & F & G & H & I & J).
      * auto using in_cons.
      * cbn. unfold is_dict. rewrite map_app. cbn. apply NoDup_app; [exact Hd|repeat constructor; cbn; tauto|].
        intros x Hx [<-|[]]. contradiction.
      * cbn. intros m. rewrite map_app, in_app_iff. cbn. intros [Hm|[<-|[]]]; [auto|apply Hs; now left].
      * cbn [m_queue m_data m_prim m_sema m_ops set_queue] in *. exists u'. repeat (split; [assumption|]).
        assert (SA : forall m, sget m (m_queue u ++ [(n, Some v)])
                      = match sget m (m_queue u) with Some x => Some x | None => if String.eqb m n then Some (Some v) else None end).
        { intros m. clear. induction (m_queue u) as [|[x y] q IHq]; cbn; [destruct (String.eqb m n); reflexivity|].
          destruct (String.eqb m x); [reflexivity|exact IHq]. }
        split; [intros m; rewrite H, map_app, in_app_iff; cbn; intuition congruence|]. split.
        -- intros m x Hm. apply I. rewrite SA, Hm. reflexivity.
        -- intros m x Hm Hx. destruct (String.eqb_spec m n) as [->|Hne].
           ++ exists v. split; [|exact Hv]. specialize (I n (Some v)). rewrite SA, Hm, String.eqb_refl in I.
              specialize (I eq_refl). congruence.
           ++ apply J; [|exact Hx]. rewrite SA, Hm. apply String.eqb_neq in Hne. now rewrite Hne.
Qed.
Lemma order_In : forall l n, In n (k_order K l) <-> In n l.
Proof. intros. split; apply Permutation_in; [symmetry|]; apply HO. Qed.
Lemma note_ok : forall name deps u, k_sig K name <> None -> (forall d, In d deps -> k_sig K d <> None) ->
  tidy u -> exists u', note K name deps u = (u', inl VNone) /\ tidy u'
    /\ m_data u' = m_data u /\ m_sema u' = m_sema u /\ m_ops u' = m_ops u
    /\ (forall n, In n (m_prim u') <-> n = name \/ In n (m_prim u))
    /\ (forall n, In n (map fst (m_queue u')) <-> In n (map fst (m_queue u)) \/ n = name \/ In n deps)
    /\ (forall n v, sget n (m_queue u) = Some v -> sget n (m_queue u') = Some v)
    /\ (forall n v, sget n (m_queue u) = None -> sget n (m_queue u') = Some v ->
          exists x, v = Some x /\ k_get K n (m_data u) = inl x).
Proof.
  intros name deps u Hs Hd [T1 T2 T3 T4]. unfold note.
  set (u0 := if mem name (m_prim u) then u else set_prim (m_prim u ++ [name]) u).
  assert (Hq : m_queue u0 = m_queue u /\ m_data u0 = m_data u /\ m_sema u0 = m_sema u /\ m_ops u0 = m_ops u)
    by (unfold u0; destruct (mem _ _); auto). destruct Hq as (Q1 & Q2 & Q3 & Q4).
  assert (Hp : NoDup (m_prim u0) /\ forall n, In n (m_prim u0) <-> n = name \/ In n (m_prim u)).
  { unfold u0. destruct (mem name (m_prim u)) eqn:Hm.
    - apply mem_In in Hm. split; [exact T2|]. intros n. intuition congruence.
    - apply mem_not_In in Hm. cbn. split.
      + apply NoDup_app; [exact T2|repeat constructor; cbn; tauto|]. intros x Hx [<-|[]]. contradiction.
      + intros n. rewrite in_app_iff. cbn. intuition congruence. }
  destruct Hp as [P1 P2].
  destruct (note_all_ok (name :: k_order K deps) u0) as (u' & A & B & C & D & F & G & H & I & J).
  { intros n [<-|Hn]; [exact Hs|]. apply (proj1 (order_In _ _)) in Hn. now apply Hd. }
  { now rewrite Q1. }
  { rewrite Q1. exact T4. }
  rewrite Q1, Q2 in *. assert (H' : forall n, In n (map fst (m_queue u')) <->
    In n (map fst (m_queue u)) \/ n = name \/ In n deps).
  { intros n. rewrite H. cbn. rewrite order_In. intuition congruence. }
  exists u'. split; [exact A|]. split.
  - split; [exact G|now rewrite C| |].
    + intros n. rewrite C, P2, H'. intros [->|Hn]; [tauto|left; auto].
    + intros n. rewrite H'. intros [Hn|[->|Hn]]; auto.
  - repeat (split; [congruence|]). split; [intros n; rewrite C; apply P2|]. auto.
Qed.

(** Comparing. *)
Lemma primaries_ok : forall names emits u, NoDup names ->
  (forall n, In n names -> In n (map fst (m_queue u))) ->
  (forall n, In n (map fst (m_queue u)) -> k_sig K n <> None) -> is_dict (m_queue u) ->
  exists u' l, primaries K names emits u = (u', inl l)
    /\ m_data u' = m_data u /\ m_sema u' = m_sema u /\ is_dict (m_queue u')
    /\ (forall n, In n (map fst (m_queue u')) <-> In n (map fst (m_queue u)) /\ ~ In n names)
    /\ (forall n v, sget n (m_queue u') = Some v -> sget n (m_queue u) = Some v).
Proof.
  induction names as [|n names IH]; intros emits u HN Hin Hs Hd; cbn [primaries].
  - exists u, emits. repeat (split; [reflexivity|]). split; [exact Hd|]. split; [cbn; tauto|auto].
  - inversion HN as [|? ? Hn HN']; subst.
    assert (Hk : In n (map fst (m_queue u))) by (apply Hin; now left).
    destruct (sget n (m_queue u)) as [old|] eqn:Hold; [|now apply sget_keys in Hk].
    destruct (HR n (m_data u) (Hs n Hk)) as [new ->].
    destruct (check_ok n new old (m_ops u)) as (ops & b & ->).
    cbn [set_mops m_queue set_queue].
    destruct (IH (if b then emits else emits ++ [(n, new)])
                 (set_queue (sdel n (m_queue u)) (set_mops ops u))) as (u' & l & A & B & C & D & F & G).
    + exact HN'.
    + intros m Hm. cbn. apply sdel_keys. split; [apply Hin; now right|]. intros ->. contradiction.
    + cbn. intros m Hm. apply sdel_keys in Hm as [Hm _]. auto.
    + cbn. now apply sdel_dict.
    + exists u', l. split; [exact A|]. repeat (split; [assumption|]). cbn in F, G. split.
      * intros m. rewrite F, sdel_keys. cbn. intuition congruence.
      * intros m v Hv. pose proof (G m v Hv) as Hv'. rewrite sdel_sget in Hv'; [exact Hv'|].
        intros ->. assert (Hm : In n (map fst (m_queue u'))) by (apply sget_keys; congruence).
        apply F in Hm as [Hm _]. apply sdel_keys in Hm. tauto.
Qed.
Lemma others_ok : forall q emits u, (forall n, In n (map fst q) -> k_sig K n <> None) ->
  exists u' l, others K q emits u = (u', inl l)
    /\ m_data u' = m_data u /\ m_sema u' = m_sema u /\ m_queue u' = m_queue u.
Proof.
  induction q as [|[n old] q IH]; intros emits u Hs; cbn [others].
  - exists u, emits. auto.
  - destruct (HR n (m_data u)) as [new ->]; [apply Hs; now left|].
    destruct (check_ok n new old (m_ops u)) as (ops & b & ->).
    destruct (IH (if b then emits else emits ++ [(n, new)]) (set_mops ops u)) as (u' & l & A & B & C & D).
    { intros m Hm. apply Hs. now right. }
    exists u', l. auto.
Qed.
Lemma compare_ok : forall u, tidy u -> exists u' l, compare K u = (u', inl l)
  /\ m_data u' = m_data u /\ m_sema u' = m_sema u /\ clean u'.
Proof.
  intros u [T1 T2 T3 T4]. unfold compare.
  destruct (primaries_ok (k_order K (m_prim u)) [] u) as (u1 & l & -> & B & C & D & F & G).
  { eapply Permutation_NoDup; [apply HO|exact T2]. }
  { intros n Hn. apply (proj1 (order_In _ _)) in Hn. auto. } { exact T4. } { exact T1. }
  destruct l as [|e l].
  - exists (cleared u1), []. repeat split; assumption.
  - destruct (others_ok (m_queue u1) (e :: l) u1) as (u2 & l' & -> & B2 & C2 & D2).
    { intros n Hn. apply F in Hn as [Hn _]. auto. }
    exists (cleared u2), l'. repeat split; cbn; congruence.
Qed.

(** ** All methods keep the bookkeeping consistent, whatever listeners do *)
Notation rwp := (rwp R).
Lemma rwp_seq : forall p q u Q,
  rwp p u (fun u1 x => match x with inl v => rwp q u1 Q | inr e => Q u1 (inr e) end) -> rwp (p ;; q) u Q.
Proof. intros. apply rwp_bind. exact H. Qed.
Lemma rwp_finally : forall p q u Q,
  rwp p u (fun u1 x => rwp q u1 (fun u2 y => match y with inl _ => Q u2 x | inr e => Q u2 (inr e) end)) ->
  rwp (try_finally p q) u Q.
Proof.
  intros p q u Q H. apply rwp_catch. eapply rwp_mono; [|exact H]. intros u1 x H1. apply rwp_bind.
  eapply rwp_mono; [|exact H1]. intros u2 [v|e] H2; [|exact H2]. destruct x; exact H2.
Qed.
Lemma tidy_sema : forall u n, tidy u -> tidy (set_sema n u).
Proof. intros u n [A B C D]. split; assumption. Qed.

Lemma emit_keeps : forall nv, keeps R (emit_event K nv).
Proof.
  assert (HC1 : forall o, match o with OUsr _ => False | _ => True end -> keeps R (call o)).
  { intros o Ho u. destruct o; try destruct Ho; cbn [call rwp]; intros u' x Hu; destruct x; exact Hu. }
  assert (HP : forall v, keeps R (Ret v)) by (intros v u; apply R_refl).
  assert (HT1 : forall e, keeps R (Throw e)) by (intros v u; apply R_refl).
  intros [name v]. unfold emit_event. cbn [fst snd]. destruct (group_call K name v) as [p|] eqn:G.
  - unfold group_call in G.
    repeat match type of G with (if ?b then _ else _) = _ => destruct b; [injection G as <-|] end;
      try discriminate; try destruct v; auto; try (apply HC1; exact I); intros u; exact I.
  - destruct (k_sig K name); [apply HC1; exact I|auto].
Qed.
Lemma emits_keep : forall l u (Q : mstate X -> val + exn -> Prop), inv u ->
  (forall u' x, inv u' -> m_sema u' = m_sema u -> Q u' x) -> rwp (each (emit_event K) l) u Q.
Proof.
  induction l as [|nv l IH]; intros u Q Hi HQ; cbn [each].
  - now apply HQ.
  - apply rwp_seq. eapply rwp_mono; [|apply emit_keeps]. intros u' x Hu. destruct (Hu Hi) as [Hi' Hs].
    destruct x as [v|e]; [|now apply HQ].
    apply IH; [exact Hi'|]. intros u2 x2 H2 S2. apply HQ; congruence.
Qed.
(** After [check_and_emit] the bookkeeping is clean, if no comparison is delayed. *)
Lemma check_keeps : forall n u, tidy u ->
  rwp (check_and_emit K n) u (fun u' _ => inv u' /\ m_sema u' = m_sema u).
Proof.
  induction n as [|n IH]; intros u Ht; cbn [check_and_emit]; [exact I|]. cbn [rwp].
  destruct (Nat.ltb_spec 0 (m_sema u)) as [Hs|Hs]; cbn [orb].
  { cbn. split; [|reflexivity]. split; [exact Ht|]. intros H0. lia. }
  destruct (m_queue u) as [|e0 q0] eqn:Hq.
  { cbn. split; [|reflexivity]. split; [exact Ht|]. intros _. split; [exact Hq|].
    destruct (m_prim u) as [|p l] eqn:Hp; [reflexivity|]. exfalso.
    assert (Hin : In p (map fst (m_queue u))) by (apply (td_in u Ht); rewrite Hp; now left).
    rewrite Hq in Hin. exact Hin. }
  destruct (compare_ok u Ht) as (u1 & l & -> & _ & S1 & C1).
  assert (I1 : inv u1) by (split; [now apply clean_tidy|intros _; exact C1]).
  destruct l as [|e l].
  { cbn. split; [exact I1|exact S1]. }
  apply rwp_seq. cbn [own act call rwp fst snd finish]. apply rwp_seq. cbn [enter_delay own act call rwp fst snd finish].
  apply rwp_finally. apply emits_keep.
  { split; [now apply tidy_sema, clean_tidy|]. cbn. discriminate. }
  intros u2 x [T2 _] S2. cbn [m_sema set_sema] in S2. apply rwp_seq. cbn [leave_delay own act call rwp fst snd finish].
  eapply rwp_mono; [|apply IH; now apply tidy_sema]. cbn [m_sema set_sema]. intros u3 y [I3 S3].
  assert (S4 : m_sema u3 = m_sema u) by (rewrite S3, S2; lia). destruct y; split; assumption.
Qed.
Lemma private_R : forall u u', same_private u u' -> R u u'.
Proof.
  intros u u' (A & B & C) [[T1 T2 T3 T4] Hc]. split; [|exact C]. split.
  - split; rewrite ?A, ?B; assumption.
  - unfold clean. rewrite A, B, C. exact Hc.
Qed.
Lemma keeps_seq : forall p q u, keeps R p -> (forall u, rwp q u (fun u' _ => R u u')) ->
  rwp (p ;; q) u (fun u' _ => R u u').
Proof.
  intros p q u Hp Hq. apply rwp_seq. eapply rwp_mono; [|apply Hp]. intros u1 [v|e] H1; [|exact H1].
  eapply rwp_mono; [|apply Hq]. intros u2 x2 H2. eapply R_trans; eauto.
Qed.
Lemma listening_keeps : forall l acc k u (Q : mstate X -> val + exn -> Prop),
  (forall d, In d l -> k_sig K d <> None) -> (forall d, In d acc -> k_sig K d <> None) ->
  (forall deps u', (forall d, In d deps -> k_sig K d <> None) -> R u u' -> rwp (k deps) u' Q) ->
  rwp (listening K l acc k) u Q.
Proof.
  induction l as [|d l IH]; intros acc k u Q Hl Ha Hk; cbn [listening].
  - apply Hk; [exact Ha|apply R_refl].
  - destruct (k_sig K d) as [s|] eqn:Hd; [|exfalso; apply (Hl d); [now left|exact Hd]].
    cbn [rwp]. intros u' x Hu. apply IH.
    + intros d' Hd'. apply Hl. now right.
    + intros d' Hd'. destruct (positive x); [|auto]. apply in_app_iff in Hd' as [Hd'|[<-|[]]]; [auto|congruence].
    + intros deps u2 H2 R2. apply Hk; [exact H2|]. eapply R_trans; eauto.
Qed.
(** [_setattr_impl] runs inside a ComparisonDelayer. *)
Lemma impl_keeps : forall n name sup, keeps R sup -> keeps R (delayed K n (setattr_impl K name sup)).
Proof.
  intros n name sup Hp u. apply rwp_pull. intros [Ht Hc]. unfold delayed. apply rwp_seq.
  cbn [enter_delay own act call rwp fst snd finish].
  set (u0 := set_sema (S (m_sema u)) u).
  assert (I0 : inv u0) by (split; [now apply tidy_sema|cbn; discriminate]).
  assert (N0 : m_sema u0 = S (m_sema u)) by reflexivity.
  apply rwp_finally.
  apply rwp_mono with (Q := fun u1 _ => inv u1 /\ m_sema u1 = m_sema u0).
  { intros u1 x [[T1 _] S1]. apply rwp_seq. cbn [leave_delay own act call rwp fst snd finish].
    eapply rwp_mono; [|apply check_keeps; now apply tidy_sema]. cbn [m_sema set_sema].
    intros u2 y [I2 S2]. assert (S3 : m_sema u2 = m_sema u) by lia. destruct y; auto. }
  clearbody u0. unfold setattr_impl. destruct (k_sig K name) as [s|] eqn:Hs; [|cbn; auto].
  assert (Hgo : forall deps u1, (forall d, In d deps -> k_sig K d <> None) -> inv u1 -> m_sema u1 = m_sema u0 ->
            rwp (act (note K name deps) ;; sup) u1 (fun u2 _ => inv u2 /\ m_sema u2 = m_sema u0)).
  { intros deps u1 Hd I1 S1. apply rwp_seq. cbn [act call rwp].
    destruct (note_ok name deps u1) as (u2 & E2 & T2 & _ & S2 & _); [congruence|exact Hd|apply I1|].
    rewrite E2. cbn [fst snd finish rwp]. eapply rwp_mono; [|apply Hp]. intros u3 x H3.
    destruct H3 as [I3 S3]; [split; [exact T2|intros H0; lia]|]. split; [exact I3|lia]. }
  assert (Hsup : forall u1, inv u1 -> m_sema u1 = m_sema u0 ->
            rwp sup u1 (fun u2 _ => inv u2 /\ m_sema u2 = m_sema u0)).
  { intros u1 I1 S1. eapply rwp_mono; [|apply Hp]. intros u3 x H3. destruct (H3 I1) as [I3 S3]. split; [exact I3|lia]. }
  apply listening_keeps.
  { intros d Hd. apply (proj1 (order_In _ _)) in Hd. eauto. } { intros d []. }
  intros deps u1 Hd R1. destruct (R1 I0) as [I1 S1]. cbn [rwp]. intros u2 x R2. destruct (R2 I1) as [I2 S2].
  destruct (positive x || _); [apply Hgo; [exact Hd|exact I2|congruence]|].
  cbn [rwp]. intros u3 y R3. destruct (R3 I2) as [I3 S3].
  destruct (positive y); [apply Hgo|apply Hsup]; congruence || assumption.
Qed.
Lemma plain_keeps : forall s name value sup, keeps R sup -> keeps R (setattr_plain K s name value sup).
Proof.
  intros s name value sup Hp u. unfold setattr_plain. cbn [rwp]. intros u1 x R1.
  apply rwp_mono with (Q := fun u2 _ => R u1 u2); [intros; eapply R_trans; eauto|].
  destruct (positive x); [|apply Hp]. cbn [rwp]. destruct (get_default K name u1) as [old|e]; [|apply R_refl].
  apply keeps_seq; [exact Hp|]. clear. intros u. cbn [rwp].
  destruct (check_equal _ _ _ _ _) as [ops [b|e]]; [|cbn; apply private_R; repeat split].
  apply rwp_seq. cbn [own act call rwp fst snd finish].
  assert (R0 : R u (set_mops ops u)) by (apply private_R; repeat split).
  destruct b; [exact R0|]. eapply rwp_mono; [|apply emit_keeps]. intros u' x Hu. eapply R_trans; eauto.
Qed.
Lemma setattr_keeps : forall n name value sup, keeps R sup -> keeps R (model_setattr K n name value sup).
Proof.
  intros n name value sup Hp. unfold model_setattr. destruct (k_sig K name); [|exact Hp].
  destruct (k_any K); [now apply impl_keeps|now apply plain_keeps].
Qed.
Lemma catch_keeps : forall p k, keeps R p -> (forall x, keeps R (k x)) -> keeps R (catch p k).
Proof.
  intros p k Hp Hk u. apply rwp_catch. eapply rwp_mono; [|apply Hp]. intros u1 x H1.
  eapply rwp_mono; [|apply Hk]. intros u2 x2 H2. exact (R_trans _ _ _ H1 H2).
Qed.
Lemma each_keeps : forall {A} (f : A -> prog (mstate X)) l, (forall x, In x l -> keeps R (f x)) -> keeps R (each f l).
Proof.
  intros A f l; induction l as [|x l IH]; intros Hf u; cbn [each]; [apply R_refl|].
  apply keeps_seq; [apply Hf; now left|]. apply IH. intros y Hy. apply Hf. now right.
Qed.
Lemma update_keeps : forall n l, (forall name value sup, In (name, value, sup) l -> keeps R sup) ->
  keeps R (model_update K n l).
Proof.
  intros n l Hl u. unfold model_update, with_paused. apply rwp_bind. unfold call at 1. cbn [rwp]. intros u1 x R1.
  destruct x as [was|e]; cbn [finish rwp]; [|exact R1].
  apply rwp_bind. unfold call at 1. cbn [rwp]. intros u2 y R2. assert (R3 := R_trans _ _ _ R1 R2). clear R1 R2.
  destruct y as [v|e]; cbn [finish rwp]; [|exact R3].
  apply rwp_mono with (Q := fun u3 _ => R u2 u3); [intros; eapply R_trans; eauto|].
  apply rwp_finally. eapply rwp_mono; [|apply each_keeps].
  - intros u3 z H3.
    assert (HW : was = VBool true \/ match was with VBool true => Ret VNone | _ => call (OResume (k_all K) RNone) end
                                     = (call (OResume (k_all K) RNone) : prog (mstate X))).
    { destruct was; auto. match goal with b : bool |- _ => destruct b end; auto. }
    destruct HW as [-> | ->]; [exact H3|]. unfold call. cbn [rwp]. intros u4 [y|e] H4; exact (R_trans _ _ _ H3 H4).
  - intros [[name value] sup] Hin u3. cbn [rwp]. destruct (k_get K name (m_data u3)); [|apply R_refl].
    apply setattr_keeps. eapply Hl; eauto.
Qed.
Lemma client_keeps : forall p, client K p -> keeps R p.
Proof.
  intros p H. induction H as [v|e| |k Hk IH|o k Ho Hk IH|p k Hp IHp Hk IH|p k Hp IHp Hk IH|n name value sup Hs IHs|n l Hl IHl].
  - intros u. apply R_refl.
  - intros u. apply R_refl.
  - intros u. exact I.
  - intros u. apply IH.
  - assert (HG : match o with OUsr _ => False | _ => True end -> keeps R (Do o k)).
    { intros Hi u. destruct o; try contradiction; cbn [rwp]; intros u' x Hu;
        (eapply rwp_mono; [|apply IH]); intros u2 x2 H2; eapply R_trans; eauto. }
    destruct o; try (apply HG; exact I). clear HG. intros u. cbn [rwp].
    eapply rwp_mono; [|apply IH]. intros u2 x2 H2. eapply R_trans; [apply private_R, Ho|exact H2].
  - intros u. apply rwp_bind. eapply rwp_mono; [|apply IHp]. intros u1 [v|e] H1; [|exact H1].
    eapply rwp_mono; [|apply IH]. intros u2 x2 H2. exact (R_trans _ _ _ H1 H2).
  - now apply catch_keeps.
  - now apply setattr_keeps.
  - now apply update_keeps.
Qed.
End Facts.
