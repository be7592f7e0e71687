(** Programs that only work on their own data and emit a signal that is paused, and what the
    [with sig.paused(reducer)] around them emits.  Proof infrastructure; models no code. *)

From Verif Require Import Base Core Spec Frame Fuel Conn Keep Trace Inv Dead Emission Hush Client Prog Does PropsBlock.

Section Paused.
Context {U : Type} (E : env U) (s : sid).

Definition collecting (o : op U) : Prop :=
  match o with
  | OUsr _ => True
  | OEmit x _ false false | OIsPaused x | OPause x => x = s
  | _ => False
  end.
Definition asked (l : list (list val * U)) : list (event U) := map (fun x => EEmit s (fst x) (snd x)) l.

Lemma collect : forall p w w' r, prog_all collecting p ->
  s_blocked (w_sg w s) = false -> s_paused (w_sg w s) = true -> runs E p w w' r ->
  exists l, w_tr w' = w_tr w ++ asked l
    /\ w_sg w' s = set_args (s_args (w_sg w s) ++ map fst l) (w_sg w s)
    /\ (forall x, x <> s -> w_sg w' x = w_sg w x)
    /\ w' = set_usr (w_usr w') (set_sg (w_sg w') (set_tr (w_tr w') w)).
Proof.
  intros p; induction p as [v|e| |k IH|o k IH]; intros w w' r HP Hb Hp H.
  - apply runs_ret in H as [-> ->]. exists []. cbn. rewrite !app_nil_r. split; [reflexivity|].
    split; [now destruct (w_sg w s)|]. split; [auto|now destruct w].
  - apply runs_throw in H as [-> ->]. exists []. cbn. rewrite !app_nil_r. split; [reflexivity|].
    split; [now destruct (w_sg w s)|]. split; [auto|now destruct w].
  - apply runs_halt in H as [-> ->]. exists []. cbn. rewrite !app_nil_r. split; [reflexivity|].
    split; [now destruct (w_sg w s)|]. split; [auto|now destruct w].
  - apply runs_look in H. exact (IH (w_usr w) w w' r (HP (w_usr w)) Hb Hp H).
  - destruct HP as [HO HK]. apply runs_do in H as (w1 & r1 & HS & H).
    assert (Hone : exists l, w_tr w1 = w_tr w ++ asked l
      /\ w_sg w1 s = set_args (s_args (w_sg w s) ++ map fst l) (w_sg w s)
      /\ (forall x, x <> s -> w_sg w1 x = w_sg w x)
      /\ w1 = set_usr (w_usr w1) (set_sg (w_sg w1) (set_tr (w_tr w1) w))).
    { destruct o; try contradiction; cbn in HO.
      - destruct cn, ct; try contradiction. subst s0.
        destruct HS as [n HS]. cbn [step] in HS. unfold do_emit in HS. cbn [log w_sg set_tr] in HS.
        rewrite Hb, Hp in HS. cbn [andb negb] in HS. injection HS as <- <-.
        exists [(args, w_usr w)]. split; [reflexivity|]. rewrite upd_same. split; [reflexivity|].
        split; [intros x Hx; now rewrite upd_other|]. now destruct w.
      - subst s0. apply steps_pure in HS; [|reflexivity]. injection HS as <- <-. exists [].
        cbn [asked map]. rewrite !app_nil_r. split; [reflexivity|]. rewrite upd_same.
        split; [now destruct (w_sg w s); cbn in *; subst|]. split; [intros x Hx; now rewrite upd_other|]. now destruct w.
      - apply steps_pure in HS; [|reflexivity]. injection HS as <- <-. exists []. cbn. rewrite !app_nil_r.
        split; [reflexivity|]. split; [now destruct (w_sg w s)|]. split; [auto|now destruct w].
      - apply steps_pure in HS; [|reflexivity]. unfold pure_step in HS. cbn [step] in HS.
        destruct (f (w_usr w)) as [u' x]. exists []. cbn [asked map]. rewrite !app_nil_r.
        destruct x; injection HS as <- <-; (split; [reflexivity|]; split; [cbn; now destruct (w_sg w s)|];
          split; [auto|now destruct w]). }
    destruct Hone as (l1 & T1 & S1 & O1 & W1).
    assert (Hrest : exists x, runs E (k x) w1 w' r \/ (w' = w1 /\ r1 = Halted)).
    { destruct r1 as [v|e|]; [exists (inl v)|exists (inr e)|exists (inl VNone)]; auto. right. destruct H; auto. }
    destruct Hrest as (x & [HR|[-> ->]]).
    + destruct (IH x w1 w' r (HK x)) as (l2 & T2 & S2 & O2 & W2); auto.
      { rewrite S1. exact Hb. } { rewrite S1. exact Hp. }
      exists (l1 ++ l2). unfold asked in *. rewrite map_app, T2, T1, <- app_assoc. split; [reflexivity|].
      split; [rewrite S2, S1, map_app; cbn; now rewrite app_assoc|].
      split; [intros y Hy; rewrite O2, O1 by assumption; reflexivity|].
      rewrite W2, W1, T2, T1. cbn. now rewrite <- app_assoc.
    + exists l1. auto.
Qed.

Lemma heard_asked : forall C l, C s = true -> heard C (asked l) = map (fun x => (s, fst x, snd x)) l.
Proof. intros C l HC; induction l as [|x l IH]; [reflexivity|]. cbn [asked map heard]. rewrite HC. f_equal. exact IH. Qed.

Variable E0 : env U.

(** The statement runs the body and then, if something was collected and someone is connected,
    emits once what the reducer makes of it. *)
Theorem paused_once : forall f p w w' v,
  reachable E0 w -> same_objects E0 E -> env_all (untouched (members_of w) s) E ->
  prog_all collecting p ->
  s_members (w_sg w s) = None -> in_progress s (w_tr w) = 0%Z ->
  (s_mode (w_sg w s) = LatestOnly -> reachable_by (no_fast s) E0 w) ->
  s_blocked (w_sg w s) = false -> s_paused (w_sg w s) = false -> s_args (w_sg w s) = [] ->
  s_slots (w_sg w s) <> [] ->
  runs E (with_paused s (ROne f) p) w w' (Ok v) ->
  exists w3 l, runs E p (upd s (set_paused true) w) w3 (Ok v)
    /\ w_tr w3 = w_tr w ++ asked l
    /\ (exists x, steps E (OResume s (ROne f)) w3 w' (Ok x))
    /\ ((l = [] /\ w_tr w' = w_tr w3)
        \/ exists a t, l <> [] /\ f (map fst l) = inl a /\ w_tr w' = w_tr w3 ++ t
             /\ emission s (w_me w) (s_slots (w_sg w s)) a t).
Proof.
  intros f p w w' v HR HO HE HP Hm H0 HL Hb Hp Ha Hsl H. unfold with_paused in H.
  apply runs_bind in H as (w1 & r1 & H1 & H). apply runs_call, steps_pure in H1; [|reflexivity].
  injection H1 as <- <-. rewrite Hp in H.
  apply runs_bind in H as (w2 & r2 & H2 & H). apply runs_call, steps_pure in H2; [|reflexivity].
  injection H2 as <- <-. unfold try_finally in H. apply runs_catch in H as (w3 & r3 & H3 & H).
  set (wp := upd s (set_paused true) w) in *.
  assert (HPw : w_sg wp s = set_paused true (w_sg w s)) by (unfold wp; now rewrite upd_same).
  destruct (collect p wp w3 r3 HP) as (l & T & C1 & C2 & C3); auto; try (rewrite HPw; assumption || reflexivity).
  assert (Hfin : exists x, match r3 with Ok z => x = inl z | Err e => x = inr e | Halted => False end
     /\ exists w4 v4, steps E (OResume s (ROne f)) w3 w4 (Ok v4) /\ w' = w4 /\ x = inl v).
  { destruct r3 as [z|e|]; [exists (inl z)|exists (inr e)|destruct H as [_ H]; discriminate]; (split; [reflexivity|]);
      apply runs_bind in H as (w4 & r4 & H4 & H); apply runs_call in H4;
      (destruct r4 as [v4|e4|]; [|destruct H as [_ H]; discriminate|destruct H as [_ H]; discriminate]);
      cbn [finish] in H; [apply runs_ret in H as [-> H]; injection H as ->; eauto 8|apply runs_throw in H as [_ H]; discriminate]. }
  destruct Hfin as (x & Hx & w4 & v4 & H4 & -> & ->). destruct r3 as [z|e|]; [injection Hx as <-|discriminate|contradiction].
  assert (HT : w_tr w3 = w_tr w ++ asked l) by (rewrite T; reflexivity).
  exists w3, l. split; [exact H3|]. split; [exact HT|]. split; [eauto|].
  rewrite HPw in C1. cbn [s_args set_paused] in C1. rewrite Ha in C1. cbn [app] in C1.
  destruct l as [|a0 l0].
  { left. split; [reflexivity|]. destruct H4 as [n H4]. cbn [step] in H4. unfold do_resume in H4.
    rewrite upd_same, C1 in H4. cbn [s_args set_args set_paused map] in H4. injection H4 as <- _. reflexivity. }
  right. set (l := a0 :: l0) in *.
  assert (HC2 : forall x, x <> s -> w_sg w3 x = w_sg w x).
  { intros x Hx. rewrite C2 by assumption. unfold wp. now rewrite upd_other. }
  assert (HC : conn_same w (upd s (set_paused false) w3)).
  { eapply conn_same_trans with (b := w3); [|apply conn_same_upd; reflexivity].
    split; [|rewrite C3; auto].
    intros x. destruct (Nat.eq_dec x s) as [->|Hne]; [rewrite C1; auto|rewrite HC2 by assumption; auto]. }
  assert (HM3 : w_me w3 = w_me w) by (rewrite C3; reflexivity).
  destruct (resume_still U E0 E s w HR HO Hm H0 HL) as [G1 G2 G3 G4 G5 G6].
  rewrite upd_same in *. cbn in G2, G3, G4, G5.
  destruct (resume_ok U E (members_of w) s (ROne f) w3 w4 v4) as (R1 & R2 & R3 & t & R4 & a & R5 & R6); auto.
  - exact (flat_members w (reachable_flat E0 w HR)).
  - constructor; try (rewrite upd_same, C1; cbn; assumption || reflexivity).
    constructor.
    + intros x. unfold members_of. now rewrite (proj2 (proj2 (proj1 HC x))).
    + intros p0 Hpp; discriminate.
    + eapply live_same; [exact HC|]. eapply live_objects; [exact HO|]. now apply reachable_live.
  - rewrite C1. exact Hsl.
  - rewrite C1. cbn. discriminate.
  - exists a, t. split; [discriminate|]. rewrite C1 in R5. cbn in R5. split; [exact R5|]. split; [exact R4|].
    rewrite C1, HM3 in R6. exact R6.
Qed.

(** One emit() when the signal can be emitted. *)
Theorem emit_once : forall args w w' v,
  reachable E0 w -> same_objects E0 E -> env_all (untouched (members_of w) s) E ->
  s_members (w_sg w s) = None -> in_progress s (w_tr w) = 0%Z ->
  (s_mode (w_sg w s) = LatestOnly -> reachable_by (no_fast s) E0 w) ->
  s_blocked (w_sg w s) = false -> s_paused (w_sg w s) = false -> w_hook w = None ->
  forall u, steps E (OEmit s args false false) (set_usr u w) w' (Ok v) ->
  exists t, w_tr w' = w_tr w ++ EEmit s args u :: t /\ emission s (w_me w) (s_slots (w_sg w s)) args t.
Proof.
  intros args w w' v HR HO HE Hm H0 HL Hb Hp Hh u [n H]. cbn [step] in H. unfold do_emit in H.
  set (w0 := log (EEmit s args (w_usr (set_usr u w))) (set_usr u w)) in H.
  assert (HSG : w_sg w0 = w_sg w) by reflexivity. rewrite HSG, Hb, Hp in H. cbn [andb negb] in H.
  assert (HH : w_hook w0 = None) by exact Hh. rewrite HH in H.
  assert (HC : conn_same w w0).
  { split; [|auto]. intros x. rewrite HSG. auto. }
  destruct (resume_still U E0 E s w HR HO Hm H0 HL) as [G1 G2 G3 G4 G5 G6].
  rewrite upd_same in *. cbn in G2, G3, G4, G5.
  assert (HS : still E (members_of w) s w0).
  { constructor; try (rewrite HSG; assumption).
    constructor.
    + intros x. unfold members_of. now rewrite HSG.
    + intros p Hpp; discriminate.
    + eapply live_same; [exact HC|]. eapply live_objects; [exact HO|]. now apply reachable_live. }
  destruct (loop_one E (members_of w) s (flat_members w (reachable_flat E0 w HR)) HE _ _ _ _ _ _ H ltac:(discriminate) HS)
    as (_ & _ & _ & _ & eid & t & cl & un & T & KS & KN & -> & KR).
  exists (EStart eid s args :: t ++ [EEnd eid s]). split.
  - rewrite T. unfold w0. cbn. now rewrite <- app_assoc.
  - exists eid, t. split; [reflexivity|]. rewrite HSG, app_nil_r in KS. rewrite KS. auto.
Qed.
End Paused.
