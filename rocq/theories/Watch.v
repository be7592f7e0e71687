(** What connecting and disconnecting the report functions of monitor_events does to the
    callbacks of the monitored signals.  Proofs only. *)

From Verif Require Import Base Core Spec Frame Fuel Conn Keep Trace Inv Dead Rest Quiet Prog Monitor.
From Coq Require Import Permutation.

Definition pair_dec : forall x y : nat * sid, {x = y} + {x <> y}.
Proof. decide equality; apply Nat.eq_dec. Defined.

Lemma kcount_zero : forall k l, kcount k l = 0 <-> forall c, In c l -> w_key c <> k.
Proof.
  intros k l. unfold kcount. induction l as [|x l IH]; cbn; [intuition|].
  destruct (key_eqb (w_key x) k) eqn:Hk; cbn.
  - split; [discriminate|]. intros H. apply key_eqb_eq in Hk. exfalso. apply (H x); auto.
  - rewrite IH. split; [|intros H c Hc; apply H; now right].
    intros H c [<-|Hc]; [|now apply H]. intros He. apply key_eqb_eq in He. congruence.
Qed.
Lemma filter_append : forall (p : wcb -> bool) c st, p c = false ->
  filter p (s_slots (append_slot_base c st)) = filter p (s_slots st).
Proof.
  intros p c st Hp.
  assert (HI : forall l, filter p (insert_prio c l) = filter p l).
  { induction l as [|x l IH]; cbn; [now rewrite Hp|].
    destruct (Z.ltb _ _); cbn; [now rewrite Hp|]. now rewrite IH. }
  unfold append_slot_base. destruct (negb _); [|apply HI]. destruct (Z.eqb _ _); [|apply HI].
  cbn. rewrite filter_app. cbn. rewrite Hp. apply app_nil_r.
Qed.
Lemma append_nonnil : forall c st, s_slots (append_slot_base c st) <> [].
Proof.
  intros c st H. assert (K := kcount_append (w_key c) c st). rewrite H in K.
  replace (key_eqb (w_key c) (w_key c)) with true in K by (symmetry; now apply key_eqb_eq). discriminate.
Qed.

Section Links.
Context {U : Type}.
Implicit Types w : world U.

Lemma connect_relay_filter : forall (p : wcb -> bool) r ms w x, (forall c, w_key c = KRelay r -> p c = false) ->
  filter p (s_slots (w_sg (connect_relay r ms w) x)) = filter p (s_slots (w_sg w x)).
Proof.
  intros p r ms. unfold connect_relay. induction ms as [|[n m] ms IH]; intros w x Hp; cbn [fold_left]; [reflexivity|].
  rewrite IH by exact Hp. unfold connect_relay1; cbn [snd]. destruct (has_key _ _); [reflexivity|].
  dec_sid x m; [rewrite upd_same|now rewrite upd_other]. apply filter_append. now apply Hp.
Qed.
Lemma disconnect_relay_filter : forall (p : wcb -> bool) r ms w x, (forall c, w_key c = KRelay r -> p c = false) ->
  filter p (s_slots (w_sg (disconnect_relay r ms w) x)) = filter p (s_slots (w_sg w x)).
Proof.
  intros p r ms. unfold disconnect_relay. induction ms as [|[n m] ms IH]; intros w x Hp; cbn [fold_left]; [reflexivity|].
  rewrite IH by exact Hp. unfold disconnect_relay1; cbn [snd]. destruct (remove_first _ _) eqn:HR; [|reflexivity].
  dec_sid x m; [rewrite upd_same|now rewrite upd_other]. cbn. eapply remove_first_filter; [exact HR|]. auto.
Qed.
Lemma key_refl : forall k, key_eqb k k = true. Proof. intros; now apply key_eqb_eq. Qed.
Lemma connect_relay_count : forall r ms w x,
  kcount (KRelay r) (s_slots (w_sg (connect_relay r ms w) x)) =
  if in_dec Nat.eq_dec x (map snd ms) then Nat.max 1 (kcount (KRelay r) (s_slots (w_sg w x)))
  else kcount (KRelay r) (s_slots (w_sg w x)).
Proof.
  intros r ms. unfold connect_relay. induction ms as [|[n m] ms IH]; intros w x; cbn [fold_left]; [reflexivity|].
  rewrite IH. cbn [map snd].
  assert (H : kcount (KRelay r) (s_slots (w_sg (connect_relay1 r m w) x)) =
    if Nat.eq_dec x m then Nat.max 1 (kcount (KRelay r) (s_slots (w_sg w x)))
    else kcount (KRelay r) (s_slots (w_sg w x))).
  { unfold connect_relay1. destruct (has_key _ _) eqn:Hk.
    - destruct (Nat.eq_dec x m) as [->|_]; [|reflexivity].
      assert (kcount (KRelay r) (s_slots (w_sg w m)) <> 0); [|lia]. rewrite kcount_zero. intros H.
      apply existsb_exists in Hk as (c & Hc & He). apply key_eqb_eq in He. now apply (H c).
    - destruct (Nat.eq_dec x m) as [->|Hn]; [rewrite upd_same|now rewrite upd_other].
      rewrite kcount_append. cbn [w_key]. rewrite key_refl.
      assert (kcount (KRelay r) (s_slots (w_sg w m)) = 0); [|cbn [set_nxt w_sg]; lia]. apply kcount_zero.
      intros c Hc He. assert (has_key (KRelay r) (s_slots (w_sg w m)) = true); [|congruence].
      apply existsb_exists. exists c. split; [exact Hc|]. now apply key_eqb_eq. }
  destruct (in_dec Nat.eq_dec x (map snd ms)) as [Hi|Hi]; destruct (in_dec Nat.eq_dec x (m :: map snd ms)) as [Hj|Hj].
  - rewrite H. destruct (Nat.eq_dec x m); lia.
  - exfalso. apply Hj. now right.
  - rewrite H. destruct (Nat.eq_dec x m); [reflexivity|]. destruct Hj; congruence.
  - rewrite H. destruct (Nat.eq_dec x m); [|reflexivity]. exfalso. apply Hj. now left.
Qed.
Lemma disconnect_relay_count : forall r ms w x, kcount (KRelay r) (s_slots (w_sg w x)) <= 1 ->
  kcount (KRelay r) (s_slots (w_sg (disconnect_relay r ms w) x)) =
  if in_dec Nat.eq_dec x (map snd ms) then 0 else kcount (KRelay r) (s_slots (w_sg w x)).
Proof.
  intros r ms. unfold disconnect_relay. induction ms as [|[n m] ms IH]; intros w x H1; cbn [fold_left]; [reflexivity|].
  assert (H : kcount (KRelay r) (s_slots (w_sg (disconnect_relay1 r m w) x)) =
    if Nat.eq_dec x m then 0 else kcount (KRelay r) (s_slots (w_sg w x))).
  { unfold disconnect_relay1. destruct (remove_first _ _) as [l|] eqn:HR.
    - destruct (Nat.eq_dec x m) as [->|Hn]; [rewrite upd_same|now rewrite upd_other].
      apply (remove_first_kcount _ (KRelay r)) in HR. rewrite key_refl in HR. cbn [set_slots s_slots]. lia.
    - destruct (Nat.eq_dec x m) as [->|_]; [|reflexivity]. now apply remove_first_none in HR. }
  cbn [snd]. rewrite IH by (rewrite H; destruct (Nat.eq_dec x m); lia). cbn [map snd].
  destruct (in_dec Nat.eq_dec x (map snd ms)) as [Hi|Hi]; destruct (in_dec Nat.eq_dec x (m :: map snd ms)) as [Hj|Hj];
    try reflexivity.
  - exfalso. apply Hj. now right.
  - rewrite H. destruct (Nat.eq_dec x m); [reflexivity|]. destruct Hj; congruence.
  - rewrite H. destruct (Nat.eq_dec x m); [|reflexivity]. exfalso. apply Hj. now left.
Qed.
End Links.

Section Watch.
Context {U : Type} (E : env U) (w0 : world U) (ss : list sid) (rep : nat -> oid).
Implicit Types w : world U.
Notation n := (List.length ss).
Hypothesis Hrep : forall i j, rep i = rep j -> i = j.
Hypothesis HF0 : flat w0.

(** The monitored signals and, for monitored groups, their members. *)
Definition touched (x : sid) : Prop := In x ss \/ exists r, In r ss /\ In x (members_of w0 r).
Definition idle (r : sid) : bool :=
  match s_members (w_sg w0 r), s_slots (w_sg w0 r) with Some _, [] => true | _, _ => false end.
Definition extra (k : key) : bool :=
  match k with
  | KFunc f => existsb (fun i => Nat.eqb f (rep i)) (List.seq 0 n)
  | KRelay r => existsb (Nat.eqb r) ss && idle r
  | _ => false
  end.
Definition own (c : wcb) : bool := negb (extra (w_key c)).

Lemma extra_rep : forall i, i < n -> extra (KFunc (rep i)) = true.
Proof.
  intros i Hi. cbn. apply existsb_exists. exists i. split; [apply in_seq; lia|]. apply Nat.eqb_refl.
Qed.
Lemma extra_relay : forall r, In r ss -> idle r = true -> extra (KRelay r) = true.
Proof.
  intros r Hr Hi. cbn. apply andb_true_iff. split; [|exact Hi]. apply existsb_exists. exists r. split; [exact Hr|apply Nat.eqb_refl].
Qed.
Lemma extra_inv : forall k, extra k = true ->
  (exists i, i < n /\ k = KFunc (rep i)) \/ (exists r, In r ss /\ idle r = true /\ k = KRelay r).
Proof.
  intros [f|o|o s|o a|o v|r] H; try discriminate.
  - cbn in H. apply existsb_exists in H as (i & Hi & He). left. exists i. apply in_seq in Hi.
    apply Nat.eqb_eq in He. subst. split; [lia|reflexivity].
  - cbn in H. apply andb_true_iff in H as [H Hi]. apply existsb_exists in H as (x & Hx & He). apply Nat.eqb_eq in He. subst.
    right. now exists x.
Qed.
Lemma own_rep : forall i c, i < n -> w_key c = KFunc (rep i) -> own c = false.
Proof. intros i c Hi Hk. unfold own. now rewrite Hk, extra_rep. Qed.
Lemma own_relay : forall r c, In r ss -> idle r = true -> w_key c = KRelay r -> own c = false.
Proof. intros r c Hr Hi Hk. unfold own. now rewrite Hk, extra_relay. Qed.

Record during (P : list (nat * sid)) (w : world U) : Prop := {
  du_members : forall x, s_members (w_sg w x) = s_members (w_sg w0 x);
  du_kept : forall x, touched x -> filter own (s_slots (w_sg w x)) = s_slots (w_sg w0 x);
  du_rep : forall x i, touched x -> i < n ->
    kcount (KFunc (rep i)) (s_slots (w_sg w x)) = count_occ pair_dec P (i, x);
  du_link : forall x r, touched x -> In r ss -> idle r = true ->
    kcount (KRelay r) (s_slots (w_sg w x)) =
    match s_slots (w_sg w r) with [] => 0 | _ => if in_dec Nat.eq_dec x (members_of w0 r) then 1 else 0 end
}.

Lemma during_members : forall P w x, during P w -> members_of w x = members_of w0 x.
Proof. clear Hrep HF0. intros P w x H. unfold members_of. now rewrite (du_members _ _ H). Qed.
Lemma during_flat : forall P w, during P w -> flat w.
Proof. intros P w H r ms m x. rewrite !(du_members _ _ H). apply HF0. Qed.
Lemma not_member : forall r x, s_members (w_sg w0 r) <> None -> ~ In r (members_of w0 x).
Proof.
  intros r x Hr Hi. unfold members_of in Hi. destruct (s_members (w_sg w0 x)) as [ms|] eqn:Hm; [|destruct Hi].
  apply in_map_iff in Hi as ([nm y] & Hy & Hin). cbn in Hy; subst. apply Hr. eapply HF0; eauto.
Qed.
Lemma idle_members : forall r, idle r = true -> s_members (w_sg w0 r) <> None.
Proof. intros r. unfold idle. destruct (s_members _); discriminate. Qed.

Lemma during_start :
  (forall x i c, touched x -> i < n -> In c (s_slots (w_sg w0 x)) -> w_key c <> KFunc (rep i)) ->
  (forall x r c, touched x -> In r ss -> s_members (w_sg w0 r) <> None -> s_slots (w_sg w0 r) = [] ->
     In c (s_slots (w_sg w0 x)) -> w_key c <> KRelay r) ->
  during [] w0.
Proof. clear Hrep HF0.
  intros H1 H2. assert (Hi : forall r, idle r = true -> s_slots (w_sg w0 r) = []).
  { intros r H. unfold idle in H. destruct (s_members _); [|discriminate]. destruct (s_slots _); [reflexivity|discriminate]. }
  constructor; auto.
  - intros x Hx. apply filter_all. intros c Hc. unfold own. apply negb_true_iff.
    destruct (extra (w_key c)) eqn:He; [|reflexivity]. exfalso.
    apply extra_inv in He as [(i & Hn & Hk)|(r & Hr & Hid & Hk)]; [eapply H1; eauto|].
    eapply H2; eauto using idle_members.
  - intros x i Hx Hn. cbn. apply kcount_zero. intros c Hc. eapply H1; eauto.
  - intros x r Hx Hr Hid. rewrite (Hi r) by exact Hid. apply kcount_zero. intros c Hc. eapply H2; eauto using idle_members.
Qed.
Lemma during_perm : forall P Q w, Permutation P Q -> during P w -> during Q w.
Proof. clear Hrep HF0.
  intros P Q w HP [A B C D]. constructor; auto. intros x i Hx Hi. rewrite C by assumption.
  apply (proj1 (Permutation_count_occ pair_dec P Q) HP).
Qed.
Lemma during_same : forall P w w', (forall x, s_members (w_sg w' x) = s_members (w_sg w x)) ->
  (forall x, touched x -> s_slots (w_sg w' x) = s_slots (w_sg w x)) -> during P w -> during P w'.
Proof. clear Hrep HF0.
  intros P w w' H1 H2 [A B C D]. constructor.
  - intros; now rewrite H1.
  - intros; rewrite H2 by assumption; auto.
  - intros; rewrite H2 by assumption; auto.
  - intros x r Hx Hr Hid. rewrite !H2 by (try assumption; now left). auto.
Qed.

Lemma during_add : forall P w i s c, during P w -> i < n -> In s ss -> w_ref c = None ->
  w_key c = KFunc (rep i) -> during ((i, s) :: P) (add_wcb s c w).
Proof.
  intros P w i s c HD Hi Hs Hr Hk. unfold add_wcb. rewrite Hr. unfold append_slot.
  set (w1 := upd s (append_slot_base c) (set_nxt (S (w_nxt w)) w)).
  assert (Hts : touched s) by (now left).
  assert (M1 : forall x, s_members (w_sg w1 x) = s_members (w_sg w0 x)).
  { intros x. rewrite <- (du_members _ _ HD). unfold w1. dec_sid x s; [rewrite upd_same, append_members|rewrite upd_other by assumption]; reflexivity. }
  assert (S1 : forall x, x <> s -> s_slots (w_sg w1 x) = s_slots (w_sg w x)).
  { intros x Hx. unfold w1. now rewrite upd_other by assumption. }
  assert (N1 : s_slots (w_sg w1 s) <> []) by (unfold w1; rewrite upd_same; apply append_nonnil).
  assert (A1 : forall x, touched x -> filter own (s_slots (w_sg w1 x)) = s_slots (w_sg w0 x)).
  { intros x Hx. rewrite <- (du_kept _ _ HD) by exact Hx. dec_sid x s; [|now rewrite S1].
    unfold w1. rewrite upd_same. apply filter_append. eapply own_rep; eauto. }
  assert (K1 : forall x k, kcount k (s_slots (w_sg w1 x)) =
     (if Nat.eq_dec x s then if key_eqb (KFunc (rep i)) k then 1 else 0 else 0) + kcount k (s_slots (w_sg w x))).
  { intros x k. destruct (Nat.eq_dec x s) as [->|Hn]; [|now rewrite S1].
    unfold w1. rewrite upd_same, kcount_append, Hk. reflexivity. }
  assert (B1 : forall x j, touched x -> j < n ->
     kcount (KFunc (rep j)) (s_slots (w_sg w1 x)) = count_occ pair_dec ((i, s) :: P) (j, x)).
  { intros x j Hx Hj. rewrite K1, (du_rep _ _ HD) by assumption. cbn [count_occ].
    destruct (pair_dec (i, s) (j, x)) as [He|He].
    - injection He as -> ->. destruct (Nat.eq_dec x x); [|congruence]. now rewrite key_refl.
    - destruct (Nat.eq_dec x s) as [->|_]; [|reflexivity].
      destruct (key_eqb _ _) eqn:Hq; [|reflexivity]. apply key_eqb_eq in Hq. injection Hq as Hq.
      apply Hrep in Hq. congruence. }
  assert (R1 : forall x r, kcount (KRelay r) (s_slots (w_sg w1 x)) = kcount (KRelay r) (s_slots (w_sg w x))).
  { intros x r. rewrite K1. destruct (Nat.eq_dec x s); reflexivity. }
  (* everything but the links of [s] is as it should be *)
  assert (G : (s_slots (w_sg w s) <> [] \/ s_members (w_sg w0 s) = None) -> during ((i, s) :: P) w1).
  { intros Hne. constructor; auto. intros x r Hx Hr' Hid. rewrite R1, (du_link _ _ HD) by assumption.
    destruct (Nat.eq_dec r s) as [->|Hn].
    - destruct Hne as [Hne|Hne]; [|exfalso; eapply idle_members; eauto].
      destruct (s_slots (w_sg w s)); [congruence|]. destruct (s_slots (w_sg w1 s)); [congruence|reflexivity].
    - now rewrite S1. }
  destruct (s_members (w_sg w1 s)) as [ms|] eqn:Hms; [|apply G; right; rewrite <- M1; exact Hms].
  destruct (Nat.eqb _ 1) eqn:Hl.
  2:{ apply G. left. intros He. unfold w1 in Hl. rewrite upd_same in Hl. cbn [set_nxt w_sg] in Hl.
      apply Nat.eqb_neq in Hl. apply Hl.
      unfold append_slot_base. destruct (negb _); [destruct (Z.eqb _ _)|]; cbn [s_slots set_slots set_prio]; rewrite He; reflexivity. }
  assert (Hnil : s_slots (w_sg w s) = []).
  { apply Nat.eqb_eq in Hl. unfold w1 in Hl. rewrite upd_same in Hl. cbn [set_nxt w_sg] in Hl.
    destruct (s_slots (w_sg w s)) as [|y l] eqn:Hsl; [reflexivity|]. exfalso.
    assert (HL : forall l, List.length (insert_prio c l) = S (List.length l)).
    { induction l0 as [|z l0 IH]; cbn; [reflexivity|]. destruct (Z.ltb _ _); cbn; auto. }
    unfold append_slot_base in Hl. rewrite ?Hsl in Hl. destruct (negb _).
    - destruct (Z.eqb _ _); cbn [s_slots set_slots set_prio] in Hl.
      + rewrite app_length in Hl. cbn in Hl. lia.
      + rewrite HL, Hsl in Hl. cbn in Hl. lia.
    - cbn [s_slots set_slots] in Hl. rewrite HL in Hl. cbn in Hl. lia. }
  assert (Hms0 : s_members (w_sg w0 s) = Some ms) by (now rewrite <- M1).
  assert (Hid : idle s = true).
  { unfold idle. rewrite Hms0. assert (K := du_kept _ _ HD s Hts). rewrite Hnil in K. cbn in K. now rewrite <- K. }
  assert (Hmem : members_of w0 s = map snd ms) by (unfold members_of; now rewrite Hms0).
  constructor.
  - intros x. rewrite <- M1. assert (K := keeps_connect_relay s ms w1). apply static_members. apply K.
  - intros x Hx. rewrite connect_relay_filter; [now apply A1|]. intros d Hd. now apply (own_relay s).
  - intros x j Hx Hj. rewrite <- B1 by assumption. unfold kcount. f_equal. apply connect_relay_filter.
    intros d ->. reflexivity.
  - intros x r Hx Hr' Hid'. destruct (Nat.eq_dec r s) as [->|Hn].
    + rewrite connect_relay_count, R1, (du_link _ _ HD), Hnil by assumption.
      rewrite connect_relay_other by (rewrite <- Hmem; apply not_member; congruence).
      destruct (s_slots (w_sg w1 s)); [congruence|]. rewrite Hmem. destruct (in_dec _ _ _); reflexivity.
    + rewrite (connect_relay_other s ms w1 r) by (rewrite <- Hmem; apply not_member; now apply idle_members).
      rewrite S1, <- (du_link _ _ HD x r), <- R1 by assumption. unfold kcount. f_equal. apply connect_relay_filter.
      intros d ->. cbn. apply Nat.eqb_neq. congruence.
Qed.

Lemma during_remove : forall P w i s, during ((i, s) :: P) w -> i < n -> In s ss ->
  exists w', remove_key s (KFunc (rep i)) w = Some w' /\ during P w'.
Proof.
  intros P w i s HD Hi Hs. assert (Hts : touched s) by (now left).
  unfold remove_key. destruct (remove_first _ _) as [l|] eqn:HR.
  2:{ apply remove_first_none in HR. rewrite (du_rep _ _ HD) in HR by assumption. cbn [count_occ] in HR.
      destruct (pair_dec (i, s) (i, s)); congruence. }
  eexists; split; [reflexivity|]. set (w1 := upd s (set_slots l) w).
  assert (M1 : forall x, s_members (w_sg w1 x) = s_members (w_sg w0 x)).
  { intros x. rewrite <- (du_members _ _ HD). unfold w1. dec_sid x s; [rewrite upd_same|rewrite upd_other by assumption]; reflexivity. }
  assert (S1 : forall x, x <> s -> s_slots (w_sg w1 x) = s_slots (w_sg w x)).
  { intros x Hx. unfold w1. now rewrite upd_other by assumption. }
  assert (Ss : s_slots (w_sg w1 s) = l) by (unfold w1; now rewrite upd_same).
  assert (A1 : forall x, touched x -> filter own (s_slots (w_sg w1 x)) = s_slots (w_sg w0 x)).
  { intros x Hx. rewrite <- (du_kept _ _ HD) by exact Hx. dec_sid x s; [|now rewrite S1].
    rewrite Ss. eapply remove_first_filter; [exact HR|]. intros d _ Hd. eapply own_rep; eauto. }
  assert (K1 : forall x k, kcount k (s_slots (w_sg w x)) =
     (if Nat.eq_dec x s then if key_eqb (KFunc (rep i)) k then 1 else 0 else 0) + kcount k (s_slots (w_sg w1 x))).
  { intros x k. destruct (Nat.eq_dec x s) as [->|Hn]; [|now rewrite S1].
    rewrite Ss. now apply remove_first_kcount. }
  assert (B1 : forall x j, touched x -> j < n ->
     kcount (KFunc (rep j)) (s_slots (w_sg w1 x)) = count_occ pair_dec P (j, x)).
  { intros x j Hx Hj. assert (K := du_rep _ _ HD x j Hx Hj). rewrite K1 in K. cbn [count_occ] in K.
    destruct (pair_dec (i, s) (j, x)) as [He|He].
    - injection He as -> ->. destruct (Nat.eq_dec x x); [|congruence]. rewrite key_refl in K. lia.
    - destruct (Nat.eq_dec x s) as [->|_]; [|exact K].
      destruct (key_eqb _ _) eqn:Hq; [|exact K]. apply key_eqb_eq in Hq. injection Hq as Hq.
      apply Hrep in Hq. congruence. }
  assert (R1 : forall x r, kcount (KRelay r) (s_slots (w_sg w1 x)) = kcount (KRelay r) (s_slots (w_sg w x))).
  { intros x r. rewrite K1. destruct (Nat.eq_dec x s); reflexivity. }
  assert (Nw : s_slots (w_sg w s) <> []) by (intros He; rewrite He in HR; discriminate).
  assert (G : (s_slots (w_sg w1 s) <> [] \/ s_members (w_sg w0 s) = None) -> during P w1).
  { intros Hne. constructor; auto. intros x r Hx Hr' Hid. rewrite R1, (du_link _ _ HD) by assumption.
    destruct (Nat.eq_dec r s) as [->|Hn]; [|now rewrite S1].
    destruct Hne as [Hne|Hne]; [|exfalso; eapply idle_members; eauto].
    destruct (s_slots (w_sg w s)); [congruence|]. destruct (s_slots (w_sg w1 s)); [congruence|reflexivity]. }
  unfold after_remove. destruct (s_members (w_sg w1 s)) as [ms|] eqn:Hms; [|apply G; right; rewrite <- M1; exact Hms].
  destruct (s_slots (w_sg w1 s)) as [|y l'] eqn:Hsl; [|apply G; left; discriminate].
  assert (Hms0 : s_members (w_sg w0 s) = Some ms) by (now rewrite <- M1).
  assert (Hid : idle s = true).
  { unfold idle. rewrite Hms0. assert (K := A1 s Hts). rewrite Hsl in K. cbn in K. now rewrite <- K. }
  assert (Hmem : members_of w0 s = map snd ms) by (unfold members_of; now rewrite Hms0).
  constructor.
  - intros x. rewrite disconnect_relay_members. apply M1.
  - intros x Hx. rewrite disconnect_relay_filter; [now apply A1|]. intros d Hd. now apply (own_relay s).
  - intros x j Hx Hj. rewrite <- B1 by assumption. unfold kcount. f_equal. apply disconnect_relay_filter.
    intros d ->. reflexivity.
  - intros x r Hx Hr' Hid'. destruct (Nat.eq_dec r s) as [->|Hn].
    + rewrite (disconnect_relay_other s ms w1 s) by (rewrite <- Hmem; apply not_member; congruence). rewrite Hsl.
      assert (K := du_link _ _ HD x s Hx Hs Hid). destruct (s_slots (w_sg w s)); [congruence|].
      rewrite disconnect_relay_count; rewrite R1, K; clear K; [rewrite Hmem|]; destruct (in_dec _ _ _); auto.
    + rewrite (disconnect_relay_other s ms w1 r) by (rewrite <- Hmem; apply not_member; now apply idle_members).
      rewrite S1, <- (du_link _ _ HD x r), <- R1 by assumption. unfold kcount. f_equal. apply disconnect_relay_filter.
      intros d ->. cbn. apply Nat.eqb_neq. congruence.
Qed.

Lemma during_end : forall w x, during [] w -> touched x -> s_slots (w_sg w x) = s_slots (w_sg w0 x).
Proof.
  intros w x HD Hx.
  assert (H1 : forall y i c, touched y -> i < n -> In c (s_slots (w_sg w y)) -> w_key c <> KFunc (rep i)).
  { intros y i c Hy Hi. apply kcount_zero. now rewrite (du_rep _ _ HD) by assumption. }
  assert (H2 : forall r, In r ss -> idle r = true -> s_slots (w_sg w r) = []).
  { intros r Hr Hid. assert (Ht : touched r) by (now left).
    assert (K := du_kept _ _ HD r Ht). assert (K0 : s_slots (w_sg w0 r) = []).
    { unfold idle in Hid. destruct (s_members _); [|discriminate]. destruct (s_slots _); [reflexivity|discriminate]. }
    rewrite K0 in K. destruct (s_slots (w_sg w r)) as [|c l] eqn:Hsl; [reflexivity|]. exfalso.
    assert (Hc : In c (s_slots (w_sg w r))) by (rewrite Hsl; now left).
    cbn in K. destruct (own c) eqn:Ho; [discriminate|]. unfold own in Ho. apply negb_false_iff in Ho.
    apply extra_inv in Ho as [(i & Hi & Hk)|(q & Hq & Hiq & Hk)]; [eapply H1; eauto|].
    assert (L := du_link _ _ HD r q Ht Hq Hiq).
    assert (kcount (KRelay q) (s_slots (w_sg w r)) <> 0).
    { rewrite kcount_zero. intros H. now apply (H c). }
    destruct (in_dec Nat.eq_dec r (members_of w0 q)) as [Hin|].
    - apply (not_member r q); auto using idle_members.
    - destruct (s_slots (w_sg w q)); congruence. }
  rewrite <- (du_kept _ _ HD) by exact Hx. symmetry. apply filter_all. intros c Hc.
  unfold own. apply negb_true_iff. destruct (extra (w_key c)) eqn:He; [|reflexivity]. exfalso.
  apply extra_inv in He as [(i & Hi & Hk)|(r & Hr & Hid & Hk)]; [eapply H1; eauto|].
  assert (K := du_link _ _ HD x r Hx Hr Hid). rewrite (H2 r Hr Hid) in K. rewrite kcount_zero in K. now apply (K c).
Qed.
End Watch.
