(** EventedSet: C40-C42. *)

From Verif Require Import Base Core Spec Frame Fuel Demo Client Prog Does Hush PropsBlock Paused PySet ESet SpecSet SetFacts.
From Coq Require Import Permutation.
Open Scope string_scope.
Open Scope list_scope.

Definition result (x : val + exn) : out := match x with inl v => Ok v | inr e => Err e end.
(** Equality of keys. *)
Definition equivalence (same : val -> val -> bool) : Prop :=
  (forall x, same x x = true) /\ (forall x y, same x y = true -> same y x = true)
  /\ (forall x y z, same x y = true -> same y z = true -> same x z = true).

(** * C40 *)

(** Arguments for which the operations work: symmetric_difference_update() gets no repetitions,
    neither it nor difference_update() gets the set itself (unless empty), and
    intersection_update() gets some argument. *)
Definition fit (same : val -> val -> bool) (o : sop) (l : list val) : Prop :=
  match o with
  | SDifference s => Forall (not_itself l) s
  | SIntersection s => s <> []
  | SSymmetric a => not_itself l a /\ forall m, a = Items m -> distinct same m
  | _ => True
  end.

Section C40.
Variable same : val -> val -> bool.
Hypothesis HQ : equivalence same.
Let refl := proj1 HQ.
Let sym := proj1 (proj2 HQ).
Let trans := proj2 (proj2 HQ).
Lemma arg_inside : forall l a x, arg_mem same l a x = true <-> inside_arg same x l a.
Proof. intros l [m|] x; cbn; apply mem_inside. Qed.
Lemma args_exist : forall l s x, existsb (fun a => arg_mem same l a x) s = true <-> Exists (inside_arg same x l) s.
Proof.
  intros l s x. rewrite existsb_exists, Exists_exists. split; intros (a & Ha & H); exists a; (split; [exact Ha|]); now apply arg_inside.
Qed.
Lemma args_all : forall l s x, forallb (fun a => arg_mem same l a x) s = true <-> Forall (inside_arg same x l) s.
Proof.
  intros l s x. rewrite forallb_forall, Forall_forall. split; intros H a Ha; apply arg_inside; auto.
Qed.

(** What each operation does, in membership. *)
Lemma op_d : forall (E : env sdata) order o l, (forall l, Permutation (order l) l) -> distinct same l -> fit same o l ->
  does E set_signals (evented_s same order o) l
    (fun u hs v => distinct same u /\ on_set same o l u (inl v))
    (fun u hs e => distinct same u /\ u = l /\ on_set same o l u (inr e)).
Proof.
  intros E order o l Hp Hl Hf.
  assert (By : forall p P Q, steps_by E same p l P -> o <> SPop -> (forall y, o = SRemove y -> inside same y l) ->
     (forall cs, P cs -> forall x, mem same x (walk same l cs) = true <-> wanted same o l VNone x) ->
     does E set_signals p l (fun u hs v => distinct same u /\ on_set same o l u (inl v)) Q).
  { intros p P Q HB H1 H2 H3. eapply does_mono; [exact HB| |intros u hs e []].
    intros u hs v (-> & cs & -> & _ & _ & HP). split; [now apply walk_distinct|].
    apply os_op; auto. intros x. rewrite <- mem_inside. auto. }
  assert (Clear : forall Q, (o = SClear \/ o = SIsub Itself \/ o = SIxor Itself) -> does E set_signals (es_clear same order) l
     (fun u hs v => distinct same u /\ on_set same o l u (inl v)) Q).
  { intros Q Ho. apply paused_mono; [reflexivity|apply set_reduces_ok|]. eapply does_mono; [apply clear_d| |intros u hs e []].
    intros u hs v (-> & -> & _). split; [exact I|]. apply os_op.
    - now destruct Ho as [-> | [-> | ->]].
    - intros y ->. destruct Ho as [Ho|[Ho|Ho]]; discriminate.
    - intros x. split; [intros (y & [] & _)|]. destruct Ho as [-> | [-> | ->]]; cbn; tauto. }
  destruct o as [x|x|x| | |s|s|s|a|a|a|a|a]; cbn [evented_s fit] in *.
  - eapply By; [now apply add_d|discriminate|discriminate|]. intros cs -> y. cbn [wanted].
    rewrite <- mem_inside. destruct (mem same x l) eqn:H; cbn [walk].
    + destruct (same y x) eqn:Hs; [rewrite (mem_same same sym trans y x l Hs), H; tauto|]. split; [auto|]. intros [K|K]; [discriminate|exact K].
    + unfold one. cbn [fst snd]. rewrite mem_sadd by assumption. apply orb_true_iff.
  - eapply By; [now apply discard_d|discriminate|discriminate|]. intros cs -> y. cbn [wanted].
    rewrite <- mem_inside. destruct (mem same x l) eqn:H; cbn [walk].
    + unfold one. cbn [fst snd]. rewrite mem_sdel by assumption. rewrite andb_true_iff, negb_true_iff. tauto.
    + destruct (same y x) eqn:Hs; [rewrite (mem_same same sym trans y x l Hs), H|]; intuition congruence.
  - apply does_look. change (sitems l) with l. destruct (mem same x l) eqn:H.
    + eapply By; [now apply discard_d|discriminate|intros y Hy; injection Hy as <-; now apply mem_inside|]. intros cs -> y. cbn [wanted].
      rewrite <- mem_inside, H. cbn [walk]. unfold one. cbn [fst snd]. rewrite mem_sdel by assumption.
      rewrite andb_true_iff, negb_true_iff. tauto.
    + apply does_throw. split; [exact Hl|]. split; [reflexivity|]. constructor. now apply mem_outside.
  - apply does_look. change (sitems l) with l. pose proof (Hp l) as Hpl. destruct (order l) as [|x xs].
    + apply does_throw. apply Permutation_nil in Hpl as ->. split; [exact I|]. split; [reflexivity|]. constructor.
    + assert (Hx : In x l) by (eapply Permutation_in; [exact Hpl|now left]).
      assert (Hm : mem same x l = true) by now apply mem_in.
      eapply does_seq; [eapply does_mono; [apply (discard_d E same x l)|intros u hs v H; exact H|intros u hs e []]|].
      intros u hs v (_ & cs & -> & _ & _ & ->). rewrite Hm. apply does_ret. split; [now apply walk_distinct|].
      apply os_pop; [exact Hx|]. intros y. rewrite <- mem_inside. cbn [walk wanted]. unfold one. cbn [fst snd].
      rewrite mem_sdel by assumption. rewrite andb_true_iff, negb_true_iff, <- mem_inside. tauto.
  - apply Clear. auto.
  - apply paused_mono; [reflexivity|apply set_reduces_ok|]. eapply By; [now apply update_d|discriminate|discriminate|]. intros cs [_ G] x.
    rewrite G, orb_true_iff, args_exist, mem_inside. reflexivity.
  - apply paused_mono; [reflexivity|apply set_reduces_ok|]. eapply By; [now apply difference_d|discriminate|discriminate|]. intros cs [_ G] x.
    rewrite G, andb_true_iff, negb_true_iff, mem_inside. cbn [wanted]. rewrite <- args_exist.
    destruct (existsb _ s); intuition congruence.
  - apply paused_mono; [reflexivity|apply set_reduces_ok|]. eapply By; [now apply intersection_d|discriminate|discriminate|]. intros cs [_ G] x.
    rewrite G, negb_involutive, andb_true_iff, mem_inside, args_all. reflexivity.
  - destruct Hf as [Hf1 Hf2]. apply paused_mono; [reflexivity|apply set_reduces_ok|]. eapply By; [now apply symmetric_d|discriminate|discriminate|]. intros cs [_ G] x.
    rewrite G. cbn [wanted]. rewrite <- mem_inside, <- arg_inside. destruct (mem same x l), (arg_mem same l a x); cbn; intuition congruence.
  - eapply By; [now apply over_add_d|discriminate|discriminate|]. intros cs [_ G] x.
    rewrite G, orb_true_iff, mem_inside, arg_inside. reflexivity.
  - eapply By; [now apply iand_d|discriminate|discriminate|]. intros cs [_ G] x.
    rewrite G, negb_involutive, andb_true_iff, mem_inside, arg_inside. reflexivity.
  - destruct a as [m|]; [|apply Clear; auto]. eapply By; [now apply discards_d|discriminate|discriminate|]. intros cs [_ G] x.
    rewrite G, andb_true_iff, negb_true_iff, mem_inside, mem_outside. reflexivity.
  - destruct a as [m|]; [|apply Clear; auto]. eapply By; [now apply ixor_d|discriminate|discriminate|]. intros cs [_ G] x.
    rewrite G. cbn [wanted inside_arg]. rewrite <- !mem_inside. destruct (mem same x l), (mem same x m); cbn; intuition congruence.
Qed.
End C40.

(** Whatever is connected (listeners do not change the set or emit its events; they may raise),
    an operation that is not ended by a listener's exception leaves the contents and gives the
    result that the builtin set has; elements are never repeated. *)
Theorem C40_like_set_partial : forall E same order o w w' r,
  env_all (aloof set_signals) E -> equivalence same -> (forall l, Permutation (order l) l) ->
  distinct same (w_usr w) -> fit same o (w_usr w) ->
  runs E (evented_s same order o) w w' r -> done r ->
  (distinct same (w_usr w') /\ exists x, on_set same o (w_usr w) (w_usr w') x /\ r = result x)
  \/ (exists e, r = Err e /\ listener_raised E set_signals e).
Proof.
  intros E same order o w w' r HE HQ HP HD HF HR Hr.
  destruct (does_sound E set_signals _ w w' r _ _ HE (op_d same HQ E order o (w_usr w) HP HD HF) HR Hr) as (t & _ & H).
  destruct r as [v|e|]; [| |contradiction].
  - destruct H as [H1 H2]. left. split; [exact H1|]. exists (inl v). auto.
  - destruct H as [(H1 & _ & H2)|H]; [left|right; eauto]. split; [exact H1|]. exists (inr e). auto.
Qed.

(** Listeners that look at the set and emit another signal, or raise when 9 is added. *)
Definition set_env : env sdata :=
  demo (fun f a => match f, a with
                   | 1, _ => Look (fun u => calls [emit 20 [VInt (Z.of_nat (List.length u))]])
                   | 2, [VTuple [VInt 9]; _] => Throw (EUser 7)
                   | _, _ => Ret VNone
                   end).
Definition set_world (l : list val) := world_of set_env set_cfg l 50
  [conn items_changed 1 0; conn items_changed 2 0; conn set_events 3 0].
Lemma set_env_aloof : env_all (aloof set_signals) set_env.
Proof.
  apply demo_all. intros f a. destruct f as [|[|[|f]]]; try (allp; fail).
Qed.
Lemma set_cfg_fresh : forall s, fresh_sig (set_cfg s).
Proof. intros s. do 2 (destruct s as [|s]; [repeat split|]). repeat split. Qed.
Lemma set_cfg_flat : forall {U} (u : U), flat (init_world set_cfg u).
Proof.
  intros U u r ms x y H Hi. destruct r as [|r]; [|destruct r as [|r]; discriminate H].
  injection H as <-. cbn [In] in Hi. destruct Hi as [Hi|[]]. injection Hi as <- <-. reflexivity.
Qed.
Global Hint Resolve set_cfg_fresh set_cfg_flat : demo.
Lemma val_eqb_equivalence : equivalence val_eqb.
Proof.
  split; [intros x; now apply val_eqb_eq|]. split; [intros x y H; apply val_eqb_eq in H; subst; now apply val_eqb_eq|].
  intros x y z H K. apply val_eqb_eq in H. now subst.
Qed.
Example C40_case :
  let l := [VInt 5; VInt 6; VInt 7] in
  let run o := exec set_env 300 (evented_s val_eqb (@rev val) o) (set_world l) in
  let res o := match run o with Some (w, r) => Some (w_usr w, r) | None => None end in
  env_all (aloof set_signals) set_env /\ equivalence val_eqb /\ (forall l : list val, Permutation (rev l) l)
  /\ res (SUpdate [Items [VInt 6; VInt 8]; Itself; Items [VInt 8]]) = Some ([VInt 5; VInt 6; VInt 7; VInt 8], Ok VNone)
  /\ res SPop = Some ([VInt 5; VInt 6], Ok (VInt 7))
  /\ res (SRemove (VInt 9)) = Some (l, Err EKey)
  /\ res (SIxor (Items [VInt 5; VInt 8; VInt 5])) = Some ([VInt 6; VInt 7; VInt 8], Ok VNone)
  /\ res (SIntersection [Items [VInt 5; VInt 6]; Items [VInt 7; VInt 5]]) = Some ([VInt 5], Ok VNone)
  /\ exists e, res (SIor (Items [VInt 9; VInt 10])) = Some (l ++ [VInt 9], Err e).
Proof.
  split; [apply set_env_aloof|]. split; [apply val_eqb_equivalence|].
  split; [intros; apply Permutation_sym, Permutation_rev|]. vm_compute. repeat split. eexists. reflexivity.
Qed.
Print Assumptions C40_like_set_partial.

(** symmetric_difference_update([x, x]) does not change membership of x. *)
Theorem C40_refuted : exists (E : env sdata) same order w w' m v,
  env_all (aloof set_signals) E /\ equivalence same /\ (forall l, Permutation (order l) l) /\ reachable E w
  /\ distinct same (w_usr w) /\ runs E (evented_s same order (SSymmetric (Items m))) w w' (Ok v)
  /\ ~ exists x, on_set same (SSymmetric (Items m)) (w_usr w) (w_usr w') x.
Proof.
  set (l := [VInt 5]). set (o := SSymmetric (Items [VInt 6; VInt 6])).
  exists set_env, val_eqb, (fun l => l), (set_world l), (after set_env 200 (evented_s val_eqb (fun l => l) o) (set_world l)),
    [VInt 6; VInt 6], VNone.
  split; [apply set_env_aloof|]. split; [apply val_eqb_equivalence|]. split; [auto|]. split; [reach|].
  assert (H1 : w_usr (set_world l) = l) by (vm_compute; reflexivity).
  assert (H2 : w_usr (after set_env 200 (evented_s val_eqb (fun l => l) o) (set_world l)) = l) by (vm_compute; reflexivity).
  split; [rewrite H1; cbn; auto|]. split; [apply after_runs; vm_compute; reflexivity|].
  rewrite H1, H2.
  assert (HN : ~ inside val_eqb (VInt 6) l) by (intros (y & [<-|[]] & Hy); discriminate Hy).
  intros (x & H). inversion H as [| | |o' l' l'' Ho1 Ho2 HW]; clear H. apply HN, HW. right. split; [exact HN|].
  exists (VInt 6). split; [now left|reflexivity].
Qed.
Print Assumptions C40_refuted.
(** difference_update() with the set itself raises RuntimeError instead of emptying it. *)
Theorem C40_itself_refuted : exists (E : env sdata) same order w w',
  env_all (aloof set_signals) E /\ equivalence same /\ (forall l, Permutation (order l) l) /\ reachable E w
  /\ w_usr w = [VInt 5; VInt 6]
  /\ runs E (evented_s same order (SDifference [Itself])) w w' (Err ERuntime) /\ w_usr w' = [VInt 6].
Proof.
  set (l := [VInt 5; VInt 6]). set (o := SDifference [Itself]).
  exists set_env, val_eqb, (fun l => l), (set_world l), (after set_env 200 (evented_s val_eqb (fun l => l) o) (set_world l)).
  split; [apply set_env_aloof|]. split; [apply val_eqb_equivalence|]. split; [auto|]. split; [reach|].
  split; [vm_compute; reflexivity|]. split; [apply after_runs; vm_compute; reflexivity|]. vm_compute; reflexivity.
Qed.
Print Assumptions C40_itself_refuted.
(** intersection_update() without arguments raises TypeError; a builtin set stays as it is. *)
Theorem C40_no_argument_refuted : exists (E : env sdata) same order w w',
  env_all (aloof set_signals) E /\ equivalence same /\ (forall l, Permutation (order l) l) /\ reachable E w
  /\ runs E (evented_s same order (SIntersection [])) w w' (Err EType).
Proof.
  exists set_env, val_eqb, (fun l => l), (set_world []), (after set_env 200 (evented_s val_eqb (fun l => l) (SIntersection [])) (set_world [])).
  split; [apply set_env_aloof|]. split; [apply val_eqb_equivalence|]. split; [auto|]. split; [reach|].
  apply after_runs; vm_compute; reflexivity.
Qed.
Print Assumptions C40_no_argument_refuted.

(** * C41 *)

Section C41.
Variable same : val -> val -> bool.
Hypothesis HQ : equivalence same.
Let refl := proj1 HQ.
Let sym := proj1 (proj2 HQ).
Let trans := proj2 (proj2 HQ).
Variable order : list val -> list val.
Hypothesis perm : forall l, Permutation (order l) l.
Notation coll := (prog_all (collecting (U := sdata) items_changed)).

Lemma coll_seq : forall p q, coll p -> coll q -> coll (p;; q).
Proof. intros p q Hp Hq. unfold seq. apply prog_all_bind; auto. Qed.
Lemma coll_each : forall {A} (f : A -> prog sdata) l, (forall x, coll (f x)) -> coll (each f l).
Proof. intros A f l H; induction l; cbn [each]; [exact I|]. now apply coll_seq. Qed.
Ltac collp := repeat (cbn; first [exact I | reflexivity | split | intros [?|?]]).
Lemma coll_add : forall x, coll (es_add same x).
Proof. intros x. cbn. intros u. destruct (mem same x u); cbn; [exact I|]. collp. Qed.
Lemma coll_discard : forall x, coll (es_discard same x).
Proof. intros x. cbn. intros u. destruct (negb _); cbn; [exact I|]. collp. Qed.
Lemma coll_clear : coll (bs_clear order sitems set_sitems (set_hooks same)).
Proof.
  cbn. intros u u'. destruct u'; cbn; [exact I|]. collp.
Qed.
Lemma coll_live : forall n f l, (forall x, coll (f x)) -> coll (live sitems n f l).
Proof.
  intros n f l H; induction l as [|x l IH]; cbn [live]; [exact I|]. apply coll_seq; [apply H|]. cbn. intros u.
  destruct (Nat.eqb _ _); [exact IH|exact I].
Qed.
Lemma coll_over : forall a f, (forall x, coll (f x)) -> coll (over order sitems a f).
Proof. intros [m|] f H; cbn [over]; [now apply coll_each|]. intros u. now apply coll_live. Qed.
Lemma coll_toggle : forall x, coll (toggle1 same x).
Proof. intros x u. destruct (mem _ _ _); [apply coll_discard|apply coll_add]. Qed.
Lemma coll_intersection : forall s, coll (bs_intersection_update same order sitems set_sitems (set_hooks same) s).
Proof. intros [|a s]; [exact I|]. intros u. apply coll_each. intros x. destruct (forallb _ _); [exact I|apply coll_discard]. Qed.

Variable E0 E : env sdata.
Variable w : world sdata.
Notation s := items_changed.
Hypothesis HE : env_all (aloof set_signals) E.
Hypothesis HR : reachable E0 w.
Hypothesis HO : same_objects E0 E.
Hypothesis HU : env_all (untouched (members_of w) s) E.
Hypothesis Hm : s_members (w_sg w s) = None.
Hypothesis HM : s_mode (w_sg w s) = Queued.
Hypothesis H0 : in_progress s (w_tr w) = 0%Z.
Hypothesis Hb : s_blocked (w_sg w s) = false.
Hypothesis Hp : s_paused (w_sg w s) = false.
Hypothesis Ha : s_args (w_sg w s) = [].
Hypothesis Hs : s_slots (w_sg w s) <> [].
Hypothesis Hh : w_hook w = None.
Hypothesis HD : distinct same (w_usr w).

(** A paused operation whose events reduce to the difference. *)
Lemma paused_announced : forall p w' v (f : ends) g,
  prog_all (collecting s) p -> does E set_signals p (w_usr w) f g ->
  (forall u hs v, f u hs v ->
     (hs = [] /\ u = w_usr w)
     \/ exists a r, reduce_events (map (fun x => snd (fst x)) hs) = (a, r) /\ a ++ r <> []
          /\ difference same (w_usr w) u a r) ->
  runs E (with_paused s set_reducer p) w w' (Ok v) ->
  exists t, w_tr w' = w_tr w ++ t /\ announced same (w_me w) (s_slots (w_sg w s)) (w_usr w) (w_usr w') t.
Proof.
  intros p w' v f g HC HDo Hf H. unfold set_reducer in H. set (fn := fun q => _) in H.
  destruct (paused_once E s E0 fn p w w' v HR HO HU HC Hm H0 ltac:(rewrite HM; discriminate) Hb Hp Ha Hs H)
    as (w3 & l & H3 & T3 & (x & HS) & HX).
  destruct (resume_aside E set_signals HE _ _ _ _ _ HS) as (Hu & _).
  destruct (does_sound E set_signals p (upd s (set_paused true) w) w3 (Ok v) f g HE HDo H3 ltac:(discriminate)) as (t3 & T3' & HF).
  assert (Ht : t3 = asked s l).
  { assert (K : w_tr w ++ t3 = w_tr w ++ asked s l) by (rewrite <- T3; symmetry; exact T3'). now apply app_inv_head in K. }
  subst t3. rewrite heard_asked in HF by reflexivity. apply Hf in HF. rewrite map_map in HF. cbn [fst snd] in HF.
  assert (HFa : Forall (fun e => exists a u, e = EEmit s a u) (asked s l)).
  { unfold asked. apply Forall_forall. intros e He. apply in_map_iff in He as (y & <- & _). eauto. }
  rewrite Hu. destruct HX as [(-> & T)|(a & t & Hl & Hfn & T & HEm)].
  - exists []. rewrite T, T3. split; [reflexivity|]. exists [], []. split; [reflexivity|]. split; [constructor|]. left.
    destruct HF as [[_ HF]|(a & r & Hr & Hn & _)]; [auto|]. cbn in Hr. injection Hr as <- <-. now contradiction Hn.
  - exists (asked s l ++ t). rewrite T, T3, app_assoc. split; [reflexivity|]. exists (asked s l), t.
    split; [reflexivity|]. split; [exact HFa|]. right. destruct HF as [[HF _]|(a' & r & Hr & Hn & HDf)].
    { now destruct l. }
    exists a', r. split; [exact Hn|]. split; [exact HDf|]. unfold fn in Hfn.
    change (map (fun x => fst x) l) with (map fst l) in Hr. rewrite Hr in Hfn. injection Hfn as <-. exact HEm.
Qed.
Lemma steps_announced : forall p w' v P,
  prog_all (collecting s) p -> steps_by E same p (w_usr w) P ->
  (forall cs, real same (w_usr w) cs -> P cs -> distinct same (map snd cs)) ->
  runs E (with_paused s set_reducer p) w w' (Ok v) ->
  exists t, w_tr w' = w_tr w ++ t /\ announced same (w_me w) (s_slots (w_sg w s)) (w_usr w) (w_usr w') t.
Proof.
  intros p w' v P HC HB HP H. eapply paused_announced; [exact HC|exact HB| |exact H].
  intros u hs x (_ & cs & -> & -> & HRl & HPc). destruct cs as [|c cs]; [left; auto|]. right.
  exists (adds (c :: cs)), (dels (c :: cs)). rewrite reduce_tell. split; [reflexivity|]. split.
  - destruct c as [[|] y]; cbn; [discriminate|]. intros K. now apply app_eq_nil in K as [_ K].
  - apply real_difference; eauto.
Qed.
(** A single change. *)
Lemma single_announced : forall c w' v,
  mem same (snd c) (w_usr w) = negb (fst c) ->
  runs E (act (modify sitems set_sitems (fun l => one same l c));; say s (ev c);; Ret v) w w' (Ok v) ->
  exists t, w_tr w' = w_tr w ++ t /\ announced same (w_me w) (s_slots (w_sg w s)) (w_usr w) (w_usr w') t.
Proof.
  intros c w' v Hc H. unfold seq in H. apply runs_bind in H as (w1 & r1 & H1 & H).
  apply runs_call, steps_pure in H1; [|reflexivity]. unfold pure_step in H1. cbn [step modify] in H1. injection H1 as <- <-.
  apply runs_bind in H as (w2 & r2 & H2 & H). apply runs_call in H2.
  destruct r2 as [x|e|]; [|destruct H as [_ H]; discriminate|destruct H as [_ H]; discriminate].
  apply runs_ret in H as [-> _]. change (sitems (w_usr w)) with (w_usr w) in H2.
  set (u := set_sitems (one same (w_usr w) c) (w_usr w)) in H2.
  destruct (emit_heard E set_signals HE _ _ _ _ _ _ _ H2) as (Hu & _).
  destruct (emit_once E s E0 _ w w2 x HR HO HU Hm H0 ltac:(rewrite HM; discriminate) Hb Hp Hh u H2) as (t & T & HEm).
  exists (EEmit s (ev c) u :: t). split; [exact T|]. exists [EEmit s (ev c) u], t. split; [reflexivity|].
  split; [repeat constructor; eauto|]. right. rewrite Hu. change (w_usr (set_usr u w)) with (walk same (w_usr w) [c]).
  exists (adds [c]), (dels [c]). destruct c as [[|] y]; cbn [ev fst snd] in *; (split; [discriminate|]);
    (split; [apply real_difference; auto; cbn; auto|exact HEm]).
Qed.
End C41.

(** Everything except |=, &=, -=, ^= with another iterable: while items_changed is not being
    emitted, blocked or paused and someone is connected, an operation that returns has emitted
    items_changed exactly once with the exact difference, to everyone connected, in order; nothing
    was emitted if nothing changed. *)
Theorem C41_announced_partial : forall E0 E same order o w w' v,
  env_all (aloof set_signals) E -> equivalence same -> (forall l, Permutation (order l) l) ->
  distinct same (w_usr w) -> fit same o (w_usr w) -> in_one_go o = true ->
  reachable E0 w -> same_objects E0 E -> env_all (untouched (members_of w) items_changed) E ->
  s_members (w_sg w items_changed) = None -> s_mode (w_sg w items_changed) = Queued ->
  in_progress items_changed (w_tr w) = 0%Z -> s_blocked (w_sg w items_changed) = false ->
  s_paused (w_sg w items_changed) = false -> s_args (w_sg w items_changed) = [] ->
  s_slots (w_sg w items_changed) <> [] -> w_hook w = None ->
  runs E (evented_s same order o) w w' (Ok v) ->
  exists t, w_tr w' = w_tr w ++ t
    /\ announced same (w_me w) (s_slots (w_sg w items_changed)) (w_usr w) (w_usr w') t.
Proof.
  intros E0 E same order o w w' v HE HQ HP HD HF Ho HR HO HU Hm HM H0 Hb Hp Ha Hs Hh H.
  pose proof HQ as (refl & sym & trans).
  assert (Nothing : w' = w -> exists t, w_tr w' = w_tr w ++ t
    /\ announced same (w_me w) (s_slots (w_sg w items_changed)) (w_usr w) (w_usr w') t).
  { intros ->. exists []. rewrite app_nil_r. split; [reflexivity|]. exists [], []. split; [reflexivity|]. split; [constructor|auto]. }
  assert (Discard : forall x v, runs E (es_discard same x) w w' (Ok v) -> exists t, w_tr w' = w_tr w ++ t
    /\ announced same (w_me w) (s_slots (w_sg w items_changed)) (w_usr w) (w_usr w') t).
  { intros x v0 H1. unfold es_discard, bs_discard, set_hooks, pre_discard, emit_change in H1. cbn [bind] in H1.
    apply runs_look in H1. cbn [bind bails] in H1. destruct (mem same x (w_usr w)) eqn:HX; cbn [negb] in H1.
    - assert (v0 = VNone) as ->.
      { unfold seq in H1. apply runs_bind in H1 as (w1 & r1 & _ & H1). destruct r1; [|destruct H1; discriminate..].
        apply runs_bind in H1 as (w2 & r2 & _ & H1). destruct r2; [|destruct H1; discriminate..]. apply runs_ret in H1 as [_ H1]. congruence. }
      eapply (single_announced same HQ E0 E w HE HR HO HU Hm HM H0 Hb Hp Hh HD (false, x)); [exact HX|exact H1].
    - apply runs_ret in H1 as [-> _]. now apply Nothing. }
  assert (Clear : forall v, runs E (es_clear same order) w w' (Ok v) -> exists t, w_tr w' = w_tr w ++ t
    /\ announced same (w_me w) (s_slots (w_sg w items_changed)) (w_usr w) (w_usr w') t).
  { intros v0 H1. eapply (paused_announced same E0 E w HE HR HO HU Hm HM H0 Hb Hp Ha Hs);
      [apply (coll_clear same order)|apply (clear_d E same order (w_usr w))| |exact H1].
    intros u hs x (_ & -> & ->). destruct (w_usr w) as [|y l] eqn:Hl; [left; auto|]. right. rewrite <- Hl in *.
    exists [], (order (w_usr w)). cbn [map fst snd reduce_events List.app]. rewrite ?app_nil_r. split; [reflexivity|]. split.
    { cbn. intros K. pose proof (HP (w_usr w)) as HPl. rewrite K, Hl in HPl. apply Permutation_nil in HPl. discriminate. }
    split; [exact I|]. split; [eapply (distinct_perm same sym); [symmetry; apply HP|exact HD]|].
    split; intros z; rewrite <- !mem_inside.
    - cbn. split; [discriminate|]. intros [K _]. discriminate.
    - rewrite (mem_perm same z _ _ (HP (w_usr w))). split; [intros K; split; [exact K|discriminate]|tauto]. }
  assert (Grow : forall p P v, prog_all (collecting items_changed) p -> steps_by E same p (w_usr w) P ->
    (forall cs, P cs -> Forall (fun c => fst c = true) cs) -> runs E (with_paused items_changed set_reducer p) w w' (Ok v) ->
    exists t, w_tr w' = w_tr w ++ t
    /\ announced same (w_me w) (s_slots (w_sg w items_changed)) (w_usr w) (w_usr w') t).
  { intros p P v0 HC HB HPc H1. eapply (steps_announced same HQ E0 E w HE HR HO HU Hm HM H0 Hb Hp Ha Hs HD); eauto.
    intros cs Hr Hc. now apply (real_adds_distinct same refl sym trans cs (w_usr w) HD Hr (HPc cs Hc)). }
  assert (Shrink : forall p P v, prog_all (collecting items_changed) p -> steps_by E same p (w_usr w) P ->
    (forall cs, P cs -> Forall (fun c => fst c = false) cs) -> runs E (with_paused items_changed set_reducer p) w w' (Ok v) ->
    exists t, w_tr w' = w_tr w ++ t
    /\ announced same (w_me w) (s_slots (w_sg w items_changed)) (w_usr w) (w_usr w') t).
  { intros p P v0 HC HB HPc H1. eapply (steps_announced same HQ E0 E w HE HR HO HU Hm HM H0 Hb Hp Ha Hs HD); eauto.
    intros cs Hr Hc. now apply (real_dels_distinct same refl sym trans cs (w_usr w) HD Hr (HPc cs Hc)). }
  destruct o as [x|x|x| | |s|s|s|a|a|a|a|a]; cbn [evented_s fit in_one_go] in *; try discriminate Ho.
  - unfold es_add, bs_add, set_hooks, pre_add, emit_change in H. cbn [bind] in H.
    apply runs_look in H. cbn [bind bails] in H. destruct (mem same x (w_usr w)) eqn:HX.
    + apply runs_ret in H as [-> _]. now apply Nothing.
    + assert (v = VNone) as ->.
      { unfold seq in H. apply runs_bind in H as (w1 & r1 & _ & H1). destruct r1; [|destruct H1; discriminate..].
        apply runs_bind in H1 as (w2 & r2 & _ & H1). destruct r2; [|destruct H1; discriminate..]. apply runs_ret in H1 as [_ H1]. congruence. }
      eapply (single_announced same HQ E0 E w HE HR HO HU Hm HM H0 Hb Hp Hh HD (true, x)); [exact HX|exact H].
  - eapply Discard; eauto.
  - apply runs_look in H. destruct (mem same x (sitems (w_usr w))); [eapply Discard; eauto|].
    apply runs_throw in H as [_ H]. discriminate.
  - apply runs_look in H. destruct (order (sitems (w_usr w))); [apply runs_throw in H as [_ H]; discriminate|].
    unfold seq in H. apply runs_bind in H as (w1 & r1 & H1 & H). destruct r1 as [z|e|]; [|destruct H; discriminate..].
    apply runs_ret in H as [-> _]. eapply Discard; eauto.
  - eapply Clear; eauto.
  - eapply Grow; [|apply (update_d E same order refl sym trans HP s (w_usr w) HD)|intros cs [Hc _]; exact Hc|exact H].
    apply coll_each. intros a. apply coll_over. apply coll_add.
  - eapply Shrink; [|apply (difference_d E same order refl sym trans HP s (w_usr w) HD HF)|intros cs [Hc _]; exact Hc|exact H].
    apply coll_each. intros a. apply coll_over. apply coll_discard.
  - eapply Shrink; [|apply (intersection_d E same order refl sym trans HP s (w_usr w) HD HF)|intros cs [Hc _]; exact Hc|exact H].
    apply coll_intersection.
  - destruct HF as [HF1 HF2]. eapply (steps_announced same HQ E0 E w HE HR HO HU Hm HM H0 Hb Hp Ha Hs HD);
      [|apply (symmetric_d E same order refl sym trans HP a (w_usr w) HD HF1 HF2)|intros cs _ [Hc _]; exact Hc|exact H].
    apply coll_over. apply coll_toggle.
  - destruct a; [discriminate|]. eapply Clear; eauto.
  - destruct a; [discriminate|]. eapply Clear; eauto.
Qed.

Example C41_case : exists w w' : world sdata,
  env_all (aloof set_signals) set_env /\ reachable set_env w /\ same_objects set_env set_env
  /\ env_all (untouched (members_of w) items_changed) set_env
  /\ s_members (w_sg w items_changed) = None /\ s_mode (w_sg w items_changed) = Queued
  /\ in_progress items_changed (w_tr w) = 0%Z /\ s_blocked (w_sg w items_changed) = false
  /\ s_paused (w_sg w items_changed) = false /\ s_args (w_sg w items_changed) = []
  /\ s_slots (w_sg w items_changed) <> [] /\ w_hook w = None
  /\ runs set_env (evented_s val_eqb (fun l => l) (SSymmetric (Items [VInt 6; VInt 8]))) w w' (Ok VNone)
  /\ w_usr w = [VInt 5; VInt 6; VInt 7] /\ w_usr w' = [VInt 5; VInt 7; VInt 8].
Proof.
  set (l := [VInt 5; VInt 6; VInt 7]). set (p := evented_s val_eqb (fun l => l) (SSymmetric (Items [VInt 6; VInt 8]))).
  exists (set_world l), (after set_env 200 p (set_world l)).
  split; [apply set_env_aloof|]. split; [reach|]. split; [repeat split; auto|]. split.
  { generalize (members_of (set_world l)). intros M. apply demo_all. intros f a. destruct f as [|[|[|f]]]; allp; repeat split; cbn; auto; discriminate. }
  do 6 (split; [vm_compute; reflexivity|]). split; [vm_compute; discriminate|]. split; [vm_compute; reflexivity|].
  split; [apply after_runs; vm_compute; reflexivity|]. split; vm_compute; reflexivity.
Qed.
Print Assumptions C41_announced_partial.

Definition started (e : event sdata) : bool := match e with EStart _ s _ => Nat.eqb s items_changed | _ => false end.
(** [s |= [8; 9]] emits items_changed twice. *)
Theorem C41_refuted : exists (E : env sdata) same order w w' t,
  env_all (aloof set_signals) E /\ equivalence same /\ (forall l, Permutation (order l) l) /\ reachable E w
  /\ runs E (evented_s same order (SIor (Items [VInt 8; VInt 10]))) w w' (Ok VNone)
  /\ w_tr w' = w_tr w ++ t /\ List.length (filter started t) = 2%nat.
Proof.
  set (l := [VInt 5]). set (o := SIor (Items [VInt 8; VInt 10])).
  set (w' := after set_env 200 (evented_s val_eqb (fun l => l) o) (set_world l)).
  exists set_env, val_eqb, (fun l => l), (set_world l), w', (skipn (List.length (w_tr (set_world l))) (w_tr w')).
  split; [apply set_env_aloof|]. split; [apply val_eqb_equivalence|]. split; [auto|]. split; [reach|].
  split; [apply after_runs; vm_compute; reflexivity|]. split; vm_compute; reflexivity.
Qed.
Print Assumptions C41_refuted.
(** symmetric_difference_update([8; 8]) emits ((8,), (8,)) although nothing changed. *)
Theorem C41_toggled_refuted : exists (E : env sdata) same order w w' t n,
  env_all (aloof set_signals) E /\ equivalence same /\ (forall l, Permutation (order l) l) /\ reachable E w
  /\ runs E (evented_s same order (SSymmetric (Items [VInt 8; VInt 8]))) w w' (Ok VNone)
  /\ w_usr w' = w_usr w
  /\ w_tr w' = w_tr w ++ t /\ In (EStart n items_changed [VTuple [VInt 8]; VTuple [VInt 8]]) t.
Proof.
  set (l := [VInt 5]). set (o := SSymmetric (Items [VInt 8; VInt 8])).
  set (w' := after set_env 200 (evented_s val_eqb (fun l => l) o) (set_world l)).
  eexists set_env, val_eqb, (fun l => l), (set_world l), w', (skipn (List.length (w_tr (set_world l))) (w_tr w')), _.
  split; [apply set_env_aloof|]. split; [apply val_eqb_equivalence|]. split; [auto|]. split; [reach|].
  split; [apply after_runs; vm_compute; reflexivity|]. split; [vm_compute; reflexivity|]. split; [vm_compute; reflexivity|].
  vm_compute. tauto.
Qed.
Print Assumptions C41_toggled_refuted.
