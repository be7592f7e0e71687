(** Facts about the model of EventedSet. Proof infrastructure. *)

From Verif Require Import Base Core Spec Frame Fuel Client Prog Does PySet ESet SpecSet.
From Coq Require Import Permutation.

Arguments PySet.mem _ _ _ : simpl never.
Section Pure.
Variable same : val -> val -> bool.
Hypothesis refl : forall x, same x x = true.
Hypothesis sym : forall x y, same x y = true -> same y x = true.
Hypothesis trans : forall x y z, same x y = true -> same y z = true -> same x z = true.
Notation mem := (mem same).
Notation sadd := (sadd same).
Notation sdel := (sdel same).
Notation distinct := (distinct same).
Notation inside := (inside same).

Lemma mem_nil : forall x, mem x [] = false.
Proof. reflexivity. Qed.
Lemma mem_cons : forall x y l, mem x (y :: l) = same x y || mem x l.
Proof. reflexivity. Qed.
Lemma mem_inside : forall x l, mem x l = true <-> inside x l.
Proof. intros. unfold PySet.mem. apply existsb_exists. Qed.
Lemma mem_outside : forall x l, mem x l = false <-> ~ inside x l.
Proof. intros x l. rewrite <- mem_inside. destruct (mem x l); split; congruence. Qed.
Lemma same_sym : forall x y, same x y = same y x.
Proof.
  intros x y. destruct (same x y) eqn:H; [symmetry; now apply sym|].
  destruct (same y x) eqn:K; [apply sym in K; congruence|reflexivity].
Qed.
Lemma same_eq : forall x y z, same x y = true -> same x z = same y z.
Proof.
  intros x y z H. destruct (same y z) eqn:K; [eapply trans; eauto|].
  destruct (same x z) eqn:L; [|reflexivity]. rewrite <- K. apply sym in H. symmetry. eapply trans; eauto.
Qed.
Lemma mem_same : forall x y l, same x y = true -> mem x l = mem y l.
Proof. intros x y l H; induction l as [|z l IH]; [reflexivity|]. rewrite !mem_cons. now rewrite IH, (same_eq x y z H). Qed.
Lemma mem_app : forall x a b, mem x (a ++ b) = mem x a || mem x b.
Proof. intros. unfold PySet.mem. apply existsb_app. Qed.
Lemma mem_in : forall x l, In x l -> mem x l = true.
Proof. intros x l H. apply mem_inside. exists x. auto. Qed.
Lemma mem_perm : forall x a b, Permutation a b -> mem x a = mem x b.
Proof.
  intros x a b H. destruct (mem x b) eqn:K.
  - apply mem_inside in K as (y & Hy & Hs). apply mem_inside. exists y. split; [|exact Hs].
    eapply Permutation_in; [symmetry|]; eauto.
  - apply mem_outside. apply mem_outside in K. intros (y & Hy & Hs). apply K. exists y. split; [|exact Hs].
    eapply Permutation_in; eauto.
Qed.
Lemma mem_sadd : forall x y l, mem x (sadd y l) = same x y || mem x l.
Proof.
  intros x y l. unfold PySet.sadd. destruct (mem y l) eqn:H.
  - destruct (same x y) eqn:K; [|reflexivity]. now rewrite (mem_same x y l K).
  - rewrite mem_app, mem_cons, mem_nil, orb_false_r. apply orb_comm.
Qed.
Lemma mem_sdel : forall x y l, distinct l -> mem x (sdel y l) = mem x l && negb (same x y).
Proof.
  intros x y l; induction l as [|z l IH]; [reflexivity|]. cbn [PySet.distinct PySet.sdel]. rewrite mem_cons. intros [H1 H2]. destruct (same y z) eqn:K.
  - rewrite (same_sym x y). destruct (same x z) eqn:L.
    + assert (Hyx : same y x = true) by (eapply trans; [exact K|now apply sym]). rewrite Hyx. cbn.
      rewrite <- H1. now apply mem_same.
    + cbn. destruct (same y x) eqn:M; [|now rewrite andb_true_r].
      exfalso. apply sym in M. pose proof (trans _ _ _ M K). congruence.
  - rewrite mem_cons, (IH H2). destruct (same x z) eqn:L; [|reflexivity]. cbn.
    destruct (same x y) eqn:M; [|reflexivity]. apply sym in M. pose proof (trans _ _ _ M L). congruence.
Qed.
Lemma distinct_app : forall a b, distinct (a ++ b) <-> distinct a /\ distinct b /\ (forall x, inside x a -> ~ inside x b).
Proof.
  induction a as [|y a IH]; intros b; cbn.
  - split; [intros H; split; [exact I|]; split; [exact H|]; intros x (z & [] & _)|tauto].
  - rewrite mem_app, orb_false_iff, IH. split.
    + intros [[H1 H2] [H3 [H4 H5]]]. split; [auto|]. split; [auto|].
      intros x (z & [-> |Hz] & Hs) Hb; [|eapply H5; [exists z; eauto|exact Hb]].
      apply mem_outside in H2. apply H2. destruct Hb as (u & Hu & Hxu). exists u. split; [exact Hu|].
      eapply trans; [apply sym; exact Hs|exact Hxu].
    + intros [[H1 H2] [H3 H4]]. split; [split; [exact H1|]|split; [exact H2|split; [exact H3|]]].
      * apply mem_outside. apply H4. exists y. split; [now left|apply refl].
      * intros x (z & Hz & Hs). apply H4. exists z. split; [now right|exact Hs].
Qed.
Lemma distinct_sadd : forall x l, distinct l -> distinct (sadd x l).
Proof.
  intros x l H. unfold PySet.sadd. destruct (mem x l) eqn:K; [exact H|]. apply distinct_app. split; [exact H|].
  split; [cbn; auto|]. intros y Hy (z & [<-|[]] & Hs). apply mem_outside in K. apply K.
  destruct Hy as (u & Hu & Hyu). exists u. split; [exact Hu|]. eapply trans; [apply sym; exact Hs|exact Hyu].
Qed.
Lemma distinct_sdel : forall x l, distinct l -> distinct (sdel x l).
Proof.
  intros x l; induction l as [|y l IH]; cbn; [auto|]. intros [H1 H2]. destruct (same x y); [exact H2|].
  cbn. split; [|auto]. rewrite mem_sdel by exact H2. now rewrite H1.
Qed.
Lemma distinct_perm : forall a b, Permutation a b -> distinct a -> distinct b.
Proof.
  intros a b H; induction H as [|x a b H IH|x y a|a b c H1 IH1 H2 IH2]; cbn; auto.
  - intros [K1 K2]. split; [|auto]. now rewrite <- (mem_perm x a b H).
  - rewrite !mem_cons, !orb_false_iff. intros [[K1 K2] [K3 K4]]. rewrite (same_sym x y). auto.
Qed.
Lemma dedup_gen : forall l a, distinct a -> distinct (fold_left (fun a x => sadd x a) l a)
  /\ forall x, mem x (fold_left (fun a x => sadd x a) l a) = mem x l || mem x a.
Proof.
  induction l as [|y l IH]; intros a Ha; cbn [fold_left]; [auto|]. destruct (IH (sadd y a) (distinct_sadd y a Ha)) as [I1 I2].
  split; [exact I1|]. intros x. rewrite I2, mem_sadd, mem_cons. destruct (same x y), (mem x l), (mem x a); reflexivity.
Qed.
Lemma dedup_ok : forall l, distinct (dedup same l) /\ forall x, mem x (dedup same l) = mem x l.
Proof.
  intros l. destruct (dedup_gen l [] I) as [I1 I2]. split; [exact I1|]. intros x.
  unfold dedup. rewrite I2. apply orb_false_r.
Qed.

(** ** Sequences of additions (true) and removals (false) *)
Definition change := (bool * val)%type.
Definition one (l : list val) (c : change) : list val := if fst c then sadd (snd c) l else sdel (snd c) l.
Definition ev (c : change) : list val := if fst c then [VTuple [snd c]; VTuple []] else [VTuple []; VTuple [snd c]].
Fixpoint walk (l : list val) (cs : list change) : list val :=
  match cs with [] => l | c :: cs => walk (one l c) cs end.
Fixpoint tell (l : list val) (cs : list change) : list (sid * list val * list val) :=
  match cs with [] => [] | c :: cs => (items_changed, ev c, one l c) :: tell (one l c) cs end.
(** Each addition is new, each removal removes something. *)
Fixpoint real (l : list val) (cs : list change) : Prop :=
  match cs with [] => True | c :: cs => mem (snd c) l = negb (fst c) /\ real (one l c) cs end.
Definition adds (cs : list change) : list val := map snd (filter fst cs).
Definition dels (cs : list change) : list val := map snd (filter (fun c => negb (fst c)) cs).

Lemma walk_app : forall a b l, walk l (a ++ b) = walk (walk l a) b.
Proof. induction a; intros; cbn; auto. Qed.
Lemma tell_app : forall a b l, tell l (a ++ b) = tell l a ++ tell (walk l a) b.
Proof. induction a; intros; cbn; [auto|]. now rewrite IHa. Qed.
Lemma real_app : forall a b l, real l (a ++ b) <-> real l a /\ real (walk l a) b.
Proof. induction a as [|c a IH]; intros; cbn; [tauto|]. rewrite IH. tauto. Qed.
Lemma one_distinct : forall l c, distinct l -> distinct (one l c).
Proof. intros l [[|] x] H; [now apply distinct_sadd|now apply distinct_sdel]. Qed.
Lemma walk_distinct : forall cs l, distinct l -> distinct (walk l cs).
Proof. induction cs as [|c cs IH]; intros l H; cbn; [exact H|]. apply IH. now apply one_distinct. Qed.
Lemma mem_one : forall x l c, distinct l -> mem x (one l c) = if same x (snd c) then fst c else mem x l.
Proof.
  intros x l [[|] y] H; cbn.
  - rewrite mem_sadd. now destruct (same x y).
  - rewrite mem_sdel by exact H. destruct (same x y); cbn; now rewrite ?andb_false_r, ?andb_true_r.
Qed.
Lemma set_reduces_ok : reduces_ok set_reducer.
Proof. intros q e. cbv beta. destruct (reduce_events q). discriminate. Qed.
Lemma reduce_tell : forall cs l, reduce_events (map (fun p => snd (fst p)) (tell l cs)) = (adds cs, dels cs).
Proof.
  induction cs as [|[[|] x] cs IH]; intros l; cbn; [reflexivity| |]; unfold one; cbn [fst snd]; now rewrite IH.
Qed.

(** Without repetition the changes are the difference. *)
Lemma walk_mem : forall cs l x, distinct l -> distinct (map snd cs) -> real l cs ->
  mem x (walk l cs) = mem x (adds cs) || (mem x l && negb (mem x (dels cs)))
  /\ (mem x (adds cs) = true -> mem x l = false) /\ (mem x (dels cs) = true -> mem x l = true)
  /\ mem x (adds cs) && mem x (dels cs) = false.
Proof.
  induction cs as [|[b y] cs IH]; intros l x Hl Hd Hr.
  { cbn. rewrite andb_true_r. split; [reflexivity|]. split; [discriminate|]. split; [discriminate|reflexivity]. }
  cbn [real fst snd map distinct walk] in *. destruct Hd as [Hd1 Hd2]. destruct Hr as [Hr1 Hr2].
  destruct (IH (one l (b, y)) x (one_distinct l _ Hl) Hd2 Hr2) as (I1 & I2 & I3 & I4). rewrite mem_one in * by exact Hl.
  cbn [fst snd] in *.
  assert (HD : forall z, mem z (map snd cs) = mem z (adds cs) || mem z (dels cs)).
  { clear. intros z. induction cs as [|[[|] w] cs IHc]; [reflexivity| |];
      cbn [map snd]; rewrite mem_cons, IHc; unfold adds, dels; cbn [filter fst negb map snd]; rewrite mem_cons;
      destruct (same z w), (PySet.mem same z (map snd (filter fst cs))); reflexivity. }
  assert (HX : same x y = true -> mem x (adds cs) = false /\ mem x (dels cs) = false).
  { intros Hs. rewrite <- (mem_same x y _ Hs) in Hd1. rewrite HD in Hd1. now apply orb_false_iff in Hd1. }
  destruct (same x y) eqn:Hs.
  - destruct (HX eq_refl) as [HA HB]. rewrite (mem_same x y l Hs), Hr1. rewrite I1, HA, HB. unfold adds, dels in *.
    destruct b; cbn [filter fst negb map snd]; rewrite mem_cons, Hs, HA, ?HB; cbn; repeat split; auto; congruence.
  - rewrite I1. unfold adds, dels in *. destruct b; cbn [filter fst negb map snd]; rewrite mem_cons, Hs; cbn [orb]; repeat split; auto.
Qed.
Lemma adds_in : forall cs, Forall (fun c => fst c = true) cs -> adds cs = map snd cs /\ dels cs = [].
Proof.
  unfold adds, dels. induction cs as [|[b y] cs IH]; intros H; [auto|]. inversion H; subst. cbn in *. subst.
  destruct (IH H3) as [I1 I2]. cbn. now rewrite I1, I2.
Qed.
Lemma dels_in : forall cs, Forall (fun c => fst c = false) cs -> dels cs = map snd cs /\ adds cs = [].
Proof.
  unfold adds, dels. induction cs as [|[b y] cs IH]; intros H; [auto|]. inversion H; subst. cbn in *. subst.
  destruct (IH H3) as [I1 I2]. cbn. now rewrite I1, I2.
Qed.
Lemma real_adds_distinct : forall cs l, distinct l -> real l cs -> Forall (fun c => fst c = true) cs ->
  distinct (map snd cs) /\ forall x, inside x (map snd cs) -> mem x l = false.
Proof.
  induction cs as [|[b y] cs IH]; intros l Hl Hr Hf; [cbn; split; [exact I|]; intros x (z & [] & _)|].
  inversion Hf; subst. cbn in H1. subst. cbn [real fst snd map distinct] in *. destruct Hr as [Hr1 Hr2].
  destruct (IH _ (one_distinct l _ Hl) Hr2 H2) as [I1 I2]. split.
  - split; [|exact I1]. destruct (mem y (map snd cs)) eqn:K; [|reflexivity]. apply mem_inside in K. apply I2 in K.
    rewrite mem_one in K by exact Hl. cbn in K. rewrite refl in K. discriminate.
  - intros x (z & [<-|Hz] & Hs).
    + rewrite (mem_same x y l Hs). exact Hr1.
    + assert (K : mem x (one l (true, y)) = false) by (apply I2; exists z; auto).
      rewrite mem_one in K by exact Hl. cbn in K. destruct (same x y); [discriminate|exact K].
Qed.
Lemma real_dels_distinct : forall cs l, distinct l -> real l cs -> Forall (fun c => fst c = false) cs ->
  distinct (map snd cs) /\ forall x, inside x (map snd cs) -> mem x l = true.
Proof.
  induction cs as [|[b y] cs IH]; intros l Hl Hr Hf; [cbn; split; [exact I|]; intros x (z & [] & _)|].
  inversion Hf; subst. cbn in H1. subst. cbn [real fst snd map distinct] in *. destruct Hr as [Hr1 Hr2].
  destruct (IH _ (one_distinct l _ Hl) Hr2 H2) as [I1 I2]. split.
  - split; [|exact I1]. destruct (mem y (map snd cs)) eqn:K; [|reflexivity]. apply mem_inside in K. apply I2 in K.
    rewrite mem_one in K by exact Hl. cbn in K. rewrite refl in K. discriminate.
  - intros x (z & [<-|Hz] & Hs).
    + rewrite (mem_same x y l Hs). exact Hr1.
    + assert (K : mem x (one l (false, y)) = true) by (apply I2; exists z; auto).
      rewrite mem_one in K by exact Hl. cbn in K. destruct (same x y); [discriminate|exact K].
Qed.
Lemma real_difference : forall cs l, distinct l -> distinct (map snd cs) -> real l cs ->
  difference same l (walk l cs) (adds cs) (dels cs).
Proof.
  intros cs l Hl Hd Hr.
  assert (HS : forall (f : change -> bool) cs, distinct (map snd cs) -> distinct (map snd (filter f cs))
    /\ forall x, mem x (map snd cs) = false -> mem x (map snd (filter f cs)) = false).
  { clear. intros f. induction cs as [|c cs IH]; cbn; [auto|]. intros [H1 H2]. destruct (IH H2) as [I1 I2].
    destruct (f c); cbn; (split; [auto|]); intros x; rewrite ?mem_cons, !orb_false_iff; intros [K1 K2]; auto. }
  split; [apply (HS fst cs Hd)|]. split; [apply (HS _ cs Hd)|]. split; intros x; rewrite <- !mem_inside;
    destruct (walk_mem cs l x Hl Hd Hr) as (W1 & W2 & W3 & W4); rewrite W1.
  - split; [intros H; rewrite H, (W2 H); split; [reflexivity|discriminate]|].
    destruct (mem x (adds cs)), (mem x l); cbn; try tauto; try (intros [_ K]; now contradiction K); intros [K _]; discriminate.
  - split.
    + intros H. rewrite H in *. rewrite (W3 eq_refl). cbn. destruct (mem x (adds cs)); [discriminate|]. split; [reflexivity|discriminate].
    + destruct (mem x (dels cs)); [auto|]. intros [K1 K2]. rewrite K1 in K2. rewrite orb_true_r in K2. now contradiction K2.
Qed.
End Pure.

(** ** What the programs do *)
Section D.
Variable E : env sdata.
Variable same : val -> val -> bool.
Variable order : list val -> list val.
Hypothesis refl : forall x, same x x = true.
Hypothesis sym : forall x y, same x y = true -> same y x = true.
Hypothesis trans : forall x y z, same x y = true -> same y z = true -> same x z = true.
Hypothesis perm : forall l, Permutation (order l) l.
Notation does := (Does.does E set_signals).
Notation never := (Does.never (U := sdata)).
Notation mem := (PySet.mem same).
Notation distinct := (PySet.distinct same).

(** [p] makes real changes with the property [P], and tells them. *)
Definition steps_by (p : prog sdata) (l : list val) (P : list change -> Prop) : Prop :=
  does p l (fun u hs v => v = VNone /\ exists cs, u = walk same l cs /\ hs = tell same l cs /\ real same l cs /\ P cs) never.
Lemma by_mono : forall p l (P Q : list change -> Prop), steps_by p l P ->
  (forall cs, real same l cs -> P cs -> Q cs) -> steps_by p l Q.
Proof.
  intros p l P Q H HQ. eapply does_mono; [exact H| |auto]. intros u hs v (-> & cs & ? & ? & ? & ?). split; [reflexivity|]. exists cs. auto.
Qed.
Lemma by_nil : forall l (P : list change -> Prop), P [] -> steps_by (Ret VNone) l P.
Proof. intros l P H. apply does_ret. split; [reflexivity|]. exists []. repeat split; auto. Qed.
Lemma by_seq : forall p q l (P1 P : list change -> Prop), steps_by p l P1 ->
  (forall cs, real same l cs -> P1 cs -> steps_by q (walk same l cs) (fun cs' => P (cs ++ cs'))) ->
  steps_by (p;; q) l P.
Proof.
  intros p q l P1 P Hp Hq. eapply does_seq; [exact Hp|]. intros u hs v (_ & cs & -> & -> & HR & HP).
  eapply does_mono; [apply (Hq cs HR HP)| |auto]. intros u hs v' (-> & cs' & -> & -> & HR' & HP').
  split; [reflexivity|]. exists (cs ++ cs'). rewrite walk_app, tell_app. split; [reflexivity|]. split; [reflexivity|].
  split; [apply real_app; auto|exact HP'].
Qed.
Lemma by_look : forall k l (P : list change -> Prop), steps_by (k l) l P -> steps_by (Look k) l P.
Proof. intros. now apply does_look. Qed.
Lemma by_one : forall c l (p : prog sdata), mem (snd c) l = negb (fst c) ->
  does p l (fun u hs v => v = VNone /\ u = one same l c /\ hs = [(items_changed, ev c, u)]) never ->
  steps_by p l (fun cs => cs = [c]).
Proof.
  intros c l p Hc H. eapply does_mono; [exact H| |auto]. intros u hs v (-> & -> & ->). split; [reflexivity|]. exists [c].
  split; [reflexivity|]. split; [reflexivity|]. split; [split; [exact Hc|exact I]|reflexivity].
Qed.

Lemma add_d : forall x l, steps_by (es_add same x) l (fun cs => cs = if mem x l then [] else [(true, x)]).
Proof.
  intros x l. unfold es_add, bs_add, set_hooks, pre_add, emit_change. cbn [bind].
  apply by_look. cbn [bind bails]. destruct (mem x l) eqn:H; [now apply by_nil|].
  apply (by_one (true, x)); [exact H|].
  eapply does_seq with (f1 := fun u hs _ => u = sadd same x l /\ hs = []); [apply does_act; cbn; auto|].
  intros u hs v [-> ->].
  eapply does_seq with (f1 := fun u hs _ => u = sadd same x l /\ hs = [(items_changed, ev (true, x), u)]); [apply does_say; auto|].
  intros u hs v' [-> ->]. apply does_ret. auto.
Qed.
Lemma discard_d : forall x l, steps_by (es_discard same x) l (fun cs => cs = if mem x l then [(false, x)] else []).
Proof.
  intros x l. unfold es_discard, bs_discard, set_hooks, pre_discard, emit_change. cbn [bind].
  apply by_look. cbn [bind bails]. destruct (mem x l) eqn:H; cbn [negb]; [|now apply by_nil].
  apply (by_one (false, x)); [exact H|].
  eapply does_seq with (f1 := fun u hs _ => u = sdel same x l /\ hs = []); [apply does_act; cbn; auto|].
  intros u hs v [-> ->].
  eapply does_seq with (f1 := fun u hs _ => u = sdel same x l /\ hs = [(items_changed, ev (false, x), u)]); [apply does_say; auto|].
  intros u hs v' [-> ->]. apply does_ret. auto.
Qed.
Definition toggle1 := toggle_item same sitems set_sitems (set_hooks same).
Lemma toggle_d : forall x l, steps_by (toggle1 x) l (fun cs => cs = [(negb (mem x l), x)]).
Proof.
  intros x l. unfold toggle1, toggle_item. apply by_look. unfold sitems at 1. destruct (mem x l) eqn:H.
  - eapply by_mono; [apply discard_d|]. intros cs _ ->. now rewrite H.
  - eapply by_mono; [apply add_d|]. intros cs _ ->. now rewrite H.
Qed.

Definition grows_by (l xs : list val) (cs : list change) : Prop :=
  Forall (fun c => fst c = true) cs /\ forall x, mem x (walk same l cs) = mem x l || mem x xs.
Definition shrinks_by (l : list val) (gone : val -> bool) (cs : list change) : Prop :=
  Forall (fun c => fst c = false) cs /\ forall x, mem x (walk same l cs) = mem x l && negb (gone x).

Lemma adds_d : forall xs l, steps_by (each (es_add same) xs) l (grows_by l xs).
Proof.
  induction xs as [|x xs IH]; intros l; cbn [each].
  - apply by_nil. split; [constructor|]. intros x. rewrite mem_nil. cbn. now rewrite orb_false_r.
  - eapply by_seq; [apply add_d|]. intros cs HR ->. eapply by_mono; [apply IH|]. intros cs' HR' [G1 G2].
    split; [apply Forall_app; split; [destruct (mem x l); repeat constructor|exact G1]|].
    intros y. rewrite walk_app, G2, mem_cons. destruct (mem x l) eqn:H; cbn [walk one fst snd].
    + destruct (same y x) eqn:Hs; [|reflexivity]. cbn. now rewrite (mem_same same sym trans y x l Hs), H.
    + rewrite mem_sadd by assumption. destruct (same y x), (mem y l); reflexivity.
Qed.
Lemma discards_gen : forall xs (keep : val -> bool) l, distinct l ->
  steps_by (each (fun i => if keep i then Ret VNone else es_discard same i) xs) l
    (fun cs => Forall (fun c => fst c = false) cs
       /\ forall x, mem x (walk same l cs) = mem x l && negb (mem x (filter (fun i => negb (keep i)) xs))).
Proof.
  induction xs as [|x xs IH]; intros keep l Hl; cbn [each filter].
  - apply by_nil. split; [constructor|]. intros x. cbn. now rewrite andb_true_r.
  - destruct (keep x); cbn [negb].
    + eapply by_seq with (P1 := fun cs => cs = []); [now apply by_nil|]. intros cs _ ->. apply (IH keep l Hl).
    + eapply by_seq; [apply discard_d|]. intros cs HR ->.
      eapply by_mono; [apply IH; now apply walk_distinct|]. intros cs' HR' [G1 G2].
      split; [apply Forall_app; split; [destruct (mem x l); repeat constructor|exact G1]|].
      intros y. rewrite walk_app, G2, mem_cons. destruct (mem x l) eqn:H; cbn [walk one fst snd].
      * rewrite mem_sdel by assumption. destruct (same y x), (mem y l); reflexivity.
      * destruct (same y x) eqn:Hs; [|reflexivity]. cbn. rewrite (mem_same same sym trans y x l Hs), H. reflexivity.
Qed.
Lemma each_ext : forall {A} (f g : A -> prog sdata) xs, (forall x, f x = g x) -> each f xs = each g xs.
Proof. intros A f g xs H; induction xs; cbn; [reflexivity|]. now rewrite H, IHxs. Qed.
Lemma discards_d : forall xs l, distinct l ->
  steps_by (each (es_discard same) xs) l (shrinks_by l (fun x => mem x xs)).
Proof.
  intros xs l Hl. eapply by_mono; [apply (discards_gen xs (fun _ => false) l Hl)|]. intros cs _ [G1 G2].
  split; [exact G1|]. intros x. rewrite G2. f_equal. f_equal. f_equal.
  clear. induction xs as [|y xs IH]; [reflexivity|]. cbn [filter negb]. f_equal. exact IH.
Qed.
Lemma toggles_d : forall xs l, distinct l -> distinct xs ->
  steps_by (each toggle1 xs) l (fun cs => map snd cs = xs /\ forall x, mem x (walk same l cs) = xorb (mem x l) (mem x xs)).
Proof.
  induction xs as [|x xs IH]; intros l Hl Hx; cbn [each].
  - apply by_nil. split; [reflexivity|]. intros x. cbn. now rewrite xorb_false_r.
  - destruct Hx as [Hx1 Hx2]. eapply by_seq; [apply toggle_d|]. intros cs HR ->.
    eapply by_mono; [apply IH; [now apply walk_distinct|exact Hx2]|]. intros cs' HR' [G1 G2].
    split; [cbn; now rewrite G1|]. intros y. rewrite walk_app, G2. cbn [walk]. rewrite mem_one by assumption.
    cbn [fst snd]. rewrite mem_cons. destruct (same y x) eqn:Hs; [|reflexivity]. cbn [orb].
    rewrite (mem_same same sym trans y x l Hs), (mem_same same sym trans y x xs Hs), Hx1. now destruct (mem x l).
Qed.
(** Adding elements that are there, iterating over the set itself. *)
Lemma live_add_d : forall xs l, (forall x, In x xs -> mem x l = true) ->
  steps_by (live sitems (List.length l) (es_add same) xs) l (fun cs => cs = []).
Proof.
  induction xs as [|x xs IH]; intros l H; cbn [live]; [now apply by_nil|].
  eapply by_seq; [apply add_d|]. intros cs HR ->. rewrite (H x (or_introl eq_refl)). cbn [walk List.app].
  apply by_look. unfold sitems at 1. rewrite Nat.eqb_refl. apply IH. intros y Hy. apply H. now right.
Qed.
Lemma order_nil : order [] = [].
Proof. apply Permutation_nil. symmetry. apply perm. Qed.
Definition arg_mem (l : list val) (a : arg) (x : val) : bool := match a with Items m => mem x m | Itself => mem x l end.
Lemma over_add_d : forall a l, distinct l ->
  steps_by (over order sitems a (es_add same)) l
    (fun cs => Forall (fun c => fst c = true) cs /\ forall x, mem x (walk same l cs) = mem x l || arg_mem l a x).
Proof.
  intros [m|] l Hl; cbn [over arg_mem]; [apply adds_d|]. apply by_look. change (sitems l) with l.
  eapply by_mono; [apply live_add_d|].
  - intros x Hx. apply mem_in; [exact refl|]. eapply Permutation_in; [apply perm|exact Hx].
  - intros cs _ ->. split; [constructor|]. intros x. cbn. now destruct (mem x l).
Qed.
Lemma update_d : forall s l, distinct l ->
  steps_by (bs_update same order sitems set_sitems (set_hooks same) s) l
    (fun cs => Forall (fun c => fst c = true) cs
       /\ forall x, mem x (walk same l cs) = mem x l || existsb (fun a => arg_mem l a x) s).
Proof.
  assert (Main : forall s l0 l, distinct l -> (forall x, mem x l0 = true -> mem x l = true) ->
    steps_by (each (fun a => over order sitems a (es_add same)) s) l
    (fun cs => Forall (fun c => fst c = true) cs
       /\ forall x, mem x (walk same l cs) = mem x l || existsb (fun a => arg_mem l0 a x) s)).
  { induction s as [|a s IH]; intros l0 l Hl Hsub; cbn [each].
    - apply by_nil. split; [constructor|]. intros x. cbn. now rewrite orb_false_r.
    - eapply by_seq; [now apply over_add_d|]. intros cs HR [G1 G2].
      eapply by_mono; [apply (IH l0); [now apply walk_distinct|intros x Hx; rewrite G2, (Hsub x Hx); reflexivity]|].
      intros cs' HR' [G1' G2']. split; [apply Forall_app; auto|]. intros x. rewrite walk_app, G2', G2.
      cbn [existsb]. rewrite <- orb_assoc. destruct (mem x l) eqn:Hx; [reflexivity|]. cbn [orb]. f_equal.
      destruct a; cbn [arg_mem]; [reflexivity|]. destruct (mem x l0) eqn:H0; [|exact Hx]. rewrite (Hsub x H0) in Hx. discriminate. }
  intros s l Hl. unfold bs_update. apply (Main s l l); auto.
Qed.
Definition not_itself (l : list val) (a : arg) : Prop := a = Itself -> l = [].
Lemma over_discard_d : forall a l, distinct l -> not_itself l a ->
  steps_by (over order sitems a (es_discard same)) l (shrinks_by l (arg_mem l a)).
Proof.
  intros [m|] l Hl Hn; cbn [over arg_mem]; [now apply discards_d|]. rewrite (Hn eq_refl).
  apply by_look. change (sitems []) with (@nil val). rewrite order_nil. cbn [live]. apply by_nil. split; [constructor|reflexivity].
Qed.
Lemma difference_d : forall s l, distinct l -> Forall (not_itself l) s ->
  steps_by (bs_difference_update same order sitems set_sitems (set_hooks same) s) l
    (shrinks_by l (fun x => existsb (fun a => arg_mem l a x) s)).
Proof.
  assert (Main : forall s l0 l, distinct l -> Forall (not_itself l0) s -> (forall x, mem x l = true -> mem x l0 = true) ->
    steps_by (each (fun a => over order sitems a (es_discard same)) s) l
      (shrinks_by l (fun x => existsb (fun a => arg_mem l0 a x) s))).
  { induction s as [|a s IH]; intros l0 l Hl Hn Hsub; cbn [each].
    - apply by_nil. split; [constructor|]. intros x. cbn. now rewrite andb_true_r.
    - inversion Hn as [|? ? Hn1 Hn2]; subst.
      assert (Hempty : l0 = [] -> l = []).
      { intros ->. destruct l as [|y l]; [reflexivity|]. specialize (Hsub y). rewrite mem_in in Hsub by (auto; now left).
        discriminate (Hsub eq_refl). }
      eapply by_seq; [apply over_discard_d; [exact Hl|intros Ha; apply Hempty; auto]|]. intros cs HR [G1 G2].
      eapply by_mono; [apply (IH l0); [now apply walk_distinct|exact Hn2|]|].
      { intros x. rewrite G2. intros K. apply andb_true_iff in K as [K _]. auto. }
      intros cs' HR' [G1' G2']. split; [apply Forall_app; auto|]. intros x. rewrite walk_app, G2', G2.
      cbn [existsb]. rewrite negb_orb, andb_assoc. f_equal. destruct (mem x l) eqn:Hx; [|reflexivity]. cbn [andb]. f_equal.
      destruct a; cbn [arg_mem]; [reflexivity|]. now rewrite Hx, (Hsub x Hx). }
  intros s l Hl Hn. unfold bs_difference_update. apply (Main s l l); auto.
Qed.
Lemma elems_arg : forall a l x, PySet.mem same x (elems sitems a l) = arg_mem l a x.
Proof. intros [m|] l x; reflexivity. Qed.
Lemma inter_eq : forall s l x, forallb (fun a => PySet.mem same x (elems sitems a l)) s = forallb (fun a => arg_mem l a x) s.
Proof. intros. induction s; cbn; [reflexivity|]. now rewrite elems_arg, IHs. Qed.
Lemma arg_mem_same : forall x y l a, same x y = true -> arg_mem l a x = arg_mem l a y.
Proof. intros x y l [m|] H; cbn; now apply mem_same. Qed.
Lemma mem_filter : forall (keep : val -> bool) xs x, (forall y, same x y = true -> keep x = keep y) ->
  mem x (filter keep xs) = mem x xs && keep x.
Proof.
  intros keep xs x Hk. induction xs as [|y xs IH]; [reflexivity|]. cbn [filter]. rewrite mem_cons.
  destruct (same x y) eqn:Hs; cbn [orb andb].
  - rewrite (Hk y Hs). destruct (keep y) eqn:K.
    + now rewrite mem_cons, Hs.
    + rewrite IH, (Hk y Hs), K. now rewrite andb_false_r.
  - destruct (keep y); [rewrite mem_cons, Hs|]; exact IH.
Qed.
Lemma intersection_d : forall s l, distinct l -> s <> [] ->
  steps_by (bs_intersection_update same order sitems set_sitems (set_hooks same) s) l
    (shrinks_by l (fun x => negb (forallb (fun a => arg_mem l a x) s))).
Proof.
  intros s l Hl Hs. unfold bs_intersection_update. destruct s as [|a0 s0]; [congruence|]. set (s := a0 :: s0).
  apply by_look. cbv zeta. change (sitems l) with l.
  eapply by_mono; [apply (discards_gen (order l) (fun i => forallb (fun a => PySet.mem same i (elems sitems a l)) s) l Hl)|].
  intros cs _ [G1 G2]. split; [exact G1|]. intros x. rewrite G2.
  rewrite mem_filter.
  - rewrite (mem_perm same x _ _ (perm l)), inter_eq. destruct (mem x l); reflexivity.
  - intros y Hy. rewrite !inter_eq. f_equal. clear - Hy sym trans. induction s as [|a s IH]; cbn; [reflexivity|].
    now rewrite IH, (arg_mem_same x y l a Hy).
Qed.
Lemma symmetric_d : forall a l, distinct l -> not_itself l a -> (forall m, a = Items m -> distinct m) ->
  steps_by (bs_symmetric_difference_update same order sitems set_sitems (set_hooks same) a) l
    (fun cs => distinct (map snd cs) /\ forall x, mem x (walk same l cs) = xorb (mem x l) (arg_mem l a x)).
Proof.
  intros [m|] l Hl Hn Hd; unfold bs_symmetric_difference_update; cbn [over arg_mem].
  - eapply by_mono; [apply (toggles_d m l Hl (Hd m eq_refl))|]. intros cs _ [<- G]. auto.
  - rewrite (Hn eq_refl). apply by_look. change (sitems []) with (@nil val). rewrite order_nil. cbn [live]. apply by_nil.
    split; [exact I|reflexivity].
Qed.
Lemma ixor_d : forall clr m l, distinct l ->
  steps_by (bs_ixor same order sitems set_sitems (set_hooks same) clr (Items m)) l
    (fun cs => distinct (map snd cs) /\ forall x, mem x (walk same l cs) = xorb (mem x l) (mem x m)).
Proof.
  intros clr m l Hl. cbn [bs_ixor]. destruct (dedup_ok same refl sym trans m) as [D1 D2].
  assert (HD : distinct (order (dedup same m))).
  { eapply distinct_perm; [exact sym|symmetry; apply perm|exact D1]. }
  eapply by_mono; [apply (toggles_d _ l Hl HD)|]. intros cs _ [G1 G2]. rewrite G1. split; [exact HD|].
  intros x. now rewrite G2, (mem_perm same x _ _ (perm (dedup same m))), D2.
Qed.
Lemma iand_d : forall a l, distinct l ->
  steps_by (bs_iand same order sitems set_sitems (set_hooks same) a) l (shrinks_by l (fun x => negb (arg_mem l a x))).
Proof.
  intros a l Hl. unfold bs_iand. apply by_look. change (sitems l) with l.
  eapply by_mono; [apply (discards_d _ l Hl)|]. intros cs _ [G1 G2]. split; [exact G1|]. intros x. rewrite G2.
  rewrite (mem_perm same x _ _ (perm _)), mem_filter.
  - rewrite (mem_perm same x _ _ (perm l)), elems_arg. destruct (mem x l); reflexivity.
  - intros y Hy. now rewrite !elems_arg, (arg_mem_same x y l a Hy).
Qed.
(** clear() tells everything at once. *)
Lemma clear_d : forall l,
  does (bs_clear order sitems set_sitems (set_hooks same)) l
    (fun u hs v => v = VNone /\ u = []
       /\ hs = match l with [] => [] | _ => [(items_changed, [VTuple []; VTuple (order l)], [])] end) never.
Proof.
  intros l. apply does_look. unfold set_hooks, pre_clear. cbn [bind]. apply does_look. destruct l as [|x l]; cbn [bind bails].
  - apply does_ret. auto.
  - eapply does_seq with (f1 := fun u hs _ => u = [] /\ hs = []); [apply does_act; cbn; auto|].
    intros u hs v [-> ->].
    eapply does_seq with (f1 := fun u hs _ => u = [] /\ hs = [(items_changed, [VTuple []; VTuple (order (x :: l))], [])]); [apply does_say; auto|].
    intros u hs v' [-> ->]. apply does_ret. auto.
Qed.
End D.
