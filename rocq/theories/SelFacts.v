(** Facts about Selection.  Proof infrastructure. *)

From Verif Require Import Base Core Spec Frame Fuel Client Prog Through PyList EList PySet ESet SpecSet SetFacts ESelect.
Open Scope nat_scope.

Section Sel.
Context {U : Type}.
Variable E : env U.
Variable C : sid -> bool.
Variable same : val -> val -> bool.
Hypothesis refl : forall x, same x x = true.
Hypothesis sym : forall x y, same x y = true -> same y x = true.
Hypothesis trans : forall x y z, same x y = true -> same y z = true -> same x z = true.
Variable sg_items sg_active sg_current : sid.
Hypothesis Ci : C sg_items = true.
Hypothesis Ca : C sg_active = true.
Hypothesis Cc : C sg_current = true.
Variable get : U -> sel.
Variable put : sel -> U -> U.
Variable allowed : U -> val -> bool.
Hypothesis get_put : forall s u, get (put s u) = s.
Hypothesis allowed_put : forall s u x, allowed (put s u) x = allowed u x.
Hypothesis allowed_same : forall u x y, same x y = true -> allowed u x = allowed u y.
Notation th := (through E C).
Notation raised := (listener_raised E C).
Notation items u := (sel_items (get u)).
Notation active u := (sel_active (get u)).
Notation id := (fun l : list val => l).
Notation pitems := (p_items get).
Notation psi := (p_set_items get put).
Notation SC := (set_current same sg_current get put).
Notation HK := (sel_hooks same sg_items get allowed).
Notation add := (sl_add same sg_items get put allowed).
Notation discard := (sl_discard same sg_items get put allowed).
Notation clear := (sl_clear same sg_items sg_current get put allowed).
Notation upd_with := (update_with sg_active get put).
Notation setact := (set_active same sg_items sg_active sg_current get put allowed).
Notation only := (sl_select_only same sg_items get put allowed).
Notation inter := (sl_intersection same sg_items get put allowed).

(** The selection is a set, all of whose elements are in the parent. *)
Definition base (u : U) : Prop := distinct same (items u) /\ forall x, In x (items u) -> allowed u x = true.
(** ... and active is its sole element, or None. *)
Definition good (u : U) : Prop :=
  base u /\ match items u with [x] => same x (active u) = true | _ => active u = VNone end.

Lemma base_put_items : forall u l, distinct same l -> (forall x, In x l -> allowed u x = true) -> base (psi l u).
Proof. intros u l Hd Ha. unfold base, p_set_items. rewrite get_put. cbn. split; auto. intros x Hx. rewrite allowed_put. auto. Qed.
Lemma base_active : forall u v, base u -> base (fst (p_set_active get put v u)).
Proof. intros u v [Hd Ha]. unfold base, p_set_active. cbn. rewrite get_put. cbn. split; auto. intros x Hx. rewrite allowed_put. auto. Qed.
Lemma base_current : forall u v, base u -> base (fst (p_set_current get put v u)).
Proof. intros u v [Hd Ha]. unfold base, p_set_current. cbn. rewrite get_put. cbn. split; auto. intros x Hx. rewrite allowed_put. auto. Qed.
Lemma good_current : forall u v, good u -> good (fst (p_set_current get put v u)).
Proof. intros u v [Hb Hg]. split; [now apply base_current|]. unfold p_set_current. cbn. rewrite get_put. cbn. exact Hg. Qed.
Lemma sdel_in : forall x y l, In y (sdel same x l) -> In y l.
Proof.
  intros x y l; induction l as [|z l IH]; cbn; [auto|]. destruct (same x z); [auto|]. intros [->|H]; auto.
Qed.
Lemma base_del : forall u x, base u -> base (psi (sdel same x (pitems u)) u).
Proof.
  intros u x [Hd Ha]. apply base_put_items; [apply distinct_sdel; auto|]. intros y Hy. apply Ha. eapply sdel_in; exact Hy.
Qed.
Lemma base_add : forall u x, base u -> allowed u x = true -> base (psi (sadd same x (pitems u)) u).
Proof.
  intros u x [Hd Ha] Hx. apply base_put_items; [apply distinct_sadd; auto|].
  intros y Hy. unfold sadd in Hy. destruct (mem same x (pitems u)); [now apply Ha|].
  apply in_app_or in Hy as [Hy|[->|[]]]; auto.
Qed.
Lemma base_nil : forall u, base (psi [] u).
Proof. intros u. apply base_put_items; [exact I|intros x []]. Qed.

(** Operations that change nothing but the selection keep [base], whatever happens. *)
Section Loops.
Variable I : U -> Prop.
Variable X : U -> exn -> Prop.
Definition keeps (p : prog U) : Prop := forall u, I u -> th p u I X.
Lemma keeps_ret : forall v, keeps (Ret v).
Proof. intros v u H. now apply th_ret. Qed.
Lemma keeps_seq : forall p q, keeps p -> keeps q -> keeps (p;; q).
Proof. intros p q Hp Hq u H. eapply th_seq; [now apply Hp|]. intros u' H'. now apply Hq. Qed.
Lemma keeps_each : forall {A} (f : A -> prog U) l, (forall x, keeps (f x)) -> keeps (each f l).
Proof. intros A f l Hf u H. apply th_each; [|exact H]. intros x u' _ H'. now apply Hf. Qed.
Lemma keeps_look : forall k, (forall u, keeps (k u)) -> keeps (Look k).
Proof. intros k Hk u H. apply th_look. now apply Hk. Qed.
Lemma keeps_throw : forall e, (forall u, I u -> X u e) -> keeps (Throw e).
Proof. intros e HX u H. apply th_throw. auto. Qed.

Hypothesis Xown : forall u e, I u -> e <> ERecursion -> X u e.
Hypothesis Xlisten : forall u e, I u \/ (exists e', X u e') -> raised e -> X u e.
Variable upd : prog U.
Hypothesis Hadd : forall x, keeps (add upd x).
Hypothesis Hdis : forall x, keeps (discard upd x).
Hypothesis Hclr : keeps (bs_clear id pitems psi (HK upd)).
Hypothesis Hcur : forall v, keeps (SC v).
Lemma keeps_bulk : forall p, keeps p -> keeps (bulk sg_items p).
Proof.
  intros p Hp u H. unfold bulk. apply th_paused; [apply set_reduces_ok|now apply Hp|]. intros u' e Hu He. apply Xlisten; auto.
Qed.
Lemma keeps_live : forall n f l, (forall x, keeps (f x)) -> keeps (live pitems n f l).
Proof.
  intros n f l Hf; induction l as [|x l IH]; cbn [live]; [apply keeps_ret|].
  apply keeps_seq; [apply Hf|]. apply keeps_look. intros u. destruct (Nat.eqb _ _); [exact IH|].
  apply keeps_throw. intros u' H. apply Xown; [exact H|discriminate].
Qed.
Lemma keeps_over : forall a f, (forall x, keeps (f x)) -> keeps (over id pitems a f).
Proof.
  intros [l|] f Hf; cbn [over]; [now apply keeps_each|]. apply keeps_look. intros u. now apply keeps_live.
Qed.
Lemma keeps_toggle : forall x, keeps (toggle_item same pitems psi (HK upd) x).
Proof. intros x. apply keeps_look. intros u. destruct (mem _ _ _); [apply Hdis|apply Hadd]. Qed.
Lemma keeps_clear : forall k, keeps (clear upd k).
Proof. intros k. apply keeps_seq; [destruct k; [apply keeps_ret|apply Hcur]|]. apply keeps_bulk, Hclr. Qed.
Lemma keeps_inter : forall s, keeps (inter upd s).
Proof.
  intros s. apply keeps_bulk. unfold bs_intersection_update. destruct s.
  - apply keeps_throw. intros u H. apply Xown; [exact H|discriminate].
  - apply keeps_look. intros u. cbv zeta. apply keeps_each. intros x. destruct (forallb _ _); [apply keeps_ret|apply Hdis].
Qed.
Lemma keeps_update : forall s, keeps (sl_update same sg_items get put allowed upd s).
Proof. intros s. apply keeps_bulk. unfold bs_update. apply keeps_each. intros a. apply keeps_over, Hadd. Qed.
Lemma keeps_symmetric : forall a, keeps (sl_symmetric same sg_items get put allowed upd a).
Proof. intros a. apply keeps_bulk. apply keeps_over, keeps_toggle. Qed.
Lemma keeps_only : forall x, keeps (only upd x).
Proof. intros x. apply keeps_seq; [apply keeps_inter|apply Hadd]. Qed.
End Loops.

Notation update := (update_active same sg_items sg_active sg_current get put allowed).
Notation sdo := (sel_do same sg_items sg_active sg_current get put allowed).
Lemma keeps_do : forall (I : U -> Prop) (X : U -> exn -> Prop) o,
  (forall u e, I u -> e <> ERecursion -> X u e) ->
  (forall u e, I u \/ (exists e', X u e') -> raised e -> X u e) ->
  (forall x, keeps I X (add update x)) -> (forall x, keeps I X (discard update x)) ->
  keeps I X (bs_clear id pitems psi (HK update)) -> (forall v, keeps I X (SC v)) ->
  (forall v, o <> LActive v) -> keeps I X (sdo o).
Proof.
  intros I X o HX HL Ha Hd Hc Hk Ho.
  destruct o as [o| |x|x|v|v|vs]; cbn [sel_do].
  - destruct o; cbn [sel_set]; auto.
    + apply keeps_look. intros u. destruct (mem _ _ _); [apply Hd|]. apply keeps_throw. intros; apply HX; [auto|discriminate].
    + apply keeps_look. intros u. destruct (pitems u); [apply keeps_throw; intros; apply HX; [auto|discriminate]|].
      apply keeps_seq; [apply Hd|apply keeps_ret].
    + now apply keeps_clear.
    + now apply keeps_update.
    + apply keeps_bulk; [exact HL|]. unfold bs_difference_update. apply keeps_each. intros a. apply keeps_over; auto.
    + now apply keeps_inter.
    + now apply keeps_symmetric.
    + apply keeps_over; auto.
    + apply keeps_look. intros u. apply keeps_each, Hd.
    + destruct a; cbn [bs_isub]; [apply keeps_each, Hd|now apply keeps_clear].
    + destruct a; cbn [bs_ixor]; [apply keeps_each; intros y; apply keeps_toggle; auto|now apply keeps_clear].
  - now apply keeps_clear.
  - now apply keeps_symmetric.
  - now apply keeps_only.
  - now destruct (Ho v).
  - apply Hk.
  - apply keeps_seq; [now apply keeps_inter|now apply keeps_update].
Qed.

(** *** [base], whatever happens *)
Notation bk := (keeps base (fun u _ => base u)).
Lemma base_cur : forall v, bk (SC v).
Proof.
  intros v u H. apply th_look. destruct (same _ _); [now apply th_ret|].
  eapply th_seq with (Q1 := base); [apply th_act; cbn; now apply (base_current u v)|].
  intros u1 H1. eapply th_seq; [apply th_say; [exact H1|auto]|]. intros u2 H2. now apply th_ret.
Qed.
Lemma base_emit : forall upd a r, bk upd -> bk (emit_change (HK upd) a r).
Proof. intros upd a r Hu u H. eapply th_seq; [apply th_say; [exact H|auto]|]. intros u1 H1. now apply Hu. Qed.
Lemma base_add_k : forall upd x, bk upd -> bk (add upd x).
Proof.
  intros upd x Hu u H. unfold sl_add, bs_add. cbn [pre_add sel_hooks bind]. apply th_look.
  destruct (allowed u x) eqn:Ex; [|now apply th_throw]. cbn [bind]. destruct (mem same x (pitems u)); cbn [bails]; [now apply th_ret|].
  eapply th_seq with (Q1 := base); [apply th_act; cbn; now apply base_add|].
  intros u1 H1. eapply th_seq; [apply (base_emit upd); auto|]. intros u2 H2. now apply th_ret.
Qed.
Lemma base_discard_k : forall upd x, bk upd -> bk (discard upd x).
Proof.
  intros upd x Hu u H. unfold sl_discard, bs_discard. cbn [pre_discard sel_hooks bind]. apply th_look.
  cbn [bind]. destruct (negb (mem same x (pitems u))); cbn [bails]; [now apply th_ret|].
  eapply th_seq with (Q1 := base); [apply th_act; cbn; now apply base_del|].
  intros u1 H1. eapply th_seq; [apply (base_emit upd); auto|]. intros u2 H2. now apply th_ret.
Qed.
Lemma base_clear_k : forall upd, bk upd -> bk (bs_clear id pitems psi (HK upd)).
Proof.
  intros upd Hu u H. unfold bs_clear. apply th_look. cbn [pre_clear sel_hooks bind]. apply th_look. cbn [bind].
  assert (HH : th (act (modify pitems psi (fun _ => []));; emit_change (HK upd) [] (pitems u);; Ret VNone) u base (fun u _ => base u)).
  { eapply th_seq with (Q1 := base); [apply th_act; cbn; apply base_nil|].
    intros u1 H1. eapply th_seq; [apply (base_emit upd); auto|]. intros u2 H2. now apply th_ret. }
  destruct (pitems u); cbn [bails]; [now apply th_ret|exact HH].
Qed.
Lemma base_upd : forall setter, (forall v, bk (setter v)) -> bk (upd_with setter).
Proof.
  intros setter Hs u H. apply th_look.
  assert (HN : th (if is_none (active u) then Ret VNone else act (p_set_active get put VNone);; say sg_active [VNone];; Ret VNone) u base (fun u _ => base u)).
  { destruct (is_none _); [now apply th_ret|].
    eapply th_seq with (Q1 := base); [apply th_act; cbn; now apply (base_active u VNone)|].
    intros u1 H1. eapply th_seq; [apply th_say; [exact H1|auto]|]. intros u2 H2. now apply th_ret. }
  destruct (p_items get u) as [|x [|y l]]; auto. now apply Hs.
Qed.
Lemma base_set_active : forall n v, bk (setact n v).
Proof.
  induction n as [|n IH]; intros v u H; cbn [set_active]; [now apply th_throw|]. apply th_look.
  assert (HU : bk (upd_with (setact n))) by (apply base_upd; exact IH).
  destruct (same _ _); [now apply th_ret|].
  eapply th_seq with (Q1 := base); [apply th_act; cbn; now apply (base_active u v)|].
  intros u1 H1. eapply th_seq with (Q1 := base).
  - destruct (is_none v).
    + apply keeps_clear; auto; [cbn; intros u2 e [Hu|(_ & Hu)] _; auto|now apply base_clear_k|apply base_cur].
    + apply keeps_only; auto; [cbn; intros u2 e [Hu|(_ & Hu)] _; auto|intros; now apply base_add_k|intros; now apply base_discard_k].
  - intros u2 H2. eapply th_seq; [now apply base_cur|]. intros u3 H3.
    eapply th_seq; [apply th_say; [exact H3|auto]|]. intros u4 H4. now apply th_ret.
Qed.
Theorem base_do : forall o, bk (sdo o).
Proof.
  intros o. destruct o as [o| |x|x|v|v|vs]; [| | | |apply (base_set_active (S DEPTH) v)| |];
  (assert (HU : bk update) by (apply base_upd; apply base_set_active);
   apply keeps_do; try discriminate; auto;
   [cbn; intros u2 e [Hu|(_ & Hu)] _; auto|intros; now apply base_add_k|intros; now apply base_discard_k|now apply base_clear_k|apply base_cur]).
Qed.

(** *** [good], unless a listener raises *)
Definition fine (u : U) (e : exn) : Prop := (good u /\ e <> ERecursion) \/ raised e.
Notation gk := (keeps good fine).
Lemma fine_listen : forall u e, good u \/ (exists e', fine u e') -> raised e -> fine u e.
Proof. intros u e _ H. now right. Qed.
Lemma fine_own : forall u e, good u -> e <> ERecursion -> fine u e.
Proof. intros u e H He. now left. Qed.
Lemma keep_cur : forall (P : U -> Prop) v, (forall u v, P u -> P (fst (p_set_current get put v u))) -> keeps P fine (SC v).
Proof.
  intros P v HP u H. apply th_look. destruct (same _ _); [now apply th_ret|].
  eapply th_seq with (Q1 := P); [apply th_act; cbn; now apply (HP u v)|].
  intros u1 H1. eapply th_seq; [apply th_say; [exact H1|intros e He; right; auto]|]. intros u2 H2. now apply th_ret.
Qed.
Lemma good_cur : forall v, gk (SC v).
Proof. intros v. apply keep_cur. intros; now apply good_current. Qed.
Lemma good_say : forall s a u, C s = true -> good u -> th (say s a;; Ret VNone) u good fine.
Proof.
  intros s a u Hs H. eapply th_seq; [apply th_say; [exact H|intros e He; right; auto]|]. intros u2 H2. now apply th_ret.
Qed.
Lemma mem_one : forall x, mem same x [x] = true.
Proof. intros x. unfold mem. cbn. now rewrite refl. Qed.
(** _update_active makes active right. *)
Lemma upd_good : forall n u, base u -> th (upd_with (setact (S n))) u good fine.
Proof.
  intros n u Hb. apply th_look.
  assert (HN : (match items u with [_] => False | _ => True end) ->
    th (if is_none (active u) then Ret VNone else act (p_set_active get put VNone);; say sg_active [VNone];; Ret VNone) u good fine).
  { intros Hi. destruct (is_none (active u)) eqn:Ea.
    - apply th_ret. split; [exact Hb|]. destruct (active u); try discriminate. destruct (items u) as [|x [|y l]]; tauto.
    - eapply th_seq with (Q1 := good); [|intros u1 H1; now apply good_say]. apply th_act; cbn.
      split; [now apply (base_active u VNone)|]. rewrite get_put; cbn. destruct (items u) as [|x [|y l]]; tauto. }
  unfold p_items at 1. destruct (items u) as [|x [|y l]] eqn:Ei; try (apply HN; exact I). clear HN.
  cbn [set_active]. apply th_look. destruct (same x (active u)) eqn:Es.
  { apply th_ret. split; [exact Hb|]. now rewrite Ei. }
  set (u1 := fst (p_set_active get put x u)).
  assert (G1 : get u1 = Sel [x] x (sel_current (get u))) by (unfold u1, p_set_active; cbn; now rewrite get_put, Ei).
  assert (B1 : base u1) by now apply base_active.
  eapply th_seq with (Q1 := fun u' => u' = u1); [now apply th_act|]. intros ? ->.
  assert (HG : good u1) by (split; [exact B1|]; rewrite G1; cbn; apply refl).
  eapply th_seq with (Q1 := good).
  - destruct (is_none x) eqn:En.
    + destruct x; try discriminate. unfold sl_clear. eapply th_seq with (Q1 := fun u' => sel_items (get u') = [VNone] /\ active u' = VNone).
      { apply keep_cur; [|rewrite G1; auto]. intros u2 v [H2 H3]. unfold p_set_current. cbn. rewrite get_put. cbn. auto. }
      intros u2 [H2 H2a]. unfold bulk. apply th_paused; [apply set_reduces_ok| |intros u3 e _ He; right; auto].
      unfold bs_clear. apply th_look. cbn [pre_clear sel_hooks bind]. apply th_look. cbn [bind].
      unfold p_items at 1. rewrite H2. cbn [bails].
      eapply th_seq with (Q1 := fun u' => items u' = [] /\ active u' = VNone); [apply th_act; cbn|].
      { unfold p_set_items. rewrite get_put. cbn. auto. }
      intros u3 [H3 H3a]. cbn [emit_change sel_hooks]. eapply th_seq with (Q1 := good); [|intros; now apply th_ret].
      eapply th_seq with (Q1 := fun u' => u' = u3); [apply th_say; [reflexivity|intros e He; right; auto]|]. intros ? ->.
      apply th_look. unfold p_items. rewrite H3, H3a. cbn. apply th_ret.
      split; [|now rewrite H3]. unfold base. rewrite H3. split; [exact I|intros z []].
    + unfold sl_select_only. eapply th_seq with (Q1 := fun u' => u' = u1).
      * unfold sl_intersection, bulk. apply th_paused; [apply set_reduces_ok| |intros u3 e _ He; right; auto].
        unfold bs_intersection_update. apply th_look. cbv zeta. unfold p_items. rewrite G1. cbn [sel_items each].
        cbn [forallb elems]. rewrite mem_one. cbn [andb].
        eapply th_seq with (Q1 := fun u' => u' = u1); [now apply th_ret|]. intros u2 ->. now apply th_ret.
      * intros ? ->. unfold sl_add, bs_add. cbn [pre_add sel_hooks bind]. apply th_look.
        destruct B1 as [_ Ha]. rewrite Ha by (rewrite G1; now left). cbn [bind]. unfold p_items. rewrite G1. cbn [sel_items].
        rewrite mem_one. cbn [bails]. now apply th_ret.
  - intros u2 H2. eapply th_seq; [now apply good_cur|]. intros u3 H3. now apply good_say.
Qed.
Section Upd.
Variable n : nat.
Notation upd := (upd_with (setact (S n))).
Lemma emit_good : forall a r u, base u -> th (emit_change (HK upd) a r;; Ret VNone) u good fine.
Proof.
  intros a r u H. cbn [emit_change sel_hooks]. eapply th_seq with (Q1 := good); [|intros; now apply th_ret].
  eapply th_seq with (Q1 := base); [apply th_say; [exact H|intros e He; right; auto]|]. intros u1 H1. now apply upd_good.
Qed.
Lemma add_base : forall x u, base u -> allowed u x = true -> mem same x (items u) = false -> th (add upd x) u good fine.
Proof.
  intros x u H Hx Hm. unfold sl_add, bs_add. cbn [pre_add sel_hooks bind]. apply th_look. rewrite Hx. cbn [bind].
  unfold p_items at 1. rewrite Hm. cbn [bails].
  eapply th_seq with (Q1 := base); [apply th_act; cbn; now apply base_add|]. intros u1 H1. now apply emit_good.
Qed.
Lemma add_good : forall x, gk (add upd x).
Proof.
  intros x u H. destruct (allowed u x) eqn:Ex.
  - destruct (mem same x (items u)) eqn:Em; [|apply add_base; auto; apply H].
    unfold sl_add, bs_add. cbn [pre_add sel_hooks bind]. apply th_look. rewrite Ex. cbn [bind]. unfold p_items at 1. rewrite Em.
    now apply th_ret.
  - unfold sl_add, bs_add. cbn [pre_add sel_hooks bind]. apply th_look. rewrite Ex. cbn [bind]. apply th_throw. left. split; [exact H|discriminate].
Qed.
Lemma discard_base : forall x u, base u -> mem same x (items u) = true -> th (discard upd x) u good fine.
Proof.
  intros x u H Hm. unfold sl_discard, bs_discard. cbn [pre_discard sel_hooks bind]. apply th_look. cbn [bind].
  unfold p_items at 1. rewrite Hm. cbn [negb bails].
  eapply th_seq with (Q1 := base); [apply th_act; cbn; now apply base_del|]. intros u1 H1. now apply emit_good.
Qed.
Lemma discard_good : forall x, gk (discard upd x).
Proof.
  intros x u H. destruct (mem same x (items u)) eqn:Em; [apply discard_base; auto; apply H|].
  unfold sl_discard, bs_discard. cbn [pre_discard sel_hooks bind]. apply th_look. cbn [bind]. unfold p_items at 1. rewrite Em. now apply th_ret.
Qed.
Lemma clear_base : forall u, base u -> th (bs_clear id pitems psi (HK upd)) u (fun u' => good u' \/ (u' = u /\ items u = [])) fine.
Proof.
  intros u H. unfold bs_clear. apply th_look. cbn [pre_clear sel_hooks bind]. apply th_look. cbn [bind].
  assert (HH : th (act (modify pitems psi (fun _ => []));; emit_change (HK upd) [] (pitems u);; Ret VNone) u good fine).
  { eapply th_seq with (Q1 := base); [apply th_act; cbn; apply base_nil|]. intros u1 H1. now apply emit_good. }
  destruct (pitems u) eqn:Ep; cbn [bails]; [apply th_ret; auto|]. eapply th_mono; [exact HH|auto|auto].
Qed.
Lemma clear_good : gk (bs_clear id pitems psi (HK upd)).
Proof. intros u H. eapply th_mono; [apply clear_base, H| |auto]. intros u' [H'|[-> _]]; auto. Qed.
End Upd.
Lemma distinct_all_same : forall v l, distinct same l -> (forall x, In x l -> same x v = true) -> l = [] \/ exists y, l = [y] /\ same y v = true.
Proof.
  intros v [|y [|z l]] Hd Hs; [auto|right; exists y; split; auto; apply Hs; now left|].
  exfalso. destruct Hd as [Hd _]. unfold mem in Hd. cbn [existsb] in Hd. rewrite (trans y v z) in Hd; [discriminate|apply Hs; now left|apply sym, Hs; right; now left].
Qed.
(** active = v, unless the selection is empty and v is not in the parent *)
Lemma set_active_good : forall n v u, good u -> (items u = [] -> v = VNone \/ allowed u v = true) ->
  th (setact (S (S n)) v) u good fine.
Proof.
  intros n v u Hg Hv. cbn [set_active]. apply th_look. destruct (same v (active u)) eqn:Es; [now apply th_ret|].
  set (upd := upd_with (setact (S n))).
  set (u1 := fst (p_set_active get put v u)).
  assert (G1 : get u1 = Sel (items u) v (sel_current (get u))) by (unfold u1, p_set_active; cbn; now rewrite get_put).
  assert (B1 : base u1) by now apply base_active, Hg.
  eapply th_seq with (Q1 := fun u' => u' = u1); [now apply th_act|]. intros ? ->.
  eapply th_seq with (Q1 := good).
  2:{ intros u2 H2. eapply th_seq; [now apply good_cur|]. intros u3 H3. now apply good_say. }
  destruct (is_none v) eqn:En.
  - destruct v; try discriminate. unfold sl_clear.
    eapply th_seq with (Q1 := fun u' => base u' /\ active u' = VNone).
    { apply keep_cur; [|rewrite G1; auto]. intros u2 v [H2 H3]. split; [now apply base_current|].
      unfold p_set_current. cbn. rewrite get_put. cbn. auto. }
    intros u2 [H2 H2a]. unfold bulk. apply th_paused; [apply set_reduces_ok| |intros u3 e _ He; right; auto].
    eapply th_mono; [now apply clear_base| |auto]. intros u' [H'|[-> Hi]]; [exact H'|]. split; [exact H2|]. now rewrite Hi.
  - unfold sl_select_only. eapply th_seq with (Q1 := fun u' => good u' \/ u' = u1 /\ forall x, In x (items u) -> same x v = true).
    + unfold sl_intersection, bulk. apply th_paused; [apply set_reduces_ok| |intros u3 e _ He; right; auto].
      unfold bs_intersection_update. apply th_look. cbv zeta.
      set (body := fun i => if forallb (fun a => mem same i (elems pitems a u1)) [Items [v]] then Ret VNone
                            else bs_discard same pitems psi (HK upd) i).
      assert (HG : forall x, gk (body x)).
      { intros x u' Hu'. unfold body. destruct (forallb _ _); [now apply th_ret|now apply (discard_good n)]. }
      assert (HL : forall l, (forall x, In x l -> In x (items u)) ->
        th (each body l) u1 (fun u' => good u' \/ u' = u1 /\ forall x, In x l -> same x v = true) fine).
      { induction l as [|x l IH]; intros Hl; cbn [each].
        { apply th_ret. right; split; [auto|intros x []]. }
        unfold body at 1. cbn [forallb elems]. rewrite andb_true_r. unfold mem at 1. cbn [existsb]. rewrite orb_false_r.
        destruct (same x v) eqn:Ex.
        - eapply th_seq with (Q1 := fun u' => u' = u1); [now apply th_ret|]. intros ? ->.
          eapply th_mono; [apply IH; intros; apply Hl; now right| |auto].
          intros u2 [H2|[H2 H3]]; [now left|right; split; [exact H2|]]. intros y [<-|Hy]; auto.
        - eapply th_seq with (Q1 := good).
          + apply (discard_base n); [exact B1|]. rewrite G1. cbn. apply mem_in; [exact refl|]. apply Hl. now left.
          + intros u2 H2. eapply th_mono; [apply (keeps_each good fine body l HG u2 H2)| |auto]. auto. }
      assert (HI : pitems u1 = items u) by (unfold p_items; now rewrite G1). rewrite HI. apply HL. auto.
    + intros u2 [H2|[-> Hs]]; [now apply (add_good n)|].
      destruct (distinct_all_same v (items u)) as [Hi|(y & Hi & Hy)]; [apply Hg|exact Hs| |].
      * destruct (Hv Hi) as [->|Hva]; [discriminate|]. apply (add_base n); [exact B1| |rewrite G1, Hi; reflexivity].
        unfold u1, p_set_active. cbn. now rewrite allowed_put.
      * assert (Hall : allowed u1 v = true).
        { destruct B1 as [_ Ha]. rewrite <- (allowed_same u1 y v Hy). apply Ha. rewrite G1, Hi. now left. }
        unfold sl_add, bs_add. cbn [pre_add sel_hooks bind]. apply th_look. rewrite Hall. cbn [bind]. unfold p_items at 1. rewrite G1, Hi.
        unfold mem. cbn [sel_items existsb]. rewrite (sym y v Hy). cbn [orb bails]. apply th_ret.
        split; [exact B1|]. rewrite G1, Hi. exact Hy.
Qed.
Theorem good_do : forall o u, good u -> (forall v, o = LActive v -> items u = [] -> v = VNone \/ allowed u v = true) ->
  th (sdo o) u good fine.
Proof.
  intros o u Hg Ho. destruct o as [o| |x|x|v|v|vs]; [| | | |apply (set_active_good 1); [exact Hg|now apply Ho]| |];
  (apply keeps_do; try discriminate; auto;
   [apply fine_own|apply fine_listen|apply (add_good 1)|apply (discard_good 1)|apply (clear_good 1)|apply good_cur]).
Qed.
End Sel.
