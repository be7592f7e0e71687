(** What a Selection announces.  Proof infrastructure. *)

From Verif Require Import Base Core Spec Frame Fuel Client Prog Through PyList EList PySet ESet SpecSet SetFacts ESelect SpecSelect SelFacts.
Open Scope nat_scope.

Section Tell.
Context {U : Type}.
Variable E : env U.
Variable C : sid -> bool.
Notation raised := (listener_raised E C).
Notation hist := (list (sid * list val * U)).
(** As [through], with what has been emitted so far. *)
Definition tells (p : prog U) (u : U) (h : hist) (Q : U -> hist -> Prop) (X : U -> hist -> exn -> Prop) : Prop :=
  wp E C p u h (fun u h r => match r with Ok _ => Q u h | Err e => X u h e | Halted => True end).
Lemma tl_mono : forall p u h (Q Q' : U -> hist -> Prop) (X X' : U -> hist -> exn -> Prop), tells p u h Q X ->
  (forall u h, Q u h -> Q' u h) -> (forall u h e, X u h e -> X' u h e) -> tells p u h Q' X'.
Proof. intros p u h Q Q' X X' H HQ HX. eapply wp_mono; [|apply H]. intros u' h' [v|e|]; auto. Qed.
Lemma tl_ret : forall v u h (Q : U -> hist -> Prop) (X : U -> hist -> exn -> Prop), Q u h -> tells (Ret v) u h Q X.
Proof. intros v u h Q X H. exact H. Qed.
Lemma tl_throw : forall e u h (Q : U -> hist -> Prop) (X : U -> hist -> exn -> Prop), X u h e -> tells (Throw e) u h Q X.
Proof. intros e u h Q X H. exact H. Qed.
Lemma tl_look : forall k u h (Q : U -> hist -> Prop) (X : U -> hist -> exn -> Prop), tells (k u) u h Q X -> tells (Look k) u h Q X.
Proof. intros k u h Q X H. apply H. Qed.
Lemma tl_seq : forall p q u h (Q1 Q : U -> hist -> Prop) (X : U -> hist -> exn -> Prop), tells p u h Q1 X ->
  (forall u h, Q1 u h -> tells q u h Q X) -> tells (p;; q) u h Q X.
Proof.
  intros p q u h Q1 Q X Hp Hq. unfold seq. apply wp_bind. eapply wp_mono; [|apply Hp].
  intros u' h' [v|e|] HH; auto. now apply Hq.
Qed.
Lemma tl_say : forall s a u h (Q : U -> hist -> Prop) (X : U -> hist -> exn -> Prop), C s = true ->
  Q u (h ++ [(s, a, u)]) -> (forall e, raised e -> X u (h ++ [(s, a, u)]) e) -> tells (say s a) u h Q X.
Proof. intros s a u h Q X Hs HQ HX. unfold tells, say, call. cbn. rewrite Hs. auto. Qed.
Lemma tl_act : forall f u h (Q : U -> hist -> Prop) (X : U -> hist -> exn -> Prop),
  match f u with (u', inl v) => Q u' h | (u', inr e) => X u' h e end -> tells (act f) u h Q X.
Proof. intros f u h Q X HQ. unfold tells, act, call. cbn. destruct (f u) as [u' [v|e]]; exact HQ. Qed.
Lemma tl_paused : forall s rd p u h (Q : U -> hist -> Prop) (X : U -> hist -> exn -> Prop), C s = true -> reduces_ok rd -> tells p u h Q X ->
  (forall u h e, raised e -> X u h e) -> tells (with_paused s rd p) u h Q X.
Proof.
  intros s rd p u h Q X Hs Hrd H HX. unfold tells, with_paused, try_finally, call. cbn [bind wp]. intros b. cbn [finish bind].
  apply wp_catch. eapply wp_mono; [|apply H]. intros u' h' [v|e|] HH; auto; destruct b; cbn; auto.
Qed.
Lemma wp_and : forall p u h (Q R : U -> list (sid * list val * U) -> out -> Prop), wp E C p u h Q -> wp E C p u h R -> wp E C p u h (fun u h r => Q u h r /\ R u h r).
Proof.
  intros p; induction p as [v|e| |k IH|o k IH]; intros u h Q R H1 H2; cbn in *; auto.
  destruct o; try contradiction; auto; try (destruct H1 as [H1 H1'], H2 as [H2 H2']; split; intros; auto); intros; auto.
Qed.
Lemma tl_and : forall p u h (Q Q' : U -> hist -> Prop) (X X' : U -> hist -> exn -> Prop), tells p u h Q X -> tells p u h Q' X' ->
  tells p u h (fun u h => Q u h /\ Q' u h) (fun u h e => X u h e /\ X' u h e).
Proof.
  intros p u h Q Q' X X' H H'. eapply wp_mono; [|exact (wp_and _ _ _ _ _ H H')]. intros u' h' [v|e|]; tauto.
Qed.
Lemma tl_through : forall p u h (Q : U -> Prop) (X : U -> exn -> Prop), through E C p u Q X -> tells p u h (fun u _ => Q u) (fun u _ e => X u e).
Proof. intros p u h Q X H. apply H. Qed.
Lemma tl_sound : forall p w w' r Q X, env_all (aloof C) E -> tells p (w_usr w) [] Q X ->
  runs E p w w' r -> done r -> exists tr, w_tr w' = w_tr w ++ tr
  /\ match r with Ok _ => Q (w_usr w') (heard C tr) | Err e => X (w_usr w') (heard C tr) e | Halted => False end.
Proof.
  intros p w w' r Q X HE H HR Hr. destruct (wp_sound E C HE p w w' r HR Hr [] _ H) as (t & Ht & HQ).
  exists t. split; [exact Ht|]. cbn in HQ. destruct r; auto.
Qed.
End Tell.

Section Sel.
Context {U : Type}.
Variable E : env U.
Variable C : sid -> bool.
Variable same : val -> val -> bool.
Hypothesis refl : forall x, same x x = true.
Hypothesis sym : forall x y, same x y = true -> same y x = true.
Hypothesis trans : forall x y z, same x y = true -> same y z = true -> same x z = true.
Variable sg_items sg_active sg_current : sid.
Hypothesis Ci : C sg_items = true.
Hypothesis Ca : C sg_active = true.
Hypothesis Cc : C sg_current = true.
Hypothesis Nia : sg_items <> sg_active.
Hypothesis Nic : sg_items <> sg_current.
Hypothesis Nac : sg_active <> sg_current.
Variable get : U -> sel.
Variable put : sel -> U -> U.
Variable allowed : U -> val -> bool.
Hypothesis get_put : forall s u, get (put s u) = s.
Hypothesis allowed_put : forall s u x, allowed (put s u) x = allowed u x.
Hypothesis allowed_same : forall u x y, same x y = true -> allowed u x = allowed u y.
Notation tl := (tells E C).
Notation hist := (list (sid * list val * U)).
Notation raised := (listener_raised E C).
Notation items u := (sel_items (get u)).
Notation active u := (sel_active (get u)).
Notation current u := (sel_current (get u)).
Notation id := (fun l : list val => l).
Notation pitems := (p_items get).
Notation psi := (p_set_items get put).
Notation SC := (set_current same sg_current get put).
Notation HK := (sel_hooks same sg_items get allowed).
Notation add := (sl_add same sg_items get put allowed).
Notation discard := (sl_discard same sg_items get put allowed).
Notation clear := (sl_clear same sg_items sg_current get put allowed).
Notation upd_with := (update_with sg_active get put).
Notation setact := (set_active same sg_items sg_active sg_current get put allowed).
Notation only := (sl_select_only same sg_items get put allowed).
Notation inter := (sl_intersection same sg_items get put allowed).
Notation base := (base same get allowed).
Notation good := (good same get allowed).

(** *** Loops *)
Section Loops.
Variable I : U -> hist -> Prop.
Variable X : U -> hist -> exn -> Prop.
Definition hkeeps (p : prog U) : Prop := forall u h, I u h -> tl p u h I X.
Lemma hk_ret : forall v, hkeeps (Ret v).
Proof. intros v u h H. now apply tl_ret. Qed.
Lemma hk_seq : forall p q, hkeeps p -> hkeeps q -> hkeeps (p;; q).
Proof. intros p q Hp Hq u h H. eapply tl_seq; [now apply Hp|]. intros u' h' H'. now apply Hq. Qed.
Lemma hk_each : forall {A} (f : A -> prog U) l, (forall x, hkeeps (f x)) -> hkeeps (each f l).
Proof. intros A f l Hf. induction l as [|x l IH]; cbn [each]; [apply hk_ret|]. now apply hk_seq. Qed.
Lemma hk_look : forall k, (forall u, hkeeps (k u)) -> hkeeps (Look k).
Proof. intros k Hk u h H. apply tl_look. now apply Hk. Qed.
Hypothesis Xown : forall u h e, I u h -> X u h e.
Hypothesis Xlisten : forall u h e, raised e -> X u h e.
Lemma hk_throw : forall e, hkeeps (Throw e).
Proof. intros e u h H. apply tl_throw. auto. Qed.
Variable upd : prog U.
Hypothesis Hadd : forall x, hkeeps (add upd x).
Hypothesis Hdis : forall x, hkeeps (discard upd x).
Hypothesis Hclr : hkeeps (bs_clear id pitems psi (HK upd)).
Hypothesis Hcur : forall v, hkeeps (SC v).
Lemma hk_bulk : forall p, hkeeps p -> hkeeps (bulk sg_items p).
Proof. intros p Hp u h H. unfold bulk. apply tl_paused; [exact Ci|apply set_reduces_ok|now apply Hp|]. intros u' h' e He. auto. Qed.
Lemma hk_live : forall n f l, (forall x, hkeeps (f x)) -> hkeeps (live pitems n f l).
Proof.
  intros n f l Hf; induction l as [|x l IH]; cbn [live]; [apply hk_ret|].
  apply hk_seq; [apply Hf|]. apply hk_look. intros u. destruct (Nat.eqb _ _); [exact IH|apply hk_throw].
Qed.
Lemma hk_over : forall a f, (forall x, hkeeps (f x)) -> hkeeps (over id pitems a f).
Proof. intros [l|] f Hf; cbn [over]; [now apply hk_each|]. apply hk_look. intros u. now apply hk_live. Qed.
Lemma hk_toggle : forall x, hkeeps (toggle_item same pitems psi (HK upd) x).
Proof. intros x. apply hk_look. intros u. destruct (mem _ _ _); [apply Hdis|apply Hadd]. Qed.
Lemma hk_clear : forall k, hkeeps (clear upd k).
Proof. intros k. apply hk_seq; [destruct k; [apply hk_ret|apply Hcur]|]. apply hk_bulk, Hclr. Qed.
Lemma hk_inter : forall s, hkeeps (inter upd s).
Proof.
  intros s. apply hk_bulk. unfold bs_intersection_update. destruct s; [apply hk_throw|].
  apply hk_look. intros u. cbv zeta. apply hk_each. intros x. destruct (forallb _ _); [apply hk_ret|apply Hdis].
Qed.
Lemma hk_update : forall s, hkeeps (sl_update same sg_items get put allowed upd s).
Proof. intros s. apply hk_bulk. unfold bs_update. apply hk_each. intros a. apply hk_over, Hadd. Qed.
Lemma hk_symmetric : forall a, hkeeps (sl_symmetric same sg_items get put allowed upd a).
Proof. intros a. apply hk_bulk. apply hk_over, hk_toggle. Qed.
Lemma hk_only : forall x, hkeeps (only upd x).
Proof. intros x. apply hk_seq; [apply hk_inter|apply Hadd]. Qed.
End Loops.
Notation update := (update_active same sg_items sg_active sg_current get put allowed).
Notation sdo := (sel_do same sg_items sg_active sg_current get put allowed).
Lemma hk_do : forall (I : U -> hist -> Prop) (X : U -> hist -> exn -> Prop) o,
  (forall u h e, I u h -> X u h e) -> (forall u h e, raised e -> X u h e) ->
  (forall x, hkeeps I X (add update x)) -> (forall x, hkeeps I X (discard update x)) ->
  hkeeps I X (bs_clear id pitems psi (HK update)) -> (forall v, hkeeps I X (SC v)) ->
  (forall v, o <> LActive v) -> hkeeps I X (sdo o).
Proof.
  intros I X o HX HL Ha Hd Hc Hk Ho.
  destruct o as [o| |x|x|v|v|vs]; cbn [sel_do].
  - destruct o; cbn [sel_set]; auto.
    + apply hk_look. intros u. destruct (mem _ _ _); [apply Hd|now apply hk_throw].
    + apply hk_look. intros u. destruct (pitems u); [now apply hk_throw|]. apply hk_seq; [apply Hd|apply hk_ret].
    + now apply hk_clear.
    + now apply hk_update.
    + apply hk_bulk; [exact HL|]. unfold bs_difference_update. apply hk_each. intros a. apply hk_over; auto.
    + now apply hk_inter.
    + now apply hk_symmetric.
    + apply hk_over; auto.
    + apply hk_look. intros u. apply hk_each, Hd.
    + destruct a; cbn [bs_isub]; [apply hk_each, Hd|now apply hk_clear].
    + destruct a; cbn [bs_ixor]; [apply hk_each; intros y; apply hk_toggle; auto|now apply hk_clear].
  - now apply hk_clear.
  - now apply hk_symmetric.
  - now apply hk_only.
  - now destruct (Ho v).
  - apply Hk.
  - apply hk_seq; [now apply hk_inter|now apply hk_update].
Qed.

(** *** What is not part of the selection stays *)
Section Rest.
Variable J : U -> Prop.
Hypothesis J_put : forall s u, J u -> J (put s u).
Notation jk := (keeps E C J (fun u _ => J u)).
Lemma rest_act : forall f u, (forall u, exists s, f u = (put s u, inl VNone)) -> J u -> through E C (act f) u J (fun u _ => J u).
Proof. intros f u Hf Hu. apply th_act. destruct (Hf u) as [s ->]. now apply J_put. Qed.
Lemma rest_say : forall s a, jk (say s a).
Proof. intros s a u Hu. apply th_say; auto. Qed.
Lemma rest_cur : forall v, jk (SC v).
Proof.
  intros v. apply keeps_look. intros u0. destruct (same _ _); [apply keeps_ret|]. apply keeps_seq.
  - intros u Hu. apply rest_act; [|exact Hu]. intros u1. unfold p_set_current. eauto.
  - apply keeps_seq; [apply rest_say|apply keeps_ret].
Qed.
Lemma rest_emit : forall upd a r, jk upd -> jk (emit_change (HK upd) a r;; Ret VNone).
Proof. intros upd a r Hu. apply keeps_seq; [apply keeps_seq; [apply rest_say|exact Hu]|apply keeps_ret]. Qed.
Lemma rest_add : forall upd x, jk upd -> jk (add upd x).
Proof.
  intros upd x Hu. unfold sl_add, bs_add. cbn [pre_add sel_hooks bind]. apply keeps_look. intros u0.
  destruct (allowed u0 x); [|apply keeps_throw; auto]. cbn [bind]. destruct (mem same x (pitems u0)); cbn [bails]; [apply keeps_ret|].
  apply keeps_seq; [|now apply rest_emit]. intros u H. apply rest_act; [|exact H]. intros u1. unfold modify, p_set_items. eauto.
Qed.
Lemma rest_discard : forall upd x, jk upd -> jk (discard upd x).
Proof.
  intros upd x Hu. unfold sl_discard, bs_discard. cbn [pre_discard sel_hooks bind]. apply keeps_look. intros u0.
  cbn [bind]. destruct (negb _); cbn [bails]; [apply keeps_ret|].
  apply keeps_seq; [|now apply rest_emit]. intros u H. apply rest_act; [|exact H]. intros u1. unfold modify, p_set_items. eauto.
Qed.
Lemma rest_clear : forall upd, jk upd -> jk (bs_clear id pitems psi (HK upd)).
Proof.
  intros upd Hu. unfold bs_clear. apply keeps_look. intros u0. cbn [pre_clear sel_hooks bind]. apply keeps_look. intros u2. cbn [bind].
  destruct (pitems u2); cbn [bails]; [apply keeps_ret|].
  apply keeps_seq; [|now apply rest_emit]. intros u H. apply rest_act; [|exact H]. intros u1. unfold modify, p_set_items. eauto.
Qed.
Lemma rest_upd : forall setter, (forall v, jk (setter v)) -> jk (upd_with setter).
Proof.
  intros setter Hs. apply keeps_look. intros u0.
  assert (HN : jk (if is_none (active u0) then Ret VNone else act (p_set_active get put VNone);; say sg_active [VNone];; Ret VNone)).
  { destruct (is_none _); [apply keeps_ret|]. apply keeps_seq; [|apply keeps_seq; [apply rest_say|apply keeps_ret]].
    intros u H. apply rest_act; [|exact H]. intros u1. unfold p_set_active. eauto. }
  destruct (p_items get u0) as [|x [|y l]]; auto.
Qed.
Lemma rest_listen : forall u e, J u \/ (exists e' : exn, J u) -> raised e -> J u.
Proof. intros u e [H|[_ H]] _; exact H. Qed.
Lemma rest_set_active : forall m v, jk (setact m v).
Proof.
  induction m as [|m IH]; intros v; cbn [set_active]; [apply keeps_throw; auto|]. apply keeps_look. intros u0.
  assert (HU : jk (upd_with (setact m))) by (apply rest_upd; exact IH).
  destruct (same _ _); [apply keeps_ret|].
  apply keeps_seq; [intros u H; apply rest_act; [|exact H]; intros u1; unfold p_set_active; eauto|].
  apply keeps_seq; [|apply keeps_seq; [apply rest_cur|apply keeps_seq; [apply rest_say|apply keeps_ret]]].
  destruct (is_none v).
  - apply keeps_clear; auto; [exact rest_listen|now apply rest_clear|apply rest_cur].
  - apply keeps_only; auto; [exact rest_listen|intros; now apply rest_add|intros; now apply rest_discard].
Qed.
Theorem rest_do : forall o, jk (sdo o).
Proof.
  intros o. destruct o as [o| |x|x|v|v|vs]; [| | | |apply (rest_set_active (S DEPTH) v)| |];
  (assert (HU : jk update) by (apply rest_upd; apply rest_set_active);
   apply keeps_do; try discriminate; auto;
   [exact rest_listen|intros; now apply rest_add|intros; now apply rest_discard|now apply rest_clear|apply rest_cur]).
Qed.
End Rest.

(** *** What is announced *)
Variable a0 c0 : val.
(** [p]: the value that active has, although it has not been announced yet. *)
Definition awaits (p : option val) (u : U) (h : hist) : Prop :=
  same (replay sg_current c0 h) (current u) = true
  /\ truthful same sg_active (fun u => active u) h /\ truthful same sg_current (fun u => current u) h
  /\ (same (replay sg_active a0 h) (active u) = true \/ exists v, p = Some v /\ same v (active u) = true).
Notation failed := (fun (_ : U) (_ : hist) e => raised e).

Lemma replay_own : forall s d h v (u : U), replay s d (h ++ [(s, [v], u)]) = v.
Proof. intros. unfold replay. rewrite fold_left_app. cbn. now rewrite Nat.eqb_refl. Qed.
Lemma replay_other : forall s t d h a (u : U), t <> s -> replay s d (h ++ [(t, a, u)]) = replay s d h.
Proof. intros. unfold replay. rewrite fold_left_app. cbn. apply Nat.eqb_neq in H. destruct a as [|v [|? ?]]; auto. now rewrite H. Qed.
Lemma truthful_other : forall s t (f : U -> val) h a u, t <> s -> truthful same s f h -> truthful same s f (h ++ [(t, a, u)]).
Proof.
  intros s t f h a u N H x b u' Hi. apply in_app_or in Hi as [Hi|[Hi|[]]]; [exact (H x b u' Hi)|]. injection Hi as <- <- <-. congruence.
Qed.
Lemma truthful_own : forall s (f : U -> val) h v u, same v (f u) = true -> truthful same s f h -> truthful same s f (h ++ [(s, [v], u)]).
Proof.
  intros s f h v u N H x b u' Hi. apply in_app_or in Hi as [Hi|[Hi|[]]]; [exact (H x b u' Hi)|]. injection Hi as <- <- <-. eauto.
Qed.
Lemma awaits_same : forall p u u' h, active u' = active u -> current u' = current u -> awaits p u h -> awaits p u' h.
Proof. intros p u u' h H1 H2 (A & B & D & F). unfold awaits. rewrite H1, H2. auto. Qed.
Lemma awaits_items : forall p u h a, awaits p u h -> awaits p u (h ++ [(sg_items, a, u)]).
Proof.
  intros p u h a (A & B & D & F). unfold awaits. rewrite !replay_other by auto. repeat split; auto; apply truthful_other; auto.
Qed.
Lemma awaits_active : forall p q u h v, same v (active u) = true -> awaits p u h -> awaits q u (h ++ [(sg_active, [v], u)]).
Proof.
  intros p q u h v Hv (A & B & D & F). unfold awaits. rewrite replay_own, replay_other by auto. repeat split; auto.
  - now apply truthful_own.
  - apply truthful_other; auto.
Qed.
Lemma awaits_put : forall p u h v, awaits p u h -> awaits (Some v) (fst (p_set_active get put v u)) h.
Proof.
  intros p u h v (A & B & D & F). unfold awaits, p_set_active. cbn [fst]. rewrite get_put. cbn. repeat split; auto.
  right. exists v. auto.
Qed.
Lemma awaits_psi : forall p u h l, awaits p u h -> awaits p (psi l u) h.
Proof. intros p u h l. apply awaits_same; unfold p_set_items; now rewrite get_put. Qed.

(** current = v *)
Lemma cur_told : forall (P : U -> Prop) p v u h, (forall u v, P u -> P (fst (p_set_current get put v u))) -> P u -> awaits p u h ->
  tl (SC v) u h (fun u' h' => P u' /\ awaits p u' h' /\ same v (current u') = true) failed.
Proof.
  intros P p v u h HP Hu HA. apply tl_look. destruct (same v _) eqn:Ev; [now apply tl_ret|].
  set (u1 := fst (p_set_current get put v u)).
  assert (G1 : get u1 = Sel (items u) (active u) v) by (unfold u1, p_set_current; cbn; now rewrite get_put).
  eapply tl_seq with (Q1 := fun u' h' => u' = u1 /\ h' = h); [now apply tl_act|]. intros ? ? [-> ->].
  assert (Q : P u1 /\ awaits p u1 (h ++ [(sg_current, [v], u1)]) /\ same v (current u1) = true).
  { split; [now apply HP|]. split; [|rewrite G1; apply refl]. destruct HA as (A & B & D & F). unfold awaits.
    rewrite replay_own, replay_other by auto. clearbody u1. rewrite G1. cbn. repeat split; auto.
    - apply truthful_other; [congruence|exact B].
    - apply truthful_own; [rewrite G1; apply refl|exact D]. }
  eapply tl_seq with (Q1 := fun u' h' => P u' /\ awaits p u' h' /\ same v (current u') = true);
    [apply tl_say; [exact Cc|exact Q|auto]|]. intros u2 h2 H2. now apply tl_ret.
Qed.
Lemma say_told : forall p q v u h (P : U -> Prop), P u -> awaits p u h -> same v (active u) = true ->
  tl (say sg_active [v];; Ret VNone) u h (fun u' h' => P u' /\ awaits q u' h' /\ same v (active u') = true) failed.
Proof.
  intros p q v u h P Hu HA Hv. eapply tl_seq with (Q1 := fun u' h' => P u' /\ awaits q u' h' /\ same v (active u') = true).
  - apply tl_say; [exact Ca| |auto]. split; [exact Hu|]. split; [now apply (awaits_active p)|exact Hv].
  - intros u' h' H. now apply tl_ret.
Qed.
Lemma good_cur' : forall u v, good u -> good (fst (p_set_current get put v u)).
Proof. intros u v. now apply good_current. Qed.

(** _update_active *)
Lemma upd_told : forall n p u h, base u -> awaits p u h ->
  tl (upd_with (setact (S n))) u h
    (fun u' h' => good u' /\ awaits p u' h' /\ (forall x, items u = [x] -> same x (active u') = true)
                  /\ (forall y, In y (items u') -> In y (items u)) /\ (items u = [] -> current u' = current u)
                  /\ (items u' = items u \/ items u = [VNone]))
    failed.
Proof.
  intros n p u h Hb HA. apply tl_look.
  assert (HN : (match items u with [_] => False | _ => True end) ->
    tl (if is_none (active u) then Ret VNone else act (p_set_active get put VNone);; say sg_active [VNone];; Ret VNone) u h
      (fun u' h' => good u' /\ awaits p u' h' /\ (forall x, items u = [x] -> same x (active u') = true)
                  /\ (forall y, In y (items u') -> In y (items u)) /\ (items u = [] -> current u' = current u)
                  /\ (items u' = items u \/ items u = [VNone]))
      failed).
  { intros Hi. assert (HO : forall x, items u <> [x]) by (intros x Hx; rewrite Hx in Hi; exact Hi).
    destruct (is_none (active u)) eqn:Ea.
    - apply tl_ret. split; [|split; [exact HA|split; [intros x Hx; now destruct (HO x)|auto 6]]].
      split; [exact Hb|]. destruct (active u); try discriminate. destruct (items u) as [|x [|y l]]; tauto.
    - set (u1 := fst (p_set_active get put VNone u)).
      assert (G1 : get u1 = Sel (items u) VNone (current u)) by (unfold u1, p_set_active; cbn; now rewrite get_put).
      eapply tl_seq with (Q1 := fun u' h' => u' = u1 /\ h' = h); [now apply tl_act|]. intros ? ? [-> ->].
      eapply tl_mono; [apply (say_told (Some VNone) p VNone u1 h (fun u' => u' = u1)); [reflexivity| |rewrite G1; apply refl]| |auto].
      { now apply (awaits_put p). }
      intros u2 h2 (-> & H2 & _). split; [|split; [exact H2|split; [intros x Hx; now destruct (HO x)|rewrite G1; auto 6]]].
      split; [now apply base_active|]. rewrite G1. cbn. destruct (items u) as [|x [|y l]]; tauto. }
  unfold p_items at 1. destruct (items u) as [|x [|y l]] eqn:Ei; try (apply HN; exact I). clear HN.
  cbn [set_active]. apply tl_look. destruct (same x (active u)) eqn:Es.
  { apply tl_ret. split; [split; [exact Hb|now rewrite Ei]|]. split; [exact HA|]. rewrite Ei. split; [|split; [auto|split; [discriminate|now left]]].
    intros z Hz. injection Hz as <-. exact Es. }
  set (u1 := fst (p_set_active get put x u)).
  assert (G1 : get u1 = Sel [x] x (current u)) by (unfold u1, p_set_active; cbn; now rewrite get_put, Ei).
  assert (B1 : base u1) by now apply base_active.
  assert (A1 : awaits (Some x) u1 h) by now apply (awaits_put p).
  eapply tl_seq with (Q1 := fun u' h' => u' = u1 /\ h' = h); [now apply tl_act|]. intros ? ? [-> ->].
  assert (HG : good u1) by (split; [exact B1|]; rewrite G1; cbn; apply refl).
  set (Q2 := fun u' => good u' /\ same x (active u') = true /\ (forall y, In y (items u') -> In y [x]) /\ (items u' = [x] \/ x = VNone)).
  eapply tl_seq with (Q1 := fun u' h' => Q2 u' /\ awaits (Some x) u' h').
  - destruct (is_none x) eqn:En.
    + destruct x; try discriminate. unfold sl_clear.
      eapply tl_seq with (Q1 := fun u' h' => (items u' = [VNone] /\ active u' = VNone) /\ awaits (Some VNone) u' h' /\ same VNone (current u') = true).
      { apply cur_told; [|rewrite G1; auto|exact A1]. intros u2 v [H2 H3]. unfold p_set_current. cbn. rewrite get_put. cbn. auto. }
      intros u2 h2 ([H2 H2a] & HA2 & _). unfold bulk. apply tl_paused; [exact Ci|apply set_reduces_ok| |auto].
      unfold bs_clear. apply tl_look. cbn [pre_clear sel_hooks bind]. apply tl_look. cbn [bind].
      unfold p_items at 1. rewrite H2. cbn [bails].
      set (u3 := psi [] u2). assert (G3 : get u3 = Sel [] VNone (current u2)) by (unfold u3, p_set_items; now rewrite get_put, H2a).
      eapply tl_seq with (Q1 := fun u' h' => u' = u3 /\ h' = h2); [now apply tl_act|]. intros ? ? [-> ->].
      cbn [emit_change sel_hooks].
      eapply tl_seq with (Q1 := fun u' h' => Q2 u' /\ awaits (Some VNone) u' h'); [|intros; now apply tl_ret].
      eapply tl_seq with (Q1 := fun u' h' => u' = u3 /\ awaits (Some VNone) u' h').
      { apply tl_say; [exact Ci| |auto]. split; [reflexivity|]. now apply awaits_items, awaits_psi. }
      intros ? h4 [-> H4]. apply tl_look. unfold p_items. rewrite G3. cbn [sel_items sel_active is_none]. apply tl_ret. split; [|exact H4].
      unfold Q2. rewrite G3. cbn. split; [|split; [apply refl|split; [tauto|now right]]]. split; [|now rewrite G3]. unfold SelFacts.base. rewrite G3. split; [exact I|intros z []].
    + unfold sl_select_only. eapply tl_seq with (Q1 := fun u' h' => u' = u1 /\ h' = h).
      * unfold sl_intersection, bulk. apply tl_paused; [exact Ci|apply set_reduces_ok| |auto].
        unfold bs_intersection_update. apply tl_look. cbv zeta. unfold p_items. rewrite G1. cbn [sel_items each].
        cbn [forallb elems]. unfold mem at 1. cbn [existsb]. rewrite refl. cbn [orb andb].
        eapply tl_seq with (Q1 := fun u' h' => u' = u1 /\ h' = h); [now apply tl_ret|]. intros u2 h2 [-> ->]. now apply tl_ret.
      * intros ? ? [-> ->]. unfold sl_add, bs_add. cbn [pre_add sel_hooks bind]. apply tl_look.
        destruct B1 as [_ Ha]. rewrite Ha by (rewrite G1; now left). cbn [bind]. unfold p_items. rewrite G1. cbn [sel_items].
        unfold mem. cbn [existsb]. rewrite refl. cbn [orb bails]. apply tl_ret. split; [|exact A1]. unfold Q2. rewrite G1. cbn. auto 6.
  - intros u2 h2 [H2 HA2].
    eapply tl_seq; [apply (cur_told Q2 (Some x) x u2 h2); [|exact H2|exact HA2]|].
    { intros u3 v (H3 & H4 & H5). split; [now apply good_cur'|]. unfold p_set_current. cbn [fst]. rewrite get_put. cbn. auto. }
    intros u3 h3 (H3 & HA3 & _). eapply tl_mono; [apply (say_told (Some x) p x u3 h3 Q2 H3 HA3); apply H3| |auto].
    intros u4 h4 ((H4 & _ & H5 & H7) & HA4 & H6). split; [exact H4|]. split; [exact HA4|]. split; [|split; [exact H5|split; [discriminate|]]].
    2:{ destruct H7 as [H7| ->]; auto. }
    intros z Hz. injection Hz as <-. exact H6.
Qed.
Section Upd.
Variable n : nat.
Notation upd := (upd_with (setact (S n))).
Lemma sdel_other : forall x y l, distinct same l -> In y (sdel same x l) -> In y l /\ same x y = false.
Proof.
  intros x y l Hd Hy. split; [eapply sdel_in; exact Hy|]. apply (mem_in same refl) in Hy.
  rewrite mem_sdel in Hy by auto. apply andb_true_iff in Hy as [_ Hy]. apply negb_true_iff in Hy.
  destruct (same x y) eqn:F; [|reflexivity]. apply sym in F. congruence.
Qed.
Lemma emit_told : forall p a r u h, base u -> awaits p u h -> tl (emit_change (HK upd) a r;; Ret VNone) u h
  (fun u' h' => good u' /\ awaits p u' h' /\ (forall x, items u = [x] -> same x (active u') = true) /\ (forall y, In y (items u') -> In y (items u))
     /\ (items u = [] -> current u' = current u) /\ (items u' = items u \/ items u = [VNone])) failed.
Proof.
  intros p a r u h H HA. cbn [emit_change sel_hooks]. eapply tl_seq; [|intros u9 h9 H9; apply tl_ret; exact H9].
  eapply tl_seq with (Q1 := fun u' h' => u' = u /\ awaits p u' h').
  - apply tl_say; [exact Ci| |auto]. split; [reflexivity|]. now apply awaits_items.
  - intros ? h1 [-> H1]. now apply upd_told.
Qed.
Lemma add_told : forall p x u h, base u -> awaits p u h -> allowed u x = true -> mem same x (items u) = false ->
  tl (add upd x) u h (fun u' h' => good u' /\ awaits p u' h' /\ (items u = [] -> same x (active u') = true)
    /\ (items u' = items u ++ [x] \/ x = VNone)) failed.
Proof.
  intros p x u h H HA Hx Hm. unfold sl_add, bs_add. cbn [pre_add sel_hooks bind]. apply tl_look. rewrite Hx. cbn [bind].
  unfold p_items at 1. rewrite Hm. cbn [bails].
  set (u1 := psi (sadd same x (pitems u)) u). assert (G1 : items u1 = sadd same x (items u)) by (unfold u1, p_set_items; now rewrite get_put).
  eapply tl_seq with (Q1 := fun u' h' => u' = u1 /\ h' = h); [now apply tl_act|]. intros ? ? [-> ->].
  eapply tl_mono; [apply (emit_told p); [now apply base_add|now apply awaits_psi]| |auto].
  assert (G2 : items u1 = items u ++ [x]) by (rewrite G1; unfold sadd; now rewrite Hm).
  intros u' h' (H1 & H2 & H3 & _ & _ & H4). repeat split; try apply H1; try apply H2.
  - intros Hi. apply H3. rewrite G1, Hi. reflexivity.
  - destruct H4 as [H4|H4]; [left; now rewrite H4|]. right. rewrite G2 in H4. destruct (items u) as [|y [|z l]]; injection H4; auto; discriminate.
Qed.
Lemma discard_told : forall p x u h, base u -> awaits p u h -> mem same x (items u) = true ->
  tl (discard upd x) u h (fun u' h' => good u' /\ awaits p u' h' /\ (forall y, In y (items u') -> In y (items u) /\ same x y = false)
    /\ (items u' = sdel same x (items u) \/ In VNone (items u))) failed.
Proof.
  intros p x u h H HA Hm. unfold sl_discard, bs_discard. cbn [pre_discard sel_hooks bind]. apply tl_look. cbn [bind].
  unfold p_items at 1. rewrite Hm. cbn [negb bails].
  set (u1 := psi (sdel same x (pitems u)) u). assert (G1 : items u1 = sdel same x (items u)) by (unfold u1, p_set_items; now rewrite get_put).
  eapply tl_seq with (Q1 := fun u' h' => u' = u1 /\ h' = h); [now apply tl_act|]. intros ? ? [-> ->].
  eapply tl_mono; [apply (emit_told p); [now apply base_del|now apply awaits_psi]| |auto].
  intros u' h' (H1 & H2 & _ & H3 & _ & H4). split; [exact H1|]. split; [exact H2|]. split.
  - intros y Hy. apply H3 in Hy. rewrite G1 in Hy. apply sdel_other in Hy; [exact Hy|apply H].
  - rewrite G1 in H4. destruct H4 as [H4|H4]; [now left|right]. apply (sdel_in same x). rewrite H4. now left.
Qed.
Lemma clear_told : forall p u h, base u -> awaits p u h ->
  tl (bs_clear id pitems psi (HK upd)) u h (fun u' h' => (good u' \/ u' = u) /\ awaits p u' h' /\ items u' = []
    /\ current u' = current u) failed.
Proof.
  intros p u h H HA. unfold bs_clear. apply tl_look. cbn [pre_clear sel_hooks bind]. apply tl_look. cbn [bind].
  assert (HH : tl (act (modify pitems psi (fun _ => []));; emit_change (HK upd) [] (pitems u);; Ret VNone) u h
    (fun u' h' => (good u' \/ u' = u) /\ awaits p u' h' /\ items u' = [] /\ current u' = current u) failed).
  { set (u1 := psi [] u). assert (G1 : get u1 = Sel [] (active u) (current u)) by (unfold u1, p_set_items; now rewrite get_put).
    eapply tl_seq with (Q1 := fun u' h' => u' = u1 /\ h' = h); [now apply tl_act|]. intros ? ? [-> ->].
    eapply tl_mono; [apply (emit_told p); [now apply base_nil|now apply awaits_psi]| |auto].
    intros u' h' (H1 & H2 & _ & H3 & H4 & _). rewrite G1 in H3, H4. cbn in H3, H4. repeat split; auto; try apply H2.
    destruct (items u') as [|y l]; [reflexivity|]. destruct (H3 y). now left. }
  destruct (pitems u) eqn:Ep; cbn [bails]; [|exact HH]. apply tl_ret. repeat split; auto; apply HA.
Qed.
End Upd.
Definition settled (u : U) (h : hist) : Prop := good u /\ awaits None u h.
Definition settled_or (u : U) (h : hist) (e : exn) : Prop := settled u h \/ raised e.
Lemma or_own : forall u h e, settled u h -> settled_or u h e.
Proof. intros u h e H. now left. Qed.
Lemma or_listen : forall u h e, raised e -> settled_or u h e.
Proof. intros u h e H. now right. Qed.
Notation sk := (hkeeps settled settled_or).
Lemma add_settled : forall n x, sk (add (upd_with (setact (S n))) x).
Proof.
  intros n x u h [H HA]. destruct (allowed u x) eqn:Ex.
  - destruct (mem same x (items u)) eqn:Em.
    + unfold sl_add, bs_add. cbn [pre_add sel_hooks bind]. apply tl_look. rewrite Ex. cbn [bind]. unfold p_items at 1. rewrite Em.
      apply tl_ret. now split.
    + eapply tl_mono; [apply (add_told n None); auto; apply H| |intros; now right]. intros u' h' (H1 & H2 & _). now split.
  - unfold sl_add, bs_add. cbn [pre_add sel_hooks bind]. apply tl_look. rewrite Ex. cbn [bind]. apply tl_throw. left. now split.
Qed.
Lemma discard_settled : forall n x, sk (discard (upd_with (setact (S n))) x).
Proof.
  intros n x u h [H HA]. destruct (mem same x (items u)) eqn:Em.
  - eapply tl_mono; [apply (discard_told n None); auto; apply H| |intros; now right]. intros u' h' (H1 & H2 & _). now split.
  - unfold sl_discard, bs_discard. cbn [pre_discard sel_hooks bind]. apply tl_look. cbn [bind]. unfold p_items at 1. rewrite Em.
    apply tl_ret. now split.
Qed.
Lemma clear_settled : forall n, sk (bs_clear id pitems psi (HK (upd_with (setact (S n))))).
Proof.
  intros n u h [H HA]. eapply tl_mono; [apply (clear_told n None); auto; apply H| |intros; now right].
  intros u' h' ([H1| ->] & H2 & _); now split.
Qed.
Lemma cur_settled : forall v, sk (SC v).
Proof.
  intros v u h [H HA]. eapply tl_mono; [apply (cur_told good None); auto; apply good_cur'| |intros; now right].
  intros u' h' (H1 & H2 & _). now split.
Qed.

(** active = v *)
Hypothesis none_alone : forall v, same v VNone = true -> v = VNone.
Definition chosen (v : val) (u : U) : Prop := same v (active u) = true /\ same v (current u) = true
  /\ (v = VNone -> items u = []) /\ (v <> VNone -> exists x, items u = [x] /\ same v x = true).
Lemma good_same : forall u v, good u -> same v (active u) = true -> v <> VNone -> exists x, items u = [x] /\ same v x = true.
Proof.
  intros u v [_ H] Hv N. destruct (items u) as [|x [|y l]].
  - rewrite H in Hv. now apply none_alone in Hv.
  - exists x. split; [reflexivity|]. apply trans with (active u); auto.
  - rewrite H in Hv. now apply none_alone in Hv.
Qed.
Lemma hk_rest_body : forall (J : U -> Prop) n v u1 l u, (forall s u, J u -> J (put s u)) -> J u ->
  through E C (each (fun i => if forallb (fun a => mem same i (elems pitems a u1)) [Items [v]] then Ret VNone
                              else bs_discard same pitems psi (HK (upd_with (setact (S n)))) i) l) u J (fun u _ => J u).
Proof.
  intros J n v u1 l u HJ Hu. apply (keeps_each E C J); [|exact Hu]. intros x. destruct (forallb _ _); [apply keeps_ret|].
  apply (rest_discard J HJ). apply (rest_upd J HJ). intros y. apply (rest_set_active J HJ).
Qed.
Lemma set_active_told : forall n v u h, settled u h -> (items u = [] -> v = VNone \/ allowed u v = true) ->
  tl (setact (S (S n)) v) u h (fun u' h' => settled u' h' /\ (if same v (active u) then u' = u else chosen v u'))
    (fun u' h' e => settled_or u' h' e /\ (raised e \/ allowed u v = false)).
Proof.
  intros n v u h [Hg HA] Hv. cbn [set_active]. apply tl_look. destruct (same v (active u)) eqn:Es.
  { now apply tl_ret. }
  set (upd := upd_with (setact (S n))).
  set (u1 := fst (p_set_active get put v u)).
  assert (G1 : get u1 = Sel (items u) v (current u)) by (unfold u1, p_set_active; cbn; now rewrite get_put).
  assert (B1 : base u1) by now apply base_active, Hg.
  assert (A1 : awaits (Some v) u1 h) by now apply (awaits_put None).
  assert (W1 : forall x, allowed u1 x = allowed u x) by (intros x; unfold u1, p_set_active; cbn; apply allowed_put).
  eapply tl_seq with (Q1 := fun u' h' => u' = u1 /\ h' = h); [now apply tl_act|]. intros ? ? [-> ->]. clearbody u1.
  set (P := fun u' => good u' /\ same v (active u') = true /\ (v = VNone -> items u' = [])).
  eapply tl_seq with (Q1 := fun u' h' => P u' /\ awaits (Some v) u' h').
  2:{ intros u2 h2 [H2 HA2].
      assert (HP : forall u v, P u -> P (fst (p_set_current get put v u))).
      { intros u3 v3 (H3 & H4 & H5). split; [now apply good_cur'|]. unfold p_set_current. cbn [fst]. rewrite get_put. cbn. auto. }
      eapply tl_seq with (Q1 := fun u' h' => P u' /\ awaits (Some v) u' h' /\ same v (current u') = true).
      { eapply tl_mono; [apply (cur_told P (Some v)); auto|auto|intros; split; [now right|now left]]. }
      intros u3 h3 (H3 & HA3 & HC3).
      eapply tl_mono; [apply (say_told (Some v) None v u3 h3 (fun u' => P u' /\ same v (current u') = true)); [now split|exact HA3|apply H3]| |intros; split; [now right|now left]].
      intros u4 h4 (((H4 & H5 & H6) & HC) & HA4 & _). split; [now split|]. split; [exact H5|]. split; [exact HC|].
      split; [exact H6|]. intros N. now apply good_same. }
  destruct (is_none v) eqn:En.
  - destruct v; try discriminate. unfold sl_clear.
    eapply tl_seq with (Q1 := fun u' h' => (base u' /\ active u' = VNone) /\ awaits (Some VNone) u' h' /\ same VNone (current u') = true).
    { eapply tl_mono; [apply (cur_told (fun u' => base u' /\ active u' = VNone)); [|rewrite G1; auto|exact A1]|auto|intros; split; [now right|now left]].
      intros u2 v [H2 H3]. split; [now apply base_current|]. unfold p_set_current. cbn. rewrite get_put. cbn. auto. }
    intros u2 h2 ([H2 H2a] & HA2 & _). unfold bulk. apply tl_paused; [exact Ci|apply set_reduces_ok| |intros; split; [now right|now left]].
    eapply tl_mono; [apply (clear_told n (Some VNone)); auto| |intros; split; [now right|now left]].
    intros u' h' (H3 & HA3 & H4 & _). split; [|exact HA3]. unfold P.
    assert (H5 : good u'). { destruct H3 as [H3| ->]; [exact H3|]. split; [exact H2|]. now rewrite H4. }
    split; [exact H5|]. split; [|auto]. destruct H5 as [_ H5]. rewrite H4 in H5. rewrite H5. apply refl.
  - assert (Nv : v <> VNone) by (intros ->; discriminate). unfold sl_select_only.
    set (K := fun l u' h' => base u' /\ awaits (Some v) u' h' /\ (good u' \/ u' = u1) /\ forall y, In y (items u') -> same y v = true \/ In y l).
    eapply tl_seq with (Q1 := fun u' h' => K [] u' h' /\ allowed u' v = allowed u v).
    + unfold sl_intersection, bulk. apply tl_paused; [exact Ci|apply set_reduces_ok| |intros; split; [now right|now left]].
      unfold bs_intersection_update. apply tl_look. cbv zeta.
      set (body := fun i => if forallb (fun a => mem same i (elems pitems a u1)) [Items [v]] then Ret VNone
                            else bs_discard same pitems psi (HK upd) i).
      assert (HL : forall l u' h', K l u' h' -> tl (each body l) u' h' (K []) (fun u' h' e => settled_or u' h' e /\ (raised e \/ allowed u v = false))).
      { induction l as [|x l IH]; intros u' h' HK'; cbn [each]; [now apply tl_ret|].
        unfold body at 1. cbn [forallb elems]. rewrite andb_true_r. unfold mem at 1. cbn [existsb]. rewrite orb_false_r.
        eapply tl_seq with (Q1 := K l); [|intros u2 h2 H2; now apply IH].
        destruct HK' as (K1 & K2 & K3 & K4). destruct (same x v) eqn:Ex.
        - apply tl_ret. repeat split; auto; try apply K1; try apply K2. intros y Hy. destruct (K4 y Hy) as [Hs|[<-|Hl]]; auto.
        - destruct (mem same x (items u')) eqn:Em.
          + eapply tl_mono; [apply (discard_told n (Some v)); auto| |intros; split; [now right|now left]].
            intros u2 h2 (J1 & J2 & J3 & _). split; [apply J1|]. split; [exact J2|]. split; [now left|].
            intros y Hy. apply J3 in Hy as [Hy1 Hy2]. destruct (K4 y Hy1) as [Hs|[<-|Hl]]; auto. now rewrite refl in Hy2.
          + unfold bs_discard. cbn [pre_discard sel_hooks bind]. apply tl_look. cbn [bind]. unfold p_items at 1. rewrite Em. cbn [negb bails].
            apply tl_ret. repeat split; auto; try apply K1; try apply K2. intros y Hy. destruct (K4 y Hy) as [Hs|[<-|Hl]]; auto.
            apply (mem_in same refl) in Hy. congruence. }
      eapply tl_mono; [apply tl_and; [apply (HL (pitems u1))|apply tl_through, (hk_rest_body (fun u' => allowed u' v = allowed u v))]|auto|intros u' h' e [H' _]; exact H'].
      2:{ intros s u' H'. now rewrite allowed_put. }
      2:{ apply W1. }
      split; [exact B1|]. split; [exact A1|]. split; [now right|]. intros y Hy. now right.
    + intros u2 h2 ((K1 & K2 & K3 & K4) & K0).
      assert (K5 : forall y, In y (items u2) -> same y v = true) by (intros y Hy; destruct (K4 y Hy) as [Hs|[]]; exact Hs). clear K4.
      destruct (distinct_all_same same sym trans v (items u2)) as [Hi|(y & Hi & Hy)]; [apply K1|exact K5| |].
      * destruct (allowed u2 v) eqn:Ea.
        -- eapply tl_mono; [apply (add_told n (Some v)); auto; now rewrite Hi| |intros; split; [now right|now left]].
           intros u3 h3 (H1 & H2 & H3 & _). split; [|exact H2]. split; [exact H1|]. split; [now apply H3|]. congruence.
        -- unfold sl_add, bs_add. cbn [pre_add sel_hooks bind]. apply tl_look. rewrite Ea. cbn [bind]. apply tl_throw. split; [|right; congruence]. left.
           destruct K3 as [K3| ->]; [|destruct Hv as [->|Hv]; [now rewrite G1 in Hi|congruence|rewrite W1 in Ea; congruence]].
           split; [exact K3|]. destruct K2 as (A & B & D & F). repeat split; auto. left.
           destruct F as [F|(z & Hz & F)]; [exact F|]. injection Hz as <-. destruct K3 as [_ K3]. rewrite Hi in K3. rewrite K3 in F.
           now apply none_alone in F.
      * assert (Hall : allowed u2 v = true).
        { destruct K1 as [_ Ha]. rewrite <- (allowed_same u2 y v Hy). apply Ha. rewrite Hi. now left. }
        unfold sl_add, bs_add. cbn [pre_add sel_hooks bind]. apply tl_look. rewrite Hall. cbn [bind]. unfold p_items at 1. rewrite Hi.
        unfold mem. cbn [existsb]. rewrite (sym y v Hy). cbn [orb bails]. apply tl_ret. split; [|exact K2].
        assert (Hs : same v (active u2) = true).
        { destruct K3 as [[_ K3]| ->]; [|rewrite G1; apply refl]. rewrite Hi in K3. apply trans with y; auto. }
        split; [|split; [exact Hs|congruence]]. split; [exact K1|]. rewrite Hi. apply trans with v; auto.
Qed.
Theorem told_do : forall o u h, settled u h -> (forall v, o = LActive v -> items u = [] -> v = VNone \/ allowed u v = true) ->
  tl (sdo o) u h settled settled_or.
Proof.
  intros o u h Hg Ho. destruct o as [o| |x|x|v|v|vs];
  [| | | |eapply tl_mono; [apply (set_active_told 1); [exact Hg|now apply Ho]|intros u' h' [H' _]; exact H'|intros u' h' e [H' _]; exact H']| |];
  (apply hk_do; try discriminate; auto;
   [apply or_own|apply or_listen|apply (add_settled 1)|apply (discard_settled 1)|apply (clear_settled 1)|apply cur_settled]).
Qed.
(** clear() *)
Theorem clear_do : forall b u h, settled u h ->
  tl (clear update b) u h (fun u' _ => items u' = [] /\ if b then current u' = current u else same VNone (current u') = true) settled_or.
Proof.
  intros b u h [Hg HA]. unfold sl_clear.
  eapply tl_seq with (Q1 := fun u' h' => settled u' h' /\ if b then u' = u else same VNone (current u') = true).
  { destruct b; [apply tl_ret; split; [now split|reflexivity]|].
    eapply tl_mono; [apply (cur_told good None); auto; apply good_cur'| |intros; now right]. intros u' h' (H1 & H2 & H3). split; [now split|exact H3]. }
  intros u1 h1 [[H1 HA1] HB]. unfold bulk. apply tl_paused; [exact Ci|apply set_reduces_ok| |intros; now right].
  eapply tl_mono; [apply (clear_told 1 None); [apply H1|exact HA1]| |intros; now right].
  intros u2 h2 (_ & _ & H3 & H4). split; [exact H3|]. destruct b; [now subst u1|now rewrite H4].
Qed.
End Sel.
