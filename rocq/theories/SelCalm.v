(** Selections whose listeners use the selection, also one whose parent changes.  Proof infrastructure; models no code. *)

From Verif Require Import Base Core Prog PyList EList PySet ESet SpecSet SetFacts ESelect SpecSelect SelFacts Calm SpecSelUse.
Open Scope nat_scope.

Section Sel.
Context {U : Type}.
Variable same : val -> val -> bool.
Hypothesis refl : forall x, same x x = true.
Hypothesis sym : forall x y, same x y = true -> same y x = true.
Hypothesis trans : forall x y z, same x y = true -> same y z = true -> same x z = true.
Variable si sa sc : sid.
Variable get : U -> sel.
Variable put : sel -> U -> U.
Variable allowed : U -> val -> bool.
Hypothesis get_put : forall s u, get (put s u) = s.
Hypothesis allowed_put : forall s u x, allowed (put s u) x = allowed u x.
Notation items u := (sel_items (get u)).
Notation active u := (sel_active (get u)).
Notation good := (good same get allowed).
Notation B := (base same get allowed).
Notation pitems := (p_items get).
Notation psi := (p_set_items get put).
(** Active is right. *)
Definition ract (u : U) : Prop := match items u with [x] => same x (active u) = true | _ => active u = VNone end.
Definition R (u u' : U) : Prop := (items u' = items u /\ active u' = active u) \/ ract u'.
Notation cwp := (cwp B R).
Notation sound := (sound B R).
Notation upd := (upd same si sa sc get put allowed).
Notation setact := (set_active same si sa sc get put allowed).

Lemma R_refl : forall u, R u u.
Proof. intros u. left. auto. Qed.
Lemma same_ract : forall u u', items u' = items u -> active u' = active u -> ract u -> ract u'.
Proof. intros u u' Hi Ha H. unfold ract in *. now rewrite Hi, Ha. Qed.
Lemma R_ract : forall u u', ract u -> R u u' -> ract u'.
Proof. intros u u' H [[Hi Ha]|H']; [|exact H']. eapply same_ract; eauto. Qed.
Lemma R_good : forall u u', good u -> B u' -> R u u' -> good u'.
Proof. intros u u' [_ H] HB HR. split; [exact HB|]. eapply R_ract; eauto. Qed.
Lemma R_trans : forall a b c, R a b -> R b c -> R a c.
Proof.
  intros a b c H [[Hi Ha]|H']; [|now right]. destruct H as [[Hi' Ha']|H]; [left; split; congruence|]. right. eapply same_ract; eauto.
Qed.
Lemma good_B : forall u, good u -> B u.
Proof. intros u [H _]. exact H. Qed.
Lemma cwp_paused : forall s r p u (Q : U -> val -> Prop), B u ->
  (forall u1, B u1 -> R u u1 -> cwp p u1 (fun u2 v => B u2 /\ forall u3, B u3 -> R u2 u3 -> Q u3 v)) -> cwp (with_paused s r p) u Q.
Proof.
  intros s r p u Q HB Hp. unfold with_paused. apply cwp_bind. apply cwp_sound; [now apply (sound_call B R)|exact HB|].
  intros u1 was HB1 HR1. apply cwp_bind. apply cwp_sound; [now apply (sound_call B R)|exact HB1|]. intros u2 x HB2 HR2.
  set (fin := match was with VBool true => _ | _ => _ end).
  assert (HF : sound fin) by (unfold fin; destruct was; try (now apply (sound_call B R)); destruct b; [exact (sound_ret B R R_refl _)|now apply (sound_call B R)]).
  clearbody fin. apply cwp_catch.
  - intros e. clear. induction fin; cbn; auto.
  - eapply cwp_mono; [|apply Hp; [exact HB2|eapply R_trans; eauto]]. cbn. intros u3 v (HB3 & HQ). apply cwp_bind.
    apply cwp_sound; [exact HF|exact HB3|]. intros u4 y HB4 HR4. cbn. auto.
Qed.
Lemma current_c : forall v, sound (set_current same sc get put v).
Proof.
  intros v u HB. cbn. destruct (same v (sel_current (get u))); cbn; [split; [exact HB|apply R_refl]|].
  right. split; [exact (base_current same get put allowed get_put allowed_put u v HB)|]. split; [|auto]. intros u' _ HB' HR.
  split; [exact HB'|]. eapply R_trans; [|exact HR]. left. rewrite get_put. auto.
Qed.

Section Ops.
Variable n : nat.
Hypothesis A : forall u, B u -> cwp (upd n) u (fun u' _ => good u').
Notation H := (sel_hooks same si get allowed (upd n)).
Lemma emit_c : forall a r u, B u -> cwp (emit_change H a r ;; Ret VNone) u (fun u' _ => good u').
Proof.
  intros a r u HB. apply cwp_bind. change (cwp (say si [VTuple a; VTuple r];; upd n) u (fun u' _ => good u')).
  apply cwp_bind. apply cwp_say; [exact HB|]. intros u' _ HB' _. now apply A.
Qed.
Lemma add_c : forall x u, B u -> cwp (bs_add same pitems psi H x) u (fun u' _ => (u' = u /\ mem same x (items u) = true) \/ good u').
Proof.
  intros x u HB. unfold bs_add. apply cwp_bind. cbn [Calm.cwp pre_add sel_hooks]. destruct (allowed u x) eqn:Hx; [|exact Logic.I].
  cbn [Calm.cwp]. change (pitems u) with (items u). destruct (mem same x (items u)) eqn:Hm; cbn [bails]; [left; auto|].
  apply cwp_seq. eapply cwp_act; [reflexivity|]. cbn [fst modify]. eapply cwp_mono; [|apply emit_c]; [cbn; auto|].
  apply (base_add same refl sym trans get put allowed get_put allowed_put); auto.
Qed.
Lemma discard_c : forall x u, B u -> cwp (bs_discard same pitems psi H x) u (fun u' _ => (u' = u /\ mem same x (items u) = false) \/ good u').
Proof.
  intros x u HB. unfold bs_discard. apply cwp_bind. cbn [Calm.cwp pre_discard sel_hooks]. change (pitems u) with (items u).
  destruct (mem same x (items u)) eqn:Hm; cbn [bails negb]; [|left; auto].
  apply cwp_seq. eapply cwp_act; [reflexivity|]. cbn [fst modify]. eapply cwp_mono; [|apply emit_c]; [cbn; auto|].
  apply (base_del same sym trans get put allowed get_put allowed_put); auto.
Qed.
Lemma clear_c : forall u, B u -> cwp (bs_clear (fun l => l) pitems psi H) u (fun u' _ => (u' = u /\ items u = []) \/ good u').
Proof.
  intros u HB. unfold bs_clear. cbn [Calm.cwp]. apply cwp_bind. cbn [Calm.cwp pre_clear sel_hooks]. change (pitems u) with (items u).
  destruct (items u) eqn:Hm; cbn [bails]; [left; auto|].
  apply cwp_seq. eapply cwp_act; [reflexivity|]. cbn [fst modify]. eapply cwp_mono; [|apply emit_c]; [cbn; auto|].
  apply (base_nil same get put allowed get_put allowed_put).
Qed.
Lemma only_c : forall v u, B u -> cwp (bulk si (bs_intersection_update same (fun l => l) pitems psi H [Items [v]])) u
  (fun u' _ => B u' /\ (good u' \/ (R u u' /\ active u' = active u /\ forall x, In x (items u') -> same x v = true))).
Proof.
  intros v u HB. apply cwp_paused; [exact HB|]. intros u1 HB1 HR1. unfold bs_intersection_update. cbn [Calm.cwp].
  set (other := fun x : val => forallb (fun a => mem same x (elems pitems a u1)) [Items [v]]).
  match goal with |- Calm.cwp _ _ _ _ ?Q => change (cwp (each (fun i => if other i then Ret VNone else bs_discard same pitems psi H i) (items u1)) u1 Q) end.
  assert (HO : forall x, other x = true -> same x v = true).
  { intros x Hx. unfold other in Hx. cbn in Hx. rewrite andb_true_r in Hx. unfold mem in Hx. cbn in Hx. now rewrite orb_false_r in Hx. }
  clearbody other.
  assert (L : forall l u, B u -> (forall x, In x l -> mem same x (items u) = true) \/ good u ->
    cwp (each (fun i => if other i then Ret VNone else bs_discard same pitems psi H i) l) u
      (fun u' _ => good u' \/ (u' = u /\ forall x, In x l -> other x = true))).
  { clear u HB u1 HB1 HR1. induction l as [|x l IH]; intros u HB Hl; [cbn; right; split; [reflexivity|intros x []]|].
    change (cwp ((if other x then Ret VNone else bs_discard same pitems psi H x) ;; each (fun i => if other i then Ret VNone else bs_discard same pitems psi H i) l) u
      (fun u' _ => good u' \/ (u' = u /\ forall y, In y (x :: l) -> other y = true))).
    apply cwp_seq. destruct (other x) eqn:Hx.
    - cbn [Calm.cwp]. eapply cwp_mono; [|apply IH; [exact HB|destruct Hl as [Hl|Hl]; [left; intros y Hy; apply Hl; now right|now right]]].
      cbn. intros u' _ [H'|[-> H']]; [now left|]. right. split; [reflexivity|]. intros y [<-|Hy]; auto.
    - eapply cwp_mono; [|now apply discard_c]. cbn. intros u1 _ Hu.
      assert (HG : good u1).
      { destruct Hu as [[-> Hm]|Hu]; [|exact Hu]. destruct Hl as [Hl|Hl]; [|exact Hl]. rewrite Hl in Hm by now left. discriminate. }
      eapply cwp_mono; [|apply IH; [now apply good_B|now right]]. cbn. intros u' _ [H'|[-> _]]; now left. }
  eapply cwp_mono; [|apply L; [exact HB1|left]].
  - cbn. intros u2 _ [H2|[-> H2]].
    + split; [now apply good_B|]. intros u3 HB3 HR3. split; [exact HB3|]. left. eapply R_good; eauto.
    + split; [exact HB1|]. intros u3 HB3 HR3. split; [exact HB3|]. destruct HR3 as [[Hi Ha]|H3]; [|left; now split].
      destruct HR1 as [[Hi1 Ha1]|H1]; [|left; split; [exact HB3|eapply same_ract; eauto]].
      right. split; [left; split; congruence|]. split; [congruence|]. intros x Hx. apply HO, H2. rewrite <- Hi. exact Hx.
  - intros x Hx. apply existsb_exists. exists x. split; [exact Hx|apply refl].
Qed.
End Ops.

Lemma setact_c : forall n, (forall u, B u -> cwp (upd n) u (fun u' _ => good u')) -> forall v u, B u ->
  cwp (setact (S n) v) u (fun u' _ => (u' = u /\ same v (active u) = true) \/ good u').
Proof.
  intros n A v u HB. cbn [set_active Calm.cwp]. destruct (same v (active u)) eqn:Hv; [left; auto|].
  apply cwp_seq. eapply cwp_act; [reflexivity|]. cbn [fst p_set_active]. set (u1 := put _ u).
  assert (HB1 : B u1) by exact (base_active same get put allowed get_put allowed_put u v HB).
  assert (HA1 : active u1 = v) by (unfold u1; now rewrite get_put). clearbody u1.
  apply cwp_seq. apply cwp_mono with (Q := fun u2 _ => good u2).
  { intros u2 _ H2. apply cwp_seq. apply cwp_sound; [apply current_c|now apply good_B|]. intros u3 _ HB3 HR3. apply cwp_seq.
    apply cwp_say; [exact HB3|]. intros u4 _ HB4 HR4. cbn. right. eapply R_good; [|exact HB4|exact HR4]. eapply R_good; eauto. }
  destruct (is_none v) eqn:Hn.
  - destruct v; try discriminate. unfold sl_clear. apply cwp_seq. apply cwp_sound; [apply current_c|exact HB1|]. intros u2 _ HB2 HR2.
    apply cwp_paused; [exact HB2|]. intros u3 HB3 HR3. eapply cwp_mono; [|apply (clear_c n A); exact HB3]. cbn. intros u4 _ H4.
    assert (H4' : good u4).
    { destruct H4 as [[-> H4]|H4]; [|exact H4]. destruct (R_trans _ _ _ HR2 HR3) as [[Hi Ha]|H3]; [|now split].
      split; [exact HB3|]. rewrite H4. now rewrite Ha. }
    split; [now apply good_B|]. intros u5 HB5 HR5. eapply R_good; eauto.
  - unfold sl_select_only. apply cwp_seq. unfold sl_intersection. eapply cwp_mono; [|apply (only_c n A); exact HB1]. cbn. intros u2 _ [HB2 H2].
    eapply cwp_mono; [|apply (add_c n A); exact HB2]. cbn. intros u3 _ [[-> Hm]|H3]; [|exact H3].
    destruct H2 as [H2|(_ & Ha & Hs)]; [exact H2|]. split; [exact HB2|]. destruct HB2 as [HD _].
    destruct (items u2) as [|y [|z l]]; [discriminate| |].
    + rewrite Ha, HA1. apply Hs. now left.
    + exfalso. cbn in HD. destruct HD as [HD _]. assert (Hyz : same y z = true) by (eapply trans; [apply Hs; now left|apply sym, Hs; right; now left]).
      unfold mem in HD. cbn in HD. rewrite Hyz in HD. discriminate.
Qed.
Lemma upd_c : forall n u, B u -> cwp (upd n) u (fun u' _ => good u').
Proof.
  assert (K : forall n u, B u -> (forall x, items u = [x] -> cwp (setact n x) u (fun u' _ => good u')) -> cwp (upd n) u (fun u' _ => good u')).
  { intros n u HB Hs. unfold SpecSelUse.upd, update_with. cbn [Calm.cwp]. change (pitems u) with (items u).
    assert (D : (forall x, items u <> [x]) ->
      cwp (if is_none (active u) then Ret VNone else act (p_set_active get put VNone);; say sa [VNone];; Ret VNone) u (fun u' _ => good u')).
    { intros Hn. destruct (is_none (active u)) eqn:Hz.
      - cbn. split; [exact HB|]. destruct (items u) as [|x [|y l]]; try now (destruct (active u); try discriminate). now destruct (Hn x).
      - apply cwp_seq. eapply cwp_act; [reflexivity|]. cbn [fst p_set_active]. set (u1 := put _ u).
        assert (H1 : good u1).
        { split; [exact (base_active same get put allowed get_put allowed_put u VNone HB)|]. unfold u1. rewrite get_put. cbn.
          destruct (items u) as [|x [|y l]]; try reflexivity. now destruct (Hn x). }
        apply cwp_seq. apply cwp_say; [now apply good_B|]. intros u2 _ HB2 HR2. cbn. eapply R_good; eauto. }
    destruct (items u) as [|x [|y l]] eqn:Hi; [apply D; discriminate|now apply Hs|apply D; discriminate]. }
  induction n as [|n IH]; intros u HB; apply K; auto.
  - intros x Hx. exact Logic.I.
  - intros x Hx. eapply cwp_mono; [|apply (setact_c n IH); exact HB]. cbn. intros u' _ [[-> H']|H']; [|exact H'].
    split; [exact HB|]. rewrite Hx. exact H'.
Qed.
Notation H n := (sel_hooks same si get allowed (upd n)).
Lemma add_s : forall n x, sound (bs_add same pitems psi (H n) x).
Proof.
  intros n x u HB. eapply cwp_mono; [|apply (add_c n (upd_c n)); exact HB]. cbn. intros u' _ [[-> _]|H']; [split; [exact HB|apply R_refl]|].
  destruct H' as [H1 H2]; split; [exact H1|now right].
Qed.
Lemma discard_s : forall n x, sound (bs_discard same pitems psi (H n) x).
Proof.
  intros n x u HB. eapply cwp_mono; [|apply (discard_c n (upd_c n)); exact HB]. cbn. intros u' _ [[-> _]|H']; [split; [exact HB|apply R_refl]|].
  destruct H' as [H1 H2]; split; [exact H1|now right].
Qed.
Lemma bsclear_s : forall n, sound (bs_clear (fun l => l) pitems psi (H n)).
Proof.
  intros n u HB. eapply cwp_mono; [|apply (clear_c n (upd_c n)); exact HB]. cbn. intros u' _ [[-> _]|H']; [split; [exact HB|apply R_refl]|].
  destruct H' as [H1 H2]; split; [exact H1|now right].
Qed.
Lemma setact_s : forall n v, sound (setact (S n) v).
Proof.
  intros n v u HB. eapply cwp_mono; [|apply (setact_c n (upd_c n)); exact HB]. cbn. intros u' _ [[-> _]|H']; [split; [exact HB|apply R_refl]|].
  destruct H' as [H1 H2]; split; [exact H1|now right].
Qed.
Notation ret_s := (sound_ret B R R_refl).
Notation throw_s := (sound_throw B R).
Notation bind_s := (sound_bind B R R_trans).
Notation each_s := (sound_each B R R_refl R_trans).
Notation paused_s := (sound_paused B R R_refl R_trans).
Lemma live_s : forall n f l, (forall x, sound (f x)) -> sound (live pitems n f l).
Proof.
  intros n f l Hf. induction l as [|x l IH]; cbn [live]; [exact (ret_s _)|]. apply bind_s; [apply Hf|]. intros _. apply sound_look. intros u.
  destruct (Nat.eqb _ _); [exact IH|exact (throw_s _)].
Qed.
Lemma over_s : forall a f, (forall x, sound (f x)) -> sound (over (fun l => l) pitems a f).
Proof. intros [l|] f Hf; cbn [over]; [apply each_s; auto|]. apply sound_look. intros u. now apply live_s. Qed.
Lemma toggle_s : forall n x, sound (toggle_item same pitems psi (H n) x).
Proof. intros n x. apply sound_look. intros u. destruct (mem same x (pitems u)); [apply discard_s|apply add_s]. Qed.
Lemma clear_s : forall n k, sound (sl_clear same si sc get put allowed (upd n) k).
Proof. intros n k. apply bind_s; [destruct k; [exact (ret_s _)|apply current_c]|]. intros _. apply paused_s. apply bsclear_s. Qed.
Lemma inter_s : forall n s, sound (bulk si (bs_intersection_update same (fun l => l) pitems psi (H n) s)).
Proof.
  intros n s. apply paused_s. unfold bs_intersection_update. destruct s as [|a s]; [exact (throw_s _)|]. apply sound_look. intros u. apply each_s. intros x _.
  destruct (forallb _ _); [exact (ret_s _)|apply discard_s].
Qed.
Lemma update_s : forall n s, sound (bulk si (bs_update same (fun l => l) pitems psi (H n) s)).
Proof. intros n s. apply paused_s. apply each_s. intros a _. apply over_s. apply add_s. Qed.
Lemma sel_n_sound : forall n o, sound (sel_n same si sa sc get put allowed n o).
Proof.
  intros n o. destruct o as [o| |x|x|v|v|vs]; cbn [sel_n].
  - destruct o.
    + apply add_s.
    + apply discard_s.
    + apply sound_look. intros u. destruct (mem same x (pitems u)); [apply discard_s|exact (throw_s _)].
    + apply sound_look. intros u. destruct (pitems u) as [|x l]; [exact (throw_s _)|]. apply bind_s; [apply discard_s|]. intros _. exact (ret_s _).
    + apply clear_s.
    + apply update_s.
    + apply paused_s. apply each_s. intros a _. apply over_s. apply discard_s.
    + apply inter_s.
    + apply paused_s. apply over_s. apply toggle_s.
    + apply over_s. apply add_s.
    + apply sound_look. intros u. apply each_s. intros x _. apply discard_s.
    + destruct a as [l|]; cbn [bs_isub]; [|apply clear_s]. apply each_s. intros x _. apply discard_s.
    + destruct a as [l|]; cbn [bs_ixor]; [|apply clear_s]. apply each_s. intros x _. apply toggle_s.
  - apply clear_s.
  - apply paused_s. apply over_s. apply toggle_s.
  - apply bind_s; [apply inter_s|]. intros _. apply add_s.
  - apply setact_s.
  - apply current_c.
  - apply bind_s; [apply inter_s|]. intros _. apply update_s.
Qed.
End Sel.
