(** Containers used by the listeners of their own events: C98, C99, C100. *)

From Verif Require Import Base Core Spec Frame Fuel Demo Client Prog Guard PyDict PySet EDict SpecDict PropsDict ESet SpecSet SetFacts PropsSet SpecReentry.
From Coq Require Import Permutation.
Open Scope string_scope.
Open Scope list_scope.

Section General.
Context {U : Type} (C : sid -> bool) (I : U -> list (sid * list val * U) -> Prop) (used : prog U -> Prop).
Notation sound := (Guard.sound C I).
Lemma user_sound : (forall p, used p -> sound p) -> forall p, user C used p -> sound p.
Proof.
  intros HU p H. induction H as [v|e| |k _ IH|o k Ho _ IH|p k _ IHp _ IHk|p k _ IHp _ IHk|p Hp].
  - intros u h HI; exact HI.
  - intros u h HI; exact HI.
  - intros u h HI; exact HI.
  - intros u h HI. cbn. now apply IH.
  - intros u h HI. assert (HK : forall u' h' x, I u' h' -> gwp C I (k x) u' h' (fun u' h' _ => I u' h')) by (intros; now apply IH).
    destruct o; cbn; try (split; [exact HI|exact HK]); try contradiction; (split; [rewrite Ho; exact HI|exact HK]).
  - now apply sound_bind.
  - now apply sound_catch.
  - now apply HU.
Qed.
Theorem user_runs : forall E, users C used E -> (forall p, used p -> sound p) -> forall p w w' r,
  user C used p -> runs E p w w' r -> I (w_usr w) [] -> exists t, w_tr w' = w_tr w ++ t /\ I (w_usr w') (heard C t).
Proof.
  intros E [HE1 HE2] HU p w w' r Hp HR HI. apply (guard_sound E C I) with (p := p) (r := r) (h := []); auto.
  - split; intros; now apply user_sound.
  - now apply user_sound.
Qed.
End General.

(** Consistent content, true events, and up to date. *)
Section Told.
Context {U : Type} (proper : U -> Prop) (truth : sid -> list val -> U -> Prop) (tell1 : U -> sid * list val -> U).
Definition told (u0 u : U) (h : list (sid * list val * U)) : Prop :=
  proper u /\ Forall (fun e => let '(s, a, u) := e in proper u /\ truth s a u) h
  /\ up_to_date (fun u0 h => fold_left tell1 (map fst h) u0) u0 h u.
Lemma told_nil : forall u, proper u -> told u u [].
Proof. intros u H. split; [exact H|]. split; [constructor|]. split; [|reflexivity]. intros [|] s a v h2 K; discriminate K. Qed.
Lemma told_more : forall u0 u h s a u', told u0 u h -> proper u' -> truth s a u' -> u' = tell1 u (s, a) -> told u0 u' (h ++ [(s, a, u')]).
Proof.
  intros u0 u h s a u' (H1 & H2 & H3 & H4) Hp HT He. split; [exact Hp|]. split; [apply Forall_app; split; [exact H2|constructor; [auto|constructor]]|].
  assert (K : u' = fold_left tell1 (map fst (h ++ [(s, a, u')])) u0).
  { rewrite map_app, fold_left_app. cbn [map fst fold_left]. now rewrite <- H4. }
  split; [|exact K]. intros h1 s1 a1 v h2 Hh. destruct h2 as [|e h2 _] using rev_ind.
  - apply app_inj_tail in Hh as [-> Hh]. injection Hh as <- <- <-. exact K.
  - rewrite app_comm_cons, app_assoc in Hh. apply app_inj_tail in Hh as [-> _]. apply (H3 h1 s1 a1 v h2). reflexivity.
Qed.
End Told.

(** * EventedDict *)
Section Dicts.
Variable same : val -> val -> bool.
Hypothesis HQ : equivalence same.
Variable typed : val -> bool.
Notation proper := (proper same typed).
Notation true_d := (true_d same typed).
Variable d0 : dict.
Notation I := (told proper true_d (retell1 same) d0).
Notation sound := (Guard.sound dict_signals I).
Notation gwp := (gwp dict_signals I).

Lemma dget_typed : forall k v d, proper d -> dget same k d = Some v -> typed v = true.
Proof.
  intros k v d [_ H] HG. induction H as [|[x y] d Hx _ IH]; cbn in *; [discriminate|]. destruct (same k x); [congruence|auto].
Qed.
Lemma dget_dset : forall k v d, dget same k (dset same k v d) = Some v.
Proof.
  intros k v d. destruct HQ as (R & _). induction d as [|[x y] d IH]; cbn; [now rewrite R|]. destruct (same k x) eqn:H; cbn; now rewrite H.
Qed.
Lemma mem_dset : forall x k v d, mem same x (map fst (dset same k v d)) = true -> same x k = true \/ mem same x (map fst d) = true.
Proof.
  intros x k v d. induction d as [|[y z] d IH]; cbn [dset].
  - cbn. intros H. apply orb_true_iff in H as [H|H]; [auto|discriminate].
  - destruct (same k y); cbn [map fst]; rewrite !mem_cons; intros H; apply orb_true_iff in H as [H|H]; rewrite ?orb_true_iff; auto.
    destruct (IH H); auto.
Qed.
Lemma mem_ddel : forall x k d, mem same x (map fst (ddel same k d)) = true -> mem same x (map fst d) = true.
Proof.
  intros x k d. induction d as [|[y z] d IH]; cbn [ddel]; [auto|].
  destruct (same k y); cbn [map fst]; rewrite ?mem_cons; intros H; rewrite ?orb_true_iff in *; [auto|]. destruct H as [H|H]; auto.
Qed.
Lemma proper_dset : forall k v d, typed v = true -> proper d -> proper (dset same k v d).
Proof.
  intros k v d Hv [H1 H2]. destruct HQ as (R & S & T). split.
  - clear H2. induction d as [|[x y] d IH]; cbn in *; [auto|]. destruct H1 as [Hm Hd]. destruct (same k x) eqn:K; cbn; [auto|].
    split; [|auto]. destruct (mem same x (map fst (dset same k v d))) eqn:Hn; [|reflexivity].
    destruct (mem_dset _ _ _ _ Hn) as [H|H]; [apply S in H|]; congruence.
  - clear H1. induction H2 as [|[x y] d Hx Hd IH]; cbn; [constructor; [exact Hv|constructor]|]. destruct (same k x); constructor; auto.
Qed.
Lemma proper_ddel : forall k d, proper d -> proper (ddel same k d).
Proof.
  intros k d [H1 H2]. split.
  - clear H2. induction d as [|[x y] d IH]; cbn in *; [auto|]. destruct H1 as [Hm Hd]. destruct (same k x); cbn; [exact Hd|].
    split; [|auto]. destruct (mem same x (map fst (ddel same k d))) eqn:Hn; [|reflexivity]. apply mem_ddel in Hn. congruence.
  - clear H1. induction H2 as [|[x y] d Hx Hd IH]; cbn; [constructor|]. destruct (same k x); auto.
Qed.
Lemma dget_absent : forall k d, mem same k (map fst d) = false -> dget same k d = None.
Proof.
  intros k d. induction d as [|[x y] d IH]; cbn; [auto|]. intros H. apply orb_false_iff in H as [H1 H2]. rewrite H1. now apply IH.
Qed.
Lemma dget_ddel : forall k d, proper d -> dget same k (ddel same k d) = None.
Proof.
  intros k d [H1 _]. destruct HQ as (R & S & T). induction d as [|[x y] d IH]; cbn in *; [auto|]. destruct H1 as [Hm Hd].
  destruct (same k x) eqn:K; cbn; [|rewrite K; auto]. apply dget_absent. destruct (mem same k (map fst d)) eqn:Hn; [|reflexivity].
  apply existsb_exists in Hn as (z & Hz & Hs). assert (mem same x (map fst d) = true); [|congruence].
  apply existsb_exists. exists z. split; [exact Hz|]. apply (T x k z); auto.
Qed.

(** An event that changes nothing. *)
Lemma say_g : forall s a d h, dict_signals s = true -> I d h -> true_d s a d -> retell1 same d (s, a) = d ->
  I d (if dict_signals s then h ++ [(s, a, d)] else h).
Proof. intros s a d h -> HI HT He. eapply told_more; eauto. apply HI. Qed.
Lemma set_g : forall k v, sound (ed_set same typed k v).
Proof.
  intros k v d h HI. unfold ed_set. cbn [Guard.gwp].
  assert (Put : forall s a d1 h1, I d1 h1 -> dict_signals s = true -> (typed v = true -> true_d s a (dset same k v d1)) -> retell1 same d1 (s, a) = dset same k v d1 ->
    gwp (act (do_put same typed k v);; say s a;; Ret VNone) d1 h1 (fun u' h' _ => I u' h')).
  { intros s a d1 h1 HI1 Hs HT He. apply gwp_seq. apply gwp_act. unfold do_put. destruct (typed v) eqn:Hv; cbn [fst snd]; [|exact HI1].
    apply gwp_seq. apply gwp_say; [|intros u' h' [x|x] HI'; exact HI']. rewrite Hs.
    eapply told_more; [exact HI1|apply proper_dset; [exact Hv|apply HI1]|auto|now rewrite He]. }
  destruct (dget same k d) as [old|] eqn:HG.
  - destruct (val_eqb v old) eqn:HE; [exact HI|]. apply gwp_seq.
    apply gwp_say; [apply say_g; [reflexivity|exact HI|now apply td_changing with (v := old)|reflexivity]|].
    intros d1 h1 [x|x] HI1; [|exact HI1]. apply Put; [exact HI1|reflexivity| |reflexivity]. intros Hv.
    apply td_changed; [apply dget_dset|exact Hv|exact (dget_typed _ _ _ (proj1 HI) HG)|]. intros ->. rewrite (proj2 (val_eqb_eq _ _) eq_refl) in HE. discriminate.
  - apply gwp_seq. apply gwp_say; [apply say_g; [reflexivity|exact HI|now apply td_adding|reflexivity]|].
    intros d1 h1 [x|x] HI1; [|exact HI1]. apply Put; [exact HI1|reflexivity| |reflexivity]. intros Hv. apply td_added; [apply dget_dset|exact Hv].
Qed.
Lemma get_g : forall k, sound (ed_get same k).
Proof. intros k d h HI. cbn. destruct (dget same k d); exact HI. Qed.
Lemma del_g : forall k, sound (ed_del same k).
Proof.
  intros k d h HI. unfold ed_del. apply gwp_bind. cbn [Guard.gwp ed_get]. destruct (dget same k d) as [item|] eqn:HG; cbn [Guard.gwp]; [|exact HI].
  apply gwp_seq. apply gwp_say; [apply say_g; [reflexivity|exact HI|now apply td_removing with (v := item)|reflexivity]|].
  intros d1 h1 [x|x] HI1; [|exact HI1].
  apply gwp_seq. apply gwp_act. unfold do_del. destruct (dget same k d1) as [y|] eqn:HG1; cbn [fst snd]; [|exact HI1].
  apply gwp_seq. apply gwp_say; [|intros u' h' [z|z] HI'; exact HI'].
  change (I (ddel same k d1) (h1 ++ [(d_removed, [k; item], ddel same k d1)])).
  eapply told_more; [exact HI1|apply proper_ddel; apply HI1| |reflexivity]. apply td_removed; [apply dget_ddel; apply HI1|exact (dget_typed _ _ _ (proj1 HI) HG)].
Qed.
Lemma popitem_g : sound (ed_popitem same).
Proof.
  apply sound_look. intros [|[k v] d]; [exact (sound_throw _ _ _)|]. apply sound_bind; [apply get_g|]. intros v'. apply sound_bind; [apply del_g|].
  intros _. exact (sound_ret _ _ _).
Qed.
Lemma used_sound : forall p, used_d same typed p -> sound p.
Proof.
  intros p [(o & Ho & ->)|(n & ->)].
  - destruct o; cbn [evented_d]; try contradiction.
    + apply set_g.
    + apply del_g.
    + apply sound_look. intros d. destruct (dget same k d); [|destruct default; [exact (sound_ret _ _ _)|exact (sound_throw _ _ _)]].
      apply sound_bind; [apply del_g|]. intros _. exact (sound_ret _ _ _).
    + apply popitem_g.
    + apply sound_each. intros x _. apply set_g.
    + apply sound_look. intros d. destruct (dget same k d); [exact (sound_ret _ _ _)|]. apply sound_bind; [apply set_g|]. intros _. exact (sound_ret _ _ _).
  - induction n as [|n IH]; cbn [ed_clear_loop]; [exact (sound_throw _ _ _)|]. apply sound_catch; [apply popitem_g|].
    intros [v|e]; [exact IH|]. destruct e; first [exact (sound_throw _ _ _)|exact (sound_ret _ _ _)].
Qed.
End Dicts.

(** * EventedSet *)
Section Sets.
Variable same : val -> val -> bool.
Hypothesis HQ : equivalence same.
Variable order : list val -> list val.
Hypothesis HO : forall l, Permutation (order l) l.
Variable l0 : sdata.
Notation I := (told (distinct same) (true_s same) (retell1_s same) l0).
Notation sound := (Guard.sound set_signals I).
Notation gwp := (gwp set_signals I).

Lemma all_gone : forall xs l, distinct same l -> (forall x, In x l -> mem same x xs = true) -> fold_left (fun l x => sdel same x l) xs l = [].
Proof.
  destruct HQ as (R & S & T). intros xs; induction xs as [|x xs IH]; intros l HD H; cbn [fold_left].
  - destruct l as [|y l]; [reflexivity|]. specialize (H y (or_introl eq_refl)). discriminate.
  - apply IH; [now apply distinct_sdel|]. intros y Hy.
    assert (Hm : mem same y (sdel same x l) = true) by (apply existsb_exists; exists y; auto).
    rewrite mem_sdel in Hm by auto. apply andb_true_iff in Hm as [_ Hm].
    assert (Hi : In y l). { clear -Hy. induction l as [|z l IH]; cbn in *; [auto|]. destruct (same x z); [now right|]. destruct Hy as [Hy|Hy]; auto. }
    specialize (H y Hi). rewrite mem_cons in H. destruct (same y x); [discriminate|exact H].
Qed.
Lemma add_g : forall x, sound (es_add same x).
Proof.
  intros x l h HI. destruct HQ as (R & S & T). unfold es_add, bs_add. apply gwp_bind. cbn [Guard.gwp pre_add set_hooks]. destruct (mem same x l) eqn:Hm; cbn [bails]; [exact HI|].
  apply gwp_seq. apply gwp_act. cbn [fst snd modify sitems set_sitems]. apply gwp_seq. apply gwp_say; [|intros u' h' [z|z] HI'; exact HI'].
  change (I (sadd same x l) (h ++ [(items_changed, [VTuple [x]; VTuple []], sadd same x l)])).
  eapply told_more; [exact HI|apply distinct_sadd; auto; apply HI| |reflexivity].
  apply ts_changed; [discriminate| |intros y []]. intros y [<-|[]]. apply mem_inside. rewrite mem_sadd by auto. now rewrite R.
Qed.
Lemma discard_g : forall x, sound (es_discard same x).
Proof.
  intros x l h HI. destruct HQ as (R & S & T). unfold es_discard, bs_discard. apply gwp_bind. cbn [Guard.gwp pre_discard set_hooks]. destruct (mem same x l) eqn:Hm; cbn [bails negb]; [|exact HI].
  apply gwp_seq. apply gwp_act. cbn [fst snd modify sitems set_sitems]. apply gwp_seq. apply gwp_say; [|intros u' h' [z|z] HI'; exact HI'].
  change (I (sdel same x l) (h ++ [(items_changed, [VTuple []; VTuple [x]], sdel same x l)])).
  eapply told_more; [exact HI|apply distinct_sdel; auto; apply HI| |reflexivity].
  apply ts_changed; [discriminate|intros y []|]. intros y [<-|[]]. apply mem_outside. rewrite mem_sdel; [|auto|auto|apply HI]. rewrite R. now rewrite andb_false_r.
Qed.
Lemma bs_clear_g : sound (bs_clear order sitems set_sitems (set_hooks same)).
Proof.
  intros l h HI. unfold bs_clear. cbn [Guard.gwp]. apply gwp_bind. cbn [Guard.gwp pre_clear set_hooks]. destruct l as [|x l]; cbn [bails]; [exact HI|].
  apply gwp_seq. apply gwp_act. cbn [fst snd modify sitems set_sitems]. apply gwp_seq. apply gwp_say; [|intros u' h' [z|z] HI'; exact HI'].
  change (I [] (h ++ [(items_changed, [VTuple []; VTuple (order (x :: l))], [])])).
  eapply told_more; [exact HI|exact Logic.I| |].
  - apply ts_changed.
    + cbn. intros H. pose proof (HO (x :: l)) as HP. rewrite H in HP. apply Permutation_nil in HP. discriminate.
    + intros y [].
    + intros y _ (z & [] & _).
  - symmetry. apply all_gone; [exact (proj1 HI)|]. intros y Hy. apply existsb_exists. exists y. split; [|exact (proj1 HQ y)]. eapply Permutation_in; [symmetry; apply HO|exact Hy].
Qed.
Lemma live_g : forall n f l, (forall x, sound (f x)) -> sound (live sitems n f l).
Proof.
  intros n f l Hf. induction l as [|x l IH]; cbn [live]; [exact (sound_ret _ _ _)|]. apply sound_bind; [apply Hf|]. intros _. apply sound_look. intros u.
  destruct (Nat.eqb _ _); [exact IH|exact (sound_throw _ _ _)].
Qed.
Lemma over_g : forall a f, (forall x, sound (f x)) -> sound (over order sitems a f).
Proof. intros [l|] f Hf; cbn [over]; [apply sound_each; auto|]. apply sound_look. intros u. now apply live_g. Qed.
Lemma toggle_g : forall x, sound (toggle_item same sitems set_sitems (set_hooks same) x).
Proof. intros x. apply sound_look. intros u. destruct (mem same x (sitems u)); [apply discard_g|apply add_g]. Qed.
Lemma clear_g : sound (es_clear same order).
Proof. apply sound_paused. apply bs_clear_g. Qed.
Lemma used_s_sound : forall p, used_s same order p -> sound p.
Proof.
  intros p (o & ->). destruct o; cbn [evented_s].
  - apply add_g.
  - apply discard_g.
  - apply sound_look. intros u. destruct (mem same x (sitems u)); [apply discard_g|exact (sound_throw _ _ _)].
  - apply sound_look. intros u. destruct (order (sitems u)) as [|x l]; [exact (sound_throw _ _ _)|]. apply sound_bind; [apply discard_g|]. intros _. exact (sound_ret _ _ _).
  - apply clear_g.
  - apply sound_paused. apply sound_each. intros a _. apply over_g. apply add_g.
  - apply sound_paused. apply sound_each. intros a _. apply over_g. apply discard_g.
  - apply sound_paused. unfold bs_intersection_update. destruct s as [|a s]; [exact (sound_throw _ _ _)|]. apply sound_look. intros u. apply sound_each. intros x _.
    destruct (forallb _ _); [exact (sound_ret _ _ _)|apply discard_g].
  - apply sound_paused. apply over_g. apply toggle_g.
  - apply over_g. apply add_g.
  - apply sound_look. intros u. apply sound_each. intros x _. apply discard_g.
  - destruct a as [l|]; cbn; [|apply clear_g]. apply sound_each. intros x _. apply discard_g.
  - destruct a as [l|]; cbn; [|apply clear_g]. apply sound_each. intros x _. apply toggle_g.
Qed.
End Sets.

Lemma dict_told : forall E same typed p w w' r,
  equivalence same -> users dict_signals (used_d same typed) E -> user dict_signals (used_d same typed) p ->
  runs E p w w' r -> proper same typed (w_usr w) ->
  exists t, w_tr w' = w_tr w ++ t /\ told (proper same typed) (true_d same typed) (retell1 same) (w_usr w) (w_usr w') (heard dict_signals t).
Proof.
  intros E same typed p w w' r HQ HE Hp HR HI. eapply user_runs; eauto; [intros q; now apply used_sound|now apply told_nil].
Qed.
Lemma set_told : forall E same order p w w' r,
  equivalence same -> (forall l, Permutation (order l) l) ->
  users set_signals (used_s same order) E -> user set_signals (used_s same order) p ->
  runs E p w w' r -> distinct same (w_usr w) ->
  exists t, w_tr w' = w_tr w ++ t /\ told (distinct same) (true_s same) (retell1_s same) (w_usr w) (w_usr w') (heard set_signals t).
Proof.
  intros E same order p w w' r HQ HO HE Hp HR HI. eapply user_runs; eauto; [intros q; now apply used_s_sound|now apply told_nil].
Qed.

(** * C98 *)
(** However listeners use the EventedDict they listen to: its keys stay distinct and its values of the base type. *)
Theorem C98_dict : forall E same typed p w w' r,
  equivalence same -> users dict_signals (used_d same typed) E -> user dict_signals (used_d same typed) p ->
  runs E p w w' r -> proper same typed (w_usr w) -> proper same typed (w_usr w').
Proof. intros E same typed p w w' r HQ HE Hp HR HI. destruct (dict_told E same typed p w w' r HQ HE Hp HR HI) as (t & _ & H & _). exact H. Qed.
(** ... and the elements of an EventedSet distinct. *)
Theorem C98_set : forall E same order p w w' r,
  equivalence same -> (forall l, Permutation (order l) l) ->
  users set_signals (used_s same order) E -> user set_signals (used_s same order) p ->
  runs E p w w' r -> distinct same (w_usr w) -> distinct same (w_usr w').
Proof. intros E same order p w w' r HQ HO HE Hp HR HI. destruct (set_told E same order p w w' r HQ HO HE Hp HR HI) as (t & _ & H & _). exact H. Qed.

(** Integers only. *)
Definition ints (v : val) : bool := match v with VInt _ => true | _ => false end.
Definition D_used (o : dop) : prog dict := evented_d val_eqb ints o.
(** Listeners: 1 (of adding 7): unless 8 is there, sets it, and 7; then tries to set a string, and swallows the TypeError.
    2 (of removing 7): while 9 is there, deletes it, and 7.  3 (of added): sets 20, up to three times 1 more. *)
Definition D_body (f : oid) (a : list val) : prog dict :=
  match f, a with
    | 1, [VInt 7] => Look (fun d => match dget val_eqb (VInt 8) d with
        | Some _ => Ret VNone
        | None => bind (D_used (DSet (VInt 8) (VInt 0))) (fun _ => bind (D_used (DSet (VInt 7) (VInt 1))) (fun _ =>
            catch (D_used (DSet (VInt 7) (VStr "x"))) (fun _ => Ret VNone)))
        end)
    | 2, [VInt 7] => Look (fun d => match dget val_eqb (VInt 9) d with
        | None => Ret VNone
        | Some _ => bind (D_used (DDel (VInt 9))) (fun _ => D_used (DDel (VInt 7)))
        end)
    | 3, [VInt 7; _] => Look (fun d => match dget val_eqb (VInt 20) d with
        | Some (VInt 3) => Ret VNone
        | Some (VInt n) => D_used (DSet (VInt 20) (VInt (n + 1)))
        | _ => D_used (DSet (VInt 20) (VInt 1))
        end)
    | _, _ => Ret VNone
    end.
Definition D_env : env dict := demo D_body.
Definition D_world (d : dict) := world_of D_env dict_cfg d 200 [conn d_adding 1 0; conn d_removing 2 0; conn d_added 3 0].
Ltac users Used :=
  repeat match goal with
  | |- user _ _ (Ret _) => apply us_ret
  | |- user _ _ (Look _) => apply us_look; intros
  | |- user _ _ (bind _ _) => apply us_bind; [|intros]
  | |- user _ _ (catch _ _) => apply us_catch; [|intros]
  | |- user _ _ (match ?x with _ => _ end) => destruct x
  | |- _ => apply Used; discriminate
  | |- _ => apply Used
  end.
Lemma D_users : users dict_signals (used_d val_eqb ints) D_env.
Proof.
  assert (Used : forall o, o <> DClear -> user dict_signals (used_d val_eqb ints) (D_used o)) by (intros o Ho; apply us_used; left; eauto).
  assert (Body : forall f a, user dict_signals (used_d val_eqb ints) (D_body f a)) by (intros f a; unfold D_body; users Used).
  split; [|intros; apply us_ret]. intros t a w. destruct t; cbn [D_env demo e_body]; try apply us_ret; apply Body.
Qed.
Example C98_case :
  let p o := D_used o in
  let d := [(VInt 7, VInt 70); (VInt 9, VInt 90)] in
  let res o d := match exec D_env 300 (p o) (D_world d) with Some (w, r) => Some (w_usr w, r) | None => None end in
  users dict_signals (used_d val_eqb ints) D_env /\ user dict_signals (used_d val_eqb ints) (p (DSet (VInt 7) (VInt 2)))
  /\ proper val_eqb ints d
  /\ res (DSet (VInt 7) (VInt 2)) [] = Some ([(VInt 8, VInt 0); (VInt 7, VInt 2); (VInt 20, VInt 2)], Ok VNone)
  /\ res (DSet (VInt 10) VNone) d = Some (d, Err EType)
  /\ res (DPop (VInt 7) None) d = Some ([], Err EKey).
Proof.
  split; [apply D_users|]. split; [apply us_used; left; eexists; split; [|reflexivity]; discriminate|].
  vm_compute. repeat split. repeat constructor.
Qed.
Print Assumptions C98_dict.
(** Listeners of an EventedSet: 1: adds 1 more to what was added, up to 5; 2: removes 3 again. *)
Definition S_used (o : sop) : prog sdata := evented_s val_eqb id o.
Definition S_body (f : oid) (a : list val) : prog sdata :=
  match f, a with
  | 1, [VTuple [VInt n]; _] => if (n <? 5)%Z then S_used (SAdd (VInt (n + 1))) else Ret VNone
  | 2, [VTuple [VInt 3]; _] => catch (S_used (SRemove (VInt 3))) (fun _ => S_used (SUpdate [Items [VInt 8; VInt 8]; Itself]))
  | _, _ => Ret VNone
  end.
Definition S_env : env sdata := demo S_body.
Definition S_world (l : list val) := world_of S_env set_cfg l 200 [conn items_changed 1 0; conn items_changed 2 0].
Lemma S_users : users set_signals (used_s val_eqb id) S_env.
Proof.
  assert (Used : forall o, user set_signals (used_s val_eqb id) (S_used o)) by (intros o; apply us_used; eexists; reflexivity).
  assert (Body : forall f a, user set_signals (used_s val_eqb id) (S_body f a)) by (intros f a; unfold S_body; users Used).
  split; [|intros; apply us_ret]. intros t a w. destruct t; cbn [S_env demo e_body]; try apply us_ret; apply Body.
Qed.
Example C98_set_case :
  let res o l := match exec S_env 300 (S_used o) (S_world l) with Some (w, r) => Some (w_usr w, r) | None => None end in
  users set_signals (used_s val_eqb id) S_env /\ distinct val_eqb [VInt 5; VInt 0]
  /\ res (SAdd (VInt 1)) [VInt 5; VInt 0] = Some ([VInt 5; VInt 0; VInt 1; VInt 2; VInt 4; VInt 8], Ok VNone).
Proof. split; [apply S_users|]. vm_compute. repeat split. Qed.
Print Assumptions C98_set.

(** * C99 *)
(** However listeners use the dict: whenever one of its events is emitted, it is true of the content at that time. *)
Theorem C99_dict : forall E same typed p w w' r,
  equivalence same -> users dict_signals (used_d same typed) E -> user dict_signals (used_d same typed) p ->
  runs E p w w' r -> proper same typed (w_usr w) ->
  exists t, w_tr w' = w_tr w ++ t /\ forall s a d, In (s, a, d) (heard dict_signals t) -> proper same typed d /\ true_d same typed s a d.
Proof.
  intros E same typed p w w' r HQ HE Hp HR HI. destruct (dict_told E same typed p w w' r HQ HE Hp HR HI) as (t & T & _ & HT & _).
  exists t. split; [exact T|]. intros s a d H. rewrite Forall_forall in HT. exact (HT _ H).
Qed.
Theorem C99_set : forall E same order p w w' r,
  equivalence same -> (forall l, Permutation (order l) l) ->
  users set_signals (used_s same order) E -> user set_signals (used_s same order) p ->
  runs E p w w' r -> distinct same (w_usr w) ->
  exists t, w_tr w' = w_tr w ++ t /\ forall s a l, In (s, a, l) (heard set_signals t) -> distinct same l /\ true_s same s a l.
Proof.
  intros E same order p w w' r HQ HO HE Hp HR HI. destruct (set_told E same order p w w' r HQ HO HE Hp HR HI) as (t & T & _ & HT & _).
  exists t. split; [exact T|]. intros s a d H. rewrite Forall_forall in HT. exact (HT _ H).
Qed.
Definition new_events {U} (C : sid -> bool) (w w' : world U) : list (sid * list val) :=
  map fst (heard C (skipn (List.length (w_tr w)) (w_tr w'))).
Example C99_case :
  let w := D_world [] in
  new_events dict_signals w (after D_env 300 (D_used (DSet (VInt 7) (VInt 2))) w)
    = [(d_adding, [VInt 7]); (d_adding, [VInt 8]); (d_added, [VInt 8; VInt 0]); (d_adding, [VInt 7]); (d_added, [VInt 7; VInt 1]);
       (d_adding, [VInt 20]); (d_added, [VInt 20; VInt 1]); (d_changing, [VInt 7]);
       (d_added, [VInt 7; VInt 2]); (d_changing, [VInt 20]); (d_changed, [VInt 20; VInt 1; VInt 2])].
Proof. vm_compute. reflexivity. Qed.
Example C99_set_case :
  let w := S_world [VInt 5; VInt 0] in
  new_events set_signals w (after S_env 300 (S_used (SAdd (VInt 1))) w)
    = [(items_changed, [VTuple [VInt 1]; VTuple []]); (items_changed, [VTuple [VInt 2]; VTuple []]);
       (items_changed, [VTuple [VInt 3]; VTuple []]); (items_changed, [VTuple [VInt 4]; VTuple []]);
       (items_changed, [VTuple []; VTuple [VInt 3]]); (items_changed, [VTuple [VInt 8]; VTuple []])].
Proof. vm_compute. reflexivity. Qed.
Print Assumptions C99_dict.
Print Assumptions C99_set.
(** * C100 *)
(** However listeners use the dict: who applies the events added, changed and removed to what the dict was has its content, at each
    of these events and in the end. *)
Theorem C100_retold : forall E same typed p w w' r,
  equivalence same -> users dict_signals (used_d same typed) E -> user dict_signals (used_d same typed) p ->
  runs E p w w' r -> proper same typed (w_usr w) ->
  exists t, w_tr w' = w_tr w ++ t /\ up_to_date (retell same) (w_usr w) (heard dict_signals t) (w_usr w').
Proof.
  intros E same typed p w w' r HQ HE Hp HR HI. destruct (dict_told E same typed p w w' r HQ HE Hp HR HI) as (t & T & _ & _ & H). eauto.
Qed.
(** ... items_changed to what the set was. *)
Theorem C100_set : forall E same order p w w' r,
  equivalence same -> (forall l, Permutation (order l) l) ->
  users set_signals (used_s same order) E -> user set_signals (used_s same order) p ->
  runs E p w w' r -> distinct same (w_usr w) ->
  exists t, w_tr w' = w_tr w ++ t /\ up_to_date (retell_s same) (w_usr w) (heard set_signals t) (w_usr w').
Proof.
  intros E same order p w w' r HQ HO HE Hp HR HI. destruct (set_told E same order p w w' r HQ HO HE Hp HR HI) as (t & T & _ & _ & H). eauto.
Qed.
Example C100_case :
  let w := D_world [] in let w' := after D_env 300 (D_used (DSet (VInt 7) (VInt 2))) w in
  let v := S_world [VInt 5; VInt 0] in let v' := after S_env 300 (S_used (SAdd (VInt 1))) v in
  fold_left (retell1 val_eqb) (new_events dict_signals w w') [] = [(VInt 8, VInt 0); (VInt 7, VInt 2); (VInt 20, VInt 2)]
  /\ fold_left (retell1_s val_eqb) (new_events set_signals v v') [VInt 5; VInt 0] = [VInt 5; VInt 0; VInt 1; VInt 2; VInt 4; VInt 8].
Proof. vm_compute. auto. Qed.
Print Assumptions C100_retold.
Print Assumptions C100_set.
(** But the events do not tell what happened.  A key can be added twice without being removed in between: *)
Theorem C100_again_refuted : exists (E : env dict) same typed o w w' v,
  equivalence same /\ users dict_signals (used_d same typed) E /\ reachable E w /\ proper same typed (w_usr w)
  /\ runs E (evented_d same typed o) w w' (Ok v)
  /\ exists k x y h h' h'', new_events dict_signals w w' = h ++ (d_added, [k; x]) :: h' ++ (d_added, [k; y]) :: h''
     /\ forall s a, In (s, a) h' -> s <> d_removing /\ s <> d_removed.
Proof.
  set (w := D_world []). set (p := evented_d val_eqb ints (DSet (VInt 7) (VInt 2))).
  exists D_env, val_eqb, ints, (DSet (VInt 7) (VInt 2)), w, (after D_env 300 p w), VNone.
  split; [exact val_eqb_equivalence|]. split; [exact D_users|]. split; [reach|].
  split; [vm_compute; repeat split; constructor|]. split; [apply after_runs; vm_compute; reflexivity|].
  exists (VInt 7), (VInt 1), (VInt 2), [(d_adding, [VInt 7]); (d_adding, [VInt 8]); (d_added, [VInt 8; VInt 0]); (d_adding, [VInt 7])],
    [(d_adding, [VInt 20]); (d_added, [VInt 20; VInt 1]); (d_changing, [VInt 7])], [(d_changing, [VInt 20]); (d_changed, [VInt 20; VInt 1; VInt 2])].
  split; [vm_compute; reflexivity|]. intros s a [H|[H|[H|[]]]]; injection H as <- _; split; discriminate.
Qed.
Print Assumptions C100_again_refuted.
(** Deleting an entry can raise KeyError although it was there and is gone now; and clear(), which takes that for the end, then
    returns without having removed everything. *)
Theorem C100_clear_refuted : exists (E : env dict) same typed w,
  equivalence same /\ users dict_signals (used_d same typed) E /\ reachable E w /\ proper same typed (w_usr w)
  /\ (exists k x w', dget same k (w_usr w) = Some x /\ runs E (evented_d same typed (DDel k)) w w' (Err EKey))
  /\ exists w' v, runs E (evented_d same typed DClear) w w' (Ok v) /\ w_usr w' <> [].
Proof.
  set (d := [(VInt 7, VInt 70); (VInt 9, VInt 90); (VInt 10, VInt 100)]).
  exists D_env, val_eqb, ints, (D_world d).
  split; [exact val_eqb_equivalence|]. split; [exact D_users|]. split; [reach|].
  split; [vm_compute; repeat split; repeat constructor|]. split.
  - exists (VInt 7), (VInt 70), (after D_env 300 (evented_d val_eqb ints (DDel (VInt 7))) (D_world d)).
    split; [vm_compute; reflexivity|apply after_runs; vm_compute; reflexivity].
  - exists (after D_env 300 (evented_d val_eqb ints DClear) (D_world d)), VNone. split; [apply after_runs; vm_compute; reflexivity|].
    assert (H : w_usr (after D_env 300 (evented_d val_eqb ints DClear) (D_world d)) = [(VInt 10, VInt 100)]) by (vm_compute; reflexivity).
    rewrite H. discriminate.
Qed.
Print Assumptions C100_clear_refuted.
(** changed can tell an old value that had been replaced before, as another changed told. *)
Theorem C100_stale_refuted : exists (E : env dict) same typed o w w' v,
  equivalence same /\ users dict_signals (used_d same typed) E /\ reachable E w /\ proper same typed (w_usr w)
  /\ runs E (evented_d same typed o) w w' (Ok v)
  /\ exists k old x y h h', x <> old
     /\ new_events dict_signals w w' = h ++ [(d_changed, [k; old; x]); (d_changing, [k]); (d_changed, [k; old; y])] ++ h'.
Proof.
  set (w := world_of D_env dict_cfg [(VInt 7, VInt 70)] 200 [conn d_changing 1 0]). set (p := evented_d val_eqb ints (DSet (VInt 7) (VInt 2))).
  exists D_env, val_eqb, ints, (DSet (VInt 7) (VInt 2)), w, (after D_env 300 p w), VNone.
  split; [exact val_eqb_equivalence|]. split; [exact D_users|]. split; [reach|].
  split; [vm_compute; repeat split; repeat constructor|]. split; [apply after_runs; vm_compute; reflexivity|].
  exists (VInt 7), (VInt 70), (VInt 1), (VInt 2),
    [(d_changing, [VInt 7]); (d_adding, [VInt 8]); (d_added, [VInt 8; VInt 0]); (d_changing, [VInt 7])], [].
  split; [discriminate|vm_compute; reflexivity].
Qed.
Print Assumptions C100_stale_refuted.
