(** EventedLists used by the listeners of their own events: C101. *)

From Coq Require Import Permutation.
From Verif Require Import Base Core Spec Frame Fuel Demo Client Prog Guard PyList EList SpecList PropsList SpecReentry PropsReentry SpecListUse.
Open Scope Z_scope.
Open Scope list_scope.

Lemma chain_more : forall {U} (R : U -> sid -> list val -> U -> Prop) u h v s a v', chain R u h v -> R v s a v' -> chain R u (h ++ [(s, a, v')]) v'.
Proof. intros U R u h v s a v' H HR. induction H as [u|u s1 a1 v1 h u' H1 _ IH]; cbn; econstructor; eauto. constructor. Qed.

Section Lists.
Variable eqv : val -> val -> bool.
Variable islist : val -> bool.
Variable wrap : val -> val.
Variable l0 : list val.
Notation I := (fun u h => chain tells l0 h u).
Notation sound := (Guard.sound list_signals I).
Notation gwp := (gwp list_signals I).

(** An emission, after which nothing matters but the invariant. *)
Lemma say_l : forall s a l l' h (Q : list val -> list (sid * list val * list val) -> val + exn -> Prop), list_signals s = true -> I l h -> tells l s a l' ->
  (forall u' h' x, I u' h' -> Q u' h' x) -> gwp (say s a) l' h Q.
Proof. intros s a l l' h Q Hs HI HT HQ. apply gwp_say; [|exact HQ]. rewrite Hs. exact (chain_more _ _ _ _ _ _ _ HI HT). Qed.
Ltac gone := match goal with |- forall u' h' x, _ -> match x with inl _ => _ | inr _ => _ end => intros ? ? [?|?] ?; [|assumption] end.
Lemma insert_l : forall i v, sound (el_insert i v).
Proof.
  intros i v l h HI. apply gwp_seq. eapply say_l; [reflexivity|exact HI|apply te_inserting|]. gone.
  apply gwp_seq. apply gwp_act. cbn [fst snd do_insert]. apply gwp_seq. eapply say_l; [reflexivity|eassumption|apply te_inserted|]. gone. assumption.
Qed.
Lemma get_l : forall i, sound (el_get islist wrap i).
Proof. intros i l h HI. cbn. destruct (at_ l i); exact HI. Qed.
Lemma set_l : forall i v, sound (el_set i v).
Proof.
  intros i v l h HI. unfold el_set. cbn [Guard.gwp]. destruct (at_ l i) as [old|] eqn:HA; [|exact HI].
  destruct (val_eqb v old) eqn:HE; [exact HI|]. apply gwp_seq. apply gwp_act. unfold do_set.
  destruct (list_set l i v) as [l'|] eqn:HS; cbn [fst snd]; [|exact HI].
  apply gwp_seq. eapply say_l; [reflexivity|exact HI| |].
  - eapply te_changed; eauto. intros ->. rewrite (proj2 (val_eqb_eq _ _) eq_refl) in HE. discriminate.
  - gone. assumption.
Qed.
Lemma set_slice_l : forall s vs, sound (el_set_slice s vs).
Proof.
  intros s vs l h HI. unfold el_set_slice. cbn [Guard.gwp]. destruct (get_slice l s) as [old|] eqn:HA; [|exact HI].
  destruct vs as [vs|]; [|exact HI]. apply gwp_seq. apply gwp_act. unfold do_set_slice.
  destruct (set_slice l s vs) as [l'|] eqn:HS; cbn [fst snd]; [|exact HI]. destruct s as [[a b] c].
  apply gwp_seq. eapply say_l; [reflexivity|exact HI|eapply te_changed_slice; eauto|]. gone. assumption.
Qed.
Lemma del_one_l : forall i, sound (del_one i).
Proof.
  intros i l h HI. apply gwp_seq. eapply say_l; [reflexivity|exact HI|apply te_removing|]. gone.
  apply gwp_bind. apply gwp_act. unfold do_pop. match goal with |- context [list_pop ?l i] => destruct (list_pop l i) as [[x l']|] eqn:HP end; cbn [fst snd]; [|assumption].
  eapply say_l; [reflexivity|eassumption|apply te_removed; exact HP|]. intros u2 h2 x2 HI2. exact HI2.
Qed.
Lemma del_l : forall i, sound (el_del i).
Proof. intros i. apply sound_look. intros l. apply sound_each. intros x _. apply del_one_l. Qed.
Lemma del_slice_l : forall s, sound (el_del_slice s).
Proof.
  intros s. apply sound_look. intros l. destruct (slice_range (size l) s); [|exact (sound_throw _ _ _)]. apply sound_each. intros x _. apply del_one_l.
Qed.
Lemma append_l : forall v, sound (el_append v).
Proof. intros v. apply sound_look. intros l. apply insert_l. Qed.
Lemma extend_l : forall vs, sound (el_extend vs).
Proof. intros vs. apply sound_each. intros v _. apply append_l. Qed.
Lemma pop_l : forall i, sound (el_pop islist wrap i).
Proof. intros i. apply sound_bind; [apply get_l|]. intros v. apply sound_bind; [apply del_l|]. intros _. exact (sound_ret _ _ _). Qed.
Lemma clear_l : forall n, sound (clear_loop islist wrap n).
Proof.
  induction n as [|n IH]; cbn [clear_loop]; [exact (sound_throw _ _ _)|]. apply sound_catch; [apply pop_l|].
  intros [v|e]; [exact IH|]. destruct e; first [exact (sound_throw _ _ _)|exact (sound_ret _ _ _)].
Qed.
Lemma reordered_l : sound (say reordered [];; Ret VNone).
Proof. intros l h HI. apply gwp_seq. eapply say_l; [reflexivity|exact HI|now apply te_reordered|]. gone. assumption. Qed.
Lemma reverse_l : forall ind, sound (el_reverse islist wrap ind).
Proof.
  intros [|]; unfold el_reverse.
  - apply sound_bind; [|intros _; apply reordered_l]. apply sound_look. intros l. apply sound_each. intros i _.
    apply sound_bind; [apply get_l|]. intros a. apply sound_bind; [apply get_l|]. intros b. apply sound_bind; [apply set_l|]. intros _. apply set_l.
  - intros l h HI. apply gwp_seq. apply gwp_act. cbn [fst snd]. apply gwp_seq.
    eapply say_l; [reflexivity|exact HI|apply te_reordered; apply Permutation_rev|]. gone. assumption.
Qed.
Lemma move_l : forall i j, sound (el_move i j).
Proof.
  intros i j l h HI. unfold el_move. cbn [Guard.gwp]. set (d := if j <? 0 then _ else _).
  destruct ((d =? i) || (d =? i + 1))%bool; [exact HI|]. apply gwp_seq. eapply say_l; [reflexivity|exact HI|apply te_moving|]. gone.
  apply gwp_bind. apply gwp_act. unfold do_pop. match goal with |- context [list_pop ?l i] => destruct (list_pop l i) as [[x l']|] eqn:HP end; cbn [fst snd]; [|assumption].
  apply gwp_seq. apply gwp_act. cbn [fst snd do_insert]. apply gwp_seq. eapply say_l; [reflexivity|eassumption|apply te_moved; exact HP|]. gone.
  apply gwp_seq. eapply say_l; [reflexivity|eassumption|now apply te_reordered|]. gone. assumption.
Qed.
Lemma blocked_l : forall s x p, sound p -> sound (with_blocked s x p).
Proof.
  intros s x p Hp. apply sound_bind; [now apply sound_call|]. intros was. apply sound_bind; [now apply sound_call|]. intros _.
  apply sound_catch; [exact Hp|]. intros y. apply sound_bind; [|intros _; destruct y; [exact (sound_ret _ _ _)|exact (sound_throw _ _ _)]].
  destruct was; try (now apply sound_call). destruct b; first [exact (sound_ret _ _ _)|now apply sound_call].
Qed.
Lemma move_multiple_l : forall s j, sound (el_move_multiple s j).
Proof.
  intros s j. apply sound_look. intros l. destruct (move_plan (size l) s j) as [plan|]; [|exact (sound_throw _ _ _)].
  apply sound_bind; [apply blocked_l; apply sound_each; intros m _; apply move_l|]. intros _.
  intros l1 h HI. apply gwp_seq. eapply say_l; [reflexivity|exact HI|now apply te_reordered|]. gone. assumption.
Qed.
Lemma used_l_sound : forall p, used_l eqv islist wrap p -> sound p.
Proof.
  intros p [ind o Ho|n| |i j|s j].
  - destruct o; cbn [evented]; try contradiction.
    + apply insert_l.
    + apply append_l.
    + apply extend_l.
    + apply set_l.
    + apply set_slice_l.
    + apply del_l.
    + apply del_slice_l.
    + apply pop_l.
    + apply sound_look. intros l. destruct (find_index _ _ _ _ _ _); [apply del_l|exact (sound_throw _ _ _)].
    + apply reverse_l.
    + apply extend_l.
  - apply clear_l.
  - apply sound_look. intros l. apply extend_l.
  - apply move_l.
  - apply move_multiple_l.
Qed.
End Lists.

(** * C101 *)
(** However listeners use the list: each event tells exactly what changed since the event before it. *)
Theorem C101_told : forall E eqv islist wrap p w w' r,
  users list_signals (used_l eqv islist wrap) E -> user list_signals (used_l eqv islist wrap) p ->
  runs E p w w' r -> exists t, w_tr w' = w_tr w ++ t /\ chain tells (w_usr w) (heard list_signals t) (w_usr w').
Proof.
  intros E eqv islist wrap p w w' r HE Hp HR.
  apply (user_runs list_signals (fun u h => chain tells (w_usr w) h u) (used_l eqv islist wrap) E HE) with (p := p) (r := r); auto; [|constructor].
  intros q. apply used_l_sound.
Qed.
(** Listeners: 1 (of removing 1, two items): inserts 100 in front; 2 (of removing 2, three items): deletes the first item; 3 (of
    inserted): makes a 100 at the front 101, and moves it to the end when there are more than three items. *)
Definition L_used (o : lop) : prog data := evented no_eq no_lists (fun x => x) false o.
Definition L_body (f : oid) (a : list val) : prog data :=
  match f, a with
  | 1%nat, [VInt 1] => Look (fun l => match l with [_; _] => L_used (LInsert 0 (VInt 100)) | _ => Ret VNone end)
  | 2%nat, [VInt 2] => Look (fun l => match l with [_; _; _] => L_used (LDel 0) | _ => Ret VNone end)
  | 3%nat, [VInt 0; VInt 100] => bind (L_used (LSet 0 (VInt 101))) (fun _ => Look (fun l => if (3 <? size l)%Z then el_move 0 (-1) else Ret VNone))
  | _, _ => Ret VNone
  end.
Definition L_env : env data := demo L_body.
Definition L_world (l : data) := world_of L_env list_cfg l 200%nat [conn removing 1%nat 0; conn removing 2%nat 0; conn inserted 3%nat 0].
Lemma L_users : users list_signals (used_l no_eq no_lists (fun x => x)) L_env.
Proof.
  assert (Used : forall o, o <> LClear -> user list_signals (used_l no_eq no_lists (fun x => x)) (L_used o)) by (intros o Ho; apply us_used; now apply ul_op).
  assert (Move : forall i j, user list_signals (used_l no_eq no_lists (fun x => x)) (el_move i j)) by (intros; apply us_used; constructor).
  assert (Body : forall f a, user list_signals (used_l no_eq no_lists (fun x => x)) (L_body f a)).
  { intros f a; unfold L_body.
    repeat match goal with
    | |- user _ _ (el_move _ _) => apply Move
    | |- user _ _ (Ret _) => apply us_ret
    | |- user _ _ (Look _) => apply us_look; intros
    | |- user _ _ (bind _ _) => apply us_bind; [|intros]
    | |- user _ _ (match ?x with _ => _ end) => destruct x
    | |- _ => apply Used; discriminate
    end. }
  split; [|intros; apply us_ret]. intros t a w. destruct t; cbn [L_env demo e_body]; try apply us_ret; apply Body.
Qed.
Example C101_case :
  let res o l := let w' := after L_env 300%nat (L_used o) (L_world l) in (w_usr w', new_events list_signals (L_world l) w') in
  users list_signals (used_l no_eq no_lists (fun x => x)) L_env
  /\ res (LDel 1) [VInt 10; VInt 20] = ([VInt 101; VInt 20],
     [(removing, [VInt 1]); (inserting, [VInt 0]); (inserted, [VInt 0; VInt 100]); (changed, [VInt 0; VInt 100; VInt 101]); (removed, [VInt 1; VInt 10])])
  /\ res (LInsert 0 (VInt 100)) [VInt 1; VInt 2; VInt 3] = ([VInt 1; VInt 2; VInt 3; VInt 101],
     [(inserting, [VInt 0]); (inserted, [VInt 0; VInt 100]); (changed, [VInt 0; VInt 100; VInt 101]);
      (moving, [VInt 0; VInt 4]); (moved, [VInt 0; VInt 3; VInt 101]); (reordered, [])]).
Proof. split; [apply L_users|]. vm_compute. repeat split. Qed.
Print Assumptions C101_told.

(** * C102 *)
(** pop() can return another item than it removes, and clear() return without having removed everything. *)
Theorem C102_pop_refuted : exists (E : env data) eqv islist wrap i w w' v,
  users list_signals (used_l eqv islist wrap) E /\ reachable E w /\ runs E (evented eqv islist wrap false (LPop i)) w w' (Ok v)
  /\ NoDup (w_usr w) /\ In v (w_usr w').
Proof.
  set (l := [VInt 10; VInt 20]). set (p := evented no_eq no_lists (fun x => x) false (LPop 1)).
  exists L_env, no_eq, no_lists, (fun x => x), 1, (L_world l), (after L_env 300%nat p (L_world l)), (VInt 20).
  split; [apply L_users|]. split; [reach|]. split; [apply after_runs; vm_compute; reflexivity|].
  split; [change (w_usr (L_world l)) with l; unfold l; repeat constructor; cbn; intuition discriminate|]. assert (H : w_usr (after L_env 300%nat p (L_world l)) = [VInt 101; VInt 20]) by (vm_compute; reflexivity).
  rewrite H. cbn. auto.
Qed.
Theorem C102_clear_refuted : exists (E : env data) eqv islist wrap w w' v,
  users list_signals (used_l eqv islist wrap) E /\ reachable E w /\ runs E (evented eqv islist wrap false LClear) w w' (Ok v) /\ w_usr w' <> [].
Proof.
  set (l := [VInt 10; VInt 20; VInt 30]). set (p := evented no_eq no_lists (fun x => x) false LClear).
  exists L_env, no_eq, no_lists, (fun x => x), (L_world l), (after L_env 300%nat p (L_world l)), VNone.
  split; [apply L_users|]. split; [reach|]. split; [apply after_runs; vm_compute; reflexivity|].
  assert (H : w_usr (after L_env 300%nat p (L_world l)) = [VInt 20; VInt 30]) by (vm_compute; reflexivity). rewrite H. discriminate.
Qed.
Print Assumptions C102_pop_refuted.
Print Assumptions C102_clear_refuted.
