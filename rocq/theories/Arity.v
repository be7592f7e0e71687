(** Argument counts (C04).  Proof infrastructure. *)

From Verif Require Import Base Core Spec.

Section Tail.
Variables (kws kwargs : list param).
Hypothesis Hk : Forall (fun p => p_kind p = KwOnly) kws.
Hypothesis Hw : Forall (fun p => p_kind p = VarKw) kwargs.

Lemma accepts_kwargs : accepts kwargs 0.
Proof.
  pose proof Hw as KHw; clear Hw; induction KHw as [|p l Hp Hl IH]; [constructor|]. apply acc_kws; auto.
Qed.
Lemma accepts_kwargs_only : forall n, accepts kwargs n -> n = 0.
Proof.
  intros n H. destruct kwargs as [|p l]; [now inversion H|].
  inversion Hw; subst. inversion H; subst; auto; try (destruct H4; congruence); congruence.
Qed.
Lemma accepts_tail : forall n, accepts (kws ++ kwargs) n <->
  n = 0 /\ Forall (fun p => p_default p = true) kws.
Proof.
  pose proof Hk as KHk; clear Hk; induction KHk as [|p l Hp Hl IH]; intros n; cbn.
  - split; [intros H; split; [now apply accepts_kwargs_only|constructor]|].
    intros [-> _]. apply accepts_kwargs.
  - split.
    + intros H. inversion H; subst; try (destruct H2; congruence); try congruence.
      apply IH in H5. destruct H5. split; auto.
    + intros [-> HF]. inversion HF; subst. apply acc_kw; auto. apply IH; auto; tauto.
Qed.
Lemma scan_kwargs : forall fb r o u, scan_params fb kwargs r o u = inl (r, o, u).
Proof.
  pose proof Hw as KHw; clear Hw; induction KHw as [|p l Hp Hl IH]; intros; cbn; [reflexivity|]. rewrite Hp. apply IH.
Qed.
Lemma scan_tail : forall r o u, scan_params true (kws ++ kwargs) r o u =
  if forallb p_default kws then inl (r, o, u) else inr EValue.
Proof.
  pose proof Hk as KHk; clear Hk; induction KHk as [|p l Hp Hl IH]; intros; cbn; [apply scan_kwargs|].
  rewrite Hp. destruct (p_default p); cbn; [apply IH|reflexivity].
Qed.

Variable star : list param.
Hypothesis Hs : Forall (fun p => p_kind p = VarPos) star.
Hypothesis Hs1 : List.length star <= 1.

Lemma scan_star : forall r o, scan_params true (star ++ kws ++ kwargs) r o false =
  if forallb p_default kws then inl (r, o, match star with [] => false | _ => true end) else inr EValue.
Proof.
  intros. destruct star as [|p [|q l]]; cbn in Hs1; [apply scan_tail| |lia].
  inversion Hs; subst. cbn. rewrite H1. apply scan_tail.
Qed.
Lemma accepts_star : forall n, accepts (star ++ kws ++ kwargs) n <->
  (star = [] -> n = 0) /\ Forall (fun p => p_default p = true) kws.
Proof.
  intros n. destruct star as [|p [|q l]]; cbn in Hs1; [|clear Hs1|lia].
  - cbn. rewrite accepts_tail. intuition.
  - inversion Hs; subst. cbn. split.
    + intros H. inversion H; subst; try (destruct H5; congruence); try (destruct H4; congruence); try congruence.
      apply accepts_tail in H6. split; [discriminate|apply H6].
    + intros [_ HF]. apply acc_star; auto. apply accepts_tail; auto.
Qed.

Variable opt : list param.
Hypothesis Ho : Forall (fun p => (p_kind p = PosOnly \/ p_kind p = PosOrKw) /\ p_default p = true) opt.
Lemma scan_opt : forall r o, scan_params true (opt ++ star ++ kws ++ kwargs) r o false =
  scan_params true (star ++ kws ++ kwargs) r (List.length opt + o) false.
Proof.
  
  pose proof Ho as KHo; clear Ho; induction KHo as [|p l Hp Hl IH]; intros; cbn; [reflexivity|]. destruct Hp as [[-> | ->] ->];
    rewrite IH; f_equal; lia.
Qed.
Lemma accepts_opt : forall n, accepts (opt ++ star ++ kws ++ kwargs) n <->
  (star = [] -> n <= List.length opt) /\ Forall (fun p => p_default p = true) kws.
Proof.
  pose proof Ho as KHo; clear Ho; induction KHo as [|p l [Hp Hd] Hl IH]; intros n; cbn.
  - rewrite accepts_star. intuition lia.
  - split.
    + intros H. inversion H; subst; try (destruct Hp; congruence).
      * apply IH in H4. destruct H4 as [H4 H5]. split; auto. intros Hx. specialize (H4 Hx). lia.
      * apply IH in H5. destruct H5 as [H5 H6]. split; [intros; lia|auto].
    + intros [H1 H2]. destruct n as [|n].
      * apply acc_skip; auto. apply IH. split; [intros; lia|auto].
      * apply acc_pos; auto. apply IH. split; auto. intros Hx. specialize (H1 Hx). lia.
Qed.

Variable req : list param.
Hypothesis Hr : Forall (fun p => (p_kind p = PosOnly \/ p_kind p = PosOrKw) /\ p_default p = false) req.
Lemma scan_req : forall r, scan_params true (req ++ opt ++ star ++ kws ++ kwargs) r 0 false =
  scan_params true (opt ++ star ++ kws ++ kwargs) (List.length req + r) 0 false.
Proof.
  
  pose proof Hr as KHr; clear Hr; induction KHr as [|p l Hp Hl IH]; intros; cbn; [reflexivity|]. destruct Hp as [[-> | ->] ->];
    rewrite IH; f_equal; lia.
Qed.
Lemma accepts_req : forall n, accepts (req ++ opt ++ star ++ kws ++ kwargs) n <->
  List.length req <= n /\ (star = [] -> n <= List.length req + List.length opt)
  /\ Forall (fun p => p_default p = true) kws.
Proof.
  pose proof Hr as KHr; clear Hr; induction KHr as [|p l [Hp Hd] Hl IH]; intros n; cbn.
  - rewrite accepts_opt. intuition lia.
  - split.
    + intros H. inversion H; subst; try (destruct Hp; congruence); try congruence.
      apply IH in H4. intuition lia.
    + intros (H1 & H2 & H3). destruct n as [|n]; [lia|]. apply acc_pos; auto. apply IH.
      intuition lia.
Qed.
End Tail.

Lemma forallb_Forall : forall l, forallb p_default l = true <-> Forall (fun p => p_default p = true) l.
Proof. intros. rewrite forallb_forall, Forall_forall. reflexivity. Qed.

(** The range computed from a signature is exact. *)
Theorem posarg_range_ok : forall ps, well_formed ps ->
  match posarg_range ps true with
  | inr _ => forall n, ~ accepts ps n
  | inl (mn, mx) => forall n, accepts ps n <-> mn <= n /\ match mx with Some m => n <= m | None => True end
  end.
Proof.
  intros ps (req & opt & star & kws & kwargs & -> & Hr & Ho & Hs1 & Hs & Hk & Hw1 & Hw).
  unfold posarg_range. rewrite scan_req, scan_opt, scan_star by assumption.
  destruct (forallb p_default kws) eqn:HF.
  - apply forallb_Forall in HF. intros n. rewrite accepts_req by assumption.
    destruct star; rewrite ?Nat.add_0_r; intuition discriminate.
  - intros n H. apply accepts_req in H; auto. destruct H as (_ & _ & H). apply forallb_Forall in H. congruence.
Qed.
