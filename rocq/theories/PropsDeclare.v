(** Declared signals: C110. *)

From Coq Require Import Ascii.
From Verif Require Import Base Core Declare SpecDeclare.
Open Scope string_scope.
Open Scope nat_scope.

Lemma lower_alike : forall c d, (forall n, n < 26 -> nat_of_ascii d <> 65 + n) -> (alike c d <-> lower1 c = d).
Proof.
  intros c d H. unfold alike, lower1. destruct (Nat.leb_spec 65 (nat_of_ascii c)), (Nat.leb_spec (nat_of_ascii c) 90); cbn [andb].
  2-4: split; [intros [E|(n & H2 & H3 & H4)]; [exact E|lia]|now left].
  split.
  - intros [->|(n & H2 & H3 & H4)]; [exfalso; apply (H (nat_of_ascii d - 65)); lia|].
    rewrite <- (ascii_nat_embedding d). f_equal. lia.
  - intros <-. right. exists (nat_of_ascii c - 65). rewrite nat_ascii_embedding by lia. lia.
Qed.
Fixpoint small (s : string) : bool :=
  match s with EmptyString => true | String c s => negb ((65 <=? nat_of_ascii c) && (nat_of_ascii c <=? 90)) && small s end.
Lemma lower_reads : forall t s, small t = true -> (reads s t <-> lower s = t).
Proof.
  induction t as [|d t IH]; intros [|c s] H; cbn in *; try tauto; try (split; [tauto|discriminate]).
  apply andb_true_iff in H as [H1 H2]. rewrite IH by exact H2. rewrite lower_alike.
  - split; [intros [-> ->]; reflexivity|intros E; injection E; auto].
  - intros n N E. rewrite E in H1. destruct (Nat.leb_spec 65 (65 + n)), (Nat.leb_spec (65 + n) 90); cbn in H1; try discriminate; lia.
Qed.
Lemma small_word : forall m, small (word m) = true.
Proof. now intros []. Qed.
Lemma validate_spec : forall r, (exists m, reads r (word m) /\ validate r = inl (word m)) \/ ((forall m, ~ reads r (word m)) /\ validate r = inr EValue).
Proof.
  intros r. unfold validate. cbv zeta.
  destruct (existsb (String.eqb (lower r)) [IMMEDIATE; QUEUED; LATEST]) eqn:E.
  - left. apply existsb_exists in E as (w & I & E). apply String.eqb_eq in E.
    assert (K : exists m, w = word m).
    { destruct I as [<-|[<-|[<-|[]]]]; [exists Immediate|exists Queued|exists LatestOnly]; reflexivity. }
    destruct K as [m ->]. exists m. rewrite lower_reads by apply small_word. rewrite E. auto.
  - right. split; [|reflexivity]. intros m R. rewrite lower_reads in R by apply small_word. rewrite R in E.
    destruct m; discriminate.
Qed.
Lemma words_differ : forall r m m', reads r (word m) -> reads r (word m') -> m = m'.
Proof.
  intros r m m' H H'. rewrite lower_reads in H, H' by apply small_word. rewrite H in H'. destruct m, m'; try reflexivity; discriminate.
Qed.

(** Signal( *types, …) as class attribute [n]: its instances have these types, options and mode, and accept as many arguments as there are types. *)
Theorem C110_declared : forall of_sig ts name chkn chkt reem n d m,
  declare of_sig (map GType ts) name chkn chkt reem = inl d -> reads reem (word m) ->
  exists st, instance (set_name n d) = inl (Some (match name with Some x => x | None => n end), st) /\
    untouched st /\ s_mode st = m /\ s_chkn st = chkn /\ s_chkt st = chkt /\ map p_ann (s_params st) = ts /\
    forall k, bind_ok (s_params st) k = true <-> k = length ts.
Proof.
  intros of_sig ts name chkn chkt reem n d m D R. injection D as <-.
  set (ps := match map GType ts with GSig ps :: _ => ps | _ => build_signature of_sig (map GType ts) end).
  assert (P : ps = map (fun t => Param PosOnly false t) ts).
  { subst ps. destruct ts as [|t ts]; [reflexivity|]. cbn. unfold build_signature. now rewrite map_map. }
  clearbody ps. subst ps. set (ps := map (fun t => Param PosOnly false t) ts).
  assert (I : instance (set_name n (Decl name chkn chkt reem ps)) =
    inl (Some (match name with Some x => x | None => n end), Sig [] false false false [] [] 0 0 m ps chkn chkt None [])).
  { unfold instance. assert (V : validate (d_reem (set_name n (Decl name chkn chkt reem ps))) = inl (word m)).
    { destruct (validate_spec reem) as [(m' & R' & E)|[N _]]; [|now apply N in R].
      rewrite <- (words_differ _ _ _ R R') in E. destruct name; exact E. }
    rewrite V. destruct name, m; reflexivity. }
  eexists. split; [exact I|]. split; [repeat split|]. split; [reflexivity|]. split; [reflexivity|]. split; [reflexivity|].
  cbn [s_params]. split; [subst ps; rewrite map_map; apply map_id|].
  intros k. unfold bind_ok.
  assert (F : filter is_positional ps = ps) by (subst ps; clear; induction ts as [|t ts IH]; cbn; [reflexivity|now rewrite IH]).
  assert (V : existsb is_varpos ps = false) by (subst ps; clear; induction ts as [|t ts IH]; cbn; [reflexivity|exact IH]).
  assert (W : existsb is_required_kw ps = false) by (subst ps; clear; induction ts as [|t ts IH]; cbn; [reflexivity|exact IH]).
  rewrite F, V, W, orb_false_r, andb_true_r, andb_true_iff, Nat.leb_le.
  assert (L : length ps = length ts) by (subst ps; apply map_length). rewrite L. split.
  - intros [H1 H2]. apply Nat.le_antisymm; [exact H1|]. apply Nat.nlt_ge. intros H3.
    assert (Hs : exists p r, skipn k ps = p :: r /\ p_default p = false).
    { subst ps. clear - H3. revert k H3. induction ts as [|t ts IH]; intros k H; cbn in H; [lia|].
      destruct k; cbn; [eauto|]. apply IH. lia. }
    destruct Hs as (p & r & E & Dp). rewrite E in H2. cbn in H2. now rewrite Dp in H2.
  - intros ->. split; [lia|]. rewrite <- L, skipn_all. reflexivity.
Qed.
Example C110_case : exists d st, declare (fun _ => AEmpty) (map GType [AClass 3; AUnion [1; 2]]) None true false "Latest-ONLY" = inl d /\
  reads "Latest-ONLY" (word LatestOnly) /\ instance (set_name "changed" d) = inl (Some "changed", st) /\ s_mode st = LatestOnly /\
  bind_ok (s_params st) 2 = true /\ bind_ok (s_params st) 1 = false.
Proof.
  do 2 eexists. split; [reflexivity|]. split; [now apply lower_reads|]. split; [reflexivity|]. split; [reflexivity|]. split; reflexivity.
Qed.
Print Assumptions C110_declared.

(** With a Signature: the signature is that one. *)
Theorem C110_signature : forall of_sig ps more name chkn chkt reem n d m,
  declare of_sig (GSig ps :: more) name chkn chkt reem = inl d -> reads reem (word m) ->
  exists st, instance (set_name n d) = inl (Some (match name with Some x => x | None => n end), st) /\
    untouched st /\ s_mode st = m /\ s_chkn st = chkn /\ s_chkt st = chkt /\ s_params st = ps.
Proof.
  intros of_sig ps more name chkn chkt reem n d m D R. injection D as <-.
  unfold instance. assert (V : validate (d_reem (set_name n (Decl name chkn chkt reem ps))) = inl (word m)).
  { destruct (validate_spec reem) as [(m' & R' & E)|[N _]]; [|now apply N in R].
    rewrite <- (words_differ _ _ _ R R') in E. destruct name; exact E. }
  rewrite V. eexists. split; [destruct name; reflexivity|]. split; [repeat split|]. destruct name, m; repeat split.
Qed.
Example C110_signature_case : exists d st, declare (fun _ => AEmpty) [GSig [Param PosOrKw true AEmpty; Param VarPos false AEmpty]; GType AEmpty] (Some "x")
    false true "queued" = inl d /\ reads "queued" (word Queued) /\
  instance (set_name "changed" d) = inl (Some "x", st) /\ length (s_params st) = 2 /\ bind_ok (s_params st) 7 = true.
Proof. do 2 eexists. split; [reflexivity|]. split; [now apply lower_reads|]. split; [reflexivity|]. split; reflexivity. Qed.
Print Assumptions C110_signature.

(** No instances of a signal with another mode: ValueError. *)
Theorem C110_modes : forall d, (forall m, ~ reads (d_reem d) (word m)) <-> instance d = inr EValue.
Proof.
  intros d. unfold instance. destruct (validate_spec (d_reem d)) as [(m & R & ->)|[N ->]].
  - split; [intros N; now apply N in R|discriminate].
  - tauto.
Qed.
Example C110_modes_case : (forall m, ~ reads "latest" (word m)) /\ instance (Decl None true false "latest" []) = inr EValue.
Proof. split; [|reflexivity]. apply (C110_modes (Decl None true false "latest" [])). reflexivity. Qed.
Print Assumptions C110_modes.

(** A wrong mode is not noticed where it is declared, but at each access to the signal of an object. *)
Theorem C110_late_refuted : exists reem d, (forall m, ~ reads reem (word m)) /\
  declare (fun _ => AEmpty) [] None true false reem = inl d /\ instance (set_name "changed" d) = inr EValue.
Proof.
  exists "latest". eexists. split; [exact (proj1 C110_modes_case)|]. split; reflexivity.
Qed.
Print Assumptions C110_late_refuted.
