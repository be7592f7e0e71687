(** decompile and recompile: C96. *)

From Verif Require Import Base Files.

Definition bak (p : path) : path := match p_suffix p with Ext b => Path (p_dir p) (p_stem p) (Bak b) | _ => p end.
Definition compiled_file (p : path) : Prop := exists b, p_suffix p = Ext b.
Definition backup (p : path) : Prop := exists b, p_suffix p = Bak b.

Lemma path_eqb_spec : forall a b, reflect (a = b) (path_eqb a b).
Proof.
  intros [d s x] [d' s' x']. unfold path_eqb. cbn. destruct (Nat.eqb_spec d d'); cbn; [|constructor; congruence].
  destruct (Nat.eqb_spec s s'); cbn; [|constructor; congruence]. subst.
  destruct x as [b|b|n], x' as [b'|b'|n']; cbn; try (constructor; congruence).
  - destruct b, b'; constructor; congruence.
  - destruct b, b'; constructor; congruence.
  - destruct (Nat.eqb_spec n n'); constructor; congruence.
Qed.
Lemma suffix_eqb_spec : forall u v, reflect (u = v) (suffix_eqb u v).
Proof.
  intros u v. destruct u as [u|u|u], v as [v|v|v]; cbn; try (constructor; congruence).
  - destruct u, v; constructor; congruence.
  - destruct u, v; constructor; congruence.
  - destruct (Nat.eqb_spec u v); constructor; congruence.
Qed.
(** One loop: files with suffix [a] become files with suffix [b]. *)
Lemma rename_all_spec : forall a b, a <> b -> forall l f,
  NoDup l -> (forall p, In p l -> p_suffix p = a /\ f p <> None) ->
  forall x, rename_all b l f x =
    if existsb (path_eqb x) l then None
    else if suffix_eqb (p_suffix x) b && existsb (path_eqb (with_suffix x a)) l then f (with_suffix x a) else f x.
Proof.
  intros a b Hab. induction l as [|p l IH]; intros f HN Hl x; cbn [rename_all existsb]; [now rewrite andb_false_r|].
  inversion HN as [|? ? Hp HN']; subst. destruct (Hl p (or_introl eq_refl)) as [Hs Hf].
  set (g := rename p (with_suffix p b) f).
  assert (Hg : forall y, g y = if path_eqb y (with_suffix p b) then f p else if path_eqb y p then None else f y).
  { intros y. unfold g, rename. destruct (f p) as [c|]; [reflexivity|now destruct Hf]. }
  assert (Hne : p <> with_suffix p b) by (intros H; apply Hab; rewrite <- Hs, H; reflexivity).
  assert (Hl' : forall q, In q l -> p_suffix q = a /\ g q <> None).
  { intros q Hq. destruct (Hl q (or_intror Hq)) as [Hqs Hqf]. split; [exact Hqs|]. rewrite Hg.
    destruct (path_eqb_spec q (with_suffix p b)) as [->|_]; [now destruct Hab|]. destruct (path_eqb_spec q p) as [->|_]; [contradiction|exact Hqf]. }
  rewrite (IH g HN' Hl' x). rewrite !Hg.
  assert (Hmem : forall y, existsb (path_eqb y) l = true <-> In y l).
  { intros y. rewrite existsb_exists. split; [intros (z & Hz & E); destruct (path_eqb_spec y z); [now subst|discriminate]|].
    intros Hy. exists y. split; [exact Hy|]. now destruct (path_eqb_spec y y). }
  destruct (path_eqb_spec x p) as [->|Hxp]; cbn [orb].
  - destruct (existsb (path_eqb p) l) eqn:Ep; [apply Hmem in Ep; contradiction|].
    destruct (suffix_eqb_spec (p_suffix p) b) as [E|_]; [rewrite Hs in E; now destruct Hab|]. cbn [andb].
    destruct (path_eqb_spec p (with_suffix p b)); [contradiction|reflexivity].
  - destruct (existsb (path_eqb x) l) eqn:Ex; [reflexivity|].
    destruct (suffix_eqb_spec (p_suffix x) b) as [Eb|Eb]; cbn [andb].
    + destruct (path_eqb_spec (with_suffix x a) p) as [Ea|Ea]; cbn [orb].
      * (* x is where p goes *)
        destruct (existsb (path_eqb (with_suffix x a)) l) eqn:El.
        { apply Hmem in El. rewrite Ea in El. contradiction. }
        assert (x = with_suffix p b) as ->.
        { rewrite <- Ea. destruct x as [d s u]. cbn in *. now subst. }
        destruct (path_eqb_spec (with_suffix p b) (with_suffix p b)); [|congruence]. now rewrite Ea.
      * destruct (path_eqb_spec x (with_suffix p b)) as [->|Hx].
        { destruct Ea. destruct p as [d s u]. cbn in *. now subst. }
        destruct (existsb (path_eqb (with_suffix x a)) l) eqn:El; [|reflexivity].
        destruct (path_eqb_spec (with_suffix x a) (with_suffix p b)) as [E|_]; [|reflexivity].
        injection E as _ _ E. now destruct Hab.
    + destruct (path_eqb_spec x (with_suffix p b)) as [->|_]; [now destruct Eb|reflexivity].
Qed.
Lemma listed : forall f s l x, rglob f s l -> existsb (path_eqb x) l = suffix_eqb (p_suffix x) s && match f x with Some _ => true | None => false end.
Proof.
  intros f s l x [_ H].
  assert (Hsb : suffix_eqb (p_suffix x) s = true <-> p_suffix x = s) by (destruct (suffix_eqb_spec (p_suffix x) s); split; congruence).
  apply eq_true_iff_eq. rewrite existsb_exists, andb_true_iff, Hsb. split.
  - intros (y & Hy & E). destruct (path_eqb_spec x y) as [->|]; [|discriminate]. apply H in Hy as [Hy Hf]. split; [exact Hy|]. now destruct (f y).
  - intros [Hs Hf]. exists x. split; [|now destruct (path_eqb_spec x x)]. apply H. split; [exact Hs|]. now destruct (f x).
Qed.
Lemma one_loop : forall a b f l x, a <> b -> rglob f a l ->
  rename_all b l f x =
    if suffix_eqb (p_suffix x) a then None
    else if suffix_eqb (p_suffix x) b then match f (with_suffix x a) with Some c => Some c | None => f x end else f x.
Proof.
  intros a b f l x Hab H. rewrite (rename_all_spec a b Hab l f); [|apply H|intros p Hp; now apply (proj2 H)].
  rewrite (listed f a l x H), (listed f a l (with_suffix x a) H).
  change (p_suffix (with_suffix x a)) with a. destruct (suffix_eqb_spec a a) as [_|]; [|congruence]. cbn [andb].
  destruct (suffix_eqb_spec (p_suffix x) a) as [Ea|Ea]; cbn [andb].
  - destruct (f x) eqn:Ex; [reflexivity|]. destruct (suffix_eqb_spec (p_suffix x) b); [congruence|reflexivity].
  - destruct (suffix_eqb (p_suffix x) b); cbn [andb]; [|reflexivity]. now destruct (f (with_suffix x a)).
Qed.

(** * C96 *)

(** After decompile() there are no compiled files; their contents are in the backups; nothing else has changed. *)
Theorem C96_decompile : forall f f', decompile f f' ->
  (forall p, compiled_file p -> f' p = None)
  /\ (forall p c, compiled_file p -> f p = Some c -> f' (bak p) = Some c)
  /\ (forall p, ~ compiled_file p -> (forall q, compiled_file q -> p = bak q -> f q = None) -> f' p = f p).
Proof.
  intros f f' H. destruct H as [f l m Hl Hm].
  assert (HX : forall x, rename_all (Bak true) m (rename_all (Bak false) l f) x =
    match p_suffix x with Ext _ => None | Bak b => match f (with_suffix x (Ext b)) with Some c => Some c | None => f x end | Other _ => f x end).
  { intros x. rewrite (one_loop (Ext true) (Bak true) _ m x) by (try discriminate; assumption).
    rewrite !(one_loop (Ext false) (Bak false) _ l) by (try discriminate; assumption).
    destruct x as [d s [[]|[]|n]]; cbn; reflexivity. }
  split; [|split].
  - intros p [b Hb]. rewrite HX, Hb. reflexivity.
  - intros p c [b Hb] Hp. rewrite HX. unfold bak. rewrite Hb. cbn [p_suffix with_suffix p_dir p_stem].
    replace (Path (p_dir p) (p_stem p) (Ext b)) with p by (destruct p; cbn in *; now subst). unfold with_suffix. cbn. 
    replace (Path (p_dir p) (p_stem p) (Ext b)) with p by (destruct p; cbn in *; now subst). now rewrite Hp.
  - intros p Hp Hq. rewrite HX. destruct (p_suffix p) as [b|b|n] eqn:Es; [destruct Hp; now exists b| |reflexivity].
    rewrite (Hq (with_suffix p (Ext b))); [reflexivity|now exists b|]. destruct p as [d s u]. cbn in *. now subst.
Qed.
(** recompile() after decompile() restores all files, if there were no backups. *)
Theorem C96_roundtrip_partial : forall f f' f'', (forall p, backup p -> f p = None) ->
  decompile f f' -> recompile f' f'' -> forall p, f'' p = f p.
Proof.
  intros f f' f'' H0 HD HR p. destruct HR as [f' l m Hl Hm]. destruct (C96_decompile f f' HD) as (H1 & H2 & H3).
  rewrite (one_loop (Bak true) (Ext true) _ m p) by (try discriminate; assumption).
  rewrite !(one_loop (Bak false) (Ext false) _ l) by (try discriminate; assumption).
  assert (HB : forall d s b, f' (Path d s (Bak b)) = f (Path d s (Ext b))).
  { intros d s b. destruct (f (Path d s (Ext b))) as [c|] eqn:E.
    - apply (H2 (Path d s (Ext b)) c); [now exists b|exact E].
    - rewrite H3; [apply H0; now exists b|intros [b' Hb]; discriminate|]. intros [d' s' u] [b' Hb] Eq. cbn in Hb. subst u. unfold bak in Eq. cbn in Eq.
      injection Eq as -> -> ->. exact E. }
  destruct p as [d s u]. destruct u as [[]|[]|n]; cbn; unfold with_suffix; cbn; rewrite ?HB.
  - destruct (f (Path d s (Ext true))); [reflexivity|]. apply H1. now exists true.
  - destruct (f (Path d s (Ext false))); [reflexivity|]. apply H1. now exists false.
  - symmetry. apply H0. now exists true.
  - symmetry. apply H0. now exists false.
  - apply H3; [intros [b Hb]; discriminate|]. intros q [b Hb] Eq. unfold bak in Eq. rewrite Hb in Eq. discriminate.
Qed.
(** Two compiled modules and a source file. *)
Definition F_so := Path 0 1 (Ext false).
Definition F_pyd := Path 1 2 (Ext true).
Definition F_py := Path 0 1 (Other 0).
Definition F_files : files := fun p => if path_eqb p F_so then Some 10 else if path_eqb p F_pyd then Some 20 else if path_eqb p F_py then Some 30 else None.
Definition F_down : files := rename_all (Bak true) [F_pyd] (rename_all (Bak false) [F_so] F_files).
Definition F_up (f : files) : files := rename_all (Ext true) [bak F_pyd] (rename_all (Ext false) [bak F_so] f).
Lemma F_lists : forall f s l, NoDup l -> (forall p, f p <> None -> In p [F_so; F_pyd; F_py; bak F_so; bak F_pyd]) ->
  filter (fun p => suffix_eqb (p_suffix p) s && match f p with Some _ => true | None => false end) [F_so; F_pyd; F_py; bak F_so; bak F_pyd] = l -> rglob f s l.
Proof.
  intros f s l HN HI <-. split; [exact HN|]. intros p. rewrite filter_In, andb_true_iff. split.
  - intros (_ & Hs & Hf). destruct (suffix_eqb_spec (p_suffix p) s); [|discriminate]. split; [assumption|]. now destruct (f p).
  - intros (Hs & Hf). split; [now apply HI|]. split; [|now destruct (f p)]. now destruct (suffix_eqb_spec (p_suffix p) s).
Qed.
Ltac flist := apply F_lists;
  [ first [apply NoDup_nil | apply NoDup_cons; [intros [] | apply NoDup_nil]]
  | let d := fresh "d" in let s := fresh "s" in let H := fresh "H" in
    intros [d s [[]|[]|[|]]] H; destruct d as [|[|d]]; destruct s as [|[|[|s]]];
    first [now destruct (H eq_refl) | repeat (first [left; reflexivity|right])]
  | reflexivity ].
Example C96_case : (forall p, backup p -> F_files p = None) /\ decompile F_files F_down /\ recompile F_down (F_up F_down)
  /\ F_down F_so = None /\ F_down (bak F_so) = Some 10 /\ F_up F_down F_pyd = Some 20.
Proof.
  split. { intros [d s u] [b Hb]. cbn in Hb. subst u. unfold F_files, path_eqb. cbn. rewrite !andb_false_r. reflexivity. }
  split; [apply (decompiled F_files [F_so] [F_pyd]); flist|]. split; [apply (recompiled F_down [bak F_so] [bak F_pyd]); flist|].
  repeat split.
Qed.
Print Assumptions C96_decompile.
Print Assumptions C96_roundtrip_partial.
(** With a backup of an older build, recompile() loses the file that is there. *)
Theorem C96_refuted : exists f f' p old new, old <> new /\ compiled_file p /\ f p = Some new /\ f (bak p) = Some old
  /\ recompile f f' /\ f' p = Some old /\ forall q, f' q <> Some new.
Proof.
  pose (f := fun p => if path_eqb p F_so then Some 11 else if path_eqb p (bak F_so) then Some 10 else None).
  exists f, (rename_all (Ext true) [] (rename_all (Ext false) [bak F_so] f)), F_so, 10, 11.
  split; [discriminate|]. split; [now exists false|]. split; [reflexivity|]. split; [reflexivity|].
  split; [apply (recompiled f [bak F_so] []); flist|]. split; [reflexivity|].
  intros [d s [[]|[]|[|]]]; destruct d as [|[|d]]; destruct s as [|[|[|s]]]; discriminate.
Qed.
Print Assumptions C96_refuted.
