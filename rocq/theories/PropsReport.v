(** How errors of callbacks are reported: C85, C86. *)

From Verif Require Import Base Report.
Open Scope string_scope.
Open Scope list_scope.

(** * Vocabulary *)

(** An Exception that the emission wraps. *)
Definition wrapped (e : exn) : Prop :=
  e <> ERecursion /\ (forall s d c, e <> EEmitLoop s d c) /\ (forall n, e <> EBase n).
Definition base_exception (e : exn) : Prop := exists n, e = EBase n.
Definition part_of (s t : string) : Prop := exists a b, t = (a ++ s ++ b)%string.

(** The environment variable PSYGNAL_HIDE_LOCALS is not set, or empty. *)
Definition shown_locals (P : python) : Prop := py_hide P = None \/ py_hide P = Some "".

(** [runs_into P x s queued queue e]: user code that is run while the error [x] is being
    reported raises [e]. *)
Inductive runs_into (P : python) (x : error) (s : option signal) (queued : bool)
  (queue : list (code string)) : exn -> Prop :=
| ri_truth : forall g o e, s = Some g -> sg_owner g = Some o -> ow_truth o = inr e ->
    runs_into P x s queued queue e
| ri_text : forall e, er_text x = inr e -> runs_into P x s queued queue e
| ri_stack : forall e, py_stack P = inr e -> runs_into P x s queued queue e
| ri_local : forall l f name e, er_frames x = Some (l ++ [f]) -> In (name, inr e) (fr_locals f) ->
    name <> "self" -> name <> "cls" -> base_exception e -> shown_locals P -> runs_into P x s queued queue e
| ri_args : forall l e, queued = true -> queue = l ++ [inr e] -> l <> [] ->
    runs_into P x s queued queue e.

(** * Strings *)

Lemma app_assoc_s : forall a b c : string, ((a ++ b) ++ c = a ++ b ++ c)%string.
Proof. induction a as [|x a IH]; intros b c; cbn; [reflexivity|]. now rewrite IH. Qed.
Lemma app_nil_s : forall a : string, (a ++ "" = a)%string.
Proof. induction a as [|x a IH]; cbn; [reflexivity|]. now rewrite IH. Qed.
Lemma part_here : forall s b, part_of s (s ++ b).
Proof. intros s b. now exists "", b. Qed.
Lemma part_right : forall s a b, part_of s b -> part_of s (a ++ b).
Proof. intros s a b (p & q & ->). exists (a ++ p)%string, q. now rewrite app_assoc_s. Qed.
Lemma part_left : forall s a b, part_of s a -> part_of s (a ++ b).
Proof. intros s a b (p & q & ->). exists p, (q ++ b)%string. now rewrite !app_assoc_s. Qed.
Lemma part_refl : forall s, part_of s s.
Proof. intros s. exists "", "". cbn. now rewrite app_nil_s. Qed.
Ltac part := repeat (first [apply part_here | apply part_refl | apply part_right]).

(** * C85 *)

Lemma rev_snoc : forall {A} (l : list A) x r, rev l = x :: r -> l = rev r ++ [x].
Proof. intros A l x r H. rewrite <- (rev_involutive l), H. reflexivity. Qed.
Lemma fmt_lines_err : forall l e, fmt_lines l = inr e ->
  exists name, In (name, inr e) l /\ name <> "self" /\ name <> "cls".
Proof.
  induction l as [|[n r] l IH]; intros e H; cbn in H; [discriminate|].
  destruct (String.eqb n "self" || String.eqb n "cls") eqn:E.
  { apply IH in H as (m & Hm & K). exists m. split; [now right|exact K]. }
  apply orb_false_iff in E as [E1 E2]. apply String.eqb_neq in E1, E2.
  destruct r as [r|e']; cbn in H.
  - destruct (fmt_lines l) as [ls|e'] eqn:F; cbn in H; [discriminate|]. injection H as <-.
    destruct (IH _ eq_refl) as (m & Hm & K). exists m. split; [now right|exact K].
  - injection H as <-. exists n. split; [now left|auto].
Qed.
Lemma occurred_err : forall P frames e, occurred_at P frames = inr e ->
  exists l f name, frames = l ++ [f] /\ In (name, inr e) (fr_locals f) /\ name <> "self" /\ name <> "cls"
                   /\ base_exception e /\ shown_locals P.
Proof.
  intros P frames e H. unfold occurred_at in H. destruct (rev frames) as [|f r] eqn:R; [discriminate|].
  apply rev_snoc in R. destruct (fr_locals f) as [|p q] eqn:L; [discriminate|].
  destruct (filled (py_hide P)) eqn:HH; [discriminate|]. rewrite <- L in H. unfold fmt_locals in H.
  destruct (fmt_lines (fr_locals f)) as [ls|e'] eqn:F; cbn in H; [discriminate|].
  destruct (is_exception e') eqn:X; [discriminate|]. injection H as <-.
  destruct (fmt_lines_err _ _ F) as (m & Hm & K1 & K2). exists (rev r), f, m.
  split; [exact R|]. split; [exact Hm|]. split; [exact K1|]. split; [exact K2|].
  split.
  - destruct e'; try discriminate X. eexists. reflexivity.
  - unfold shown_locals. destruct (py_hide P) as [[|a t]|]; [now right|discriminate|now left].
Qed.
Lemma init_err : forall P x s d queued queue e, queue <> [] \/ queued = false ->
  init P x s d queued queue = inr e -> runs_into P x s queued queue e.
Proof.
  intros P x s d queued queue e HQ H. unfold init in H.
  destruct (full_name s) as [name|e'] eqn:N; cbn [bind] in H.
  2:{ injection H as <-. unfold full_name in N. destruct s as [g|]; [|discriminate].
      destruct (sg_owner g) as [o|] eqn:O; [|discriminate].
      destruct (ow_truth o) as [b|e''] eqn:B; cbn in N; [destruct b; discriminate|].
      injection N as <-. eapply ri_truth; eauto. }
  destruct (build_msg P name x d) as [msg|e'] eqn:M; cbn [bind] in H.
  2:{ injection H as <-. unfold build_msg in M. destruct (er_text x) as [t|e''] eqn:T; cbn [bind] in M.
      2:{ injection M as <-. now apply ri_text. }
      destruct (py_stack P) as [st|e''] eqn:S; cbn [bind] in M.
      2:{ injection M as <-. now apply ri_stack. }
      destruct (er_frames x) as [fr|] eqn:F; [|discriminate].
      destruct (occurred_at P fr) as [o|e''] eqn:O; cbn [bind] in M; [discriminate|]. injection M as <-.
      destruct (occurred_err _ _ _ O) as (l & f & m & -> & K1 & K2 & K3 & K4 & K5).
      eapply ri_local; eauto. }
  destruct queued; cbn [andb] in H; [|discriminate].
  destruct (Z.eqb (Z.of_nat (List.length queue) - 1) 0) eqn:Z; cbn [negb] in H; [discriminate|].
  apply Z.eqb_neq in Z. destruct (rev queue) as [|a r] eqn:R.
  { destruct HQ as [HQ|HQ]; [|discriminate].
    destruct HQ. rewrite <- (rev_involutive queue), R. reflexivity. }
  apply rev_snoc in R. destruct a as [a|e']; cbn [bind] in H; [discriminate|]. injection H as <-.
  eapply ri_args; [reflexivity|exact R|]. intros X. rewrite X in R. cbn in R. subst queue. cbn in Z. lia.
Qed.

(** If the user code that is run for the report raises nothing, the exception of the
    callback leaves the emission as the cause of an EmitLoopError.  ([queue] is not empty in
    a queued emission: it contains the arguments that are being emitted.) *)
Theorem C85_reported_partial : forall P x args s d queued queue,
  wrapped (er_exn x) -> queue <> [] \/ queued = false ->
  (forall e, ~ runs_into P x (Some s) queued queue e) ->
  exists text, except_clauses P x args s d queued queue = NewLoop (er_exn x) text.
Proof.
  intros P x args s d queued queue (H1 & H2 & H3) HQ HR.
  assert (K : exists text, init P x (Some s) d queued queue = inl text).
  { destruct (init P x (Some s) d queued queue) as [t|e] eqn:I; [eauto|].
    destruct (HR e). eapply init_err; eauto. }
  destruct K as (t & K). exists t. unfold except_clauses.
  destruct (er_exn x) as [n| | | | | | | | | |s0 d0 c|n]; rewrite ?K; try reflexivity.
  - contradiction.
  - now destruct (H2 s0 d0 c).
  - now destruct (H3 n).
Qed.
(** In any case: what leaves the emission is a new EmitLoopError with the exception of the
    callback as cause, a RecursionError if that was one, the exception itself if it is an
    EmitLoopError or no Exception, or what the code run for the report raised. *)
Theorem C85_nothing_else : forall P x args s d queued queue,
  queue <> [] \/ queued = false ->
  match except_clauses P x args s d queued queue with
  | NewLoop c _ => c = er_exn x /\ wrapped (er_exn x)
  | NewRecursion => er_exn x = ERecursion
  | Same e => (e = er_exn x /\ (base_exception e \/ exists s' d' c', e = EEmitLoop s' d' c'))
              \/ (er_exn x = ERecursion /\ args = inr e)
              \/ (wrapped (er_exn x) /\ runs_into P x (Some s) queued queue e)
  end.
Proof.
  intros P x args s d queued queue HQ. unfold except_clauses.
  assert (K : forall e, wrapped e -> er_exn x = e ->
            match (match init P x (Some s) d queued queue with inl msg => NewLoop e msg | inr e' => Same e' end) with
            | NewLoop c _ => c = e /\ wrapped e
            | NewRecursion => e = ERecursion
            | Same e0 => (e0 = e /\ (base_exception e0 \/ exists s' d' c', e0 = EEmitLoop s' d' c'))
                  \/ (e = ERecursion /\ args = inr e0)
                  \/ (wrapped e /\ runs_into P x (Some s) queued queue e0)
            end).
  { intros e W _. destruct (init P x (Some s) d queued queue) as [t|e'] eqn:I; [auto|].
    right; right. split; [exact W|]. eapply init_err; eauto. }
  destruct (er_exn x) as [n| | | | | | | | | |s0 d0 c|n] eqn:X;
    try (apply K; [repeat split; intros; discriminate|reflexivity]).
  - destruct args as [a|e]; [reflexivity|]. right; left. auto.
  - left. split; [reflexivity|]. right. eauto.
  - left. split; [reflexivity|]. left. eexists. reflexivity.
Qed.
(** The same for emit_queued(), which wraps every Exception. *)
Theorem C85_queued : forall P x,
  match except_queued P x with
  | NewLoop c _ => c = er_exn x /\ ~ base_exception (er_exn x)
  | NewRecursion => False
  | Same e => (e = er_exn x /\ base_exception e) \/ runs_into P x None false [] e
  end.
Proof.
  intros P x. unfold except_queued.
  assert (K : forall e, ~ base_exception e ->
            match (match init P x None 0 false [] with inl msg => NewLoop e msg | inr e' => Same e' end) with
            | NewLoop c _ => c = e /\ ~ base_exception e
            | NewRecursion => False
            | Same e0 => (e0 = e /\ base_exception e0) \/ runs_into P x None false [] e0
            end).
  { intros e W. destruct (init P x None 0 false []) as [t|e'] eqn:I; [auto|].
    right. eapply init_err; [|exact I]. now right. }
  destruct (er_exn x) as [n| | | | | | | | | |s0 d0 c|n] eqn:X;
    try (apply K; intros (m & Hm); discriminate).
  left. split; [reflexivity|]. eexists. reflexivity.
Qed.

Definition C85_user : frame :=
  Frame 1 "/home/u/app.py" 7 "on_change" ["    raise ValueError('x')"]
    [("self", inr (EUser 9)); ("value", inl "3"); ("bad", inr (EUser 8))].
Definition C85_main : frame := Frame 2 "/home/u/app.py" 20 "<module>" ["w.changed.emit(3)"] [].
Definition C85_inner : frame := Frame 3 "/lib/psygnal/_signal.py" 1250 "emit" ["self._run_emit_loop(args)"] [].
Definition C85_deep : frame := Frame 4 "/home/u/deep.py" 3 "check" ["raise ValueError('x')"] [("n", inl "1")].
Definition C85_python : python :=
  Python (fun s => "'" ++ s ++ "'")%string (fun s => s) "/lib/psygnal" None
    (inl [C85_inner; C85_main]).
Definition C85_error : error := Error EValue "ValueError" (inl "x") (Some [C85_inner; C85_user]).
Definition C85_signal : signal := Sig "changed" (Some (Owner (inl true) (Some "app") "Widget")).
(** A local variable whose repr raises does not disturb the report. *)
Example C85_case :
  wrapped (er_exn C85_error)
  /\ (forall e, ~ runs_into C85_python C85_error (Some C85_signal) true [inl "(3,)"; inl "(4,)"] e)
  /\ exists text, except_clauses C85_python C85_error (inl "(3,)") C85_signal 1 true [inl "(3,)"; inl "(4,)"]
                  = NewLoop EValue text /\ String.length text = 471.
Proof.
  split; [repeat split; intros; discriminate|]. split.
  - intros e H. inversion H; subst; try discriminate.
    + injection H0 as <-. injection H1 as <-. discriminate.
    + injection H0 as H0. change [C85_inner; C85_user] with ([C85_inner] ++ [C85_user]) in H0.
      apply app_inj_tail in H0 as [_ <-].
      destruct H4 as (n & ->). cbn in H1. intuition congruence.
    + change [inl "(3,)"; inl "(4,)"] with ([inl "(3,)"] ++ [@inl string exn "(4,)"]) in H1.
      apply app_inj_tail in H1 as [_ H1]. discriminate.
  - eexists. split; [vm_compute; reflexivity|vm_compute; reflexivity].
Qed.
(** False of the code in general: an exception whose str() raises, an object whose truth
    value raises (an array, a data frame), and arguments whose repr() raises, replace the
    EmitLoopError by their own error. *)
Theorem C85_refuted :
  (exists P x s, wrapped (er_exn x)
     /\ except_clauses P x (inl "()") s 0 false [] = Same EAttribute /\ er_exn x = EValue)
  /\ (exists P x s, wrapped (er_exn x) /\ er_text x = inl "x"
     /\ except_clauses P x (inl "()") s 0 false [] = Same EType /\ er_exn x = EValue)
  /\ (exists P x s, wrapped (er_exn x) /\ er_text x = inl "x"
     /\ except_clauses P x (inl "()") s 0 true [inl "()"; inr (EUser 1)] = Same (EUser 1) /\ er_exn x = EValue)
  /\ (exists P x s, er_exn x = ERecursion
     /\ except_clauses P x (inr (EUser 1)) s 0 true [inl "()"; inr (EUser 1)] = Same (EUser 1)).
Proof.
  split; [|split; [|split]].
  - exists C85_python, (Error EValue "ValueError" (inr EAttribute) None), C85_signal.
    repeat split; intros; discriminate.
  - exists C85_python, C85_error, (Sig "changed" (Some (Owner (inr EType) None "Frame"))).
    repeat split; intros; discriminate.
  - exists C85_python, C85_error, C85_signal. split; [repeat split; intros; discriminate|].
    split; [reflexivity|]. split; vm_compute; reflexivity.
  - exists C85_python, (Error ERecursion "RecursionError" (inl "") None), C85_signal.
    split; reflexivity.
Qed.
Print Assumptions C85_reported_partial.
Print Assumptions C85_nothing_else.
Print Assumptions C85_queued.
Print Assumptions C85_refuted.

(** * C86 *)

(** [outside root f]: the file of the frame is not in the directory of the package. *)
Definition under (root file : string) : Prop := exists rest, file = (root ++ "/" ++ rest)%string.
(** No file has the name of the package's directory in its path without being there. *)
Definition clear_paths (root : string) (l : list frame) : Prop :=
  forall f, In f l -> part_of root (fr_file f) -> under root (fr_file f).
(** The first frame of [l] outside the package. *)
Definition first_outside (root : string) (l : list frame) (before : list frame) (f : frame) (after : list frame) : Prop :=
  l = before ++ f :: after /\ ~ under root (fr_file f) /\ forall g, In g before -> under root (fr_file g).
(** "file:line in function". *)
Definition place (f : frame) : string :=
  (fr_file f ++ ":" ++ number (fr_line f) ++ " in " ++ fr_function f)%string.

Lemma prefix_app : forall s t, String.prefix s t = true <-> exists b, t = (s ++ b)%string.
Proof.
  induction s as [|a s IH]; intros t.
  - cbn [append]. split; [intros _; now exists t|intros _; now destruct t].
  - destruct t as [|b t]; [split; [discriminate|intros (x & X); discriminate]|].
    simpl. destruct (ascii_dec a b) as [->|N].
    + rewrite (IH t). split; intros (x & X); exists x; congruence.
    + split; [discriminate|intros (x & X); congruence].
Qed.
Lemma inside_part : forall s t, inside s t = true <-> part_of s t.
Proof.
  intros s t. induction t as [|c t IH]; cbn [inside].
  - rewrite orb_false_r, prefix_app. split.
    + intros (b & H). exists "", b. exact H.
    + intros (a & b & H). destruct a; [|discriminate]. exists b. exact H.
  - rewrite orb_true_iff, prefix_app, IH. split.
    + intros [(b & H)|H]; [exists "", b; exact H|]. change (String c t) with (String c "" ++ t)%string.
      now apply part_right.
    + intros (a & b & H). destruct a as [|x a]; [left; exists b; exact H|].
      right. injection H as _ H. now exists a, b.
Qed.
Lemma under_part : forall root file, under root file -> part_of root file.
Proof. intros root file (r & ->). apply part_here. Qed.
Lemma ours_under : forall P l f, clear_paths (py_root P) l -> In f l ->
  ours P f = true <-> under (py_root P) (fr_file f).
Proof.
  intros P l f C H. unfold ours. rewrite inside_part. split; [now apply C|apply under_part].
Qed.
Lemma first_theirs_spec : forall P l before f after,
  clear_paths (py_root P) l -> first_outside (py_root P) l before f after ->
  first_theirs P l = Some (f, after).
Proof.
  intros P l before f after C (-> & H1 & H2). revert C. induction before as [|g before IH]; intros C; cbn.
  - destruct (ours P f) eqn:O; [|reflexivity]. destruct H1. eapply ours_under; eauto. now left.
  - replace (ours P g) with true.
    2:{ symmetry. eapply ours_under; [exact C|now left|]. apply H2. now left. }
    apply IH; [intros k Hk; apply H2; now right|]. intros k Hk. apply C. now right.
Qed.
Lemma frame_eqb_file : forall a b, frame_eqb a b = true -> fr_file a = fr_file b.
Proof.
  intros a b H. unfold frame_eqb in H. rewrite !andb_true_iff in H.
  destruct H as ((((_ & H) & _) & _) & _). now apply String.eqb_eq.
Qed.
Lemma frame_eqb_refl : forall a, frame_eqb a a = true.
Proof.
  intros a. unfold frame_eqb. rewrite Nat.eqb_refl, !String.eqb_refl, Z.eqb_refl.
  destruct (list_eq_dec _ _ _); [reflexivity|congruence].
Qed.
Lemma index_first : forall P l before f after,
  first_outside (py_root P) l before f after -> index f l = List.length before.
Proof.
  intros P l before f after (-> & H1 & H2). induction before as [|g before IH]; cbn.
  - now rewrite frame_eqb_refl.
  - destruct (frame_eqb f g) eqn:E.
    + apply frame_eqb_file in E. destruct H1. rewrite E. apply H2. now left.
    + rewrite IH; [reflexivity|]. intros k Hk. apply H2. now right.
Qed.
Lemma app_inv_s : forall a b c : string, (a ++ b = a ++ c)%string -> b = c.
Proof. induction a as [|x a IH]; intros b c H; cbn in H; [exact H|]. injection H as H. auto. Qed.

(** The parts of the message. *)
Lemma init_parts : forall P x s d queued queue text,
  init P x s d queued queue = inl text ->
  exists name t stack msg rest,
    full_name s = inl name /\ er_text x = inl t /\ py_stack P = inl stack
    /\ build_msg P name x d = inl msg /\ text = (msg ++ rest)%string.
Proof.
  intros P x s d queued queue text H. unfold init in H.
  destruct (full_name s) as [name|] eqn:N; cbn [bind] in H; [|discriminate].
  destruct (build_msg P name x d) as [msg|] eqn:M; cbn [bind] in H; [|discriminate].
  assert (K : exists rest, text = (msg ++ rest)%string).
  { destruct (queued && _).
    - destruct (rev queue) as [|[a|] r]; cbn [bind] in H; try discriminate. injection H as <-. eauto.
    - injection H as <-. exists "". now rewrite app_nil_s. }
  destruct K as (rest & ->). pose proof M as M'. unfold build_msg in M'.
  destruct (er_text x) as [t|] eqn:T; cbn [bind] in M'; [|discriminate].
  destruct (py_stack P) as [stack|] eqn:S; cbn [bind] in M'; [|discriminate].
  exists name, t, stack, msg, rest. auto.
Qed.
Lemma build_parts : forall P name x d msg t stack,
  build_msg P name x d = inl msg -> er_text x = inl t -> py_stack P = inl stack ->
  part_of (py_repr P name) msg /\ part_of (er_class x ++ ": " ++ t) msg
  /\ part_of (emitted_at P stack) msg
  /\ (forall frames, er_frames x = Some frames -> exists s, occurred_at P frames = inl s /\ part_of s msg)
  /\ (2 <= d -> part_of ("nested " ++ number (Z.of_nat d) ++ " levels deep") msg).
Proof.
  intros P name x d msg t stack H T S. unfold build_msg in H. rewrite T, S in H. cbn [bind] in H.
  match type of H with context [inl (?m ++ emitted_at P stack)%string] =>
    assert (K : part_of (py_repr P name) m /\ part_of (er_class x ++ ": " ++ t) m
                /\ (2 <= d -> part_of ("nested " ++ number (Z.of_nat d) ++ " levels deep") m));
    [|set (m0 := m) in *; clearbody m0]
  end.
  { split; [part|]. split.
    - apply part_right, part_right, part_right, part_right, part_right, part_left.
      apply part_right, part_right, part_right. apply part_refl.
    - intros Hd. destruct d as [|[|d]]; [lia|lia|]. do 10 apply part_right. apply part_refl. }
  assert (H' : exists r, msg = ((m0 ++ emitted_at P stack) ++ r)%string
                 /\ forall frames, er_frames x = Some frames -> occurred_at P frames = inl r).
  { destruct (er_frames x) as [fr|].
    - destruct (occurred_at P fr) as [o|] eqn:O; cbn [bind] in H; [|discriminate]. injection H as <-.
      exists o. split; [reflexivity|]. intros frames [= <-]. exact O.
    - injection H as <-. exists "". rewrite app_nil_s. split; [reflexivity|discriminate]. }
  destruct H' as (r & -> & HF). destruct K as (K1 & K2 & K3).
  split; [now apply part_left, part_left|]. split; [now apply part_left, part_left|].
  split; [apply part_left, part_right, part_refl|]. split.
  - intros frames Hf. exists r. split; [now apply HF|]. apply part_right, part_refl.
  - intros Hd. now apply part_left, part_left, K3.
Qed.

(** The message contains the name of the signal, the class and the text of the exception. *)
Theorem C86_names : forall P x s d queued queue text,
  init P x (Some s) d queued queue = inl text ->
  (exists t, er_text x = inl t /\ part_of (er_class x ++ ": " ++ t) text)
  /\ (exists name, part_of (py_repr P name) text
        /\ (name = sg_name s \/ exists p, name = (p ++ "." ++ sg_name s)%string)
        /\ (forall o m, sg_owner s = Some o -> ow_truth o = inl true -> ow_module o = Some m -> m <> "" ->
              name = (m ++ "." ++ ow_class o ++ "." ++ sg_name s)%string))
  /\ (2 <= d -> part_of ("nested " ++ number (Z.of_nat d) ++ " levels deep") text).
Proof.
  intros P x s d queued queue text H.
  destruct (init_parts _ _ _ _ _ _ _ H) as (name & t & stack & msg & rest & N & T & S & M & ->).
  destruct (build_parts _ _ _ _ _ _ _ M T S) as (A1 & A2 & _ & _ & A5).
  split; [|split].
  - exists t. split; [exact T|]. now apply part_left.
  - exists name. split; [now apply part_left|]. unfold full_name in N.
    destruct (sg_owner s) as [o|]; [|injection N as <-; split; [now left|discriminate]].
    destruct (ow_truth o) as [[|]|e] eqn:B; cbn [bind] in N; [| |discriminate].
    + split.
      * right. injection N as <-. eexists. rewrite <- app_assoc_s. reflexivity.
      * intros o' m [= <-] _ Hm Hne. injection N as <-. rewrite Hm. destruct m; [congruence|].
        now rewrite app_assoc_s.
    + injection N as <-. split; [now left|]. intros o' m [= <-]. congruence.
  - intros Hd. now apply part_left, A5.
Qed.

(** With reemission="queued" and n + 1 emissions in the queue, n > 0, two more lines say how long the queue was and which
    arguments were being emitted. *)
Theorem C86_queue : forall P x s d queue q a text, queue <> [] ->
  init P x s d true (queue ++ [q]) = inl text -> q = inl a ->
  exists msg, init P x s d false [] = inl msg
  /\ text = (msg ++ nl ++ ("NOTE: reemission is set to 'queued', and this error occurred at a queue-depth of "
             ++ number (Z.of_nat (List.length queue)) ++ ".") ++ nl ++ ("Emitting arguments: " ++ a ++ ")") ++ nl)%string.
Proof.
  intros P x s d queue q a text HQ H ->. unfold init in H |- *.
  destruct (full_name s) as [name|] eqn:N; cbn [bind] in H |- *; [|discriminate].
  destruct (build_msg P name x d) as [msg|] eqn:M; cbn [bind] in H |- *; [|discriminate].
  rewrite app_length, rev_app_distr in H. cbn [List.length rev app] in H.
  replace (Z.of_nat (List.length queue + 1) - 1)%Z with (Z.of_nat (List.length queue)) in H by lia.
  replace (Z.of_nat (List.length queue) =? 0)%Z with false in H by (symmetry; apply Z.eqb_neq; destruct queue; [congruence|cbn; lia]).
  cbn [andb negb bind] in H. apply (f_equal (fun r => match r with inl t => t | inr _ => text end)) in H. cbv beta iota in H.
  exists msg. split; [reflexivity|]. subst text. set (n := number _). clearbody n. rewrite !app_assoc_s. reflexivity.
Qed.
(** Of the only emission in the queue it says nothing. *)
Theorem C86_alone : forall P x s d q, init P x s d true [q] = init P x s d false [].
Proof. reflexivity. Qed.

(** The line of source code under a place. *)
Definition source (P : python) (f : frame) (shown : bool) : string :=
  match fr_context f with c :: _ => if shown then ("      " ++ py_strip P c)%string else "" | [] => "" end.
Lemma fmt_place : forall P f b, fmt_frame P f b = (place f ++ nl ++ source P f b)%string.
Proof. intros P f b. unfold fmt_frame, place, source. rewrite !app_assoc_s. reflexivity. Qed.
Lemma part_trans : forall a b c, part_of a b -> part_of b c -> part_of a c.
Proof.
  intros a b c (p & q & ->) (p' & q' & ->). exists (p' ++ p)%string, (q ++ q')%string.
  now rewrite !app_assoc_s.
Qed.

(** It says where the signal was emitted: the first frame of the stack outside psygnal, and
    the one that called it. *)
Theorem C86_emitted_partial : forall P x s d queued queue text stack before f after,
  init P x s d queued queue = inl text ->
  py_stack P = inl stack -> clear_paths (py_root P) stack ->
  first_outside (py_root P) stack before f after ->
  part_of (place f ++ nl ++ source P f true ++ "  # <-- SIGNAL WAS EMITTED HERE") text
  /\ (forall g gs, after = g :: gs -> part_of (place g ++ nl ++ source P g true) text).
Proof.
  intros P x s d queued queue text stack before f after H HS C F.
  destruct (init_parts _ _ _ _ _ _ _ H) as (name & t & stack' & msg & rest & N & T & S & M & ->).
  rewrite HS in S. injection S as <-.
  destruct (build_parts _ _ _ _ _ _ _ M T HS) as (_ & _ & A3 & _ & _).
  pose proof (first_theirs_spec _ _ _ _ _ C F) as F1. pose proof (index_first _ _ _ _ _ F) as F2.
  unfold emitted_at in A3. rewrite F1, F2 in A3.
  split.
  - apply part_left. eapply part_trans; [|exact A3]. do 6 apply part_right.
    rewrite fmt_place, !app_assoc_s. exists "", nl. now rewrite !app_assoc_s.
  - intros g gs ->. apply part_left. eapply part_trans; [|exact A3]. do 4 apply part_right. apply part_left.
    destruct F as (-> & _ & _). rewrite nth_error_app2 by lia.
    replace (List.length before + 1 - List.length before)%nat with 1 by lia. cbn [nth_error].
    rewrite fmt_place. apply part_right, part_here.
Qed.

(** The frame in which the error occurred. *)
Lemma occurred_here : forall P frames l f s,
  frames = l ++ [f] -> occurred_at P frames = inl s ->
  part_of (place f ++ nl ++ source P f true ++ "  # <-- ERROR OCCURRED HERE ") s.
Proof.
  intros P frames l f s -> H. unfold occurred_at in H. rewrite rev_app_distr in H. cbn [rev app] in H.
  cbv zeta in H.
  match type of H with context [(?c ++ "    " ++ fmt_frame P f true ++ _ ++ nl)%string] => set (chain := c) in * end.
  set (here := (chain ++ "    " ++ fmt_frame P f true ++ "  # <-- ERROR OCCURRED HERE " ++ nl)%string) in *.
  assert (K : exists r, s = (here ++ r)%string).
  { destruct (fr_locals f); [injection H as <-; exists ""; now rewrite app_nil_s|].
    destruct (filled _); [injection H as <-; exists ""; now rewrite app_nil_s|].
    destruct (fmt_locals _) as [t|e]; [injection H as <-|].
    - eexists. rewrite !app_assoc_s. reflexivity.
    - destruct (is_exception e); [injection H as <-|discriminate]. eexists. reflexivity. }
  destruct K as (r & ->). apply part_left. unfold here. do 2 apply part_right.
  rewrite fmt_place, !app_assoc_s. exists "", nl. now rewrite !app_assoc_s.
Qed.
Theorem C86_occurred : forall P x s d queued queue text l f,
  init P x s d queued queue = inl text -> er_frames x = Some (l ++ [f]) ->
  part_of (place f ++ nl ++ source P f true ++ "  # <-- ERROR OCCURRED HERE ") text.
Proof.
  intros P x s d queued queue text l f H F.
  destruct (init_parts _ _ _ _ _ _ _ H) as (name & t & stack & msg & rest & N & T & S & M & ->).
  destruct (build_parts _ _ _ _ _ _ _ M T S) as (_ & _ & _ & A4 & _).
  destruct (A4 _ F) as (o & O & K). apply part_left. eapply part_trans; [|exact K].
  eapply occurred_here; eauto.
Qed.
(** The first callback outside psygnal, if it is another frame, with the number of frames
    between the two. *)
Theorem C86_chain_partial : forall P x s d queued queue text frames before f middle last,
  init P x s d queued queue = inl text -> er_frames x = Some frames ->
  frames = before ++ f :: middle ++ [last] -> fr_id f <> fr_id last ->
  clear_paths (py_root P) frames -> first_outside (py_root P) frames before f (middle ++ [last]) ->
  part_of (place f ++ nl ++ "    ... " ++ number (Z.of_nat (List.length middle)) ++ " more frames ...") text.
Proof.
  intros P x s d queued queue text frames before f middle last H F HF Hid C HO.
  destruct (init_parts _ _ _ _ _ _ _ H) as (name & t & stack & msg & rest & N & T & S & M & ->).
  destruct (build_parts _ _ _ _ _ _ _ M T S) as (_ & _ & _ & A4 & _).
  destruct (A4 _ F) as (o & O & K). apply part_left. eapply part_trans; [|exact K]. clear K A4.
  pose proof (first_theirs_spec _ _ _ _ _ C HO) as F1. pose proof (index_first _ _ _ _ _ HO) as F2.
  unfold occurred_at in O. rewrite F1, F2 in O.
  assert (R : rev frames = last :: rev (before ++ f :: middle)).
  { rewrite HF. change (before ++ f :: middle ++ [last]) with (before ++ (f :: middle) ++ [last]).
    rewrite app_assoc, rev_app_distr. reflexivity. }
  rewrite R in O. cbv zeta in O.
  replace (frame_eqb f last) with false in O.
  2:{ symmetry. unfold frame_eqb. apply Nat.eqb_neq in Hid. now rewrite Hid. }
  assert (L : (Z.of_nat (List.length frames) - Z.of_nat (List.length before) - 2 = Z.of_nat (List.length middle))%Z).
  { rewrite HF, app_length. cbn [List.length]. rewrite app_length. cbn [List.length]. lia. }
  rewrite L in O.
  set (chain := (nl ++ "  CALLBACK CHAIN:" ++ nl ++ "    " ++ fmt_frame P f false ++ "    ... "
                 ++ number (Z.of_nat (List.length middle)) ++ " more frames ..." ++ nl)%string) in *.
  assert (K : part_of chain o).
  { clearbody chain. destruct (fr_locals last); [injection O as <-; apply part_here|].
    destruct (filled _); [injection O as <-; apply part_here|].
    destruct (fmt_locals _) as [t'|e]; [injection O as <-; do 2 apply part_left; apply part_here|].
    destruct (is_exception e); [injection O as <-; apply part_left, part_here|discriminate]. }
  eapply part_trans; [|exact K]. unfold chain. do 4 apply part_right.
  rewrite fmt_place. replace (source P f false) with "" by (unfold source; now destruct (fr_context f)).
  rewrite app_nil_s. exists "", nl.
  rewrite !app_assoc_s. reflexivity.
Qed.

(** The values of local variables: [seen_of l] are those that may be shown. *)
Definition with_locals (l : list (string * code string)) (f : frame) : frame :=
  Frame (fr_id f) (fr_file f) (fr_line f) (fr_function f) (fr_context f) l.
Definition hidden (P : python) : Prop := exists c s, py_hide P = Some (String c s).
Lemma first_theirs_locals : forall P l f l1,
  first_theirs P (l ++ [with_locals l1 f])
  = match first_theirs P l with
    | Some (g, after) => Some (g, after ++ [with_locals l1 f])
    | None => if ours P f then None else Some (with_locals l1 f, [])
    end.
Proof.
  intros P l f l1. induction l as [|g l IH]; cbn; [reflexivity|]. destruct (ours P g); [exact IH|reflexivity].
Qed.
Lemma frame_eqb_locals : forall g f l1 l2, frame_eqb g (with_locals l1 f) = frame_eqb g (with_locals l2 f).
Proof. reflexivity. Qed.
Lemma index_locals : forall g l f l1 l2, index g (l ++ [with_locals l1 f]) = index g (l ++ [with_locals l2 f]).
Proof. intros g l f l1 l2. induction l as [|h l IH]; cbn; [reflexivity|]. now rewrite IH. Qed.
Lemma index_self : forall l f l1 l2,
  index (with_locals l1 f) (l ++ [with_locals l1 f]) = index (with_locals l2 f) (l ++ [with_locals l2 f]).
Proof. intros l f l1 l2. induction l as [|h l IH]; cbn; [reflexivity|]. now rewrite IH. Qed.
Lemma occurred_locals : forall P l f l1 l2,
  fmt_locals l1 = fmt_locals l2 \/ hidden P -> (l1 = [] <-> l2 = []) ->
  occurred_at P (l ++ [with_locals l1 f]) = occurred_at P (l ++ [with_locals l2 f]).
Proof.
  intros P l f l1 l2 H H0. unfold occurred_at. rewrite !rev_app_distr. cbn [rev app].
  rewrite !first_theirs_locals, !app_length. cbn [List.length fr_locals with_locals].
  assert (K : forall b, fmt_frame P (with_locals l1 f) b = fmt_frame P (with_locals l2 f) b) by reflexivity.
  rewrite K. cbv zeta.
  match goal with |- context [(?c ++ "    " ++ fmt_frame P (with_locals l2 f) true ++ _)%string] =>
    match goal with |- _ = ?rhs =>
      match rhs with context [(?d ++ "    " ++ fmt_frame P (with_locals l2 f) true ++ _)%string] =>
        assert (E : c = d) end end end.
  { destruct (first_theirs P l) as [[g after]|].
    - rewrite (frame_eqb_locals g f l1 l2), (index_locals g l f l1 l2). reflexivity.
    - destruct (ours P f); [reflexivity|]. now rewrite !frame_eqb_refl. }
  rewrite E. clear E K. destruct H as [H|(c & t & H)].
  - rewrite H. destruct l1 as [|a l1]; [replace l2 with (@nil (string * code string)); [reflexivity|symmetry; tauto]|].
    destruct l2 as [|b l2]; [destruct H0 as [_ H0]; now specialize (H0 eq_refl)|reflexivity].
  - rewrite H. cbn [filled]. destruct l1, l2; reflexivity.
Qed.

Lemma build_locals : forall P name x d l f l1 l2,
  er_frames x = Some (l ++ [with_locals l1 f]) ->
  fmt_locals l1 = fmt_locals l2 \/ hidden P -> (l1 = [] <-> l2 = []) ->
  build_msg P name x d
  = build_msg P name (Error (er_exn x) (er_class x) (er_text x) (Some (l ++ [with_locals l2 f]))) d.
Proof.
  intros P name x d l f l1 l2 F H H0. unfold build_msg. cbn [er_text er_class er_frames]. rewrite F.
  now rewrite (occurred_locals P l f l1 l2 H H0).
Qed.
(** If PSYGNAL_HIDE_LOCALS is set, the message does not depend on the values of local
    variables, whatever their repr does. *)
Theorem C86_hidden : forall P x s d queued queue l f l1 l2,
  hidden P -> er_frames x = Some (l ++ [with_locals l1 f]) -> l1 <> [] -> l2 <> [] ->
  init P x s d queued queue
  = init P (Error (er_exn x) (er_class x) (er_text x) (Some (l ++ [with_locals l2 f]))) s d queued queue.
Proof.
  intros P x s d queued queue l f l1 l2 HH F H1 H2. unfold init. destruct (full_name s) as [name|]; [|reflexivity].
  cbn [bind]. erewrite build_locals; [reflexivity|exact F|now right|tauto].
Qed.
(** It never depends on what "self" and "cls" are. *)
Theorem C86_self : forall P x s d queued queue l f l1 l2 name v v',
  name = "self" \/ name = "cls" ->
  er_frames x = Some (l ++ [with_locals (l1 ++ (name, v) :: l2) f]) ->
  init P x s d queued queue
  = init P (Error (er_exn x) (er_class x) (er_text x) (Some (l ++ [with_locals (l1 ++ (name, v') :: l2) f]))) s d queued queue.
Proof.
  intros P x s d queued queue l f l1 l2 name v v' Hn F. unfold init.
  destruct (full_name s) as [n|]; [|reflexivity]. cbn [bind]. erewrite build_locals; [reflexivity|exact F| |].
  - left. clear F. unfold fmt_locals. f_equal. induction l1 as [|[k r] l1 IH]; cbn.
    + now destruct Hn as [->| ->].
    + rewrite IH. reflexivity.
  - split; intros X; now apply app_eq_nil in X as [_ X].
Qed.
Lemma times_s : forall n s, part_of s (times n " " ++ s).
Proof. intros n s. apply part_right, part_refl. Qed.
Lemma part_concat : forall s ls, In s ls -> part_of s (String.concat nl ls).
Proof.
  intros s ls. induction ls as [|a ls IH]; intros H; [destruct H|].
  destruct ls as [|b ls].
  - destruct H as [->|[]]. apply part_refl.
  - change (String.concat nl (a :: b :: ls)) with (a ++ nl ++ String.concat nl (b :: ls))%string.
    destruct H as [->|H]; [apply part_here|]. now apply part_right, part_right, IH.
Qed.
Lemma fmt_lines_In : forall l ls, fmt_lines l = inl ls -> forall name r,
  In (name, inl r) l -> name <> "self" -> name <> "cls" -> In (fmt_local name r) ls.
Proof.
  induction l as [|[n c] l IH]; intros ls H name r Hi H1 H2; [destruct Hi|]. cbn in H.
  destruct (String.eqb n "self" || String.eqb n "cls") eqn:E.
  - destruct Hi as [Hi|Hi]; [|eauto]. injection Hi as -> ->.
    apply orb_true_iff in E as [E|E]; apply String.eqb_eq in E; congruence.
  - destruct c as [c|]; cbn in H; [|discriminate]. destruct (fmt_lines l) as [ls'|]; cbn in H; [|discriminate].
    injection H as <-. destruct Hi as [Hi|Hi]; [injection Hi as -> ->; now left|right; eauto].
Qed.
(** Otherwise, if every repr succeeds, it shows each of the others: with the whole repr if
    that has at most 60 characters, and the first 60 if it is longer. *)
Theorem C86_locals : forall P x s d queued queue text l f name r,
  init P x s d queued queue = inl text -> shown_locals P ->
  er_frames x = Some (l ++ [f]) -> (forall n e, ~ In (n, inr e) (fr_locals f)) ->
  In (name, inl r) (fr_locals f) -> name <> "self" -> name <> "cls" ->
  (String.length r <= 60 -> part_of (name ++ " = " ++ r) text)
  /\ (60 < String.length r -> part_of (name ++ " = " ++ substring 0 60 r ++ "...") text).
Proof.
  intros P x s d queued queue text l f name r H HS F HR Hi H1 H2.
  destruct (init_parts _ _ _ _ _ _ _ H) as (nm & t & stack & msg & rest & N & T & S & M & ->).
  destruct (build_parts _ _ _ _ _ _ _ M T S) as (_ & _ & _ & A4 & _).
  destruct (A4 _ F) as (o & O & K).
  assert (L : exists ls, fmt_lines (fr_locals f) = inl ls).
  { destruct (fmt_lines (fr_locals f)) as [ls|e] eqn:L; [eauto|].
    destruct (fmt_lines_err _ _ L) as (n & Hn & _). now destruct (HR n e). }
  destruct L as (ls & L). unfold occurred_at in O. rewrite rev_app_distr in O. cbn [rev app] in O. cbv zeta in O.
  destruct (fr_locals f) as [|p q] eqn:Lf; [destruct Hi|].
  replace (filled (py_hide P)) with false in O by (destruct HS as [-> | ->]; reflexivity).
  unfold fmt_locals in O. rewrite L in O. cbn [bind] in O. injection O as <-.
  assert (K2 : part_of (fmt_local name r) msg).
  { eapply part_trans; [|exact K]. apply part_right. apply part_concat. eapply fmt_lines_In; eauto. }
  split; intros Hl; apply part_left; (eapply part_trans; [|exact K2]); unfold fmt_local.
  - replace (60 <? String.length r)%nat with false by (symmetry; apply Nat.ltb_ge; lia). apply times_s.
  - replace (60 <? String.length r)%nat with true by (symmetry; apply Nat.ltb_lt; lia). apply times_s.
Qed.
(** The error of [C85_case] one call deeper. *)
Definition C86_error : error :=
  Error EValue "ValueError" (inl "x") (Some [C85_inner; C85_user; C85_main; C85_deep]).
Example C86_case :
  (exists text, init C85_python C86_error (Some C85_signal) 2 false [] = inl text)
  /\ clear_paths "/lib/psygnal" [C85_inner; C85_main]
  /\ first_outside "/lib/psygnal" [C85_inner; C85_main] [C85_inner] C85_main []
  /\ clear_paths "/lib/psygnal" [C85_inner; C85_user; C85_main; C85_deep]
  /\ first_outside "/lib/psygnal" [C85_inner; C85_user; C85_main; C85_deep] [C85_inner] C85_user ([C85_main] ++ [C85_deep])
  /\ fr_id C85_user <> fr_id C85_deep
  /\ er_frames C86_error = Some ([C85_inner; C85_user; C85_main] ++ [C85_deep])
  /\ (forall n e, ~ In (n, inr e) (fr_locals C85_deep)) /\ In ("n", inl "1") (fr_locals C85_deep)
  /\ shown_locals C85_python.
Proof.
  assert (N : forall f, ours C85_python f = false -> ~ under "/lib/psygnal" (fr_file f)).
  { intros f H X. apply under_part, inside_part in X. unfold ours in H. cbn [C85_python py_root] in H. congruence. }
  assert (U : under "/lib/psygnal" (fr_file C85_inner)) by (exists "_signal.py"; reflexivity).
  assert (C : forall l, (forall f, In f l -> f = C85_inner \/ ours C85_python f = false) -> clear_paths "/lib/psygnal" l).
  { intros l H f Hf Hp. apply H in Hf as [->|Hf]; [exact U|]. apply inside_part in Hp.
    unfold ours in Hf. cbn [C85_python py_root] in Hf. congruence. }
  split; [eexists; vm_compute; reflexivity|].
  split; [apply C; intros f [<-|[<-|[]]]; [left|right]; reflexivity|].
  split; [split; [reflexivity|split; [apply N; reflexivity|intros g [<-|[]]; exact U]]|].
  split; [apply C; intros f [<-|[<-|[<-|[<-|[]]]]]; [left|right|right|right]; reflexivity|].
  split; [split; [reflexivity|split; [apply N; reflexivity|intros g [<-|[]]; exact U]]|].
  split; [discriminate|]. split; [reflexivity|]. split; [|split; [now left|now left]].
  intros n e [X|[]]. discriminate.
Qed.
Example C86_queue_case :
  [inl "(1,)"; inl "(2,)"] <> ([] : list (code string))
  /\ exists text, init C85_python C86_error (Some C85_signal) 0 true ([inl "(1,)"; inl "(2,)"] ++ [inl "(3,)"]) = inl text.
Proof. split; [discriminate|]. eexists. vm_compute. reflexivity. Qed.
(** False of the code: a module next to the package whose path contains the path of the
    package (such as psygnal_tools) is taken for a part of it. *)
Theorem C86_emitted_refuted : exists P x s text f g,
  init P x s 0 false [] = inl text
  /\ py_stack P = inl [f; g] /\ ~ under (py_root P) (fr_file f) /\ ~ under (py_root P) (fr_file g)
  /\ ~ part_of (place f) text
  /\ part_of (place g ++ nl ++ source P g true ++ "  # <-- SIGNAL WAS EMITTED HERE") text.
Proof.
  exists (Python (fun s => s) (fun s => s) "/lib/psygnal" None
            (inl [Frame 1 "/lib/psygnal_tools/a.py" 5 "go" ["emit()"] []; C85_main])),
    (Error EValue "ValueError" (inl "x") None), (Some C85_signal).
  eexists. exists (Frame 1 "/lib/psygnal_tools/a.py" 5 "go" ["emit()"] []), C85_main.
  split; [reflexivity|]. split; [reflexivity|]. split; [|split; [|split]].
  - intros (r & H). cbn in H. discriminate H.
  - intros (r & H). discriminate H.
  - rewrite <- inside_part. vm_compute. discriminate.
  - rewrite <- inside_part. vm_compute. reflexivity.
Qed.
Print Assumptions C86_names.
Print Assumptions C86_queue.
Print Assumptions C86_alone.
Print Assumptions C86_emitted_partial.
Print Assumptions C86_occurred.
Print Assumptions C86_chain_partial.
Print Assumptions C86_hidden.
Print Assumptions C86_self.
Print Assumptions C86_locals.
Print Assumptions C86_emitted_refuted.
