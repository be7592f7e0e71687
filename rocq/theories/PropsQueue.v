(** Callbacks bound to a thread: C29. *)

From Verif Require Import Base Core Frame Fuel Conn Keep Spec Trace Inv Emission Queue Demo.
Open Scope Z_scope.
Open Scope string_scope.
Open Scope nat_scope.
Open Scope list_scope.

(** * C29 *)

(** At any moment of any program, with any switching between threads: the calls ever queued
    for thread t are those taken out so far, in the same order, followed by those still
    waiting.  So none is lost, made twice or overtaken.  (Which calls an emission makes at
    once and which it queues is in [due], theorems C01, C02.) *)
Theorem C29_fifo : forall U (E : env U) w t, reachable E w ->
  deferred t (w_tr w) = popped t (w_tr w) ++ waiting t w.
Proof. intros U E w t H. apply (reachable_fifo E w H t). Qed.

(** emit_queued: every call taken out is made at once with the emitted arguments; without
    exception the queue is empty afterwards and None is returned, otherwise the exception
    comes out as EmitLoopError (only BaseExceptions as they are), and the calls after it are
    not taken out. *)
Theorem C29_drain : forall U (E0 E : env U) w w' ot r, reachable E0 w ->
  steps E (OEmitQueued ot) w w' r -> done r ->
  let t := match ot with Some t => t | None => w_me w end in
  exists h x, w_tr w' = w_tr w ++ h /\ drains t h x /\
    match x with
    | None => r = Ok VNone /\ waiting t w' = []
    | Some (EBase n) => r = Err (EBase n)
    | Some e => r = Err (EEmitLoop None 0 e)
    end /\
    waiting t w ++ deferred t h = popped t h ++ waiting t w'.
Proof.
  intros U E0 E w w' ot r HR [n H] Hr t. pose proof (reachable_fifo E0 w HR) as HF.
  cbn [step] in H. fold t in H. destruct (drain_drains _ _ _ _ _ _ _ H HF Hr) as (HF' & h & x & HT & HD & HX).
  exists h, x. split; [exact HT|]. split; [exact HD|]. split.
  - destruct x as [e|]; [destruct e; exact HX|]. unfold waiting. destruct HX as [-> ->]. auto.
  - destruct (HF t) as [F _], (HF' t) as [F' _].
    rewrite HT, deferred_app, popped_app, F, <- !app_assoc in F'. now apply app_inv_head in F'.
Qed.

(** Emitted twice in thread 0 with a callback bound to thread 1 and a plain one; the first
    queued call raises: the second stays queued and is made by the next emit_queued. *)
Definition C29_env : env unit :=
  demo (fun f a => match f, a with 1, VInt 1 :: _ => Throw (EUser 4) | _, _ => Ret VNone end).
Definition C29_world := world_of C29_env (all_plain Immediate 1) tt 50
  [OConnect 0 (fn 1) (Copts (Some (ThIs 1)) None None UFalse None RefWarn 0);
   conn 0 2 0; emit 0 [VInt 1]; emit 0 [VInt 2]; OThread 1].
Example C29_case :
  reachable C29_env C29_world
  /\ map snd (waiting 1 C29_world) = [[VInt 1]; [VInt 2]] /\ w_me C29_world = 1
  /\ let w1 := after1 C29_env 20 (OEmitQueued None) C29_world in
     outcome1 C29_env 20 (OEmitQueued None) C29_world = Some (Err (EEmitLoop None 0 (EUser 4)))
     /\ map snd (waiting 1 w1) = [[VInt 2]]
     /\ let w2 := after1 C29_env 20 (OEmitQueued None) w1 in
        outcome1 C29_env 20 (OEmitQueued None) w1 = Some (Ok VNone)
        /\ waiting 1 w2 = [] /\ map snd (popped 1 (w_tr w2)) = [[VInt 1]; [VInt 2]]
        /\ In (EDCall 3 0 0 [VInt 2]) (w_tr w2).
Proof. split; [reach|]. vm_compute. repeat split; auto 30. Qed.
Print Assumptions C29_fifo.
Print Assumptions C29_drain.
