(** How errors of callbacks are reported: src/psygnal/_exceptions.py ("EX"), the except
    clauses of src/psygnal/_signal.py ("S") and src/psygnal/_queue.py ("Q").

    [Core] says which exception leaves an emission; here is the code that builds it: the
    text of EmitLoopError, and the user code that runs while the text is built (str(),
    repr(), bool()), which may raise itself.

    Strings are lists of characters; the width of a string is their number. *)

From Coq Require Import DecimalString.
From Verif Require Import Base.
Open Scope string_scope.
Open Scope list_scope.

(** The outcome of a piece of user code. *)
Definition code (A : Type) := (A + exn)%type.
Definition bind {A B} (x : code A) (f : A -> code B) : code B :=
  match x with inl a => f a | inr e => inr e end.
(** [except Exception] and [suppress(Exception)] catch everything but BaseExceptions. *)
Definition is_exception (e : exn) : bool := match e with EBase _ => false | _ => true end.

(** A FrameInfo of module inspect: [fr_id] stands for the frame object; [fr_context]:
    code_context, [] for None; [fr_locals]: f_locals, with the outcome of repr(value). *)
Record frame := Frame {
  fr_id : nat;
  fr_file : string;
  fr_line : Z;
  fr_function : string;
  fr_context : list string;
  fr_locals : list (string * code string)
}.
(** FrameInfos are tuples; the locals belong to the frame object. *)
Definition frame_eqb (a b : frame) : bool :=
  Nat.eqb (fr_id a) (fr_id b) && String.eqb (fr_file a) (fr_file b) && Z.eqb (fr_line a) (fr_line b)
  && String.eqb (fr_function a) (fr_function b)
  && (if list_eq_dec string_dec (fr_context a) (fr_context b) then true else false).

(** Python: repr and strip of a str, ROOT (EX:17), os.getenv("PSYGNAL_HIDE_LOCALS") and
    inspect.stack(). *)
Record python := Python {
  py_repr : string -> string;
  py_strip : string -> string;
  py_root : string;
  py_hide : option string;
  py_stack : code (list frame)
}.
(** The exception of the callback: its class name, str(exc), and the frames of its
    traceback (None: exc.__traceback__ is None). *)
Record error := Error {
  er_exn : exn;
  er_class : string;
  er_text : code string;
  er_frames : option (list frame)
}.
(** A signal as seen here: its name and its object (None: no object, or it is gone) with
    bool(object) and the module (None: no __module__) and __qualname__ of its class. *)
Record owner := Owner {
  ow_truth : code bool;
  ow_module : option string;
  ow_class : string
}.
Record signal := Sig { sg_name : string; sg_owner : option owner }.

Definition nl : string := String (Ascii.ascii_of_nat 10) "".
Definition number (z : Z) : string := NilZero.string_of_int (Z.to_int z).
Fixpoint times (n : nat) (s : string) : string :=
  match n with 0 => "" | S n => s ++ times n s end%string.
(** [s in t] for strings. *)
Fixpoint inside (s t : string) : bool :=
  String.prefix s t || match t with EmptyString => false | String _ t => inside s t end.
(** Truth of a str or None. *)
Definition filled (s : option string) : bool := match s with Some (String _ _) => true | _ => false end.

Section Text.
Variable P : python.

(** [_fmt_frame] (EX:111-115). *)
Definition fmt_frame (f : frame) (with_context : bool) : string :=
  (fr_file f ++ ":" ++ number (fr_line f) ++ " in " ++ fr_function f ++ nl
   ++ match fr_context f with
      | c :: _ => if with_context then "      " ++ py_strip P c else ""
      | [] => ""
      end)%string.
(** [_fmt_locals] (EX:118-128), with its default arguments. *)
Definition fmt_local (name : string) (r : string) : string :=
  (times (20 - String.length name) " " ++ name ++ " = "
   ++ (if (60 <? String.length r)%nat then String.substring 0 60 r ++ "..." else r))%string.
Fixpoint fmt_lines (l : list (string * code string)) : code (list string) :=
  match l with
  | [] => inl []
  | (name, r) :: l =>
      if String.eqb name "self" || String.eqb name "cls" then fmt_lines l
      else bind r (fun r => bind (fmt_lines l) (fun ls => inl (fmt_local name r :: ls)))
  end.
Definition fmt_locals (l : list (string * code string)) : code string :=
  bind (fmt_lines l) (fun ls => inl (String.concat nl ls)).

Definition ours (f : frame) : bool := inside (py_root P) (fr_file f).
(** The first element that is not in the package, with what follows it. *)
Fixpoint first_theirs (l : list frame) : option (frame * list frame) :=
  match l with
  | [] => None
  | f :: l => if ours f then first_theirs l else Some (f, l)
  end.
(** [l.index(f)]; only called with elements of [l]. *)
Fixpoint index (f : frame) (l : list frame) : nat :=
  match l with [] => 0 | g :: l => if frame_eqb f g then 0 else S (index f l) end.

(** EX:76-83: where the signal was emitted.  next() raises StopIteration if all frames are
    in the package, which is suppressed; so is the IndexError of a frame without caller. *)
Definition emitted_at (stack : list frame) : string :=
  match first_theirs stack with
  | None => ""
  | Some (f, _) =>
      (nl ++ nl ++ "  SIGNAL EMISSION: " ++ nl
       ++ match nth_error stack (index f stack + 1) with
          | Some g => "    " ++ fmt_frame g true ++ nl
          | None => ""
          end
       ++ "    " ++ fmt_frame f true ++ "  # <-- SIGNAL WAS EMITTED HERE" ++ nl)%string
  end.
(** EX:86-106: where the error occurred.  Inside [suppress(Exception)]: what was appended
    before an exception stays; BaseExceptions go on. *)
Definition occurred_at (frames : list frame) : code string :=
  match rev frames with
  | [] => inl ""
  | last :: _ =>
      let chain :=
        match first_theirs frames with
        | Some (f, _) =>
            if frame_eqb f last then ""
            else (nl ++ "  CALLBACK CHAIN:" ++ nl ++ "    " ++ fmt_frame f false ++ "    ... "
                  ++ number (Z.of_nat (List.length frames) - Z.of_nat (index f frames) - 2)
                  ++ " more frames ..." ++ nl)%string
        | None => ""
        end in
      let here := (chain ++ "    " ++ fmt_frame last true ++ "  # <-- ERROR OCCURRED HERE " ++ nl)%string in
      match fr_locals last with
      | [] => inl here
      | _ :: _ =>
          if filled (py_hide P) then inl here
          else
            let heading := (here ++ nl ++ "      Local variables:" ++ nl)%string in
            match fmt_locals (fr_locals last) with
            | inl s => inl (heading ++ s)%string
            | inr e => if is_exception e then inl heading else inr e
            end
      end
  end.
(** [_build_psygnal_exception_msg] (EX:64-108).  len(line) is at least 6, so "-" is
    repeated len(line) - 4 times. *)
Definition build_msg (sig_name : string) (x : error) (recursion_depth : nat) : code string :=
  bind (er_text x) (fun text =>
    let line := (nl ++ nl ++ "  " ++ er_class x ++ ": " ++ text)%string in
    let msg := (nl ++ nl ++ "While emitting signal " ++ py_repr P sig_name
                ++ ", an error occurred in a callback:" ++ line ++ nl ++ "  "
                ++ times (String.length line - 4) "-"
                ++ match recursion_depth with
                   | 0 => ""
                   | S n => nl ++ "nested " ++ number (Z.of_nat recursion_depth) ++ " level"
                            ++ (if (0 <? n)%nat then "s" else "") ++ " deep"
                   end)%string in
    bind (py_stack P) (fun stack =>
      let msg := (msg ++ emitted_at stack)%string in
      match er_frames x with
      | None => inl msg
      | Some frames => bind (occurred_at frames) (fun s => inl (msg ++ s)%string)
      end)).
(** The name of the signal in the message (EX:39-49). *)
Definition full_name (s : option signal) : code string :=
  match s with
  | None => inl ""
  | Some s =>
      match sg_owner s with
      | None => inl (sg_name s)
      | Some o =>
          bind (ow_truth o) (fun b =>
            if b then
              inl (match ow_module o with
                   | Some (String _ _ as m) => m ++ "."
                   | _ => ""
                   end ++ ow_class o ++ "." ++ sg_name s)%string
            else inl (sg_name s))
      end
  end.
(** [EmitLoopError.__init__] (EX:25-61): the message, or the exception of the user code.
    [queued]: reemission == "queued"; [queue]: for each element of emit_queue, str of the
    tuple of arguments.  With an empty queue depth is -1 and emit_queue[-1] raises. *)
Definition init (x : error) (s : option signal) (recursion_depth : nat) (queued : bool)
  (queue : list (code string)) : code string :=
  bind (full_name s) (fun name =>
    bind (build_msg name x recursion_depth) (fun msg =>
      if queued && negb (Z.eqb (Z.of_nat (List.length queue) - 1) 0) then
        match rev queue with
        | [] => inr EIndex
        | last :: _ =>
            bind last (fun a =>
              inl (msg ++ nl ++ "NOTE: reemission is set to 'queued', and this error occurred "
                   ++ "at a queue-depth of " ++ number (Z.of_nat (List.length queue) - 1) ++ "."
                   ++ nl ++ "Emitting arguments: " ++ a ++ ")" ++ nl)%string)
        end
      else inl msg)).

(** What leaves the try statement: a new EmitLoopError with its cause and text, a new
    RecursionError, or an exception as it is (the callback's own, or one that was raised
    while the others were being built). *)
Inductive leaves :=
| NewLoop (cause : exn) (text : string)
| NewRecursion
| Same (e : exn).
(** The except clauses of [_run_emit_loop] (S:1280-1296) and of [emit_fast] (S:1242-1253;
    there depth 0, not queued, no queue); [args]: str(args), which the text of the
    RecursionError contains. *)
Definition except_clauses (x : error) (args : code string) (s : signal) (recursion_depth : nat)
  (queued : bool) (queue : list (code string)) : leaves :=
  match er_exn x with
  | EBase n => Same (EBase n)
  | ERecursion => match args with inl _ => NewRecursion | inr e => Same e end
  | EEmitLoop _ _ _ as e => Same e
  | e => match init x (Some s) recursion_depth queued queue with
         | inl msg => NewLoop e msg
         | inr e' => Same e'
         end
  end.
(** The except clause of [emit_queued] (Q:93-94). *)
Definition except_queued (x : error) : leaves :=
  match er_exn x with
  | EBase n => Same (EBase n)
  | e => match init x None 0 false [] with
         | inl msg => NewLoop e msg
         | inr e' => Same e'
         end
  end.
End Text.
