(** Model of Execute: one worker per file, the channel of finished files, the
    goroutine that closes it, and the main goroutine that renders the files.

    The model is a small-step transition system: a step is one action of one
    goroutine, and any enabled goroutine may act.  [Mem] is the memory shared by
    all goroutines, [Work] a workload; [begin w] is the code of Overlay.Apply for
    the workload [w] and [tick] performs its next operation on the shared memory.
    [scan i] is the code by which doPostProcessing reads the documents of file [i],
    [peek] performs its next operation, and [emit] is what it does to the outside
    world [World] with what it has read. *)
From Verif Require Import Prelude.

Section pipeline.
Context {Mem Work Code Scan Pages World : Type}.
Context (begin : Work -> Code) (tick : Code -> Mem -> Mem * (Code + res unit)).
Context (scan : nat -> Scan) (peek : Scan -> Mem -> Scan + Pages) (emit : nat -> Pages -> World -> World * res unit).
(** The workloads queueOverlays sends for each file (execute.go:28). *)
Context (files : list (list Work)).

(** What StartHandler (workstream.go:44-54) is doing: waiting for a workload, or
    applying one, with [c] still to be done. *)
Inductive hstate := HIdle | HBusy (c : Code).

(** execute.go:31-54  one goroutine of the group: not started; running, where
    [todo] is what its producer goroutine (execute.go:37) still has to send and
    [closed] says that the producer has closed the stream; at the select; or
    returned.  Simplification: a producer whose handler has returned stays
    blocked for ever and is dropped from the state. *)
Inductive wstate :=
  | WNew
  | WRun (todo : list Work) (closed : bool) (h : hstate)
  | WSelect
  | WReturned (r : option err).

(** execute.go:57-60  the closing goroutine: not started, in eg.Wait, before
    close, finished. *)
Inductive cstate := CNone | CWaiting | CClosing | CClosed.

(** execute.go:28-70 and 75-83  the main goroutine: starting worker [k]; waiting
    to receive; rendering file [i], with [r] still to be read; in the final eg.Wait;
    returned. *)
Inductive mstate := MLaunch (k : nat) | MRecv | MPost (i : nat) (r : Scan) | MWait | MReturn (r : option err).

(** [group_err] and [cancelled] are the errgroup's err and its context; [buffer]
    is pChan; [finished] is a history variable: the files rendered so far (with
    or without success), in order. *)
(* execute.go:22-70 and workstream.go:13-54, with errgroup (external) *)
Record state := mkState {
  memory : Mem; workers : list wstate; group_err : option err; cancelled : bool;
  buffer : list nat; closer : cstate; main : mstate; outside : World; finished : list nat; crashed : bool }.

(* one assignment to the state of execute.go:22-70 (bookkeeping of the model) *)
Definition set_worker (i : nat) (w : wstate) (s : state) : state :=
  mkState (memory s) (<[i := w]> (workers s)) (group_err s) (cancelled s) (buffer s) (closer s) (main s) (outside s) (finished s) (crashed s).
(* one assignment to the state of execute.go:22-70 (bookkeeping of the model) *)
Definition set_memory (m : Mem) (s : state) : state :=
  mkState m (workers s) (group_err s) (cancelled s) (buffer s) (closer s) (main s) (outside s) (finished s) (crashed s).
(* one assignment to the state of execute.go:22-70 (bookkeeping of the model) *)
Definition set_main (m : mstate) (s : state) : state :=
  mkState (memory s) (workers s) (group_err s) (cancelled s) (buffer s) (closer s) m (outside s) (finished s) (crashed s).
(* one assignment to the state of execute.go:22-70 (bookkeeping of the model) *)
Definition set_closer (c : cstate) (s : state) : state :=
  mkState (memory s) (workers s) (group_err s) (cancelled s) (buffer s) c (main s) (outside s) (finished s) (crashed s).
(* one assignment to the state of execute.go:22-70 (bookkeeping of the model) *)
Definition set_buffer (b : list nat) (s : state) : state :=
  mkState (memory s) (workers s) (group_err s) (cancelled s) b (closer s) (main s) (outside s) (finished s) (crashed s).
(* one assignment to the state of execute.go:22-70 (bookkeeping of the model) *)
Definition set_cancelled (s : state) : state :=
  mkState (memory s) (workers s) (group_err s) true (buffer s) (closer s) (main s) (outside s) (finished s) (crashed s).
(* one assignment to the state of execute.go:22-70 (bookkeeping of the model) *)
Definition set_crashed (s : state) : state :=
  mkState (memory s) (workers s) (group_err s) (cancelled s) (buffer s) (closer s) (main s) (outside s) (finished s) true.
(* one assignment to the state of execute.go:22-70 (bookkeeping of the model) *)
Definition set_rendered (w : World) (i : nat) (s : state) : state :=
  mkState (memory s) (workers s) (group_err s) (cancelled s) (buffer s) (closer s) (main s) w (finished s ++ [i]) (crashed s).

(** errgroup.Group.Go (external): a goroutine that returns an error records it
    and cancels the context if it is the first to do so. *)
Definition group_fail (e : err) (s : state) : state :=
  match group_err s with
  | Some _ => s
  | None => mkState (memory s) (workers s) (Some e) true (buffer s) (closer s) (main s) (outside s) (finished s) (crashed s)
  end.

Definition returned (w : wstate) : Prop := match w with WReturned _ => True | _ => False end.

(** One step of one goroutine. *)
(* execute.go:22-83, workstream.go:31-53; lines beside each rule *)
Inductive step : state -> state -> Prop :=
  (** execute.go:28-55  main starts the next worker *)
  | step_launch s k work : crashed s = false -> main s = MLaunch k -> files !! k = Some work ->
      step s (set_main (MLaunch (S k)) (set_worker k (WRun work false HIdle) s))
  (** execute.go:57-62  all workers started: main starts the closer and goes on to PostProcessHandler *)
  | step_launched s : crashed s = false -> main s = MLaunch (length files) ->
      step s (set_main MRecv (set_closer CWaiting s))
  (** workstream.go:31-38 and 45  the producer hands a workload to the idle handler (unbuffered channel) *)
  | step_handover s i w todo : crashed s = false -> workers s !! i = Some (WRun (w :: todo) false HIdle) ->
      step s (set_worker i (WRun todo false (HBusy (begin w))) s)
  (** yamlfile.go:56  the producer closes the stream after its last workload *)
  | step_close_stream s i h : crashed s = false -> workers s !! i = Some (WRun [] false h) ->
      step s (set_worker i (WRun [] true h) s)
  (** workstream.go:48  the next operation of Apply *)
  | step_work s i p p' todo c m : crashed s = false -> workers s !! i = Some (WRun todo c (HBusy p)) ->
      tick p (memory s) = (m, inl p') ->
      step s (set_worker i (WRun todo c (HBusy p')) (set_memory m s))
  (** workstream.go:48  Apply succeeds *)
  | step_apply s i p todo c m : crashed s = false -> workers s !! i = Some (WRun todo c (HBusy p)) ->
      tick p (memory s) = (m, inr (Ok tt)) ->
      step s (set_worker i (WRun todo c HIdle) (set_memory m s))
  (** workstream.go:48-50, execute.go:39-41  Apply fails: the worker returns the error *)
  | step_apply_error s i p todo c m e : crashed s = false -> workers s !! i = Some (WRun todo c (HBusy p)) ->
      tick p (memory s) = (m, inr (Err e)) ->
      step s (group_fail e (set_worker i (WReturned (Some e)) (set_memory m s)))
  (** a panic in any goroutine ends the process *)
  | step_apply_panic s i p todo c m : crashed s = false -> workers s !! i = Some (WRun todo c (HBusy p)) ->
      tick p (memory s) = (m, inr Panic) ->
      step s (set_crashed (set_memory m s))
  (** workstream.go:45, 53  the stream is closed and drained *)
  | step_drained s i : crashed s = false -> workers s !! i = Some (WRun [] true HIdle) ->
      step s (set_worker i WSelect s)
  (** execute.go:44-45  the file is sent, if the channel has room *)
  | step_send s i : crashed s = false -> workers s !! i = Some WSelect -> length (buffer s) < length files ->
      step s (set_buffer (buffer s ++ [i]) (set_worker i (WReturned None) s))
  (** execute.go:46-49  the context is done (its Err is then never nil) *)
  | step_give_up s i : crashed s = false -> workers s !! i = Some WSelect -> cancelled s = true ->
      step s (group_fail ECanceled (set_worker i (WReturned (Some ECanceled)) s))
  (** execute.go:58  eg.Wait returns in the closer; Wait also cancels the context *)
  | step_waited s : crashed s = false -> closer s = CWaiting -> Forall returned (workers s) ->
      step s (set_closer CClosing (set_cancelled s))
  (** execute.go:59 *)
  | step_close s : crashed s = false -> closer s = CClosing -> step s (set_closer CClosed s)
  (** execute.go:76  main receives a file *)
  | step_recv s i rest : crashed s = false -> main s = MRecv -> buffer s = i :: rest ->
      step s (set_main (MPost i (scan i)) (set_buffer rest s))
  (** execute.go:76, 82  the channel is closed and empty *)
  | step_recv_closed s : crashed s = false -> main s = MRecv -> buffer s = [] -> closer s = CClosed ->
      step s (set_main MWait s)
  (** execute.go:77  the next read of doPostProcessing *)
  | step_read s i r r' : crashed s = false -> main s = MPost i r -> peek r (memory s) = inl r' ->
      step s (set_main (MPost i r') s)
  (** execute.go:77  everything is read: the rendering is written *)
  | step_post s i r p w : crashed s = false -> main s = MPost i r -> peek r (memory s) = inr p ->
      emit i p (outside s) = (w, Ok tt) ->
      step s (set_main MRecv (set_rendered w i s))
  (** execute.go:77-79, 62-64 *)
  | step_post_error s i r p w e : crashed s = false -> main s = MPost i r -> peek r (memory s) = inr p ->
      emit i p (outside s) = (w, Err e) ->
      step s (set_main (MReturn (Some e)) (set_rendered w i s))
  | step_post_panic s i r p w : crashed s = false -> main s = MPost i r -> peek r (memory s) = inr p ->
      emit i p (outside s) = (w, Panic) ->
      step s (set_crashed (set_rendered w i s))
  (** execute.go:66-70 *)
  | step_wait s : crashed s = false -> main s = MWait -> Forall returned (workers s) ->
      step s (set_main (MReturn (group_err s)) (set_cancelled s)).

(** Execute before its first step, once GetInstructions has succeeded. *)
(* execute.go:22-28 *)
Definition start (m : Mem) (w : World) : state :=
  mkState m (map (fun _ => WNew) files) None false [] CNone (MLaunch 0) w [] false.

(** Any number of steps. *)
(* any execution of execute.go:22-83 *)
Inductive steps : nat -> state -> state -> Prop :=
  | steps_none s : steps 0 s s
  | steps_more n s s1 s2 : step s s1 -> steps n s1 s2 -> steps (S n) s s2.
End pipeline.
Arguments state : clear implicits.
Arguments wstate : clear implicits.
Arguments hstate : clear implicits.
Arguments mstate : clear implicits.
