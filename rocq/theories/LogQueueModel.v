(** Model of the delivery of log messages: LoggerProcessor in
    src/Xsmp/Services/XsmpLogger.cpp:408-488.  Any number of threads call Log, one
    worker thread runs Process, one thread runs the destructor.

    A section of another thread under the mutex is one step; the worker's steps
    are the statements of Process.  The condition variable may wake the worker
    up spuriously.  Simplified: appenders do not throw (an exception in the worker
    ends the program); nobody calls Log once the destructor has started. *)
From Coq Require Import ZArith List Bool Arith.
From Verif Require Import Base.
Import ListNotations.
Local Open Scope nat_scope.

Definition msg := Z.

Inductive pc :=
| WStart                 (** line 464: about to lock *)
| WLoop                  (** 465: while (running), mutex held *)
| WInner                 (** 466: while (!_logs.empty()), mutex held *)
| WAppend (k : nat)      (** 468-475: unlocked, about to call appender k; at the end about to lock and pop *)
| WCheck                 (** 477: the predicate of wait, mutex held *)
| WWait                  (** 477: asleep *)
| WWake                  (** 477: awake, about to lock *)
| WFinal                 (** 481: while (!_logs.empty()), mutex held *)
| WFinalAppend (k : nat) (** 482-486, mutex held *)
| WDone.

Record ls := LS {
  queue : list msg;                (** _logs *)
  running : bool;
  worker : pc;
  notifies : nat;                  (** threads between releasing the mutex and notify_one *)
  pushed : list msg;               (** ghost: what was logged so far, in order *)
  delivered : nat -> list msg      (** ghost: what appender i was given so far *)
}.

Definition l_init : ls := LS [] true WStart 0 [] (fun _ => []).

Definition holds_mutex (p : pc) : bool :=
  match p with
  | WLoop | WInner | WCheck | WFinal | WFinalAppend _ => true
  | _ => false
  end.

Definition is_nil {A} (l : list A) : bool := match l with [] => true | _ => false end.

Definition give (d : nat -> list msg) (k : nat) (q : list msg) : nat -> list msg :=
  fun i => if i =? k then d i ++ firstn 1 q else d i.

Inductive label := EPush (m : msg) | EStop | ENotify | ESpurious | EWorker.

Section Steps.
  (** The number of appenders. *)
  Variable n : nat.

  (** XsmpLogger.cpp:463-488, Process *)
  Definition worker_step (s : ls) : option ls :=
    let to p := Some (LS (queue s) (running s) p (notifies s) (pushed s) (delivered s)) in
    match worker s with
    | WStart => to WLoop
    | WLoop => to (if running s then WInner else WFinal)
    | WInner => to (if is_nil (queue s) then WCheck else WAppend 0)
    | WAppend k =>
        if k <? n then
          Some (LS (queue s) (running s) (WAppend (S k)) (notifies s) (pushed s)
                   (give (delivered s) k (queue s)))
        else Some (LS (tl (queue s)) (running s) WInner (notifies s) (pushed s) (delivered s))
    | WCheck => to (if negb (running s) || negb (is_nil (queue s)) then WLoop else WWait)
    | WWait => None
    | WWake => to WCheck
    | WFinal => to (if is_nil (queue s) then WDone else WFinalAppend 0)
    | WFinalAppend k =>
        if k <? n then
          Some (LS (queue s) (running s) (WFinalAppend (S k)) (notifies s) (pushed s)
                   (give (delivered s) k (queue s)))
        else Some (LS (tl (queue s)) (running s) WFinal (notifies s) (pushed s) (delivered s))
    | WDone => None
    end.

  Definition wake (p : pc) : pc := match p with WWait => WWake | _ => p end.

  Definition l_step (s : ls) (e : label) : option ls :=
    match e with
    | EPush m =>                               (** 454-462 Push *)
        if holds_mutex (worker s) || negb (running s) then None else
        Some (LS (queue s ++ [m]) (running s) (worker s) (S (notifies s)) (pushed s ++ [m]) (delivered s))
    | EStop =>                                 (** 450-453 Stop, called by the destructor *)
        if holds_mutex (worker s) || negb (running s) then None else
        Some (LS (queue s) false (worker s) (S (notifies s)) (pushed s) (delivered s))
    | ENotify =>                               (** _cv.notify_one() *)
        match notifies s with
        | O => None
        | S k => Some (LS (queue s) (running s) (wake (worker s)) k (pushed s) (delivered s))
        end
    | ESpurious =>
        match worker s with
        | WWait => Some (LS (queue s) (running s) WWake (notifies s) (pushed s) (delivered s))
        | _ => None
        end
    | EWorker => worker_step s
    end.

  Fixpoint l_run (s : ls) (l : list label) : option ls :=
    match l with
    | [] => Some s
    | e :: l => match l_step s e with Some s' => l_run s' l | None => None end
    end.
End Steps.
