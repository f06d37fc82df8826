(** Model of the mutexes of the scheduler, src/Xsmp/Services/XsmpScheduler.{h,cpp}: which
    thread takes and releases _eventsMutex, _execMutex and _zuluEventsTableMutex, and
    in which order.  The data is in SchedModel.v; here a thread is the list of lock
    operations it still has to do.

    Simplified: a std::scoped_lock of two mutexes (std::lock) takes both at once when
    both are free: it never waits while it holds one.  _holdMutex is only ever taken
    by a thread that takes no other mutex meanwhile, and no thread waits for a
    condition while it holds another mutex (l.559-569 wait with
    _zuluEventsTableMutex alone, which the wait releases; l.640 with _holdMutex
    alone); it is left out.  The mutexes of the logger and of the statistics are
    left out. *)
From Verif Require Import Base.

Inductive lock := Events | Exec | Zulu.
Definition lock_eqb (a b : lock) : bool :=
  match a, b with Events, Events | Exec, Exec | Zulu, Zulu => true | _, _ => false end.

Inductive instr :=
| Acq (l : lock)
| AcqBoth            (* const std::scoped_lock lck{_eventsMutex, _zuluEventsTableMutex} *)
| Rel (l : lock).

(** ** The code *)

(** Calls of the scheduler's API. *)
Inductive call :=
| CPlain             (* AddImmediateEvent l.125-137, AddEvent 152-165, SetEventTime 239-260,
                        SetEventCycleTime 316-328, SetEventRepeat 330-343, RemoveEvent 345-378 of another
                        kind of event, GetCurrentEventId 380-383, GetNextScheduledEventTime 385-391 (also
                        from XsmpTimeKeeper::SetSimulationTime), Restore and Store 572-584 *)
| CZulu              (* AddZuluTimeEvent l.217-227, SetEventZuluTime 291-312 *)
| CRemoveZulu.       (* RemoveEvent of a Zulu event, l.345-365 *)

Definition call_code (c : call) : list instr :=
  match c with
  | CPlain => [Acq Events; Rel Events]
  | CZulu => [AcqBoth; Rel Zulu; Rel Events]
  | CRemoveZulu => [Acq Events; Acq Zulu; Rel Zulu; Rel Events]
  end.

Definition calls_code (cs : list call) : list instr := flat_map call_code cs.

(** XsmpScheduler.cpp:393-437 Execute, when the event is not skipped; [cs] are the calls
    its entry point makes.  lck2 (l.412) is destroyed before lck. *)
Definition execute (cs : list call) : list instr :=
  [Acq Events; Acq Exec; Rel Events] ++ calls_code cs ++ [Acq Events; Rel Exec; Rel Events].

(** XsmpScheduler.cpp:439-472 ExecuteZulu; [again]: the event is posted again (l.467). *)
Definition execute_zulu (cs : list call) (again : bool) : list instr :=
  [Acq Events; Acq Exec; Rel Events] ++ calls_code cs ++ [Acq Events; Rel Exec] ++
  (if again then [Acq Zulu; Rel Zulu] else []) ++ [Rel Events].

Definition skip_zulu (again : bool) : list instr :=
  [Acq Events] ++ (if again then [Acq Zulu; Rel Zulu] else []) ++ [Rel Events].

(** What the simulation thread does, one thing after the other. *)
Inductive sim_act :=
| SHead                    (* the head of the loop of _EnterExecuting, l.612-616,661 *)
| SCall (c : call)         (* a call by a handler of a time change, or by the loop itself *)
| SSkip                    (* Execute of a skipped event *)
| SExec (cs : list call).  (* Execute of another event *)

Definition sim_code (a : sim_act) : list instr :=
  match a with
  | SHead | SSkip => [Acq Events; Rel Events]
  | SCall c => call_code c
  | SExec cs => execute cs
  end.

(** What the Zulu thread does in InternalZuluRun, l.514-570, each time with
    _zuluEventsTableMutex held before and after. *)
Inductive zulu_act :=
| ZWait                                    (* l.552-569 *)
| ZSkip (again : bool)                     (* l.537-539 *)
| ZExec (cs : list call) (again : bool).

Definition zulu_code (a : zulu_act) : list instr :=
  match a with
  | ZWait => [Rel Zulu; Acq Zulu]
  | ZSkip again => [Rel Zulu] ++ skip_zulu again ++ [Acq Zulu]
  | ZExec cs again => [Rel Zulu] ++ execute_zulu cs again ++ [Acq Zulu]
  end.

(** A system: what the simulation thread, the Zulu thread and the other threads do. *)
Record system := Sys {
  sys_sim : list sim_act;
  sys_zulu : list zulu_act;
  sys_clients : list (list call) }.

Definition sim_prog (l : list sim_act) : list instr := flat_map sim_code l.
Definition zulu_prog (l : list zulu_act) : list instr := [Acq Zulu] ++ flat_map zulu_code l ++ [Rel Zulu].

(** ** The machine *)

(** A thread: the mutexes it holds and what it still has to do. *)
Record thread := Th { held : list lock; todo : list instr }.

(** Thread 0 is the simulation thread, thread 1 the Zulu thread. *)
Definition start (s : system) : list thread :=
  Th [] (sim_prog (sys_sim s)) :: Th [] (zulu_prog (sys_zulu s)) ::
  map (fun cs => Th [] (calls_code cs)) (sys_clients s).

Definition holds (l : lock) (t : thread) : bool := existsb (lock_eqb l) (held t).
Definition free (l : lock) (ts : list thread) : bool := negb (existsb (holds l) ts).

Fixpoint drop (l : lock) (h : list lock) : list lock :=
  match h with
  | [] => []
  | x :: h => if lock_eqb l x then drop l h else x :: drop l h
  end.

(** The next operation of a thread; None: it waits, or has nothing to do. *)
Definition advance (ts : list thread) (t : thread) : option thread :=
  match todo t with
  | [] => None
  | Acq l :: r => if free l ts then Some (Th (l :: held t) r) else None
  | AcqBoth :: r =>
      if free Events ts && free Zulu ts then Some (Th (Events :: Zulu :: held t) r) else None
  | Rel l :: r => Some (Th (drop l (held t)) r)
  end.

Fixpoint update (n : nat) (t : thread) (ts : list thread) : list thread :=
  match n, ts with
  | _, [] => []
  | O, _ :: r => t :: r
  | S n, x :: r => x :: update n t r
  end.

(** The OS lets thread [n] run. *)
Definition lstep (ts : list thread) (n : nat) : list thread :=
  match nth_error ts n with
  | None => ts
  | Some t => match advance ts t with Some t' => update n t' ts | None => ts end
  end.

Definition lrun (s : system) (sched : list nat) : list thread := fold_left lstep sched (start s).
