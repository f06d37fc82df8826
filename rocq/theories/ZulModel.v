(** The thread of the Zulu events: src/Xsmp/Services/XsmpScheduler.cpp:88-112, 203-232,
    289-314, 345-378, 439-473 and 514-570.

    A step is what one thread does while it owns [_zuluEventsTableMutex], or one move of the
    clock, or one notification.  Simplified: one clock that never goes back (the code
    computes the deadline on the steady clock from a reading of the system clock); events
    that are about to be executed are not removed (SchedModel has the whole of it). *)
From Verif Require Import Base.
From Coq Require Import ZArith List Bool.
Import ListNotations.
Local Open Scope Z_scope.

(** Where the thread is in InternalZuluRun. *)
Inductive zth :=
| TStart                                (* l.516, about to lock *)
| TLook                                 (* l.518 *)
| TFor                                  (* l.521-523 *)
| TWhile (k : Z)                        (* l.526, it->first = k *)
| TBatch (k : Z) (ids : list Z)         (* l.534, the events still to execute *)
| TExec (k : Z) (id : Z) (ids : list Z) (* l.536, not locked *)
| TArm                                  (* l.549 *)
| TPred (d : Z) | TPredE                (* about to evaluate the condition: l.562-566, l.554 *)
| TBlocked (d : Z) | TBlockedE          (* in the wait, not locked: l.556, l.553 *)
| TWoken (d : Z) | TWokenE              (* woken, not locked yet *)
| TEnd.

(** [table]: _zulu_events_table; [pend]: calls of notify_one that are still to come, after
    the mutex was released; [stop]: _terminate. *)
Record zs := ZS { clock : Z; table : omap (list Z); th : zth; pend : nat; stop : bool }.

Definition tget (k : Z) (t : omap (list Z)) : list Z := match mget k t with Some l => l | None => [] end.

(** it->first <= GetZuluTime() for the first entry. *)
Definition due (s : zs) : bool := match table s with (k, _) :: _ => k <=? clock s | [] => false end.

(** The thread does not own the mutex. *)
Definition unlocked (p : zth) : bool :=
  match p with TStart | TExec _ _ _ | TBlocked _ | TBlockedE | TWoken _ | TWokenE | TEnd => true | _ => false end.

Definition wake (p : zth) : zth := match p with TBlocked d => TWoken d | TBlockedE => TWokenE | p => p end.

Inductive label :=
| LTick (t : Z)                (* the clock moves *)
| LPost (t id : Z)             (* AddZuluTimeEvent, l.216-226 *)
| LMove (id from t : Z)        (* SetEventZuluTime, l.293-311 *)
| LDrop (id from : Z)          (* RemoveEvent, l.358-362; SetEventZuluTime to the past, l.300-307 *)
| LStop                        (* DoDisconnect, l.100-107 *)
| LNotify                      (* notify_one: l.108, 227, 313 *)
| LSpurious                    (* a condition variable may wake for no reason *)
| LThread (next : option Z).   (* the thread; when an event is done: its next time, if it is cyclic *)

(** One step of the thread; with the event it starts. *)
Definition thread_step (s : zs) (next : option Z) : zs * option Z :=
  let go p := (ZS (clock s) (table s) p (pend s) (stop s), None) in
  match th s with
  | TStart => go TLook
  | TLook => go (if stop s then TEnd else TFor)
  | TFor => match table s with
            | (k, _) :: _ => go (if k <=? clock s then TWhile k else TArm)
            | [] => go TArm
            end
  | TWhile k => match tget k (table s) with
                | [] => (ZS (clock s) (mdel k (table s)) TFor (pend s) (stop s), None)               (* l.544-545 *)
                | ids => (ZS (clock s) (mset k [] (table s)) (TBatch k ids) (pend s) (stop s), None) (* l.528-529 *)
                end
  | TBatch k (id :: r) => (ZS (clock s) (table s) (TExec k id r) (pend s) (stop s), Some id)
  | TBatch k [] => go (TWhile k)
  | TExec k id r =>                                                                                  (* l.466-471, 537-541 *)
      let t := match next with Some n => mset n (sins id (tget n (table s))) (table s) | None => table s end in
      (ZS (clock s) t (if stop s then TEnd else TBatch k r) (pend s) (stop s), None)
  | TArm => match table s with
            | [] => go TPredE
            | (k, _) :: _ => go (TPred (Z.max (clock s) k))                                           (* l.559-561 *)
            end
  | TPred d => go (if stop s || due s then TLook else TBlocked d)
  | TPredE => go (if stop s || match table s with [] => false | _ => true end then TLook else TBlockedE)
  | TBlocked d => if d <=? clock s then go TLook else (s, None)                                       (* the time is over *)
  | TBlockedE => (s, None)
  | TWoken d => go (TPred d)
  | TWokenE => go TPredE
  | TEnd => (s, None)
  end.

Definition step (s : zs) (l : label) : zs * option Z :=
  match l with
  | LTick t => (ZS (Z.max (clock s) t) (table s) (th s) (pend s) (stop s), None)
  | LPost t id => if unlocked (th s) then (ZS (clock s) (mset t (sins id (tget t (table s))) (table s)) (th s) (S (pend s)) (stop s), None) else (s, None)
  | LMove id f t => if unlocked (th s) then
      let t1 := mset f (sdel id (tget f (table s))) (table s) in
      (ZS (clock s) (mset t (sins id (tget t t1)) t1) (th s) (S (pend s)) (stop s), None) else (s, None)
  | LDrop id f => if unlocked (th s) then (ZS (clock s) (mset f (sdel id (tget f (table s))) (table s)) (th s) (pend s) (stop s), None) else (s, None)
  | LStop => if unlocked (th s) && negb (stop s) then (ZS (clock s) (table s) (th s) (S (pend s)) true, None) else (s, None)
  | LNotify => match pend s with
               | O => (s, None)
               | S n => (ZS (clock s) (table s) (wake (th s)) n (stop s), None)
               end
  | LSpurious => (ZS (clock s) (table s) (wake (th s)) (pend s) (stop s), None)
  | LThread n => thread_step s n
  end.

Fixpoint run (s : zs) (ls : list label) : zs * list Z :=
  match ls with
  | [] => (s, [])
  | l :: r => let '(s1, o) := step s l in let '(s2, os) := run s1 r in
              (s2, match o with Some id => id :: os | None => os end)
  end.

(** DoConnect starts the thread (l.95). *)
Definition init (now : Z) : zs := ZS now [] TStart 0 false.
