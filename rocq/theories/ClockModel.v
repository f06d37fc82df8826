(** The time keeper used by several threads: src/Xsmp/Services/XsmpTimeKeeper.cpp and
    src/Xsmp/ThreadSafeData.h.

    The three times are each protected by a std::shared_mutex.  An expression such as
    [_simulationTime.read().get() - _epochStart.read().get()] takes the locks one at a time,
    in an order chosen by the compiler, reads the values, and releases the locks at the end of
    the full expression, in the reverse order.  A call is a sequence of steps, each of which
    takes a lock (and reads the value), writes a value or releases a lock; the threads
    interleave between the steps.

    Simplifications: unbounded integers (overflow is in SchedModel.v); the events emitted by
    the setters after the change (XsmpTimeKeeper.cpp:63,69,77) are not modelled; Restore
    succeeds; GetNextScheduledEventTime is an argument of SetSimulationTime; the exception
    of SetSimulationTime is decided before the read lock is released, not after. *)
From Verif Require Import Base Assoc ConcSpec ConcModel ClockSpec.

Inductive klock := LSim | LStart | LEpoch.
Definition klock_eqb (a b : klock) : bool :=
  match a, b with LSim, LSim | LStart, LStart | LEpoch, LEpoch => true | _, _ => false end.

(** ThreadSafeData.h:78-85: read() takes the mutex shared, write() takes it exclusively. *)
Inductive req := Rd (l : klock) | Wr (l : klock).
Definition lock_of (r : req) : klock := match r with Rd l | Wr l => l end.
Definition is_write (r : req) : bool := match r with Wr _ => true | Rd _ => false end.

(** The full expressions that lock: a whole call, or the two halves of SetSimulationTime. *)
Inductive job :=
| JOp (o : kop)
| JCheck (t max : Z)        (* XsmpTimeKeeper.cpp:87 *)
| JWrite (t max : Z).       (* XsmpTimeKeeper.cpp:92 *)

(** The operands that are read, XsmpTimeKeeper.cpp:40-105, in the order of the source. *)
Definition reads (j : job) : list klock :=
  match j with
  | JOp KGetSim => [LSim]                            (* 41 *)
  | JOp KGetStart => [LStart]                        (* 45 *)
  | JOp KGetEpoch => [LSim; LEpoch]                  (* 49 *)
  | JOp KGetMission => [LSim; LEpoch; LStart]        (* 53-54 *)
  | JOp (KSetEpoch _) => [LSim]                      (* 62 *)
  | JOp (KSetMission _) => [LSim; LEpoch]            (* 74-75 *)
  | JOp KStore => [LSim; LStart; LEpoch]             (* 103-105 *)
  | JCheck _ _ => [LSim]                             (* 87 *)
  | _ => []
  end.
(** The operands that are written; the left operand of an assignment is evaluated last. *)
Definition writes (j : job) : list klock :=
  match j with
  | JOp (KSetEpoch _) => [LEpoch]                    (* 62 *)
  | JOp (KSetStart _) => [LStart]                    (* 68 *)
  | JOp (KSetMission _) => [LStart]                  (* 74 *)
  | JOp (KRestore _ _ _) => [LSim; LStart; LEpoch]   (* 97-99 *)
  | JWrite _ _ => [LSim]                             (* 92 *)
  | _ => []
  end.

Inductive kpc :=
| PFlag (t max : Z)                                                  (* SetSimulationTime, l.83 *)
| PSet (b : bool)                                                    (* l.107-108 *)
| PAcq (j : job) (held : list req) (vals : list (klock * Z)) (todo : list req)
| PWrite (ws : list (klock * Z)) (held : list req) (x : kout)        (* the writes to do *)
| PRel (held : list req) (next : job + kout).                        (* the locks to release *)

Record kstate := KState {
  k_sim : Z; k_start : Z; k_epoch0 : Z; k_changing : bool;
  k_calls : list (nat * kpc);
  k_next : nat;
  k_hist : khist;
  k_done : korder;                   (* ghost: the calls in the order in which they took effect *)
}.
(** XsmpTimeKeeper.h:138-141 *)
Definition k_init : kstate := KState 0 0 0 false [] 0 [] [].

Definition k_get (l : klock) (s : kstate) : Z :=
  match l with LSim => k_sim s | LStart => k_start s | LEpoch => k_epoch0 s end.

Definition held_by (pc : kpc) : list req :=
  match pc with
  | PFlag _ _ | PSet _ => []
  | PAcq _ held _ _ | PWrite _ held _ | PRel held _ => held
  end.
Definition holds_any (l : klock) (pc : kpc) : bool := existsb (fun r => klock_eqb l (lock_of r)) (held_by pc).
Definition holds_write (l : klock) (pc : kpc) : bool :=
  existsb (fun r => is_write r && klock_eqb l (lock_of r)) (held_by pc).
(** The call waits for the exclusive lock of l. *)
Definition wants_write (l : klock) (pc : kpc) : bool :=
  match pc with PAcq _ _ _ (Wr l' :: _) => klock_eqb l l' | _ => false end.

Section Clock.
(** The order in which the compiler evaluates the operands of an expression. *)
Variables rorder worder : job -> list klock.
(** The policy of the mutex: whether a reader is made to wait because a writer waits. *)
Variable defer : list (nat * kpc) -> nat -> klock -> bool.

Definition requests (j : job) : list req := map Rd (rorder j) ++ map Wr (worder j).

(** std::shared_mutex: shared with other readers, or exclusive. *)
Definition can_take (calls : list (nat * kpc)) (k : nat) (r : req) : bool :=
  match r with
  | Rd l => negb (existsb (fun c => holds_write l (snd c)) calls) &&
            negb (existsb (fun c => wants_write l (snd c)) calls && defer calls k l)
  | Wr l => negb (existsb (fun c => holds_any l (snd c)) calls)
  end.

Definition val (l : klock) (vals : list (klock * Z)) : Z :=
  match aget klock_eqb l vals with Some z => z | None => 0 end.

(** What is computed from the values read: the writes to do and the result. *)
Definition compute (o : kop) (v : klock -> Z) : list (klock * Z) * kout :=
  match o with
  | KGetSim => ([], KTime (v LSim))
  | KGetStart => ([], KTime (v LStart))
  | KGetEpoch => ([], KTime (v LSim - v LEpoch))
  | KGetMission => ([], KTime (v LSim - v LEpoch - v LStart))
  | KSetEpoch e => ([(LEpoch, v LSim - e)], KDone)
  | KSetStart m => ([(LStart, m)], KDone)
  | KSetMission m => ([(LStart, v LSim - v LEpoch - m)], KDone)
  | KStore => ([], KStored (v LSim) (v LStart) (v LEpoch))
  | KRestore a b c => ([(LSim, a); (LStart, b); (LEpoch, c)], KDone)
  | KOpen | KClose | KSetSim _ _ => ([], KDone)
  end.

Definition kbegin (o : kop) : kpc :=
  match o with
  | KSetSim t max => PFlag t max
  | KOpen => PSet true
  | KClose => PSet false
  | _ => PAcq (JOp o) [] [] (requests (JOp o))
  end.

Definition k_put (l : klock) (z : Z) (s : kstate) : kstate :=
  match l with
  | LSim => KState z (k_start s) (k_epoch0 s) (k_changing s) (k_calls s) (k_next s) (k_hist s) (k_done s)
  | LStart => KState (k_sim s) z (k_epoch0 s) (k_changing s) (k_calls s) (k_next s) (k_hist s) (k_done s)
  | LEpoch => KState (k_sim s) (k_start s) z (k_changing s) (k_calls s) (k_next s) (k_hist s) (k_done s)
  end.
Definition k_flag (b : bool) (s : kstate) : kstate :=
  KState (k_sim s) (k_start s) (k_epoch0 s) b (k_calls s) (k_next s) (k_hist s) (k_done s).
(** The call k goes to pc; [d]: it takes effect. *)
Definition k_goto (k : nat) (pc : kpc) (d : option (kop * kout)) (s : kstate) : kstate :=
  KState (k_sim s) (k_start s) (k_epoch0 s) (k_changing s) (aset Nat.eqb k pc (k_calls s)) (k_next s) (k_hist s)
    (match d with Some (o, x) => k_done s ++ [(k, o, x)] | None => k_done s end).

(** One step of the call k. *)
Definition krun_call (k : nat) (pc : kpc) (s : kstate) : kstate :=
  match pc with
  | PFlag t max =>
      (* 83: if (!_simTimeChanging) return *)
      if k_changing s then k_goto k (PAcq (JCheck t max) [] [] (requests (JCheck t max))) None s
      else k_goto k (PRel [] (inr KDone)) (Some (KSetSim t max, KDone)) s
  | PSet b => k_goto k (PRel [] (inr KDone)) (Some (if b then KOpen else KClose, KDone)) (k_flag b s)
  | PAcq j held vals (r :: todo) =>
      if can_take (k_calls s) k r then
        k_goto k (PAcq j (r :: held)
                    (match r with Rd l => (l, k_get l s) :: vals | Wr _ => vals end) todo) None s
      else s
  | PAcq (JOp o) held vals [] =>
      let '(ws, x) := compute o (fun l => val l vals) in k_goto k (PWrite ws held x) (Some (o, x)) s
  | PAcq (JCheck t max) held vals [] =>
      (* 88-91 *)
      if (t <? val LSim vals) || (t >? max)
      then k_goto k (PRel held (inr KInvalid)) (Some (KSetSim t max, KInvalid)) s
      else k_goto k (PRel held (inl (JWrite t max))) None s
  | PAcq (JWrite t max) held vals [] =>
      k_goto k (PWrite [(LSim, t)] held KDone) (Some (KSetSim t max, KDone)) s
  | PWrite ((l, z) :: ws) held x => k_goto k (PWrite ws held x) None (k_put l z s)
  | PWrite [] held x => k_goto k (PRel held (inr x)) None s
  | PRel (_ :: held) next => k_goto k (PRel held next) None s
  | PRel [] (inl j) => k_goto k (PAcq j [] [] (requests j)) None s
  | PRel [] (inr x) =>
      KState (k_sim s) (k_start s) (k_epoch0 s) (k_changing s) (adel Nat.eqb k (k_calls s)) (k_next s)
        (k_hist s ++ [Ret k x]) (k_done s)
  end.

Definition kstep_conc (e : sstep kop) (s : kstate) : kstate :=
  match e with
  | Begin o =>
      KState (k_sim s) (k_start s) (k_epoch0 s) (k_changing s) (k_calls s ++ [(k_next s, kbegin o)]) (S (k_next s))
        (k_hist s ++ [Inv (k_next s) o]) (k_done s)
  | Run k => match aget Nat.eqb k (k_calls s) with Some pc => krun_call k pc s | None => s end
  end.

Definition krun_conc (s : kstate) (sch : list (sstep kop)) : kstate := fold_left (fun s e => kstep_conc e s) sch s.
End Clock.
