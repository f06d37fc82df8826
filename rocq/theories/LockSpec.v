(** What it means to wait, and to be deadlocked. *)
From Verif Require Import Base LockModel.

(** Thread [n] cannot do its next operation. *)
Definition waits (ts : list thread) (n : nat) : Prop :=
  exists t, nth_error ts n = Some t /\ todo t <> [] /\ advance ts t = None.

(** [n] waits for mutex [l], which [k] holds. *)
Definition waits_for (ts : list thread) (n : nat) (l : lock) (k : nat) : Prop :=
  exists t u r, nth_error ts n = Some t /\ nth_error ts k = Some u /\ In l (held u) /\
    (todo t = Acq l :: r \/ (todo t = AcqBoth :: r /\ (l = Events \/ l = Zulu))).

(** The simulation thread (0) and the Zulu thread (1) wait for each other. *)
Definition deadlocked (ts : list thread) : Prop :=
  exists l l', waits_for ts 0 l 1 /\ waits_for ts 1 l' 0.

(** Nobody has anything left to do. *)
Definition finished (ts : list thread) : Prop := Forall (fun t => todo t = []) ts.

(** Nobody can move although somebody has something to do. *)
Definition stuck (ts : list thread) : Prop :=
  ~ finished ts /\ forall n, lstep ts n = ts.

(** The Zulu thread has no entry point to execute. *)
Definition no_zulu_execution (s : system) : Prop :=
  forall cs again, ~ In (ZExec cs again) (sys_zulu s).
(** The simulation thread has no entry point to execute. *)
Definition no_sim_execution (s : system) : Prop :=
  forall cs, ~ In (SExec cs) (sys_sim s).
