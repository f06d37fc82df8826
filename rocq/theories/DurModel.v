(** The duration of the Run of the Python binding, src/python/Smp/ISimulatorBinding.h:80-89:
    eight doubles (nanoseconds to weeks) are combined in double arithmetic and
    converted to a Duration, a signed 64-bit number of nanoseconds.  Doubles are
    those of Coq.Floats.SpecFloat with 53 bits of mantissa, rounding to nearest;
    the integer constants 7, 24, 60 and 1000 are converted to double. *)
From Verif Require Import Base SchedModel TimedModel AnyModel.
From Coq Require Import Floats.SpecFloat.

(** ISimulatorBinding.h:82-88, one line: [acc += c * x].  Simplified: two roundings,
    as without contraction into a fused multiply-add. *)
Definition plus_times (acc : spec_float) (c : Z) (x : spec_float) : spec_float :=
  SFadd 53 1024 acc (SFmul 53 1024 (f64_of_int c) x).

(** ISimulatorBinding.h:82-88. *)
Definition in_ns (ns us ms s mn h d w : spec_float) : spec_float :=
  let d := plus_times d 7 w in
  let h := plus_times h 24 d in
  let mn := plus_times mn 60 h in
  let s := plus_times s 60 mn in
  let ms := plus_times ms 1000 s in
  let us := plus_times us 1000 ms in
  plus_times ns 1000 us.

(** ISimulatorBinding.h:89: static_cast<Duration>, undefined when the truncated
    value is not one of Int64. *)
Definition run_duration (ns us ms s mn h d w : spec_float) : res Empty_set Z :=
  match int_of_float TI64 (in_ns ns us ms s mn h d w) with
  | Some z => Ok z
  | None => UB
  end.

(** ISimulatorBinding.h:80-97 in state Standby, on the machine of SchedModel.v: the event
    that holds the simulation is posted for that duration and Run() is called, as
    Simulator::Run(Duration) does (TimedModel.v).  None: undefined. *)
Definition py_run (m : mach) (ep : Z) (ns us ms s mn h d w : spec_float) : option mach :=
  match run_duration ns us ms s mn h d w with
  | Ok z => Some (start_timed m ep z)
  | _ => None
  end.
