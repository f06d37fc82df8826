(** The pace of the simulation: SetTargetSpeed and the waiting of the scheduler for the
    Zulu time (src/Xsmp/Services/XsmpScheduler.cpp:113-123, 591-665).

    Doubles are the IEEE-754 values of [Coq.Floats.SpecFloat].  Signed overflow and the
    conversion to Duration of a double it cannot hold are undefined behaviour. *)
From Coq Require Import ZArith List Bool Floats.SpecFloat.
From Verif Require Import Base AnyModel.
Import ListNotations.
Local Open Scope Z_scope.

(** The double literals 0.01 and 100. (XsmpScheduler.cpp:114-117, XsmpScheduler.h:416). *)
Definition speed_min : spec_float := S754_finite false 5764607523034235 (-59).
Definition speed_max : spec_float := S754_finite false 7036874417766400 (-46).

(** XsmpScheduler.cpp:113-121 SetTargetSpeed: the new value of _targetSpeed, which is what
    GetTargetSpeed (l. 123) returns.  Its initial value is 100 (XsmpScheduler.h:416). *)
Definition set_target_speed (speed : spec_float) : spec_float :=
  if SFltb speed speed_min then speed_min
  else if SFltb speed_max speed then speed_max
  else speed.
Definition initial_speed : spec_float := speed_max.

(** One turn of the loop of _EnterExecuting that is not interrupted by a hold, with what
    the turn finds around it: the time of the first entry of the table, the target speed
    of the moment (another thread may change it), the two readings of the Zulu clock
    (l. 626 and 628) and the Zulu time at which SetSimulationTime is called (l. 649). *)
Record lap := Lap {
  l_next : Z;
  l_speed : spec_float;
  l_read1 : Z;
  l_read2 : Z;
  l_set : Z
}.

(** The simulation time and the local variables startZuluTime and delay. *)
Record pace := Pace { p_sim : Z; p_start : Z; p_delay : Z }.

(** XsmpScheduler.cpp:591-602, on entering the state Executing. *)
Definition enter (sim zulu : Z) : pace := Pace sim zulu 0.

(** A signed 64-bit result. *)
Definition signed (z : Z) : res Empty_set Z := if in_i64 z then Ok z else UB.

(** static_cast<Duration>(static_cast<double>(duration) / _targetSpeed), l. 624-625. *)
Definition scaled (duration : Z) (speed : spec_float) : res Empty_set Z :=
  match int_of_float TI64 (SFdiv 53 1024 (f64_of_int duration) speed) with
  | Some z => Ok z
  | None => UB
  end.

(** XsmpScheduler.cpp:623-626: the new value of delay. *)
Definition lap_delay (p : pace) (l : lap) : res Empty_set Z :=
  bind (signed (l_next l - p_sim p)) (fun duration =>
  bind (scaled duration (l_speed l)) (fun d =>
  bind (signed (l_read1 l - p_start p)) (fun elapsed =>
  bind (signed (d - elapsed)) (fun x =>
  signed (p_delay p + x))))).

(** XsmpScheduler.cpp:614-661, one turn; the samples of the speed (l. 630-633) are used by
    nobody and left out. *)
Definition lap_step (p : pace) (l : lap) : res Empty_set pace :=
  bind (lap_delay p l) (fun delay => Ok (Pace (l_next l) (l_read2 l) delay)).

Fixpoint lap_run (p : pace) (ls : list lap) : res Empty_set pace :=
  match ls with
  | [] => Ok p
  | l :: r => bind (lap_step p l) (fun p' => lap_run p' r)
  end.

(** XsmpScheduler.cpp:638-646: how long wait_for is asked to wait; nothing when delay is
    not positive. *)
Definition lap_wait (delay : Z) : Z := Z.max 0 delay.

(** The target speed after calls of SetTargetSpeed. *)
Definition speed_after (calls : list spec_float) : spec_float :=
  fold_left (fun _ s => set_target_speed s) calls initial_speed.
