(** What the pace of a simulation should be. *)
From Coq Require Import ZArith List Bool Floats.SpecFloat QArith Qpower.
From Verif Require Import Base PaceModel.
Import ListNotations.
Local Open Scope Z_scope.

(** Powers of two, and the number a finite double stands for. *)
Definition two (e : Z) : Q := Qpower 2 e.
Definition q_of (f : spec_float) : Q :=
  match f with
  | S754_finite s m e => (inject_Z (if s then Z.neg m else Z.pos m) * two e)%Q
  | _ => 0%Q
  end.

(** A double (every bit pattern other than those of NaN is one of these). *)
Definition double (f : spec_float) : Prop := valid_binary 53 1024 f = true.

(** a <= b as IEEE-754 compares them. *)
Definition at_most (a b : spec_float) : Prop := SFleb a b = true.

(** A speed SetTargetSpeed can leave behind. *)
Definition usable (s : spec_float) : Prop := double s /\ at_most speed_min s /\ at_most s speed_max.

(** The Zulu time the laps should take: each the simulation time it goes through, divided
    by the speed. *)
Fixpoint planned (sim : Z) (ls : list lap) : Q :=
  match ls with
  | [] => 0
  | l :: r => inject_Z (l_next l - sim) / q_of (l_speed l) + planned (l_next l) r
  end.

(** What passes between the two readings of the clock of each lap. *)
Fixpoint between_readings (ls : list lap) : Z :=
  match ls with [] => 0 | l :: r => (l_read2 l - l_read1 l) + between_readings r end.

(** The simulation time does not go back. *)
Fixpoint forward (sim : Z) (ls : list lap) : Prop :=
  match ls with [] => True | l :: r => sim <= l_next l /\ forward (l_next l) r end.

(** The Zulu clock does not go back from [now] on, and no wait is shorter than asked. *)
Fixpoint on_clock (now : Z) (p : pace) (ls : list lap) : Prop :=
  match ls with
  | [] => True
  | l :: r =>
      now <= l_read1 l <= l_read2 l /\
      (forall d, lap_delay p l = Ok d -> l_read2 l + lap_wait d <= l_set l) /\
      (forall p', lap_step p l = Ok p' -> on_clock (l_set l) p' r)
  end.

(** Relative precision of the two roundings of a quotient. *)
Definition slack : Q := 1 # 1125899906842624.   (* 2^-50 *)
