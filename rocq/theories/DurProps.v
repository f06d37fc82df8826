(** C86: the duration given to the Run of the Python binding.  [asked] is the exact number
    of nanoseconds the eight arguments stand for (DurSpec.v), [run_duration] what the
    binding makes of them (DurModel.v). *)
From Coq Require Import ZArith List Bool Lia Floats.SpecFloat QArith Qpower Lqa.
From Verif Require Import Base SchedModel SchedSpec SchedInv SchedProofs TimedModel TimedSpec TimedProofs TimedProps
  AnyModel AnyFloat PaceModel PaceSpec PaceFloat DurModel DurSpec DurProofs.
Local Open Scope Z_scope.

(** Whole numbers, of any sign: exact as long as the sizes add up to less than 2^53
    nanoseconds (104 days). *)
Theorem C86_whole_units ns us ms s mn h d w :
  asked_int (Z.abs ns) (Z.abs us) (Z.abs ms) (Z.abs s) (Z.abs mn) (Z.abs h) (Z.abs d) (Z.abs w) < 2 ^ 53 ->
  run_duration (f64_of_int ns) (f64_of_int us) (f64_of_int ms) (f64_of_int s) (f64_of_int mn) (f64_of_int h) (f64_of_int d) (f64_of_int w)
    = Ok (asked_int ns us ms s mn h d w).
Proof.
  intros H. unfold run_duration, asked_int in *. change (2 ^ 53) with 9007199254740992 in H.
  erewrite in_ns_exact with (t := 9007199254740992); try reflexivity; try lia. rewrite int_of_small; [f_equal; lia|].
  change (2 ^ 53) with 9007199254740992. lia.
Qed.

(** Any lengths of time that add up to at most 2^62 nanoseconds (146 years): within a
    relative error of 2^-47 and rounded down. *)
Theorem C86_close_partial ns us ms s mn h d w :
  a_length ns -> a_length us -> a_length ms -> a_length s -> a_length mn -> a_length h -> a_length d -> a_length w ->
  let x := asked ns us ms s mn h d w in (x <= two 62)%Q ->
  exists z, run_duration ns us ms s mn h d w = Ok z /\
    (x * (1 - two (-47)) - 1 < inject_Z z /\ inject_Z z <= x * (1 + two (-47)))%Q.
Proof.
  intros A1 A2 A3 A4 A5 A6 A7 A8 x X. pose proof (in_ns_approx ns us ms s mn h d w A1 A2 A3 A4 A5 A6 A7 A8 X) as H. fold x in H.
  apply approx_more with (r' := two (-47)) in H; [|apply Qle_bool_imp_le; reflexivity].
  destruct (approx_trunc _ _ _ H) as (z&E&B); [apply Qle_bool_imp_le; reflexivity|exact X|apply Qle_bool_imp_le; reflexivity|].
  exists z. unfold run_duration. rewrite E. auto.
Qed.

(** With C85: Run(...) of whole numbers stops the simulation exactly then. *)
Theorem C86_stops_when_asked_partial ls ep ns us ms s mn h d w :
  disciplined mach_init ls -> ctl (SchedModel.run ls) = Idle ->
  asked_int (Z.abs ns) (Z.abs us) (Z.abs ms) (Z.abs s) (Z.abs mn) (Z.abs h) (Z.abs d) (Z.abs w) < 2 ^ 53 ->
  let m0 := SchedModel.run ls in
  let t := now (sc m0) + asked_int ns us ms s mn h d w in
  0 <= asked_int ns us ms s mn h d w -> t <= i64_max -> last (sc m0) < i64_max ->
  exists m1, py_run m0 ep (f64_of_int ns) (f64_of_int us) (f64_of_int ms) (f64_of_int s) (f64_of_int mn) (f64_of_int h) (f64_of_int d) (f64_of_int w) = Some m1 /\
  let e := hold_event m0 in
  tr m1 = TAdd e KSim false t 0 0 :: tr m0 /\
  forall us l, quiet_run e (m1, false) (us ++ [l]) -> ctl (fst (trun e (m1, false) us)) <> Idle ->
    ctl (fst (trun e (m1, false) (us ++ [l]))) = Idle -> now (sc (fst (trun e (m1, false) (us ++ [l])))) = t.
Proof.
  intros D I B m0 t P F L. exists (start_timed m0 ep (asked_int ns us ms s mn h d w)). split; [unfold py_run; now rewrite C86_whole_units|].
  split; [now apply C85_posts_the_end|]. intros us' l Q N E.
  exact (proj1 (C85_stops_after_the_duration_partial ls ep _ D I P F L us' l Q N E)).
Qed.

(** Non-vacuity: 1 week, 2 days, 3 hours, 4 minutes, 5 seconds, less 6 ms, 7 us, 8 ns. *)
Example C86_example :
  asked_int 8 7 6 5 4 3 2 1 < 2 ^ 53 /\
  run_duration (f64_of_int 8) (f64_of_int 7) (f64_of_int (-6)) (f64_of_int 5) (f64_of_int 4) (f64_of_int 3) (f64_of_int 2) (f64_of_int 1)
    = Ok 788644994007008 /\ asked_int 8 7 (-6) 5 4 3 2 1 = 788644994007008.
Proof. split; [reflexivity|]. split; vm_compute; reflexivity. Qed.

(** 0.1 s and 2.5 minutes. *)
Definition tenth : spec_float := S754_finite false 7205759403792794 (-56).
Definition two_and_half : spec_float := S754_finite false 5629499534213120 (-51).
Definition no_length : spec_float := S754_zero false.

Example C86_lengths : a_length tenth /\ a_length two_and_half /\ a_length no_length /\
  (asked no_length no_length no_length tenth two_and_half no_length no_length no_length <= two 62)%Q /\
  run_duration no_length no_length no_length tenth two_and_half no_length no_length no_length = Ok 150100000000.
Proof.
  split; [split; [vm_compute; reflexivity|apply Qle_bool_imp_le; vm_compute; reflexivity]|].
  split; [split; [vm_compute; reflexivity|apply Qle_bool_imp_le; vm_compute; reflexivity]|].
  split; [split; [vm_compute; reflexivity|exact I]|].
  split; [apply Qle_bool_imp_le; vm_compute; reflexivity|vm_compute; reflexivity].
Qed.

(** What is false of the code.  The result is not rounded to the closest nanosecond: 1.001 s
    gives 1000999999 ns, although what was asked is within a millionth of a nanosecond of
    1001000000. *)
Theorem C86_nearest_nanosecond_refuted : exists s z,
  a_length s /\ run_duration no_length no_length no_length s no_length no_length no_length no_length = Ok z /\
  let x := asked no_length no_length no_length s no_length no_length no_length no_length in
  (999999 # 1000000 < x - inject_Z z /\ inject_Z (z + 1) - x < 1 # 1000000)%Q.
Proof.
  exists (S754_finite false 4508103226997866 (-52)), 1000999999. split; [split; [vm_compute; reflexivity|apply Qle_bool_imp_le; vm_compute; reflexivity]|].
  split; [vm_compute; reflexivity|]. split; vm_compute; reflexivity.
Qed.

(** Beyond 2^53 ns whole numbers are rounded too: 200 days and 1 ns is 200 days. *)
Theorem C86_long_run_refuted : exists ns d z,
  run_duration (f64_of_int ns) no_length no_length no_length no_length no_length (f64_of_int d) no_length = Ok z /\
  0 < ns /\ 0 < d < 366 /\ z <> asked_int ns 0 0 0 0 0 d 0.
Proof. exists 1, 200, 17280000000000000. split; [vm_compute; reflexivity|]. split; [lia|]. split; [lia|]. vm_compute. discriminate. Qed.

(** And a duration that is not one of Int64 is undefined behaviour instead of an error:
    infinity, not a number, 15251 weeks. *)
Theorem C86_too_long_refuted : forall x, x = S754_infinity false \/ x = S754_nan \/ x = f64_of_int 15251 ->
  run_duration no_length no_length no_length no_length no_length no_length no_length x = UB.
Proof. intros x [->|[->| ->] ]; vm_compute; reflexivity. Qed.

Print Assumptions C86_close_partial.
Print Assumptions C86_stops_when_asked_partial.
