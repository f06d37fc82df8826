(** C82 and C83: the target speed and the pace of the simulation. *)
From Coq Require Import ZArith List Bool Lia Floats.SpecFloat QArith Qpower Lqa.
From Verif Require Import Base AnyModel PaceModel PaceSpec PaceFloat PaceProofs.
Import ListNotations.
Local Open Scope Z_scope.

Definition one64 : spec_float := S754_finite false 4503599627370496 (-52).
Definition half64 : spec_float := S754_finite false 4503599627370496 (-53).

(** ** C82 *)

(** A speed that is a number is taken as it is when it lies between 0.01 and 100, and
    otherwise replaced by the nearer bound.  Missing: NaN, see below. *)
Theorem C82_clamped_partial : forall s, double s -> s <> S754_nan ->
  (at_most speed_min s -> at_most s speed_max -> set_target_speed s = s) /\
  (~ at_most speed_min s -> set_target_speed s = speed_min) /\
  (~ at_most s speed_max -> set_target_speed s = speed_max).
Proof.
  intros s D N. unfold set_target_speed, at_most, SFleb, SFltb. clear D. destruct s as [b|b| |b m e]; [destruct b; cbn; intuition congruence|destruct b; cbn; intuition congruence|contradiction|].
  destruct b; [cbn; intuition congruence|]. unfold speed_min, speed_max. cbn [SFcompare]. rewrite !pos_compare_cont_Z.
  rewrite !(Z.compare_antisym e), !(Z.compare_antisym (Z.pos m)).
  destruct (Z.compare_spec e (-59)), (Z.compare_spec e (-46)), (Z.compare_spec (Z.pos m) (Z.pos 5764607523034235)), (Z.compare_spec (Z.pos m) (Z.pos 7036874417766400));
    try lia; cbn [CompOpp]; intuition (congruence || lia).
Qed.

(** So whatever numbers SetTargetSpeed is given, and in whatever order, the speed in use
    lies between 0.01 and 100. *)
Theorem C82_always_usable_partial : forall calls, Forall (fun s => double s /\ s <> S754_nan) calls -> usable (speed_after calls).
Proof.
  intros calls F. assert (I : usable initial_speed) by (repeat split; reflexivity).
  assert (S : forall s, double s /\ s <> S754_nan -> usable (set_target_speed s)).
  { intros s [D N]. destruct (C82_clamped_partial s D N) as (A & B & C).
    destruct (SFleb speed_min s) eqn:L; [destruct (SFleb s speed_max) eqn:U|].
    - rewrite A by assumption. repeat split; assumption.
    - rewrite C by (unfold at_most; congruence). repeat split; reflexivity.
    - rewrite B by (unfold at_most; congruence). repeat split; reflexivity. }
  unfold speed_after. revert I. generalize initial_speed. induction F as [|s calls D _ IH]; intros i I; [exact I|]. cbn. apply IH. now apply S.
Qed.

(** NaN passes both tests: it becomes the speed, and the next lap of any positive length
    converts a NaN to a Duration, which is undefined. *)
Theorem C82_clamped_refuted : exists s, double s /\ ~ usable (speed_after [s]) /\
  forall z l, l_speed l = speed_after [s] -> lap_step (enter 0 z) l = UB.
Proof.
  exists S754_nan. split; [reflexivity|]. split; [intros (_ & H & _); discriminate H|]. intros z l H. unfold lap_step, lap_delay.
  destruct (signed (l_next l - p_sim (enter 0 z))) as [d|e|]; [|destruct e|reflexivity]. cbn [bind]. unfold scaled. rewrite H. cbn [speed_after fold_left].
  replace (SFdiv 53 1024 (f64_of_int d) (set_target_speed S754_nan)) with S754_nan by (destruct (f64_of_int d); reflexivity). reflexivity.
Qed.

Example C82_example : speed_after [half64; S754_infinity true] = speed_min /\ speed_after [S754_infinity false] = speed_max /\
  speed_after [S754_zero true; half64] = half64.
Proof. vm_compute. auto. Qed.

(** ** C83 *)

(** The simulation never runs ahead of the Zulu clock: the simulation time is not set
    before the Zulu time planned for it has passed since the state Executing was entered, up
    to one nanosecond a lap and the precision of a double. *)
Theorem C83_not_early : forall sim z ls l p, forward sim (ls ++ [l]) -> Forall (fun l => usable (l_speed l)) (ls ++ [l]) ->
  on_clock z (enter sim z) (ls ++ [l]) -> lap_run (enter sim z) (ls ++ [l]) = Ok p ->
  (inject_Z z + planned sim (ls ++ [l]) * (1 - slack) - inject_Z (Z.of_nat (length (ls ++ [l]))) <= inject_Z (l_set l))%Q.
Proof.
  intros sim z ls l p F U C R. destruct (last_lap sim z ls l F U p R) as (p1 & d & R1 & D & [L _]).
  destruct (on_clock_last ls z _ l C p1 R1) as (W & O & B). specialize (W d D). rewrite between_app in L.
  assert (X : (inject_Z (l_read2 l + d) <= inject_Z (l_set l))%Q) by (apply inj_le; unfold lap_wait in W; lia).
  assert (Y : (inject_Z z <= inject_Z (z + (between_readings ls + (l_read2 l - l_read1 l))))%Q) by (apply inj_le; lia). lra.
Qed.

(** With one speed the plan is the simulation time that has passed, over the speed. *)
Theorem C83_one_speed : forall s ls sim l, Forall (fun l => l_speed l = s) (ls ++ [l]) ->
  (planned sim (ls ++ [l]) == inject_Z (l_next l - sim) / q_of s)%Q.
Proof.
  intros s. induction ls as [|a ls IH]; intros sim l F; cbn [app planned] in *; inversion F as [|? ? E F']; subst.
  - lra.
  - rewrite (IH _ _ F'). replace (l_next l - sim) with ((l_next a - sim) + (l_next l - l_next a)) by lia. rewrite inject_Z_plus. unfold Qdiv. ring.
Qed.

(** What is waited for in a lap is the delay computed for it, and nothing when that is not
    positive: the loop never waits while it is late. *)
Theorem C83_waits : forall p l d, lap_delay p l = Ok d -> (0 < d -> lap_wait d = d) /\ (d <= 0 -> lap_wait d = 0).
Proof. intros p l d _. unfold lap_wait. lia. Qed.

(** Lateness is made up for: in a lap that has to wait, the simulation time is set no later
    than planned plus how long that wait overran and what passed between the two readings
    of the clock in the laps so far - however late earlier laps were. *)
Theorem C83_catches_up : forall sim z ls l p over, forward sim (ls ++ [l]) -> Forall (fun l => usable (l_speed l)) (ls ++ [l]) ->
  lap_run (enter sim z) (ls ++ [l]) = Ok p -> 0 < p_delay p -> l_set l = l_read2 l + p_delay p + over ->
  (inject_Z (l_set l) <= inject_Z z + planned sim (ls ++ [l]) * (1 + slack) + inject_Z (between_readings (ls ++ [l])) + inject_Z over)%Q.
Proof.
  intros sim z ls l p over F U R P S. destruct (last_lap sim z ls l F U p R) as (p1 & d & R1 & D & [_ L]).
  assert (E : p_delay p = d). { rewrite run_app, R1 in R. cbn [bind] in R. unfold lap_step in R. rewrite D in R. cbn in R. injection R as <-. reflexivity. }
  rewrite S, E. rewrite !inject_Z_plus in *. lra.
Qed.

(** At the initial speed every duration up to the end of time can be waited for. *)
Theorem C83_defined_at_100 : forall p l, l_speed l = initial_speed -> 0 <= p_sim p <= l_next l -> l_next l <= i64_max ->
  Z.abs (p_delay p) <= 2 ^ 61 -> 0 <= l_read1 l - p_start p <= 2 ^ 61 -> exists p', lap_step p l = Ok p'.
Proof.
  intros p l E S M D C. set (n := l_next l - p_sim p). assert (N : 0 <= n <= i64_max) by (unfold n; lia).
  assert (U : usable (l_speed l)) by (rewrite E; repeat split; reflexivity).
  assert (Q : (inject_Z n / q_of (l_speed l) * (1 + slack) < inject_Z (2 ^ 57))%Q).
  { rewrite E. change (q_of initial_speed) with (inject_Z 7036874417766400 * two (-46))%Q. setoid_replace (inject_Z 7036874417766400 * two (-46))%Q with (100 # 1) by reflexivity.
    assert (X : (inject_Z n <= inject_Z i64_max)%Q) by (apply inj_le; lia). unfold Qdiv. change (/ (100 # 1))%Q with (1 # 100). unfold slack, i64_max in *.
    change (inject_Z (2 ^ 63 - 1)) with (9223372036854775807 # 1) in X. change (inject_Z (2 ^ 57)) with (144115188075855872 # 1). lra. }
  destruct (scaled_defined n (l_speed l) N U) as [d Ed].
  { eapply Qlt_trans; [exact Q|reflexivity]. }
  destruct (scaled_bounds n (l_speed l) d N U Ed) as [D0 [_ DU]].
  assert (d < 2 ^ 57) by (apply lt_inj; lra).
  unfold lap_step, lap_delay. fold n. unfold i64_max in *. rewrite signed_in by (unfold i64_min, i64_max; lia). cbn [bind]. rewrite Ed. cbn [bind].
  rewrite signed_in by (unfold i64_min, i64_max; lia). cbn [bind]. rewrite signed_in by (unfold i64_min, i64_max; lia). cbn [bind].
  rewrite signed_in by (unfold i64_min, i64_max; lia). cbn [bind]. eauto.
Qed.

(** At every speed, a year can. *)
Theorem C83_defined_a_year : forall p l, usable (l_speed l) -> 0 <= l_next l - p_sim p <= 365 * 86400 * 1000000000 ->
  Z.abs (p_delay p) <= 2 ^ 61 -> 0 <= l_read1 l - p_start p <= 2 ^ 61 -> exists p', lap_step p l = Ok p'.
Proof.
  intros p l U S D C. set (n := l_next l - p_sim p) in *. assert (N : 0 <= n <= i64_max) by (unfold i64_max; lia).
  assert (Q : (inject_Z n / q_of (l_speed l) * (1 + slack) < inject_Z (2 ^ 62))%Q).
  { pose proof (usable_q _ U) as K. assert (X : (inject_Z n <= inject_Z (365 * 86400 * 1000000000))%Q) by (apply inj_le; lia).
    assert (N0 : (0 <= inject_Z n)%Q). { change 0%Q with (inject_Z 0). apply inj_le. lia. }
    assert (Y : (inject_Z n / q_of (l_speed l) <= inject_Z n * 128)%Q).
    { apply Qle_shift_div_r; [lra|]. rewrite <- Qmult_assoc. rewrite <- (Qmult_1_r (inject_Z n)) at 1. rewrite !(Qmult_comm (inject_Z n)).
      apply Qmult_le_compat_r; [lra|exact N0]. }
    unfold slack. change (inject_Z (365 * 86400 * 1000000000)) with (31536000000000000 # 1) in X. change (inject_Z (2 ^ 62)) with (4611686018427387904 # 1). lra. }
  destruct (scaled_defined n (l_speed l) N U) as [d Ed].
  { eapply Qlt_trans; [exact Q|reflexivity]. }
  destruct (scaled_bounds n (l_speed l) d N U Ed) as [D0 [_ DU]].
  assert (d < 2 ^ 62) by (apply lt_inj; lra).
  unfold lap_step, lap_delay. fold n. rewrite signed_in by (unfold i64_min, i64_max in *; lia). cbn [bind]. rewrite Ed. cbn [bind].
  rewrite signed_in by (unfold i64_min, i64_max; lia). cbn [bind]. rewrite signed_in by (unfold i64_min, i64_max; lia). cbn [bind].
  rewrite signed_in by (unfold i64_min, i64_max; lia). cbn [bind]. eauto.
Qed.

(** A simulation left with nothing but the event that holds it at the end of time does not
    wait for it: at a speed of at most one half the lap is undefined behaviour for the
    first 73 years, and at speed 1 it is so from the start. *)
Theorem C83_end_of_time_refuted :
  (forall p l, usable (l_speed l) -> (q_of (l_speed l) <= 1 # 2)%Q -> 0 <= p_sim p <= 2 ^ 61 -> l_next l = i64_max -> lap_step p l = UB) /\
  (forall z l, l_speed l = one64 -> l_next l = i64_max -> lap_step (enter 0 z) l = UB) /\ usable one64 /\ usable half64.
Proof.
  split; [|split; [|split; repeat split; reflexivity]].
  - intros p l U S P M. unfold lap_step, lap_delay. unfold i64_max in M. rewrite signed_in by (unfold i64_min, i64_max; lia). cbn [bind].
    rewrite scaled_undefined; [reflexivity|unfold i64_max; lia|exact U|].
    pose proof (usable_q _ U) as K. assert (X : (inject_Z (2 ^ 63 - 1 - 2 ^ 61) <= inject_Z (l_next l - p_sim p))%Q) by (apply inj_le; lia).
    assert (N0 : (0 <= inject_Z (l_next l - p_sim p))%Q). { change 0%Q with (inject_Z 0). apply inj_le. lia. }
    assert (Y : (inject_Z (l_next l - p_sim p) * 2 <= inject_Z (l_next l - p_sim p) / q_of (l_speed l))%Q).
    { apply Qle_shift_div_l; [lra|]. rewrite <- Qmult_assoc. rewrite <- (Qmult_1_r (inject_Z (l_next l - p_sim p))) at 2. rewrite !(Qmult_comm (inject_Z (l_next l - p_sim p))).
      apply Qmult_le_compat_r; [lra|exact N0]. }
    unfold slack. change (inject_Z (2 ^ 63 - 1 - 2 ^ 61)) with (6917529027641081855 # 1) in X. change (inject_Z (2 ^ 63)) with (9223372036854775808 # 1). lra.
  - intros z l S M. unfold lap_step, lap_delay. rewrite M, S. reflexivity.
Qed.

(** Each lap loses what passes between its two readings of the clock, and this is never
    made up for: with one nanosecond between them, laps whose events take no time and whose
    waits end on the dot are n nanoseconds behind after n laps. *)
Fixpoint drifting (n : nat) (sim z : Z) : list lap :=
  match n with
  | O => []
  | S k => Lap (sim + 10) one64 z (z + 1) (z + 11) :: drifting k (sim + 10) (z + 11)
  end.

Lemma drifting_run : forall n sim z p, 0 <= sim -> 0 <= z -> sim + 10 * Z.of_nat n <= 2 ^ 62 -> z + 11 * Z.of_nat n <= 2 ^ 62 ->
  p_sim p = sim -> p_delay p + p_start p = z -> 0 <= p_start p <= z ->
  exists p', lap_run p (drifting n sim z) = Ok p' /\ on_clock z p (drifting n sim z).
Proof.
  induction n as [|n IH]; intros sim z p S Z0 B1 B2 E1 E2 E3; [exists p; split; reflexivity|].
  rewrite Nat2Z.inj_succ in B1, B2. cbn [drifting lap_run on_clock].
  assert (D : lap_delay p (Lap (sim + 10) one64 z (z + 1) (z + 11)) = Ok 10).
  { unfold lap_delay. cbn [l_next l_speed l_read1]. rewrite E1. replace (sim + 10 - sim) with 10 by lia.
    change (bind (signed 10) ?f) with (f 10). cbv beta. change (scaled 10 one64) with (@Ok Empty_set Z 10). cbn [bind].
    rewrite signed_in by (unfold i64_min, i64_max; lia). cbn [bind]. rewrite signed_in by (unfold i64_min, i64_max; lia). cbn [bind].
    rewrite signed_in by (unfold i64_min, i64_max; lia). f_equal. lia. }
  unfold lap_step. rewrite D. cbn [bind l_next l_read1 l_read2 l_set].
  destruct (IH (sim + 10) (z + 11) (Pace (sim + 10) (z + 1) 10)) as (p' & R & C); cbn [p_sim p_delay p_start]; try lia.
  exists p'. split; [exact R|]. split; [lia|]. split; [intros d X; injection X as <-; unfold lap_wait; cbn; lia|]. intros q X. injection X as <-. exact C.
Qed.

Theorem C83_no_drift_refuted : forall n, 0 < Z.of_nat n < 2 ^ 58 -> exists ls l,
  length (ls ++ [l]) = n /\ on_clock 0 (enter 0 0) (ls ++ [l]) /\ (exists p, lap_run (enter 0 0) (ls ++ [l]) = Ok p) /\
  (planned 0 (ls ++ [l]) == inject_Z (10 * Z.of_nat n))%Q /\ l_set l = 10 * Z.of_nat n + Z.of_nat n.
Proof.
  intros n N. destruct (drifting_run n 0 0 (enter 0 0)) as (p & R & C); cbn [enter p_sim p_delay p_start]; try lia.
  assert (X : forall n sim z, (0 < n)%nat -> exists ls l, drifting n sim z = ls ++ [l] /\ l_set l = z + 11 * Z.of_nat n /\ length (ls ++ [l]) = n /\
              (planned sim (drifting n sim z) == inject_Z (10 * Z.of_nat n))%Q).
  { clear. induction n as [|n IH]; intros sim z P; [lia|]. destruct n as [|n].
    - exists [], (Lap (sim + 10) one64 z (z + 1) (z + 11)). split; [reflexivity|]. split; [reflexivity|]. split; [reflexivity|].
      cbn [drifting planned l_next l_speed]. replace (sim + 10 - sim) with 10 by lia. reflexivity.
    - destruct (IH (sim + 10) (z + 11) ltac:(lia)) as (ls & l & E & SL & L & Q).
      exists (Lap (sim + 10) one64 z (z + 1) (z + 11) :: ls), l. split; [cbn [drifting app]; cbn [drifting] in E; now rewrite E|].
      split; [rewrite SL; lia|]. split; [cbn [app length]; now rewrite L|]. cbn [drifting planned l_next l_speed] in Q |- *. rewrite Q.
      replace (sim + 10 - sim) with 10 by lia. replace (10 * Z.of_nat (S (S n))) with (10 + 10 * Z.of_nat (S n)) by lia. rewrite inject_Z_plus.
      change (inject_Z 10 / q_of one64)%Q with ((10 # 1) / q_of one64)%Q. setoid_replace (q_of one64) with 1%Q by reflexivity. change (inject_Z 10) with (10 # 1). field. }
  destruct (X n 0 0 ltac:(lia)) as (ls & l & E & S & L & Q). exists ls, l. rewrite E in *. split; [exact L|]. split; [exact C|]. split; [eauto|]. split; [exact Q|lia].
Qed.

(** The Zulu time is the clock of the computer, which can be set: set back by an hour
    during the first lap, it makes that lap wait an hour too long. *)
Theorem C83_clock_set_back_refuted : exists z l d, l_next l = 1000000000 /\ l_speed l = one64 /\ l_read1 l = z - 3600 * 1000000000 /\
  lap_delay (enter 0 z) l = Ok d /\ lap_wait d = 3601 * 1000000000.
Proof. exists (2 ^ 60), (Lap 1000000000 one64 (2 ^ 60 - 3600 * 1000000000) (2 ^ 60) (2 ^ 60)), 3601000000000. vm_compute. auto. Qed.

(** Three laps at speed 1: the second takes 250 ns instead of 100, the third waits again and
    is on time but for the 2 ns lost between the readings of the first two. *)
Definition ex_laps : list lap :=
  [ Lap 100 one64 1010 1011 1101; Lap 200 one64 1350 1351 1351; Lap 500 one64 1360 1360 1502 ].
Example C83_example :
  forward 0 ex_laps /\ Forall (fun l => usable (l_speed l)) ex_laps /\ on_clock 1000 (enter 0 1000) ex_laps /\
  lap_run (enter 0 1000) ex_laps = Ok (Pace 500 1360 142).
Proof.
  split; [cbn; lia|]. split; [repeat constructor|]. split; [|vm_compute; reflexivity]. unfold ex_laps.
  assert (S1 : lap_delay (enter 0 1000) (Lap 100 one64 1010 1011 1101) = Ok 90) by (vm_compute; reflexivity).
  assert (S2 : lap_delay (Pace 100 1011 90) (Lap 200 one64 1350 1351 1351) = Ok (-149)) by (vm_compute; reflexivity).
  assert (S3 : lap_delay (Pace 200 1351 (-149)) (Lap 500 one64 1360 1360 1502) = Ok 142) by (vm_compute; reflexivity).
  cbn [on_clock]. unfold lap_step. rewrite S1. cbn [bind l_next l_read1 l_read2 l_set]. split; [lia|]. split; [intros d X; injection X as <-; cbn; lia|].
  intros p X. injection X as <-. rewrite S2. cbn [bind l_next l_read1 l_read2 l_set]. split; [lia|]. split; [intros d X; injection X as <-; cbn; lia|].
  intros p X. injection X as <-. rewrite S3. cbn [bind l_next l_read1 l_read2 l_set]. split; [lia|]. split; [intros d X; injection X as <-; cbn; lia|].
  intros p _. exact I.
Qed.

Print Assumptions C83_not_early.
Print Assumptions C83_catches_up.
