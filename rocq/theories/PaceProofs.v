(** Proofs about the pace of the simulation. *)
From Coq Require Import ZArith List Bool Lia Floats.SpecFloat QArith Qpower Lqa.
From Verif Require Import Base AnyModel AnySpec AnyProofs AnyFloat PaceModel PaceSpec PaceFloat.
Import ListNotations.
Local Open Scope Z_scope.

(** * Speeds *)

Lemma pos_compare_cont_Z : forall a b, Pos.compare_cont Eq a b = Z.compare (Z.pos a) (Z.pos b).
Proof. intros a b. reflexivity. Qed.

Lemma double_finite : forall s m e, double (S754_finite s m e) ->
  Z.max (Z.pos (digits2_pos m) + e - 53) (-1074) = e /\ e <= 971.
Proof.
  intros s m e B. unfold double, valid_binary, bounded, canonical_mantissa in B. apply andb_true_iff in B as [B C].
  apply Zeq_bool_eq in B. apply Z.leb_le in C. unfold fexp, emin in B. lia.
Qed.

Lemma at_most_pos : forall m1 e1 m2 e2, at_most (S754_finite false m1 e1) (S754_finite false m2 e2) ->
  e1 < e2 \/ e1 = e2 /\ Z.pos m1 <= Z.pos m2.
Proof.
  intros m1 e1 m2 e2 H. unfold at_most, SFleb in H. cbn [SFcompare] in H. rewrite pos_compare_cont_Z in H.
  destruct (Z.compare_spec e1 e2); [|left; assumption|discriminate]. right. split; [assumption|].
  destruct (Z.compare_spec (Z.pos m1) (Z.pos m2)); lia || discriminate.
Qed.

Lemma usable_finite : forall s, usable s -> exists m e, s = S754_finite false m e /\ 2 ^ 52 <= Z.pos m < 2 ^ 53 /\ -59 <= e <= -46.
Proof.
  intros s (D & L & U). unfold speed_min, speed_max in *. destruct s as [b|b| |b m e]; try (destruct b; discriminate); try discriminate.
  destruct b; [discriminate|]. exists m, e. apply double_finite in D as [D _]. apply at_most_pos in L, U.
  split; [reflexivity|]. assert (-59 <= e <= -46) by lia. split; [|assumption].
  assert (N : Z.pos (digits2_pos m) = 53) by lia. pose proof (digits_bounds m) as B. rewrite N in B. change (53 - 1) with 52 in B. exact B.
Qed.

Lemma usable_q : forall s, usable s -> (1 # 128 <= q_of s)%Q.
Proof.
  intros s U. destruct (usable_finite s U) as (m & e & -> & M & E). unfold q_of.
  apply Qle_trans with (inject_Z (2 ^ 52) * two (-59))%Q; [discriminate|].
  apply Qle_trans with (inject_Z (2 ^ 52) * two e)%Q.
  - rewrite !(Qmult_comm (inject_Z _)). apply Qmult_le_compat_r; [|discriminate].
    replace e with ((e + 59) + (-59)) by lia. rewrite two_add. setoid_replace (two (-59)) with (1 * two (-59))%Q at 1 by ring.
    apply Qmult_le_compat_r; [|discriminate]. rewrite <- two_nat by lia. change 1%Q with (inject_Z 1). apply inj_le. change 1 with (2 ^ 0).
    apply Z.pow_le_mono_r; lia.
  - apply Qmult_le_compat_r; [apply inj_le; lia|apply Qlt_le_weak, two_pos].
Qed.

(** * The scaled duration *)

Lemma scaled_zero : forall s, usable s -> scaled 0 s = Ok 0.
Proof. intros s U. destruct (usable_finite s U) as (m & e & -> & _). reflexivity. Qed.

Lemma scaled_pos : forall n s, 0 < n <= i64_max -> usable s ->
  exists z, (inject_Z n / q_of s * (1 - slack) - 1 < inject_Z z /\ inject_Z z <= inject_Z n / q_of s * (1 + slack))%Q /\ 0 <= z /\
  scaled n s = if z <=? i64_max then Ok z else UB.
Proof.
  intros n s N U. pose proof (usable_q s U) as SQ. destruct (usable_finite s U) as (my & ey & -> & MY & EY).
  assert (N64 : 0 < n < 2 ^ 64) by (unfold i64_max in N; lia).
  destruct (of_int_near n N64) as (mx & ex & EX & MX & EE & VX). unfold scaled. rewrite EX in *.
  destruct (div_near mx ex my ey MX MY ltac:(lia)) as (m & e & DE & DM & DV). rewrite DE in *.
  destruct (trunc_floor m e) as (z & TZ & TV). exists z. set (S := q_of (S754_finite false my ey)) in *. set (F := q_of (S754_finite false mx ex)) in *.
  set (V := q_of (S754_finite false m e)) in *.
  assert (IS : (0 < / S)%Q) by (apply Qinv_lt_0_compat; lra).
  assert (P1 : (inject_Z n / S * (1 - two (-52)) <= F / S)%Q).
  { unfold Qdiv. setoid_replace (inject_Z n * / S * (1 - two (-52)))%Q with (inject_Z n * (1 - two (-52)) * / S)%Q by ring.
    apply Qmult_le_compat_r; lra. }
  assert (P2 : (F / S <= inject_Z n / S * (1 + two (-52)))%Q).
  { unfold Qdiv. setoid_replace (inject_Z n * / S * (1 + two (-52)))%Q with (inject_Z n * (1 + two (-52)) * / S)%Q by ring.
    apply Qmult_le_compat_r; lra. }
  assert (P3 : (0 < inject_Z n / S)%Q).
  { unfold Qdiv. apply Qmult_lt_0_compat; [|exact IS]. change 0%Q with (inject_Z 0). apply inj_lt. lia. }
  clearbody S F V. set (X := (inject_Z n / S)%Q) in *. set (Y := (F / S)%Q) in *. clearbody X Y.
  change (two (-52)) with (1 # 4503599627370496) in *. unfold slack. split; [split; lra|].
  assert (Z0 : 0 <= z). { assert (-1 < z); [|lia]. apply lt_inj. change (inject_Z (-1)) with (-1 # 1). lra. }
  split; [exact Z0|]. unfold int_of_float. rewrite TZ. change (tmin TI64) with i64_min. change (tmax TI64) with i64_max.
  replace (i64_min <=? z) with true by (symmetry; apply Z.leb_le; unfold i64_min; lia). cbn [andb]. destruct (z <=? i64_max); reflexivity.
Qed.

Lemma scaled_bounds : forall n s d, 0 <= n <= i64_max -> usable s -> scaled n s = Ok d ->
  0 <= d /\ (inject_Z n / q_of s * (1 - slack) - 1 <= inject_Z d /\ inject_Z d <= inject_Z n / q_of s * (1 + slack))%Q.
Proof.
  intros n s d N U E. destruct (Z.eq_dec n 0) as [->|P].
  - rewrite (scaled_zero s U) in E. injection E as <-. split; [lia|]. unfold Qdiv. change (inject_Z 0) with 0%Q. rewrite !Qmult_0_l. split; [discriminate|lra].
  - destruct (scaled_pos n s ltac:(lia) U) as (z & B & Z0 & S). rewrite S in E. destruct (z <=? i64_max); [|discriminate]. injection E as <-.
    split; [exact Z0|]. destruct B. split; [|assumption]. now apply Qlt_le_weak.
Qed.

Lemma scaled_defined : forall n s, 0 <= n <= i64_max -> usable s -> (inject_Z n / q_of s * (1 + slack) < inject_Z (2 ^ 63))%Q ->
  exists d, scaled n s = Ok d.
Proof.
  intros n s N U L. destruct (Z.eq_dec n 0) as [->|P]; [rewrite (scaled_zero s U); eauto|].
  destruct (scaled_pos n s ltac:(lia) U) as (z & B & Z0 & S). rewrite S. assert (z < 2 ^ 63). { apply lt_inj. lra. }
  replace (z <=? i64_max) with true by (symmetry; apply Z.leb_le; unfold i64_max; lia). eauto.
Qed.

Lemma scaled_undefined : forall n s, 0 < n <= i64_max -> usable s -> (inject_Z (2 ^ 63) + 1 <= inject_Z n / q_of s * (1 - slack))%Q ->
  scaled n s = UB.
Proof.
  intros n s N U L. destruct (scaled_pos n s N U) as (z & B & Z0 & S). rewrite S. assert (2 ^ 63 < z). { apply lt_inj. lra. }
  replace (z <=? i64_max) with false by (symmetry; apply Z.leb_gt; unfold i64_max; lia). reflexivity.
Qed.

(** * Laps *)

Lemma signed_ok : forall z r, signed z = Ok r -> r = z.
Proof. intros z r H. unfold signed in H. destruct (in_i64 z); [injection H; auto|discriminate]. Qed.
Lemma signed_in : forall z, i64_min <= z <= i64_max -> signed z = Ok z.
Proof. intros z H. unfold signed. now rewrite (proj2 (in_i64_spec z) H). Qed.

Lemma lap_delay_inv : forall p l d, lap_delay p l = Ok d ->
  exists x, scaled (l_next l - p_sim p) (l_speed l) = Ok x /\ i64_min <= l_next l - p_sim p <= i64_max /\
            d = p_delay p + (x - (l_read1 l - p_start p)).
Proof.
  intros p l d H. unfold lap_delay in H. unfold signed at 1 in H. destruct (in_i64 (l_next l - p_sim p)) eqn:I; [|discriminate]. cbn [bind] in H.
  destruct (scaled (l_next l - p_sim p) (l_speed l)) as [x|e|] eqn:S; cbn [bind] in H; try discriminate.
  destruct (signed (l_read1 l - p_start p)) as [y|e|] eqn:Y; cbn [bind] in H; try discriminate. apply signed_ok in Y. subst y.
  destruct (signed (x - (l_read1 l - p_start p))) as [y|e|] eqn:Y; cbn [bind] in H; try discriminate. apply signed_ok in Y. subst y.
  apply signed_ok in H. exists x. split; [reflexivity|]. split; [now apply in_i64_spec|exact H].
Qed.

Lemma run_app : forall ls p l, lap_run p (ls ++ [l]) = bind (lap_run p ls) (fun p' => lap_step p' l).
Proof.
  induction ls as [|a ls IH]; intros p l; cbn [app lap_run bind].
  - destruct (lap_step p l); reflexivity.
  - destruct (lap_step p a) as [p'|e|]; [apply IH|destruct e|reflexivity].
Qed.

(** The sum of the delay and of the last reading follows the plan. *)
Lemma run_plan : forall ls p p', lap_run p ls = Ok p' -> forward (p_sim p) ls -> Forall (fun l => usable (l_speed l)) ls ->
  (inject_Z (p_delay p + p_start p + between_readings ls) + planned (p_sim p) ls * (1 - slack) - inject_Z (Z.of_nat (length ls))
     <= inject_Z (p_delay p' + p_start p') /\
   inject_Z (p_delay p' + p_start p')
     <= inject_Z (p_delay p + p_start p + between_readings ls) + planned (p_sim p) ls * (1 + slack))%Q.
Proof.
  induction ls as [|l ls IH]; intros p p' R F U.
  - cbn in R. injection R as <-. cbn [between_readings planned length Z.of_nat]. rewrite Z.add_0_r. change (inject_Z 0) with 0%Q. split; lra.
  - cbn [lap_run] in R. destruct (lap_step p l) as [q|e|] eqn:S; cbn [bind] in R; try discriminate. destruct F as [F0 F].
    inversion U as [|? ? U0 U']; subst. unfold lap_step in S. destruct (lap_delay p l) as [d|e|] eqn:D; cbn [bind] in S; try discriminate.
    injection S as <-. destruct (lap_delay_inv p l d D) as (x & SX & N & ->).
    destruct (scaled_bounds (l_next l - p_sim p) _ x ltac:(lia) U0 SX) as [X0 [XL XU]]. specialize (IH _ _ R F U'). cbn [p_sim p_start p_delay] in IH.
    cbn [between_readings planned length]. rewrite Nat2Z.inj_succ. unfold Z.succ. revert IH XL XU.
    generalize (planned (l_next l) ls). generalize (between_readings ls). generalize (p_delay p' + p_start p').
    generalize (Z.of_nat (length ls)). generalize (inject_Z (l_next l - p_sim p) / q_of (l_speed l))%Q.
    intros a n t g b [IH1 IH2] XL XU.
    replace (p_delay p + (x - (l_read1 l - p_start p)) + l_read2 l + g)
      with (p_delay p + p_start p + (l_read2 l - l_read1 l + g) + x) in IH1, IH2 by ring.
    rewrite inject_Z_plus in IH1, IH2. rewrite (inject_Z_plus n 1). change (inject_Z 1) with 1%Q.
    unfold slack in *. split; lra.
Qed.

Lemma on_clock_last : forall ls now p l, on_clock now p (ls ++ [l]) -> forall p1, lap_run p ls = Ok p1 ->
  (forall d, lap_delay p1 l = Ok d -> l_read2 l + lap_wait d <= l_set l) /\ l_read1 l <= l_read2 l /\ 0 <= between_readings ls.
Proof.
  induction ls as [|a ls IH]; intros now p l C p1 R.
  - cbn in R. injection R as <-. cbn in C. destruct C as (A & B & _). cbn. repeat split; [exact B|lia|lia].
  - cbn [app on_clock] in C. destruct C as (A & B & C). cbn [lap_run] in R.
    destruct (lap_step p a) as [q|e|] eqn:S; cbn [bind] in R; try discriminate. destruct (IH _ _ _ (C q eq_refl) _ R) as (X & Y & Z). cbn [between_readings].
    repeat split; [exact X|exact Y|lia].
Qed.

Lemma forward_app : forall ls sim l, forward sim (ls ++ [l]) -> forward sim ls.
Proof. induction ls as [|a ls IH]; intros sim l H; [exact I|]. cbn in *. destruct H. split; eauto. Qed.

Lemma between_app : forall ls l, between_readings (ls ++ [l]) = between_readings ls + (l_read2 l - l_read1 l).
Proof. induction ls as [|a ls IH]; intros l; cbn [app between_readings]; [lia|]. rewrite IH. lia. Qed.

Lemma last_lap : forall sim z ls l, forward sim (ls ++ [l]) -> Forall (fun l => usable (l_speed l)) (ls ++ [l]) ->
  forall p, lap_run (enter sim z) (ls ++ [l]) = Ok p ->
  exists p1 d, lap_run (enter sim z) ls = Ok p1 /\ lap_delay p1 l = Ok d /\
  (inject_Z (z + between_readings (ls ++ [l])) + planned sim (ls ++ [l]) * (1 - slack) - inject_Z (Z.of_nat (length (ls ++ [l])))
     <= inject_Z (l_read2 l + d) /\
   inject_Z (l_read2 l + d) <= inject_Z (z + between_readings (ls ++ [l])) + planned sim (ls ++ [l]) * (1 + slack))%Q.
Proof.
  intros sim z ls l F U p R. pose proof (run_plan _ _ _ R F U) as P. rewrite run_app in R.
  destruct (lap_run (enter sim z) ls) as [p1|e|]; cbn [bind] in R; try discriminate. unfold lap_step in R.
  destruct (lap_delay p1 l) as [d|e|] eqn:D; cbn [bind] in R; try discriminate. injection R as <-. cbn [p_delay p_start p_sim enter] in P.
  exists p1, d. split; [reflexivity|]. split; [exact D|]. rewrite (Z.add_comm (l_read2 l) d). exact P.
Qed.
