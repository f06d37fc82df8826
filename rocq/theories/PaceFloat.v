(** Conversion of a number of nanoseconds to a double, its division by a double and the
    truncation of the quotient: how far the result is from the exact quotient. *)
From Coq Require Import ZArith List Bool Lia Floats.SpecFloat QArith Qpower Lqa.
From Verif Require Import Base AnyModel AnySpec AnyProofs AnyFloat PaceModel PaceSpec.
Local Open Scope Z_scope.

Lemma two_pos : forall e, (0 < two e)%Q.
Proof. intros e. apply Qpower_0_lt. reflexivity. Qed.
Lemma two_add : forall a b, (two (a + b) == two a * two b)%Q.
Proof. intros a b. apply Qpower_plus. discriminate. Qed.
Lemma two_nat : forall n, 0 <= n -> (inject_Z (2 ^ n) == two n)%Q.
Proof. intros n H. apply (Zpower_Qpower 2 n H). Qed.
Lemma inj_le : forall a b, a <= b -> (inject_Z a <= inject_Z b)%Q.
Proof. intros a b H. now rewrite <- Zle_Qle. Qed.
Lemma inj_lt : forall a b, a < b -> (inject_Z a < inject_Z b)%Q.
Proof. intros a b H. now rewrite <- Zlt_Qlt. Qed.
Lemma le_inj : forall a b, (inject_Z a <= inject_Z b)%Q -> a <= b.
Proof. intros a b H. now rewrite Zle_Qle. Qed.
Lemma lt_inj : forall a b, (inject_Z a < inject_Z b)%Q -> a < b.
Proof. intros a b H. now rewrite Zlt_Qlt. Qed.

(** * Shifting right *)

Lemma shr_1_m : forall r, 0 <= shr_m r -> shr_m (shr_1 r) = shr_m r / 2.
Proof.
  intros [m b c] H. cbn in H. destruct m as [|p|p]; [reflexivity| |lia].
  destruct p as [p|p|]; cbn [shr_1 shr_m].
  - change (Z.pos p~1) with (2 * Z.pos p + 1). rewrite Z.mul_comm, Z.div_add_l by lia. cbn. lia.
  - change (Z.pos p~0) with (2 * Z.pos p). rewrite Z.mul_comm, Z.div_mul by lia. reflexivity.
  - reflexivity.
Qed.

Lemma shr_iter : forall n r, 0 <= shr_m r ->
  shr_m (Nat.iter n shr_1 r) = shr_m r / 2 ^ Z.of_nat n /\ 0 <= shr_m (Nat.iter n shr_1 r).
Proof.
  induction n as [|n IH]; intros r H.
  - cbn. rewrite Z.div_1_r. auto.
  - cbn [Nat.iter nat_rect]. destruct (IH r H) as [E P]. fold (Nat.iter n shr_1 r).
    rewrite shr_1_m by exact P. rewrite E. split.
    + rewrite Z.div_div by lia. f_equal. rewrite Nat2Z.inj_succ, Z.pow_succ_r by lia. lia.
    + apply Z.div_pos; [|lia]. now rewrite <- E.
Qed.

Lemma shr_val : forall m l e n, 0 <= m -> 0 <= n ->
  exists r, shr (shr_record_of_loc m l) e n = (r, e + n) /\ shr_m r = m / 2 ^ n.
Proof.
  intros m l e n M N. assert (S : shr_m (shr_record_of_loc m l) = m) by (destruct l as [|[]]; reflexivity).
  destruct n as [|p|p]; [| |lia].
  - cbn. eexists. rewrite Z.add_0_r. split; [reflexivity|]. rewrite Z.div_1_r. exact S.
  - cbn [shr]. eexists. split; [reflexivity|]. rewrite iter_pos_nat.
    destruct (shr_iter (Pos.to_nat p) (shr_record_of_loc m l)) as [E _]; [now rewrite S|]. rewrite E, S. do 2 f_equal. lia.
Qed.

Lemma digits_div : forall m k, 0 <= k -> Z.pos (digits2_pos m) = 53 + k ->
  2 ^ 52 <= Z.pos m / 2 ^ k < 2 ^ 53.
Proof.
  intros m k K D. pose proof (digits_bounds m) as [L U]. rewrite D in *.
  assert (P : 0 < 2 ^ k) by (apply Z.pow_pos_nonneg; lia). split.
  - apply Z.div_le_lower_bound; [exact P|]. replace (53 + k - 1) with (k + 52) in L by lia. rewrite Z.pow_add_r in L by lia. exact L.
  - apply Z.div_lt_upper_bound; [exact P|]. replace (53 + k) with (k + 53) in U by lia. rewrite Z.pow_add_r in U by lia. exact U.
Qed.

(** * Rounding *)

Definition near (f : spec_float) (x : Q) : Prop :=
  exists m e, f = S754_finite false m e /\ 2 ^ 52 <= Z.pos m < 2 ^ 53 /\
  (x * (1 - two (-52)) <= q_of f /\ q_of f <= x * (1 + two (-52)))%Q.

Lemma round_near : forall mx ex l x, 2 ^ 52 <= Z.pos mx ->
  let d := Z.pos (digits2_pos mx) + ex in -1021 <= d <= 1023 ->
  (inject_Z (Z.pos mx) * two ex <= x /\ x < inject_Z (Z.pos mx + 1) * two ex)%Q ->
  near (binary_round_aux 53 1024 false (Z.pos mx) ex l) x.
Proof.
  intros mx ex l x M d R X. unfold binary_round_aux, shr_fexp. cbn [Zdigits2].
  set (k := Z.pos (digits2_pos mx) - 53).
  assert (K : 0 <= k).
  { unfold k. pose proof (digits_bounds mx) as [_ U]. destruct (Z_lt_le_dec (Z.pos (digits2_pos mx)) 53); [|lia].
    assert (2 ^ Z.pos (digits2_pos mx) <= 2 ^ 52) by (apply Z.pow_le_mono_r; lia). lia. }
  assert (F : fexp 53 1024 (Z.pos (digits2_pos mx) + ex) - ex = k). { unfold fexp, emin, k. lia. }
  rewrite F. destruct (shr_val (Z.pos mx) l ex k ltac:(lia) K) as (r1 & -> & E1).
  assert (B : 2 ^ 52 <= shr_m r1 < 2 ^ 53). { rewrite E1. apply digits_div; [exact K|unfold k; lia]. }
  set (q := shr_m r1) in *.
  assert (Y : round_nearest_even q (loc_of_shr_record r1) = q \/ round_nearest_even q (loc_of_shr_record r1) = q + 1).
  { unfold round_nearest_even. destruct (loc_of_shr_record r1) as [|[]]; auto. destruct (Z.even q); auto. }
  set (v := round_nearest_even q (loc_of_shr_record r1)) in *. clearbody v.
  assert (VAL : forall m e, (q_of (S754_finite false m e) == inject_Z v * two (ex + k))%Q ->
    (x * (1 - two (-52)) <= q_of (S754_finite false m e) /\ q_of (S754_finite false m e) <= x * (1 + two (-52)))%Q).
  { intros m e V. rewrite V. clear V. set (U := two (ex + k)).
    assert (PU : (0 < U)%Q) by apply two_pos.
    assert (Q1 : (inject_Z q * U <= x)%Q).
    { destruct X as [X _]. eapply Qle_trans; [|exact X]. unfold U. rewrite (Z.add_comm ex k), two_add, Qmult_assoc.
      apply Qmult_le_compat_r; [|apply Qlt_le_weak, two_pos]. rewrite <- two_nat by exact K. rewrite <- inject_Z_mult. apply inj_le.
      rewrite E1, Z.mul_comm. apply Z.mul_div_le. apply Z.pow_pos_nonneg; lia. }
    assert (Q2 : (x <= inject_Z (q + 1) * U)%Q).
    { destruct X as [_ X]. apply Qlt_le_weak. eapply Qlt_le_trans; [exact X|]. unfold U. rewrite (Z.add_comm ex k), two_add, Qmult_assoc.
      apply Qmult_le_compat_r; [|apply Qlt_le_weak, two_pos]. rewrite <- two_nat by exact K. rewrite <- inject_Z_mult. apply inj_le.
      rewrite E1. pose proof (Z.mul_succ_div_gt (Z.pos mx) (2 ^ k) ltac:(apply Z.pow_pos_nonneg; lia)). lia. }
    assert (Q3 : (U <= x * two (-52))%Q).
    { apply Qle_trans with (inject_Z (2 ^ 52) * U * two (-52))%Q.
      - rewrite two_nat by lia. setoid_replace (two 52 * U * two (-52))%Q with (U * (two 52 * two (-52)))%Q by ring.
        rewrite <- two_add. cbn. lra.
      - apply Qmult_le_compat_r; [|apply Qlt_le_weak, two_pos]. eapply Qle_trans; [|exact Q1].
        apply Qmult_le_compat_r; [|lra]. apply inj_le. lia. }
    rewrite inject_Z_plus in Q2. destruct Y as [->| ->]; rewrite ?inject_Z_plus; change (inject_Z 1) with 1%Q in *; split; lra. }
  assert (P : 0 < v) by lia. destruct v as [|v'|v'] eqn:EV; [lia| |lia]. clear P. unfold shr_fexp. cbn [Zdigits2].
  destruct (Z_lt_le_dec (Z.pos v') (2 ^ 53)) as [S|S].
  - assert (D : Z.pos (digits2_pos v') = 53). { apply digits_unique; [|lia]. split; [|exact S]. cbn. lia. }
    assert (F2 : fexp 53 1024 (Z.pos (digits2_pos v') + (ex + k)) - (ex + k) = 0). { rewrite D. unfold fexp, emin, k. lia. }
    rewrite F2. cbn [shr shr_record_of_loc shr_m]. replace (ex + k <=? 1024 - 53) with true by (symmetry; apply Z.leb_le; unfold k; lia).
    exists v', (ex + k). split; [reflexivity|]. split; [lia|]. apply VAL. reflexivity.
  - assert (V : Z.pos v' = 2 ^ 53) by lia.
    assert (v' = 9007199254740992)%positive as -> by (injection V as V'; exact V').
    assert (F2 : fexp 53 1024 (Z.pos (digits2_pos 9007199254740992) + (ex + k)) - (ex + k) = 1). { cbn [digits2_pos]. unfold fexp, emin, k. lia. }
    rewrite F2. cbn [shr shr_record_of_loc shr_m iter_pos shr_1]. replace (ex + k + 1 <=? 1024 - 53) with true by (symmetry; apply Z.leb_le; unfold k; lia).
    exists 4503599627370496%positive, (ex + k + 1). split; [reflexivity|]. split; [lia|]. apply VAL.
    unfold q_of. rewrite (two_add (ex + k) 1). change (inject_Z 9007199254740992) with (inject_Z (4503599627370496 * 2)). rewrite inject_Z_mult.
    change (two 1) with 2%Q. change (inject_Z 2) with 2%Q. ring.
Qed.

(** * Conversion from an integer *)

Lemma of_int_near : forall n, 0 < n < 2 ^ 64 ->
  exists m e, f64_of_int n = S754_finite false m e /\ 2 ^ 52 <= Z.pos m < 2 ^ 53 /\ -52 <= e <= 12 /\
  (inject_Z n * (1 - two (-52)) <= q_of (f64_of_int n) /\ q_of (f64_of_int n) <= inject_Z n * (1 + two (-52)))%Q.
Proof.
  intros n N. destruct n as [|p|p]; [lia| |lia]. unfold f64_of_int. cbn [binary_normalize].
  assert (D64 : Z.pos (digits2_pos p) <= 64) by (apply digits_le; lia).
  assert (D1 : 1 <= Z.pos (digits2_pos p)) by lia.
  assert (T : (inject_Z (Z.pos p) <= inject_Z (Z.pos p) * (1 + two (-52)) /\ inject_Z (Z.pos p) * (1 - two (-52)) <= inject_Z (Z.pos p))%Q).
  { assert (0 < two (-52))%Q by apply two_pos. assert (0 < inject_Z (Z.pos p))%Q by reflexivity.
    assert (0 < inject_Z (Z.pos p) * two (-52))%Q by now apply Qmult_lt_0_compat. split; lra. }
  destruct (Z_le_gt_dec (Z.pos (digits2_pos p)) 53) as [S|S].
  - unfold binary_round.
    assert (F : fexp 53 1024 (Z.pos (digits2_pos p) + 0) = Z.pos (digits2_pos p) - 53). { unfold fexp, emin. lia. }
    rewrite F. unfold shl_align. destruct (Z.pos (digits2_pos p) - 53 - 0) as [|d|d] eqn:X; [| lia |].
    + exists p, 0. rewrite aux_full by (lia || (unfold emin; lia)). pose proof (digits_bounds p) as B.
      replace (Z.pos (digits2_pos p)) with 53 in B by lia. change (53 - 1) with 52 in B. split; [reflexivity|]. split; [lia|]. split; [lia|].
      unfold q_of. change (two 0) with 1%Q. split; lra.
    + exists (shift_pos d p), (Z.pos (digits2_pos p) - 53).
      assert (DS : Z.pos (digits2_pos (shift_pos d p)) = 53) by (rewrite digits_shift; lia).
      rewrite aux_full by (lia || (unfold emin; lia)). pose proof (digits_bounds (shift_pos d p)) as B. rewrite DS in B. change (53 - 1) with 52 in B.
      split; [reflexivity|]. split; [lia|]. split; [lia|]. unfold q_of. rewrite shift_pos_val, inject_Z_mult, two_nat by lia.
      rewrite <- Qmult_assoc, <- two_add. replace (Z.pos d + (Z.pos (digits2_pos p) - 53)) with 0 by lia. change (two 0) with 1%Q. split; lra.
  - unfold binary_round.
    assert (F : fexp 53 1024 (Z.pos (digits2_pos p) + 0) = Z.pos (digits2_pos p) - 53). { unfold fexp, emin. lia. }
    rewrite F. unfold shl_align. destruct (Z.pos (digits2_pos p) - 53 - 0) as [|d|d] eqn:X; [lia| |lia].
    pose proof (digits_bounds p) as [L U].
    assert (M : 2 ^ 52 <= Z.pos p). { assert (2 ^ 52 <= 2 ^ (Z.pos (digits2_pos p) - 1)) by (apply Z.pow_le_mono_r; lia). lia. }
    destruct (round_near p 0 loc_Exact (inject_Z (Z.pos p)) M) as (m & e & E & B & V); [lia| |].
    { change (two 0) with 1%Q. split; [lra|]. rewrite inject_Z_plus. change (inject_Z 1) with 1%Q. lra. }
    exists m, e. rewrite E in *. split; [reflexivity|]. split; [exact B|]. split; [|exact V]. destruct V as [V1 V2]. unfold q_of in *.
    assert (G : (inject_Z (2 ^ 52) * two e <= inject_Z (2 ^ 64) * (1 + two (-52)))%Q).
    { eapply Qle_trans; [|eapply Qle_trans; [exact V2|]].
      - apply Qmult_le_compat_r; [apply inj_le; lia|apply Qlt_le_weak, two_pos].
      - apply Qmult_le_compat_r; [apply inj_le; lia|]. assert (0 < two (-52))%Q by apply two_pos. lra. }
    assert (H : (inject_Z (2 ^ 53) * (1 - two (-52)) <= inject_Z (2 ^ 53) * two e)%Q).
    { eapply Qle_trans; [|eapply Qle_trans; [exact V1|]].
      - apply Qmult_le_compat_r; [apply inj_le; assert (2 ^ 53 <= 2 ^ (Z.pos (digits2_pos p) - 1)) by (apply Z.pow_le_mono_r; lia); lia|].
        change (two (-52)) with (1 # 4503599627370496). lra.
      - apply Qmult_le_compat_r; [apply inj_le; lia|apply Qlt_le_weak, two_pos]. }
    split.
    + destruct (Z_le_gt_dec (-52) e) as [|Z]; [assumption|exfalso].
      assert (two e <= two (-1))%Q.
      { replace e with ((e + 1) + (-1)) by lia. rewrite two_add. setoid_replace (two (-1)) with (1 * two (-1))%Q at 2 by ring.
        apply Qmult_le_compat_r; [|discriminate]. replace (e + 1) with (- (- (e + 1))) by lia. unfold two. rewrite Qpower_opp.
        assert (I : (1 <= 2 ^ (- (e + 1)))%Q). { fold (two (- (e + 1))). rewrite <- two_nat by lia. change 1%Q with (inject_Z 1). apply inj_le.
          change 1 with (2 ^ 0). apply Z.pow_le_mono_r; lia. }
        apply Qle_shift_inv_r; lra. }
      change (two (-52)) with (1 # 4503599627370496) in H. change (two (-1)) with (1 # 2) in *. change (2 ^ 53) with 9007199254740992 in H.
      unfold inject_Z in H. lra.
    + destruct (Z_le_gt_dec e 12) as [|Z]; [assumption|exfalso].
      assert (two 13 <= two e)%Q. { rewrite <- !two_nat by lia. apply inj_le. apply Z.pow_le_mono_r; lia. }
      change (two (-52)) with (1 # 4503599627370496) in G. change (two 13) with (8192 # 1) in *.
      change (2 ^ 52) with 4503599627370496 in G. change (2 ^ 64) with 18446744073709551616 in G. unfold inject_Z in G. lra.
Qed.

(** * Division *)

Lemma div_near : forall mx ex my ey,
  2 ^ 52 <= Z.pos mx < 2 ^ 53 -> 2 ^ 52 <= Z.pos my < 2 ^ 53 -> -900 <= ex - ey <= 900 ->
  near (SFdiv 53 1024 (S754_finite false mx ex) (S754_finite false my ey))
       (q_of (S754_finite false mx ex) / q_of (S754_finite false my ey)).
Proof.
  intros mx ex my ey X Y E. cbn [SFdiv xorb]. unfold SFdiv_core_binary. cbn [Zdigits2].
  assert (DX : Z.pos (digits2_pos mx) = 53) by (apply digits_unique; [change (53 - 1) with 52|]; lia).
  assert (DY : Z.pos (digits2_pos my) = 53) by (apply digits_unique; [change (53 - 1) with 52|]; lia).
  rewrite DX, DY. replace (Z.min (fexp 53 1024 (53 + ex - (53 + ey))) (ex - ey)) with (ex - ey - 53) by (unfold fexp, emin; lia).
  replace (ex - ey - (ex - ey - 53)) with 53 by lia. rewrite Z.shiftl_mul_pow2 by lia.
  destruct (Z.div_eucl (Z.pos mx * 2 ^ 53) (Z.pos my)) as [q r] eqn:DE.
  pose proof (Z_div_mod (Z.pos mx * 2 ^ 53) (Z.pos my) ltac:(lia)) as DM. rewrite DE in DM. destruct DM as [DM DR].
  assert (QL : 2 ^ 52 <= q) by nia. assert (QU : q < 2 ^ 54) by nia.
  destruct q as [|p|p]; [lia| |lia]. apply round_near.
  - lia.
  - assert (Z.pos (digits2_pos p) <= 54) by (apply digits_le; lia). lia.
  - unfold q_of. set (b := inject_Z (Z.pos my)). set (a := inject_Z (Z.pos mx)).
    assert (B : (0 < b)%Q) by reflexivity.
    assert (S : (a * two ex / (b * two ey) == (a * two 53 / b) * two (ex - ey - 53))%Q).
    { replace (two ex) with (two ((ex - ey - 53) + (ey + 53))) by (f_equal; lia). rewrite !two_add. pose proof (two_pos ey). field. split; lra. }
    rewrite S. set (U := two (ex - ey - 53)). assert (PU : (0 < U)%Q) by apply two_pos.
    assert (M : (a * two 53 == b * inject_Z (Z.pos p) + inject_Z r)%Q).
    { unfold a, b. rewrite <- two_nat by lia. rewrite <- !inject_Z_mult, <- inject_Z_plus. rewrite DM. reflexivity. }
    assert (R0 : (0 <= inject_Z r)%Q). { change 0%Q with (inject_Z 0). apply inj_le. lia. }
    assert (R1 : (inject_Z r < b)%Q). { apply inj_lt. lia. }
    split.
    + apply Qmult_le_compat_r; [|lra]. apply Qle_shift_div_l; [exact B|]. rewrite M, Qmult_comm. lra.
    + apply Qmult_lt_compat_r; [exact PU|]. apply Qlt_shift_div_r; [exact B|]. rewrite M, inject_Z_plus. change (inject_Z 1) with 1%Q. lra.
Qed.

(** * Truncation *)

Lemma trunc_floor : forall m e, exists z, trunc (S754_finite false m e) = Some z /\
  (inject_Z z <= q_of (S754_finite false m e) /\ q_of (S754_finite false m e) < inject_Z z + 1)%Q.
Proof.
  intros m e. unfold trunc, q_of. destruct (Z.leb_spec 0 e) as [E|E]; eexists; (split; [reflexivity|]).
  - rewrite inject_Z_mult, two_nat by exact E. split; lra.
  - set (n := - e). assert (N : 0 < 2 ^ n) by (apply Z.pow_pos_nonneg; lia). replace e with (- n) by lia.
    assert (T : (two n * two (- n) == 1)%Q). { rewrite <- two_add. replace (n + - n) with 0 by lia. reflexivity. }
    pose proof (two_pos n) as PN. pose proof (two_pos (- n)) as PM.
    pose proof (Z.mul_div_le (Z.pos m) (2 ^ n) N) as L. pose proof (Z.mul_succ_div_gt (Z.pos m) (2 ^ n) N) as G.
    set (z := Z.pos m / 2 ^ n) in *. apply inj_le in L. apply inj_lt in G. rewrite inject_Z_mult in L, G. rewrite two_nat in L, G by lia.
    unfold Z.succ in G. rewrite inject_Z_plus in G. change (inject_Z 1) with 1%Q in G.
    assert (L2 : (two n * inject_Z z * two (- n) <= inject_Z (Z.pos m) * two (- n))%Q) by (apply Qmult_le_compat_r; lra).
    assert (G2 : (inject_Z (Z.pos m) * two (- n) < two n * (inject_Z z + 1) * two (- n))%Q) by (apply Qmult_lt_compat_r; lra).
    setoid_replace (two n * inject_Z z * two (- n))%Q with (two n * two (- n) * inject_Z z)%Q in L2 by ring.
    setoid_replace (two n * (inject_Z z + 1) * two (- n))%Q with (two n * two (- n) * (inject_Z z + 1))%Q in G2 by ring.
    rewrite T in L2, G2. split; lra.
Qed.
