(** Exact and approximate arithmetic of durations. *)
From Coq Require Import ZArith Lia Floats.SpecFloat QArith Qpower Lqa.
From Verif Require Import Base AnyModel AnyFloat PaceModel PaceSpec PaceFloat DurModel DurSpec.
Local Open Scope Z_scope.

(** * Integers below 2^53 *)
Definition mant (p : positive) : positive :=
  match (53 - Z.pos (digits2_pos p))%Z with Z.pos n => shift_pos n p | _ => p end.

Lemma mant_val p : Z.pos p < 2 ^ 53 ->
  Z.pos (digits2_pos p) <= 53 /\ Z.pos (mant p) = Z.pos p * 2 ^ (53 - Z.pos (digits2_pos p)) /\ Z.pos (digits2_pos (mant p)) = 53.
Proof.
  intros H. assert (D : Z.pos (digits2_pos p) <= 53) by (apply digits_le; lia). split; auto.
  unfold mant. destruct (53 - Z.pos (digits2_pos p)) as [|n|n] eqn:E; [|rewrite shift_pos_val, digits_shift|lia]; split; lia.
Qed.

(** A mantissa with trailing zeros. *)
Lemma aux_shift sx b n e : Z.pos (digits2_pos b) = 53 -> -1074 <= e + Z.pos n <= 971 ->
  binary_round_aux 53 1024 sx (Z.pos (shift_pos n b)) e loc_Exact = S754_finite sx b (e + Z.pos n).
Proof.
  intros D E. unfold binary_round_aux, shr_fexp. cbn [Zdigits2].
  assert (F : fexp 53 1024 (Z.pos (digits2_pos (shift_pos n b)) + e) - e = Z.pos n).
  { rewrite digits_shift, D. unfold fexp, emin. lia. }
  rewrite F. cbn [shr shr_record_of_loc]. rewrite shr_exact.
  cbn [shr_m loc_of_shr_record round_nearest_even Zdigits2].
  assert (F2 : fexp 53 1024 (Z.pos (digits2_pos b) + (e + Z.pos n)) - (e + Z.pos n) = 0).
  { rewrite D. unfold fexp, emin. lia. }
  rewrite F2. cbn [shr shr_m shr_record_of_loc].
  replace (e + Z.pos n <=? 1024 - 53) with true by (symmetry; apply Z.leb_le; lia). reflexivity.
Qed.

Definition canon (sx : bool) (p : positive) : spec_float := S754_finite sx (mant p) (Z.pos (digits2_pos p) - 53).

Lemma aux_canon sx p k q : Z.pos p < 2 ^ 53 -> 0 <= k <= 500 -> Z.pos q = Z.pos p * 2 ^ k -> 53 <= Z.pos (digits2_pos p) + k ->
  binary_round_aux 53 1024 sx (Z.pos q) (- k) loc_Exact = canon sx p.
Proof.
  intros P K Q D. destruct (mant_val p P) as (D53&MV&MD). unfold canon.
  destruct (Z.pos (digits2_pos p) + k - 53) as [|n|n] eqn:N; [| |lia].
  - assert (q = mant p) as ->. { apply Pos2Z.inj. rewrite MV, Q. do 2 f_equal. lia. }
    rewrite aux_full by (exact MD || (unfold emin; lia)); f_equal; lia.
  - assert (q = shift_pos n (mant p)) as ->.
    { apply Pos2Z.inj. rewrite shift_pos_val, MV, Q, <- Z.mul_assoc, <- Z.pow_add_r by lia. do 2 f_equal. lia. }
    rewrite aux_shift by (exact MD || lia). f_equal. lia.
Qed.

Lemma round_canon sx p k q : Z.pos p < 2 ^ 53 -> 0 <= k <= 500 -> Z.pos q = Z.pos p * 2 ^ k ->
  binary_round 53 1024 sx q (- k) = canon sx p.
Proof.
  intros P K Q. destruct (mant_val p P) as (D53&MV&MD).
  assert (D : Z.pos (digits2_pos q) = Z.pos (digits2_pos p) + k).
  { apply digits_unique; [|lia]. pose proof (digits_bounds p) as [L U]. rewrite Q.
    replace (Z.pos (digits2_pos p) + k - 1) with ((Z.pos (digits2_pos p) - 1) + k) by lia.
    rewrite !Z.pow_add_r by lia. assert (0 < 2 ^ k) by (apply Z.pow_pos_nonneg; lia). nia. }
  unfold binary_round.
  assert (F : fexp 53 1024 (Z.pos (digits2_pos q) + - k) = Z.pos (digits2_pos p) - 53).
  { rewrite D. unfold fexp, emin. lia. }
  rewrite F. unfold shl_align. destruct (Z.pos (digits2_pos p) - 53 - - k) as [|d|d] eqn:X.
  - apply aux_canon; auto; lia.
  - apply aux_canon; auto; lia.
  - assert (E : shift_pos d q = mant p).
    { apply Pos2Z.inj. rewrite shift_pos_val, MV, Q, <- Z.mul_assoc, <- Z.pow_add_r by lia. do 2 f_equal. lia. }
    rewrite E, aux_full by (exact MD || (unfold emin; lia)); reflexivity.
Qed.

Lemma of_int_canon p : Z.pos p < 2 ^ 53 -> f64_of_int (Z.pos p) = canon false p /\ f64_of_int (Z.neg p) = canon true p.
Proof.
  intros P. unfold f64_of_int. cbn [binary_normalize]. change 0 with (- 0) at 1 2. rewrite !(round_canon _ p 0 p); auto; lia.
Qed.

Lemma normalize_scaled v k : Z.abs v < 2 ^ 53 -> 0 <= k <= 500 -> binary_normalize 53 1024 (v * 2 ^ k) (- k) false = f64_of_int v.
Proof.
  intros V K. destruct v as [|p|p].
  - reflexivity.
  - destruct (of_int_canon p) as [-> _]; [lia|]. assert (0 < 2 ^ k) by (apply Z.pow_pos_nonneg; lia).
    destruct (Z.pos p * 2 ^ k) as [|q|q] eqn:Q; [lia| |lia]. cbn [binary_normalize]. apply round_canon; auto; lia.
  - destruct (of_int_canon p) as [_ ->]; [lia|]. assert (0 < 2 ^ k) by (apply Z.pow_pos_nonneg; lia).
    destruct (Z.neg p * 2 ^ k) as [|q|q] eqn:Q; [lia|lia|]. cbn [binary_normalize]. apply round_canon; auto; lia.
Qed.

Lemma align_val m e e' : e' <= e -> Z.pos (fst (shl_align m e e')) = Z.pos m * 2 ^ (e - e').
Proof.
  intros H. unfold shl_align. destruct (e' - e) as [|d|d] eqn:E; cbn [fst].
  - replace (e - e') with 0 by lia. lia.
  - lia.
  - rewrite shift_pos_val. do 2 f_equal. lia.
Qed.

(** Sign, mantissa and exponent of the double of a small integer. *)
Lemma of_int_parts v : v <> 0 -> Z.abs v < 2 ^ 53 -> exists s m e, f64_of_int v = S754_finite s m e /\ -52 <= e <= 0 /\
  Z.pos (digits2_pos m) = 53 /\ s = (v <? 0) /\ cond_Zopp s (Z.pos m) = v * 2 ^ (- e).
Proof.
  intros N V. destruct v as [|p|p]; [contradiction| |].
  - destruct (of_int_canon p) as [-> _]; [lia|]. destruct (mant_val p) as (D&M&MD); [lia|].
    exists false, (mant p), (Z.pos (digits2_pos p) - 53). repeat split; auto; try lia. cbn [cond_Zopp]. rewrite M. do 2 f_equal. lia.
  - destruct (of_int_canon p) as [_ ->]; [lia|]. destruct (mant_val p) as (D&M&MD); [lia|].
    exists true, (mant p), (Z.pos (digits2_pos p) - 53). repeat split; auto; try lia. cbn [cond_Zopp]. rewrite M.
    change (Z.neg p) with (- Z.pos p). rewrite Z.mul_opp_l. do 3 f_equal. lia.
Qed.

Lemma add_exact a b : Z.abs a < 2 ^ 53 -> Z.abs b < 2 ^ 53 -> Z.abs (a + b) < 2 ^ 53 ->
  SFadd 53 1024 (f64_of_int a) (f64_of_int b) = f64_of_int (a + b).
Proof.
  intros A B AB. destruct (Z.eq_dec a 0) as [->|NA].
  { change (f64_of_int 0) with (S754_zero false). rewrite Z.add_0_l. destruct (Z.eq_dec b 0) as [->|NB]; [reflexivity|].
    destruct (of_int_parts b NB B) as (s&m&e&->&_). reflexivity. }
  destruct (of_int_parts a NA A) as (sa&ma&ea&Ea&Ra&_&_&Va). destruct (Z.eq_dec b 0) as [->|NB].
  { rewrite Z.add_0_r, Ea. reflexivity. }
  destruct (of_int_parts b NB B) as (sb&mb&eb&Eb&Rb&_&_&Vb). rewrite Ea, Eb. cbn [SFadd].
  set (ez := Z.min ea eb).
  assert (Ha : cond_Zopp sa (Z.pos (fst (shl_align ma ea ez))) = a * 2 ^ (- ez)).
  { rewrite align_val by (unfold ez; lia). replace (a * 2 ^ (- ez)) with (a * 2 ^ (- ea) * 2 ^ (ea - ez)).
    - rewrite <- Va. destruct sa; cbn [cond_Zopp]; lia.
    - rewrite <- Z.mul_assoc, <- Z.pow_add_r by (unfold ez; lia). do 2 f_equal. lia. }
  assert (Hb : cond_Zopp sb (Z.pos (fst (shl_align mb eb ez))) = b * 2 ^ (- ez)).
  { rewrite align_val by (unfold ez; lia). replace (b * 2 ^ (- ez)) with (b * 2 ^ (- eb) * 2 ^ (eb - ez)).
    - rewrite <- Vb. destruct sb; cbn [cond_Zopp]; lia.
    - rewrite <- Z.mul_assoc, <- Z.pow_add_r by (unfold ez; lia). do 2 f_equal. lia. }
  rewrite Ha, Hb, <- Z.mul_add_distr_r. replace ez with (- (- ez)) at 2 by lia. apply normalize_scaled; [exact AB|unfold ez; lia].
Qed.

Lemma mul_exact c b : 0 < c < 2 ^ 53 -> Z.abs (c * b) < 2 ^ 53 -> SFmul 53 1024 (f64_of_int c) (f64_of_int b) = f64_of_int (c * b).
Proof.
  intros C CB. assert (B : Z.abs b < 2 ^ 53) by nia. destruct (Z.eq_dec b 0) as [->|NB].
  { rewrite Z.mul_0_r. destruct (of_int_parts c) as (s&m&e&->&_&_&->&_); [lia|lia|]. change (f64_of_int 0) with (S754_zero false). cbn [SFmul].
    destruct (Z.ltb_spec c 0); [lia|]. reflexivity. }
  destruct (of_int_parts c) as (sc&mc&ec&Ec&Rc&Dc&Sc&Vc); [lia|lia|]. destruct (of_int_parts b NB B) as (sb&mb&eb&Eb&Rb&Db&Sb&Vb).
  rewrite Ec, Eb. cbn [SFmul]. destruct (Z.ltb_spec c 0); [lia|]. subst sc. rewrite xorb_false_l. cbn [cond_Zopp] in Vc.
  assert (NCB : c * b <> 0) by nia.
  assert (M : Z.pos (mc * mb) = Z.abs (c * b) * 2 ^ (- (ec + eb))).
  { rewrite Pos2Z.inj_mul, Vc. replace (- (ec + eb)) with (- ec + - eb) by lia. rewrite Z.pow_add_r by lia.
    assert (Z.pos mb = Z.abs b * 2 ^ (- eb)) as ->.
    { assert (0 < 2 ^ (- eb)) by (apply Z.pow_pos_nonneg; lia). destruct sb; cbn [cond_Zopp] in Vb; nia. }
    rewrite Z.abs_mul, (Z.abs_eq c) by lia. ring. }
  destruct (Z.abs (c * b)) as [|p|p] eqn:P; [lia| |lia].
  assert (Dm : 105 <= Z.pos (digits2_pos (mc * mb))).
  { pose proof (digits_bounds mc) as [L1 _]. pose proof (digits_bounds mb) as [L2 _]. rewrite Dc in L1. rewrite Db in L2.
    pose proof (digits_bounds (mc * mb)) as [_ U]. destruct (Z_lt_le_dec (Z.pos (digits2_pos (mc * mb))) 105); [|lia].
    assert (2 ^ Z.pos (digits2_pos (mc * mb)) <= 2 ^ 104) by (apply Z.pow_le_mono_r; lia).
    change (2 ^ (53 - 1)) with (2 ^ 52) in *. rewrite Pos2Z.inj_mul in *. change (2 ^ 104) with (2 ^ 52 * 2 ^ 52) in *. nia. }
  assert (Dp : Z.pos (digits2_pos (mc * mb)) = Z.pos (digits2_pos p) + - (ec + eb)).
  { apply digits_unique; [|lia]. pose proof (digits_bounds p) as [L U]. rewrite M.
    replace (Z.pos (digits2_pos p) + - (ec + eb) - 1) with ((Z.pos (digits2_pos p) - 1) + - (ec + eb)) by lia.
    rewrite !Z.pow_add_r by lia. assert (0 < 2 ^ (- (ec + eb))) by (apply Z.pow_pos_nonneg; lia). nia. }
  replace (ec + eb) with (- (- (ec + eb))) by lia.
  rewrite (aux_canon sb p (- (ec + eb)) (mc * mb)); [|lia|lia|exact M|lia].
  destruct (of_int_canon p) as [E1 E2]; [lia|]. destruct (Z.ltb_spec b 0); subst sb.
  - rewrite <- E2. f_equal. lia.
  - rewrite <- E1. f_equal. lia.
Qed.

Lemma plus_times_exact a c b : 0 < c < 2 ^ 53 -> Z.abs a < 2 ^ 53 -> Z.abs (c * b) < 2 ^ 53 -> Z.abs (a + c * b) < 2 ^ 53 ->
  plus_times (f64_of_int a) c (f64_of_int b) = f64_of_int (a + c * b).
Proof. intros. unfold plus_times. rewrite mul_exact by auto. now apply add_exact. Qed.

(** * Lengths of time that are not integers *)
Lemma two_lt_inv a b : (two a < two b)%Q -> a < b.
Proof.
  intros H. destruct (Z_lt_le_dec a b) as [L|L]; [exact L|]. exfalso.
  assert (two b <= two a)%Q; [|lra]. 
  assert (E : (two a == inject_Z (2 ^ (a - b)) * two b)%Q). { rewrite two_nat by lia. rewrite <- two_add. now replace (a - b + b) with a by lia. }
  assert (1 <= inject_Z (2 ^ (a - b)))%Q. { change 1%Q with (inject_Z 1). apply inj_le. assert (0 < 2 ^ (a - b)) by (apply Z.pow_pos_nonneg; lia). lia. }
  pose proof (two_pos b). rewrite E. setoid_replace (two b) with (1 * two b)%Q at 1 by ring. apply Qmult_le_compat_r; lra.
Qed.

(** Between which powers of two a mantissa and an exponent are. *)
Lemma binade m e : (two (Z.pos (digits2_pos m) - 1 + e) <= inject_Z (Z.pos m) * two e /\ inject_Z (Z.pos m) * two e < two (Z.pos (digits2_pos m) + e))%Q.
Proof.
  pose proof (digits_bounds m) as [L U]. pose proof (two_pos e).
  rewrite (two_add (Z.pos (digits2_pos m) - 1) e), (two_add (Z.pos (digits2_pos m)) e).
  rewrite <- (two_nat (Z.pos (digits2_pos m) - 1)), <- (two_nat (Z.pos (digits2_pos m))) by lia.
  split; [apply Qmult_le_compat_r; [now apply inj_le|lra]|apply Qmult_lt_compat_r; [lra|now apply inj_lt]].
Qed.

Lemma digits_53 m : 2 ^ 52 <= Z.pos m < 2 ^ 53 -> Z.pos (digits2_pos m) = 53.
Proof. intros H. apply digits_unique; [|lia]. exact H. Qed.

Definition u : Q := two (-52).
Definition tiny : Q := two (-840).
Definition huge : Q := two 62.

(** [f] stands for [x], up to a relative error of [r]. *)
Definition approx (r : Q) (f : spec_float) (x : Q) : Prop :=
  (exists s, f = S754_zero s /\ (x == 0)%Q) \/
  ((tiny <= x)%Q /\ exists m e, f = S754_finite false m e /\ 2 ^ 52 <= Z.pos m < 2 ^ 53 /\ (x * (1 - r) <= q_of f /\ q_of f <= x * (1 + r))%Q).

Lemma approx_nonneg r f x : approx r f x -> (0 <= x)%Q.
Proof. pose proof (two_pos (-840)) as T. change (two (-840)) with tiny in T. intros [(s&_&->)|(H&_)]; lra. Qed.

Lemma approx_eq r f x y : (x == y)%Q -> approx r f x -> approx r f y.
Proof.
  intros E [(s&F&Z)|(T&m&e&F&M&B)]; [left; exists s; split; [exact F|lra]|right].
  split; [lra|]. exists m, e. split; [exact F|]. split; [exact M|]. rewrite <- E. exact B.
Qed.

Lemma approx_more r r' f x : (r <= r')%Q -> approx r f x -> approx r' f x.
Proof.
  intros R H. pose proof (approx_nonneg r f x H) as P. destruct H as [(s&F&Z)|(T&m&e&F&M&L&U)]; [left; eauto|right].
  split; [exact T|]. exists m, e. split; [exact F|]. split; [exact M|]. split; nra.
Qed.

Lemma length_approx x : a_length x -> approx 0 x (q_of x).
Proof.
  intros [V L]. destruct x as [s|s| |s m e]; try contradiction; [left; exists s; split; [reflexivity|cbn; lra]|right].
  split; [exact L|]. destruct s.
  { exfalso. unfold q_of in L. pose proof (two_pos (-840)). pose proof (two_pos e). assert (inject_Z (Z.neg m) < 0)%Q by (change 0%Q with (inject_Z 0); now apply inj_lt). nra. }
  exists m, e. split; [reflexivity|]. split.
  - pose proof (binade m e) as [_ B]. cbn [q_of] in L. assert (T : (two (-840) < two (Z.pos (digits2_pos m) + e))%Q) by lra. apply two_lt_inv in T.
    unfold double, valid_binary in V. apply andb_prop in V as [V _]. unfold canonical_mantissa in V. apply Zeq_bool_eq in V. unfold fexp, emin in V.
    assert (D : Z.pos (digits2_pos m) = 53) by lia. pose proof (digits_bounds m) as B2. rewrite D in B2. exact B2.
  - split; lra.
Qed.

Lemma near_approx f x r y : near f x -> (tiny <= y)%Q -> (0 <= r)%Q -> (r <= 1)%Q -> (y * (1 - r) <= x)%Q -> (x <= y * (1 + r))%Q -> approx (r + 2 * u) f y.
Proof.
  intros (m&e&F&M&L&U) T R R1 Y1 Y2. right. split; [exact T|]. exists m, e. split; [exact F|]. split; [exact M|].
  assert (PU : (0 < u)%Q) by apply two_pos. assert (U1 : (u < 1)%Q) by reflexivity. change (two (-52)) with u in L, U.
  assert (P : (0 < y)%Q). { pose proof (two_pos (-840)) as X. change (two (-840)) with tiny in X. lra. }
  split.
  - eapply Qle_trans; [|exact L]. apply Qle_trans with (y * (1 - r) * (1 - u))%Q; [|apply Qmult_le_compat_r; lra].
    assert (0 <= y * (u + r * u))%Q by (apply Qmult_le_0_compat; nra). lra.
  - eapply Qle_trans; [exact U|]. apply Qle_trans with (y * (1 + r) * (1 + u))%Q; [apply Qmult_le_compat_r; lra|].
    assert (0 <= y * (u * (1 - r)))%Q by (apply Qmult_le_0_compat; nra). lra.
Qed.

Lemma approx_le r f x : approx r f x -> (r <= 1)%Q -> (q_of f <= 2 * x)%Q.
Proof.
  intros H R. pose proof (approx_nonneg r f x H). destruct H as [(s&->&Z)|(T&m&e&_&_&_&U)]; [cbn; lra|]. nra.
Qed.

Lemma mul_approx r f x c : (0 <= r)%Q -> (2 * r <= 1)%Q -> 1 <= c < 2 ^ 10 -> approx r f x -> (x <= huge)%Q ->
  approx (r + 2 * u) (SFmul 53 1024 (f64_of_int c) f) (inject_Z c * x).
Proof.
  intros R R1 C H X. destruct (of_int_parts c) as (sc&mc&ec&Ec&Rc&Dc&Sc&Vc); [lia|lia|].
  destruct (Z.ltb_spec c 0); [lia|]. subst sc. cbn [cond_Zopp] in Vc.
  assert (QC : (inject_Z (Z.pos mc) * two ec == inject_Z c)%Q).
  { rewrite Vc, inject_Z_mult, (two_nat (- ec)) by lia. rewrite <- Qmult_assoc, <- two_add. replace (- ec + ec) with 0 by lia. change (two 0) with 1%Q. ring. }
  assert (C1 : (1 <= inject_Z c)%Q) by (change 1%Q with (inject_Z 1); apply inj_le; lia).
  assert (C2 : (inject_Z c <= two 10)%Q) by (rewrite <- two_nat by lia; apply inj_le; lia).
  pose proof (approx_nonneg r f x H) as P. pose proof (approx_le r f x H ltac:(lra)) as Q2.
  destruct H as [(s&->&Z)|(T&m&e&->&M&L&U)].
  { left. rewrite Ec. exists (xorb false s). split; [reflexivity|]. rewrite Z. ring. }
  rewrite Ec. cbn [SFmul xorb].
  assert (VAL : (inject_Z (Z.pos (mc * m)) * two (ec + e) == inject_Z c * q_of (S754_finite false m e))%Q).
  { rewrite Pos2Z.inj_mul, inject_Z_mult, two_add, <- QC. cbn [q_of]. ring. }
  assert (LO : (tiny <= inject_Z c * x)%Q). { eapply Qle_trans; [exact T|]. setoid_replace x with (1 * x)%Q at 1 by ring. apply Qmult_le_compat_r; lra. }
  assert (PT : (0 < tiny)%Q) by apply two_pos.
  assert (QL : (tiny * (1 # 2) <= q_of (S754_finite false m e))%Q). { eapply Qle_trans; [|exact L]. nra. }
  pose proof (digits_bounds mc) as BC. rewrite Dc in BC. change (2 ^ (53 - 1)) with (2 ^ 52) in BC.
  assert (B : -1021 <= Z.pos (digits2_pos (mc * m)) + (ec + e) <= 1023).
  { pose proof (binade (mc * m) (ec + e)) as [B1 B2]. rewrite VAL in B1, B2.
    assert (two (-842) < two (Z.pos (digits2_pos (mc * m)) + (ec + e)))%Q as G1.
    { eapply Qle_lt_trans; [|exact B2]. apply Qle_trans with (1 * (tiny * (1 # 2)))%Q; [apply Qle_bool_imp_le; vm_compute; reflexivity|].
      apply Qmult_le_compat_nonneg; split; try lra. }
    apply two_lt_inv in G1.
    assert (two (Z.pos (digits2_pos (mc * m)) - 1 + (ec + e)) < two 80)%Q as G2.
    { eapply Qle_lt_trans; [exact B1|]. apply Qle_lt_trans with (two 10 * (2 * huge))%Q; [|apply Qlt_alt; vm_compute; reflexivity].
      apply Qmult_le_compat_nonneg; split; try lra. }
    apply two_lt_inv in G2. lia. }
  apply near_approx with (inject_Z c * q_of (S754_finite false m e))%Q.
  - apply round_near; [rewrite Pos2Z.inj_mul; nia|exact B|]. rewrite VAL. split; [lra|].
    rewrite inject_Z_plus, Qmult_plus_distr_l, VAL. pose proof (two_pos (ec + e)). change (inject_Z 1) with 1%Q. lra.
  - exact LO.
  - exact R.
  - lra.
  - rewrite <- Qmult_assoc, (Qmult_comm (inject_Z c)), (Qmult_comm (inject_Z c)). apply Qmult_le_compat_r; lra.
  - rewrite <- Qmult_assoc, (Qmult_comm (inject_Z c)), (Qmult_comm (inject_Z c)). apply Qmult_le_compat_r; lra.
Qed.

Lemma add_approx r f x g y : (0 <= r)%Q -> (2 * r <= 1)%Q -> approx r f x -> approx r g y -> (x + y <= huge)%Q ->
  approx (r + 2 * u) (SFadd 53 1024 f g) (x + y).
Proof.
  intros R R1 Hf Hg X. assert (PU : (0 < u)%Q) by apply two_pos. assert (PT : (0 < tiny)%Q) by apply two_pos.
  pose proof (approx_nonneg _ _ _ Hf) as Pf. pose proof (approx_nonneg _ _ _ Hg) as Pg.
  pose proof (approx_le _ _ _ Hf ltac:(lra)) as Qf. pose proof (approx_le _ _ _ Hg ltac:(lra)) as Qg.
  destruct Hf as [(s&->&Zf)|(T1&m1&e1&->&M1&L1&U1)]; destruct Hg as [(s'&->&Zg)|(T2&m2&e2&->&M2&L2&U2)].
  - left. cbn [SFadd]. assert (x + y == 0)%Q by lra. destruct (Bool.eqb s s'); eauto.
  - apply approx_more with r; [lra|]. cbn [SFadd]. apply approx_eq with y; [lra|]. right. split; [exact T2|]. exists m2, e2. auto.
  - apply approx_more with r; [lra|]. cbn [SFadd]. apply approx_eq with x; [lra|]. right. split; [exact T1|]. exists m1, e1. auto.
  - cbn [SFadd]. set (ez := Z.min e1 e2). cbn [cond_Zopp].
    pose proof (align_val m1 e1 ez ltac:(unfold ez; lia)) as A1. pose proof (align_val m2 e2 ez ltac:(unfold ez; lia)) as A2.
    set (p1 := fst (shl_align m1 e1 ez)) in *. set (p2 := fst (shl_align m2 e2 ez)) in *. clearbody p1 p2.
    rewrite <- Pos2Z.inj_add. cbn [binary_normalize]. set (p := (p1 + p2)%positive).
    assert (V1 : (inject_Z (Z.pos p1) * two ez == q_of (S754_finite false m1 e1))%Q).
    { rewrite A1, inject_Z_mult, two_nat by (unfold ez; lia). rewrite <- Qmult_assoc, <- two_add. replace (e1 - ez + ez) with e1 by lia. reflexivity. }
    assert (V2 : (inject_Z (Z.pos p2) * two ez == q_of (S754_finite false m2 e2))%Q).
    { rewrite A2, inject_Z_mult, two_nat by (unfold ez; lia). rewrite <- Qmult_assoc, <- two_add. replace (e2 - ez + ez) with e2 by lia. reflexivity. }
    set (q1 := q_of (S754_finite false m1 e1)) in *. set (q2 := q_of (S754_finite false m2 e2)) in *.
    assert (VAL : (inject_Z (Z.pos p) * two ez == q1 + q2)%Q).
    { unfold p. rewrite Pos2Z.inj_add, inject_Z_plus, Qmult_plus_distr_l, V1, V2. reflexivity. }
    assert (P52 : 2 ^ 52 <= Z.pos p).
    { unfold p. rewrite Pos2Z.inj_add, A1. assert (0 < 2 ^ (e1 - ez)) by (apply Z.pow_pos_nonneg; unfold ez; lia). nia. }
    assert (B : -1021 <= Z.pos (digits2_pos p) + ez <= 1023).
    { pose proof (binade p ez) as [B1 B2]. rewrite VAL in B1, B2.
      assert (two (-842) < two (Z.pos (digits2_pos p) + ez))%Q as G1.
      { eapply Qle_lt_trans; [|exact B2]. apply Qle_trans with (tiny * (1 # 2) + 0)%Q; [apply Qle_bool_imp_le; vm_compute; reflexivity|].
        apply Qplus_le_compat; nra. }
      apply two_lt_inv in G1.
      assert (two (Z.pos (digits2_pos p) - 1 + ez) < two 80)%Q as G2.
      { eapply Qle_lt_trans; [exact B1|]. apply Qle_lt_trans with (2 * huge)%Q; [lra|apply Qlt_alt; vm_compute; reflexivity]. }
      apply two_lt_inv in G2. lia. }
    assert (D : 53 <= Z.pos (digits2_pos p)).
    { pose proof (digits_bounds p) as [_ U]. destruct (Z_lt_le_dec (Z.pos (digits2_pos p)) 53); [|lia].
      assert (2 ^ Z.pos (digits2_pos p) <= 2 ^ 52) by (apply Z.pow_le_mono_r; lia). lia. }
    assert (N : near (binary_round 53 1024 false p ez) (q1 + q2)%Q).
    { unfold binary_round, shl_align. assert (F : fexp 53 1024 (Z.pos (digits2_pos p) + ez) - ez = Z.pos (digits2_pos p) - 53) by (unfold fexp, emin; lia).
      rewrite F. replace (match Z.pos (digits2_pos p) - 53 with Z.neg d => (shift_pos d p, fexp 53 1024 (Z.pos (digits2_pos p) + ez)) | _ => (p, ez) end) with (p, ez)
        by (destruct (Z.pos (digits2_pos p) - 53) eqn:DD; [reflexivity|reflexivity|lia]).
      apply round_near; [exact P52|exact B|]. rewrite VAL. split; [lra|].
      rewrite inject_Z_plus, Qmult_plus_distr_l, VAL. pose proof (two_pos ez). change (inject_Z 1) with 1%Q. lra. }
    apply near_approx with (q1 + q2)%Q; auto; try lra.
Qed.

Lemma plus_times_approx r f x g y c : (0 <= r)%Q -> (4 * r <= 1)%Q -> 1 <= c < 2 ^ 10 -> approx r f x -> approx r g y -> (x + inject_Z c * y <= huge)%Q ->
  approx (r + 4 * u) (plus_times f c g) (x + inject_Z c * y).
Proof.
  intros R R1 C Hf Hg X. unfold plus_times. assert (U1 : (8 * u <= 1)%Q) by (apply Qle_bool_imp_le; reflexivity).
  assert (PU : (0 < u)%Q) by apply two_pos. assert (C1 : (1 <= inject_Z c)%Q) by (change 1%Q with (inject_Z 1); apply inj_le; lia).
  pose proof (approx_nonneg _ _ _ Hf) as Pf. pose proof (approx_nonneg _ _ _ Hg) as Pg.
  apply approx_more with ((r + 2 * u) + 2 * u)%Q; [lra|]. apply add_approx; try lra.
  - apply approx_more with r; [lra|exact Hf].
  - apply mul_approx; auto; [lra|]. nra.
Qed.

(** * The whole sum *)
Lemma int_of_small v : Z.abs v < 2 ^ 53 -> int_of_float TI64 (f64_of_int v) = Some v.
Proof.
  intros V. destruct (Z.eq_dec v 0) as [->|N]; [reflexivity|].
  destruct (of_int_parts v N V) as (s&m&e&->&R&_&S&X). unfold int_of_float, trunc.
  assert (A : (if 0 <=? e then Z.pos m * 2 ^ e else Z.pos m / 2 ^ (- e)) = Z.abs v).
  { assert (0 < 2 ^ (- e)) by (apply Z.pow_pos_nonneg; lia).
    assert (M : Z.pos m = Z.abs v * 2 ^ (- e)). { destruct s; cbn [cond_Zopp] in X; nia. }
    destruct (Z.leb_spec 0 e); rewrite M.
    - replace e with 0 by lia. cbn. lia.
    - apply Z.div_mul. lia. }
  rewrite A. assert ((if s then - Z.abs v else Z.abs v) = v) as ->.
  { subst s. destruct (Z.ltb_spec v 0); lia. }
  change (tmin TI64) with (- 2 ^ 63). change (tmax TI64) with (2 ^ 63 - 1).
  destruct (Z.leb_spec (- 2 ^ 63) v); [|lia]. destruct (Z.leb_spec v (2 ^ 63 - 1)); [|lia]. reflexivity.
Qed.

Lemma part_small c x t : (0 <? c) = true -> Z.abs (c * x) < t -> Z.abs x < t.
Proof. intros C. apply Z.ltb_lt in C. rewrite Z.abs_mul. nia. Qed.

Lemma plus_times_step a c b r : Z.abs a < 2 ^ 53 -> Z.abs (c * b) < 2 ^ 53 -> r = a + c * b -> Z.abs r < 2 ^ 53 -> 0 < c < 2000 ->
  plus_times (f64_of_int a) c (f64_of_int b) = f64_of_int r.
Proof. intros A B -> R C. apply plus_times_exact; auto. lia. Qed.

Lemma in_ns_exact (ns us ms s mn h d w d1 h1 mn1 s1 ms1 us1 ns1 t : Z) : t = 2 ^ 53 ->
  Z.abs ns < t -> Z.abs us < t -> Z.abs ms < t -> Z.abs s < t -> Z.abs mn < t -> Z.abs h < t -> Z.abs d < t ->
  d1 = d + 7 * w -> h1 = h + 24 * d1 -> mn1 = mn + 60 * h1 -> s1 = s + 60 * mn1 ->
  ms1 = ms + 1000 * s1 -> us1 = us + 1000 * ms1 -> ns1 = ns + 1000 * us1 ->
  Z.abs (7 * w) < t -> Z.abs (24 * d1) < t -> Z.abs (60 * h1) < t -> Z.abs (60 * mn1) < t -> Z.abs (1000 * s1) < t ->
  Z.abs (1000 * ms1) < t -> Z.abs (1000 * us1) < t -> Z.abs ns1 < t ->
  in_ns (f64_of_int ns) (f64_of_int us) (f64_of_int ms) (f64_of_int s) (f64_of_int mn) (f64_of_int h) (f64_of_int d) (f64_of_int w)
    = f64_of_int ns1.
Proof.
  intros -> N1 N2 N3 N4 N5 N6 N7 D1 H1 M1 S1 MS1 US1 NS1 P1 P2 P3 P4 P5 P6 P7 P8. unfold in_ns.
  rewrite (plus_times_step d 7 w d1 N7 P1 D1 (part_small 24 d1 _ eq_refl P2)) by now split.
  rewrite (plus_times_step h 24 d1 h1 N6 P2 H1 (part_small 60 h1 _ eq_refl P3)) by now split.
  rewrite (plus_times_step mn 60 h1 mn1 N5 P3 M1 (part_small 60 mn1 _ eq_refl P4)) by now split.
  rewrite (plus_times_step s 60 mn1 s1 N4 P4 S1 (part_small 1000 s1 _ eq_refl P5)) by now split.
  rewrite (plus_times_step ms 1000 s1 ms1 N3 P5 MS1 (part_small 1000 ms1 _ eq_refl P6)) by now split.
  rewrite (plus_times_step us 1000 ms1 us1 N2 P6 US1 (part_small 1000 us1 _ eq_refl P7)) by now split.
  rewrite (plus_times_step ns 1000 us1 ns1 N1 P7 NS1 P8) by now split. reflexivity.
Qed.

Lemma approx_trunc r f x : approx r f x -> (2 * r <= 1)%Q -> (x <= huge)%Q -> (0 <= r)%Q ->
  exists z, int_of_float TI64 f = Some z /\ (x * (1 - r) - 1 < inject_Z z /\ inject_Z z <= x * (1 + r))%Q.
Proof.
  intros H R X R0. pose proof (approx_nonneg _ _ _ H) as P. destruct H as [(s&->&Z)|(T&m&e&->&M&L&U)].
  { exists 0. split; [reflexivity|]. rewrite Z. change (inject_Z 0) with 0%Q. split; lra. }
  destruct (trunc_floor m e) as (z&E&F1&F2). exists z. unfold int_of_float. rewrite E.
  assert (Z0 : -1 < z).
  { apply lt_inj. change (inject_Z (-1)) with (-1)%Q. assert (0 <= x * (1 - r))%Q by (apply Qmult_le_0_compat; lra). lra. }
  assert (Z1 : z < 2 ^ 63).
  { apply lt_inj. eapply Qle_lt_trans; [exact F1|]. eapply Qle_lt_trans; [exact U|].
    apply Qle_lt_trans with (huge * (3 # 2))%Q; [|reflexivity].
    apply Qle_trans with (x * (3 # 2))%Q; [|apply Qmult_le_compat_r; lra]. rewrite !(Qmult_comm x). apply Qmult_le_compat_r; lra. }
  change (tmin TI64) with (- 2 ^ 63). change (tmax TI64) with (2 ^ 63 - 1).
  destruct (Z.leb_spec (- 2 ^ 63) z); [|lia]. destruct (Z.leb_spec z (2 ^ 63 - 1)); [|lia]. split; [reflexivity|]. split; lra.
Qed.

Lemma part_approx k f x g y c : 0 <= k <= 24 -> approx 0 f x -> approx (inject_Z k * u) g y -> 1 <= c < 2 ^ 10 -> (x + inject_Z c * y <= huge)%Q ->
  approx (inject_Z (k + 4) * u) (plus_times f c g) (x + inject_Z c * y).
Proof.
  intros K F G C X. assert (PU : (0 < u)%Q) by apply two_pos. assert (U1 : (1000 * u <= 1)%Q) by (apply Qle_bool_imp_le; reflexivity).
  assert (K1 : (0 <= inject_Z k)%Q) by (change 0%Q with (inject_Z 0); apply inj_le; lia).
  assert (K2 : (inject_Z k <= 24)%Q) by (change 24%Q with (inject_Z 24); apply inj_le; lia).
  assert (R : (0 <= inject_Z k * u)%Q) by (apply Qmult_le_0_compat; lra).
  assert (R2 : (inject_Z k * u <= 24 * u)%Q) by (apply Qmult_le_compat_r; lra).
  apply approx_more with (inject_Z k * u + 4 * u)%Q; [rewrite inject_Z_plus; change (inject_Z 4) with 4%Q; lra|].
  apply plus_times_approx; auto; [lra|]. apply approx_more with 0%Q; [exact R|exact F].
Qed.

Lemma in_ns_approx ns us ms s mn h d w :
  a_length ns -> a_length us -> a_length ms -> a_length s -> a_length mn -> a_length h -> a_length d -> a_length w ->
  (asked ns us ms s mn h d w <= huge)%Q ->
  approx (28 * u) (in_ns ns us ms s mn h d w) (asked ns us ms s mn h d w).
Proof.
  intros A1 A2 A3 A4 A5 A6 A7 A8 X. apply length_approx in A1, A2, A3, A4, A5, A6, A7, A8.
  pose proof (approx_nonneg _ _ _ A1). pose proof (approx_nonneg _ _ _ A2). pose proof (approx_nonneg _ _ _ A3). pose proof (approx_nonneg _ _ _ A4).
  pose proof (approx_nonneg _ _ _ A5). pose proof (approx_nonneg _ _ _ A6). pose proof (approx_nonneg _ _ _ A7). pose proof (approx_nonneg _ _ _ A8).
  assert (PU : (0 < u)%Q) by apply two_pos. assert (U1 : (1000 * u <= 1)%Q) by (apply Qle_bool_imp_le; reflexivity).
  unfold asked in *. unfold in_ns.
  set (q1 := q_of ns) in *. set (q2 := q_of us) in *. set (q3 := q_of ms) in *. set (q4 := q_of s) in *.
  set (q5 := q_of mn) in *. set (q6 := q_of h) in *. set (q7 := q_of d) in *. set (q8 := q_of w) in *.
  set (d1 := plus_times d 7 w). set (h1 := plus_times h 24 d1). set (mn1 := plus_times mn 60 h1). set (s1 := plus_times s 60 mn1).
  set (ms1 := plus_times ms 1000 s1). set (us1 := plus_times us 1000 ms1).
  assert (B1 : approx (inject_Z 4 * u) d1 (q7 + inject_Z 7 * q8)).
  { apply (part_approx 0); auto; try lia. - eapply approx_more; [|exact A8]. change (inject_Z 0) with 0%Q. lra. - change (inject_Z 7) with 7%Q. lra. }
  change (inject_Z 7) with 7%Q in B1. set (x1 := (q7 + 7 * q8)%Q) in *. assert (E1 : (x1 == q7 + 7 * q8)%Q) by reflexivity. clearbody x1.
  assert (B2 : approx (inject_Z 8 * u) h1 (q6 + inject_Z 24 * x1)).
  { apply (part_approx 4); auto; try lia. change (inject_Z 24) with 24%Q. lra. }
  change (inject_Z 24) with 24%Q in B2. set (x2 := (q6 + 24 * x1)%Q) in *. assert (E2 : (x2 == q6 + 24 * x1)%Q) by reflexivity. clearbody x2.
  assert (B3 : approx (inject_Z 12 * u) mn1 (q5 + inject_Z 60 * x2)).
  { apply (part_approx 8); auto; try lia. change (inject_Z 60) with 60%Q. lra. }
  change (inject_Z 60) with 60%Q in B3. set (x3 := (q5 + 60 * x2)%Q) in *. assert (E3 : (x3 == q5 + 60 * x2)%Q) by reflexivity. clearbody x3.
  assert (B4 : approx (inject_Z 16 * u) s1 (q4 + inject_Z 60 * x3)).
  { apply (part_approx 12); auto; try lia. change (inject_Z 60) with 60%Q. lra. }
  change (inject_Z 60) with 60%Q in B4. set (x4 := (q4 + 60 * x3)%Q) in *. assert (E4 : (x4 == q4 + 60 * x3)%Q) by reflexivity. clearbody x4.
  assert (B5 : approx (inject_Z 20 * u) ms1 (q3 + inject_Z 1000 * x4)).
  { apply (part_approx 16); auto; try lia. change (inject_Z 1000) with 1000%Q. lra. }
  change (inject_Z 1000) with 1000%Q in B5. set (x5 := (q3 + 1000 * x4)%Q) in *. assert (E5 : (x5 == q3 + 1000 * x4)%Q) by reflexivity. clearbody x5.
  assert (B6 : approx (inject_Z 24 * u) us1 (q2 + inject_Z 1000 * x5)).
  { apply (part_approx 20); auto; try lia. change (inject_Z 1000) with 1000%Q. lra. }
  change (inject_Z 1000) with 1000%Q in B6. set (x6 := (q2 + 1000 * x5)%Q) in *. assert (E6 : (x6 == q2 + 1000 * x5)%Q) by reflexivity. clearbody x6.
  apply approx_eq with (q1 + inject_Z 1000 * x6)%Q; [change (inject_Z 1000) with 1000%Q; lra|].
  apply (part_approx 24); auto; try lia. change (inject_Z 1000) with 1000%Q. lra.
Qed.
