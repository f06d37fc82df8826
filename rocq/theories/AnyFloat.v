(** Rounding an integer to a floating point format is exact when, and only when,
    it has few enough significant bits. *)
From Coq Require Import ZArith List Bool Lia Floats.SpecFloat.
From Verif Require Import Base AnyModel AnySpec AnyProofs.
Local Open Scope Z_scope.

Lemma digits_bounds : forall m,
  2 ^ (Z.pos (digits2_pos m) - 1) <= Z.pos m < 2 ^ Z.pos (digits2_pos m).
Proof.
  induction m as [m IH|m IH|]; simpl digits2_pos.
  - rewrite Pos2Z.inj_succ. set (d := Z.pos (digits2_pos m)) in *.
    assert (0 < d) by reflexivity.
    replace (Z.succ d - 1) with (Z.succ (d - 1)) by lia.
    rewrite !Z.pow_succ_r by lia. lia.
  - rewrite Pos2Z.inj_succ. set (d := Z.pos (digits2_pos m)) in *.
    assert (0 < d) by reflexivity.
    replace (Z.succ d - 1) with (Z.succ (d - 1)) by lia.
    rewrite !Z.pow_succ_r by lia. lia.
  - simpl. lia.
Qed.

Lemma digits_le : forall m n, 0 <= n -> Z.pos m < 2 ^ n -> Z.pos (digits2_pos m) <= n.
Proof.
  intros m n Hn H. pose proof (digits_bounds m) as [B _].
  destruct (Z_le_dec (Z.pos (digits2_pos m)) n) as [|G]; [assumption|].
  assert (2 ^ n <= 2 ^ (Z.pos (digits2_pos m) - 1)) by (apply Z.pow_le_mono_r; lia).
  lia.
Qed.

Lemma digits_unique : forall m n, 2 ^ (n - 1) <= Z.pos m < 2 ^ n -> 0 <= n ->
  Z.pos (digits2_pos m) = n.
Proof.
  intros m n [L U] Hn. pose proof (digits_le m n Hn U).
  pose proof (digits_bounds m) as [_ B].
  destruct (Z.eq_dec (Z.pos (digits2_pos m)) n) as [|N]; [assumption|].
  assert (2 ^ Z.pos (digits2_pos m) <= 2 ^ (n - 1)) by (apply Z.pow_le_mono_r; lia).
  lia.
Qed.

Lemma shift_pos_val : forall d m, Z.pos (shift_pos d m) = Z.pos m * 2 ^ Z.pos d.
Proof. intros. rewrite shift_pos_correct, Zpower_pos_nat, Zpower_nat_Z. rewrite positive_nat_Z. lia. Qed.

Lemma digits_shift : forall d m,
  Z.pos (digits2_pos (shift_pos d m)) = Z.pos (digits2_pos m) + Z.pos d.
Proof.
  intros d m. apply digits_unique; [|lia].
  rewrite shift_pos_val. pose proof (digits_bounds m) as [L U].
  replace (Z.pos (digits2_pos m) + Z.pos d - 1)
    with ((Z.pos (digits2_pos m) - 1) + Z.pos d) by lia.
  rewrite !Z.pow_add_r by lia.
  assert (0 < 2 ^ Z.pos d) by (apply Z.pow_pos_nonneg; lia). nia.
Qed.

Lemma iter_add_n : forall A (f : A -> A) n m x,
  Nat.iter (n + m) f x = Nat.iter n f (Nat.iter m f x).
Proof. intros A f n m x. induction n as [|n IH]; simpl; [reflexivity|now rewrite IH]. Qed.

Lemma iter_succ_r_n : forall A (f : A -> A) n x,
  Nat.iter (S n) f x = Nat.iter n f (f x).
Proof. intros A f n x. rewrite <- Nat.add_1_r. now rewrite iter_add_n. Qed.

Lemma iter_pos_nat : forall A (f : A -> A) n x,
  SpecFloat.iter_pos f n x = Nat.iter (Pos.to_nat n) f x.
Proof.
  intros A f n. induction n as [n IH|n IH|]; intros x; simpl SpecFloat.iter_pos.
  - rewrite !IH, Pos2Nat.inj_xI.
    replace (S (2 * Pos.to_nat n)) with (Pos.to_nat n + (Pos.to_nat n + 1))%nat by lia.
    now rewrite !iter_add_n.
  - rewrite !IH, Pos2Nat.inj_xO.
    replace (2 * Pos.to_nat n)%nat with (Pos.to_nat n + Pos.to_nat n)%nat by lia.
    now rewrite iter_add_n.
  - reflexivity.
Qed.

Lemma shift_pos_nat : forall n m, shift_pos n m = Nat.iter (Pos.to_nat n) xO m.
Proof. intros. unfold shift_pos. apply Pos2Nat.inj_iter. Qed.

Lemma shr_exact : forall n b,
  SpecFloat.iter_pos shr_1 n (Build_shr_record (Z.pos (shift_pos n b)) false false)
  = Build_shr_record (Z.pos b) false false.
Proof.
  intros n b. rewrite iter_pos_nat, shift_pos_nat.
  induction (Pos.to_nat n) as [|k IH]; [reflexivity|].
  rewrite iter_succ_r_n. simpl Nat.iter at 2. simpl shr_1. exact IH.
Qed.

Section Format.
  Variables prec emax : Z.
  Hypothesis Hprec : 0 < prec.
  Hypothesis Hemax : prec + 3 <= emax.

  (** A mantissa of exactly [prec] digits at an exponent in range is kept. *)
  Lemma aux_full : forall sx m e,
    Z.pos (digits2_pos m) = prec -> emin prec emax <= e <= emax - prec ->
    binary_round_aux prec emax sx (Z.pos m) e loc_Exact = S754_finite sx m e.
  Proof.
    intros sx m e D E. unfold binary_round_aux, shr_fexp. cbn [Zdigits2].
    assert (F : fexp prec emax (Z.pos (digits2_pos m) + e) - e = 0).
    { rewrite D. unfold fexp. lia. }
    rewrite F. cbn [shr shr_record_of_loc shr_m loc_of_shr_record round_nearest_even Zdigits2].
    rewrite F. cbn [shr shr_record_of_loc shr_m].
    replace (e <=? emax - prec) with true by (symmetry; apply Z.leb_le; lia).
    reflexivity.
  Qed.

  Lemma round_small : forall sx m,
    Z.pos (digits2_pos m) <= prec ->
    exists m' e', binary_round prec emax sx m 0 = S754_finite sx m' e' /\
                  e' <= 0 /\ Z.pos m' = Z.pos m * 2 ^ (- e').
  Proof.
    intros sx m D. unfold binary_round.
    assert (0 < Z.pos (digits2_pos m)) by reflexivity.
    assert (F : fexp prec emax (Z.pos (digits2_pos m) + 0) = Z.pos (digits2_pos m) - prec).
    { unfold fexp, emin. lia. }
    rewrite F. unfold shl_align.
    destruct (Z.pos (digits2_pos m) - prec - 0) as [|d|d] eqn:X; [| lia |].
    - exists m, 0. split; [|simpl; lia].
      apply aux_full; [lia|unfold emin; lia].
    - exists (shift_pos d m), (Z.pos (digits2_pos m) - prec).
      split; [|split; [lia|]].
      + apply aux_full; [rewrite digits_shift; lia|unfold emin; lia].
      + rewrite shift_pos_val. do 2 f_equal. lia.
  Qed.

  (** A large value with enough trailing zeros is kept. *)
  Lemma round_large : forall sx b n,
    Z.pos (digits2_pos b) = prec -> Z.pos n <= emax - prec ->
    binary_round prec emax sx (shift_pos n b) 0 = S754_finite sx b (Z.pos n).
  Proof.
    intros sx b n D N. unfold binary_round.
    assert (F : fexp prec emax (Z.pos (digits2_pos (shift_pos n b)) + 0) = Z.pos n).
    { rewrite digits_shift, D. unfold fexp, emin. lia. }
    rewrite F. unfold shl_align. rewrite Z.sub_0_r.
    unfold binary_round_aux, shr_fexp. cbn [Zdigits2]. rewrite F, Z.sub_0_r.
    cbn [shr shr_record_of_loc]. rewrite shr_exact.
    cbn [shr_m loc_of_shr_record round_nearest_even Zdigits2].
    assert (F2 : fexp prec emax (Z.pos (digits2_pos b) + (0 + Z.pos n)) - (0 + Z.pos n) = 0).
    { rewrite D. unfold fexp, emin. lia. }
    rewrite F2. cbn [shr shr_m]. rewrite Z.add_0_l.
    replace (Z.pos n <=? emax - prec) with true by (symmetry; apply Z.leb_le; lia).
    reflexivity.
  Qed.

  (** The result of rounding a large integer is zero, infinite, not a number or
      an integer. *)
  Lemma round_large_int : forall sx m,
    prec < Z.pos (digits2_pos m) ->
    match binary_round prec emax sx m 0 with
    | S754_finite _ _ e => 0 <= e
    | _ => True
    end.
  Proof.
    intros sx m D. unfold binary_round.
    assert (F : fexp prec emax (Z.pos (digits2_pos m) + 0) = Z.pos (digits2_pos m) - prec).
    { unfold fexp, emin. lia. }
    rewrite F. unfold shl_align.
    destruct (Z.pos (digits2_pos m) - prec - 0) as [|d|d] eqn:X; [lia| |lia].
    unfold binary_round_aux. unfold shr_fexp at 1. cbn [Zdigits2]. rewrite F, X.
    cbn [shr]. unfold shr_fexp.
    set (mm := round_nearest_even _ _).
    destruct (fexp prec emax (Zdigits2 mm + (0 + Z.pos d)) - (0 + Z.pos d)) as [|q|q];
      cbn [shr];
      match goal with |- context [shr_m ?x] => destruct (shr_m x) end; auto;
      destruct (_ <=? _); auto; lia.
  Qed.

  Definition of_int (z : Z) : spec_float := binary_normalize prec emax z 0 false.

  Lemma of_int_trunc : forall v w, trunc (of_int v) = Some w -> float_is (of_int v) w.
  Proof.
    intros v w. unfold of_int, binary_normalize.
    assert (K : forall sx m, trunc (binary_round prec emax sx m 0) = Some w ->
                             float_is (binary_round prec emax sx m 0) w).
    { intros sx m.
      destruct (Z_le_dec (Z.pos (digits2_pos m)) prec) as [S|L].
      - destruct (round_small sx m S) as (m' & e' & -> & He & Hm). simpl.
        intros E. injection E as <-.
        destruct (0 <=? e') eqn:E0.
        + apply Z.leb_le in E0. assert (e' = 0) by lia. subst e'. simpl.
          destruct sx; lia.
        + apply Z.leb_gt in E0. rewrite Z.max_r, Z.max_l by lia.
          rewrite Hm. assert (0 < 2 ^ (- e')) by (apply Z.pow_pos_nonneg; lia).
          rewrite Z.div_mul by lia. rewrite Z.pow_0_r.
          destruct sx; lia.
      - assert (G : prec < Z.pos (digits2_pos m)) by lia.
        pose proof (round_large_int sx m G) as R.
        destruct (binary_round prec emax sx m 0) as [s|s| |s m' e']; simpl; intros E;
          try discriminate; injection E as <-; [reflexivity|].
        rewrite (proj2 (Z.leb_le 0 e')) by lia.
        rewrite Z.max_l, (Z.max_r (- e')) by lia. rewrite Z.pow_0_r.
        destruct s; [|simpl; destruct (2 ^ e'); lia].
        simpl; destruct (2 ^ e'); lia. }
    destruct v as [|m|m]; [|apply K|apply K].
    simpl. congruence.
  Qed.

  Lemma of_int_fits : forall v,
    fits prec v -> Z.abs v < 2 ^ emax -> trunc (of_int v) = Some v.
  Proof.
    intros v (a & k & Hk & Ha & Hv) Hb.
    assert (K : forall sx m, (exists b, 0 <= b < 2 ^ prec /\ Z.pos m = b * 2 ^ k) ->
                 Z.pos m < 2 ^ emax ->
                 trunc (binary_round prec emax sx m 0)
                 = Some (if sx then - Z.pos m else Z.pos m)).
    { intros sx m (b & Hb1 & Hb2) Hm.
      destruct (Z_le_dec (Z.pos (digits2_pos m)) prec) as [S|L].
      - destruct (round_small sx m S) as (m' & e' & -> & He & Hm'). simpl.
        destruct (0 <=? e') eqn:E0.
        + apply Z.leb_le in E0. assert (e' = 0) by lia. subst e'. simpl in *.
          do 2 f_equal; destruct sx; lia.
        + apply Z.leb_gt in E0. rewrite Hm'.
          assert (0 < 2 ^ (- e')) by (apply Z.pow_pos_nonneg; lia).
          rewrite Z.div_mul by lia. reflexivity.
      - assert (G : prec < Z.pos (digits2_pos m)) by lia. clear L.
        destruct (Z.pos (digits2_pos m) - prec) as [|n|n] eqn:N; [lia| |lia].
        assert (Db : 0 < b) by (assert (0 < Z.pos m) by reflexivity;
                                assert (0 < 2 ^ k) by (apply Z.pow_pos_nonneg; lia); nia).
        destruct b as [|b|b]; [lia| |lia].
        (* k >= n *)
        assert (Dm : Z.pos (digits2_pos m) = Z.pos (digits2_pos b) + k).
        { apply digits_unique; [|lia].
          pose proof (digits_bounds b) as [L U]. rewrite Hb2.
          replace (Z.pos (digits2_pos b) + k - 1) with ((Z.pos (digits2_pos b) - 1) + k) by lia.
          rewrite !Z.pow_add_r by lia.
          assert (0 < 2 ^ k) by (apply Z.pow_pos_nonneg; lia). nia. }
        pose proof (digits_le b prec ltac:(lia) ltac:(lia)) as Bd.
        assert (Hc : exists c, Z.pos m = Z.pos c * 2 ^ Z.pos n).
        { assert (0 < 2 ^ (k - Z.pos n)) by (apply Z.pow_pos_nonneg; lia).
          destruct (Z.pos b * 2 ^ (k - Z.pos n)) as [|c|c] eqn:C; [lia| |lia].
          exists c. rewrite Hb2, <- C, <- Z.mul_assoc, <- Z.pow_add_r by lia.
          do 2 f_equal. lia. }
        destruct Hc as (c & Hc).
        assert (Em : m = shift_pos n c).
        { apply Pos2Z.inj. now rewrite shift_pos_val. }
        assert (Dc : Z.pos (digits2_pos c) = prec).
        { rewrite Em, digits_shift in N. lia. }
        assert (Hn : Z.pos n <= emax - prec).
        { pose proof (digits_le m emax ltac:(lia) Hm). lia. }
        rewrite Em, (round_large sx c n Dc Hn). simpl trunc.
        f_equal. rewrite shift_pos_val. destruct sx; reflexivity. }
    unfold of_int, binary_normalize. destruct v as [|m|m]; [reflexivity| |].
    - apply (K false m); [|lia]. exists a. split; [|exact Hv].
      assert (0 < 2 ^ k) by (apply Z.pow_pos_nonneg; lia).
      split; [nia|lia].
    - rewrite (K true m); [reflexivity| |lia].
      exists (- a). assert (0 < 2 ^ k) by (apply Z.pow_pos_nonneg; lia).
      split; [|lia].
      split; [nia|lia].
  Qed.
End Format.

Lemma of_type_abs : forall u v, of_type u v -> Z.abs v < 2 ^ 64.
Proof. intros u v H. unfold of_type in H. destruct u; cbn in H |- *; lia. Qed.

Lemma convert_complete : forall prec emax U v,
  0 < prec -> prec + 3 <= emax -> 64 <= emax ->
  of_type U v -> fits prec v ->
  exists f, convert_float_int (of_int prec emax) U v = Ok f /\ float_is f v.
Proof.
  intros prec emax U v H1 H2 H3 HU F.
  assert (B : Z.abs v < 2 ^ emax).
  { pose proof (of_type_abs U v HU).
    assert (2 ^ 64 <= 2 ^ emax) by (apply Z.pow_le_mono_r; lia). lia. }
  pose proof (of_int_fits prec emax H1 H2 v F B) as T.
  exists (of_int prec emax v).
  split; [|now apply of_int_trunc].
  unfold convert_float_int, int_of_float. rewrite T.
  unfold of_type in HU. rewrite <- tmin_range, <- tmax_range in HU.
  rewrite (proj2 (Z.leb_le _ _) (proj1 HU)), (proj2 (Z.leb_le _ _) (proj2 HU)).
  cbn [andb]. rewrite Z.sub_diag.
  assert (Z0 : of_type U 0) by (destruct U; unfold of_type; simpl; lia).
  unfold of_type in Z0. rewrite <- tmin_range, <- tmax_range in Z0.
  rewrite (proj2 (Z.leb_le _ _) (proj1 Z0)), (proj2 (Z.leb_le _ _) (proj2 Z0)).
  cbn [andb negb]. rewrite andb_false_r.
  rewrite cast_id by (unfold of_type; rewrite <- tmin_range, <- tmax_range; exact Z0).
  reflexivity.
Qed.

Lemma convert_sound : forall prec emax U v f,
  0 < prec -> prec + 3 <= emax ->
  of_type U v -> convert_float_int (of_int prec emax) U v = Ok f -> float_is f v.
Proof.
  intros prec emax U v f H1 H2 HU E.
  pose proof (convert_float_int_back _ _ _ _ HU E) as T.
  assert (f = of_int prec emax v).
  { unfold convert_float_int in E. destruct (int_of_float _ _); [|discriminate].
    destruct (_ && negb _); [discriminate|]. destruct (negb _); [discriminate|].
    congruence. }
  subst f. now apply of_int_trunc.
Qed.

Lemma small_exact : forall prec emax v,
  0 < prec -> prec + 3 <= emax -> Z.abs v < 2 ^ prec ->
  float_is (of_int prec emax v) v.
Proof.
  intros prec emax v H1 H2 H. apply of_int_trunc; [lia|lia|].
  apply of_int_fits; [lia|lia| |].
  - exists v, 0. rewrite Z.pow_0_r. lia.
  - assert (2 ^ prec <= 2 ^ emax) by (apply Z.pow_le_mono_r; lia). lia.
Qed.
