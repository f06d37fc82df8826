(** Rounding gives a nearest value of the format. *)
From Coq Require Import ZArith List Bool Lia Lqa Floats.SpecFloat QArith Qpower Qabs.
From Verif Require Import Base PaceModel PaceSpec AnyModel AnySpec AnyProofs AnyFloat AnyRound AnyClose PaceFloat AnyCloseSpec.
Local Open Scope Z_scope.

Lemma nearest_best : forall m n k, 0 <= n -> Z.abs (m - nearest m n * 2 ^ n) <= Z.abs (m - k * 2 ^ n).
Proof.
  intros m n k N. assert (P : 0 < 2 ^ n) by (apply Z.pow_pos_nonneg; lia).
  pose proof (Z.div_mod m (2 ^ n) ltac:(lia)) as D. pose proof (Z.mod_pos_bound m (2 ^ n) P) as B.
  unfold nearest. set (q := m / 2 ^ n) in *. set (r := m mod 2 ^ n) in *. set (p := 2 ^ n) in *. clearbody q r p.
  subst m. replace (p * q + r - k * p) with ((q - k) * p + r) by ring.
  assert (A : r <= Z.abs ((q - k) * p + r) \/ p - r <= Z.abs ((q - k) * p + r)).
  { destruct (Z.le_gt_cases k q) as [K|K]; [left; nia|right; nia]. }
  assert (A1 : k <= q -> r <= Z.abs ((q - k) * p + r)) by nia.
  assert (A2 : q < k -> p - r <= Z.abs ((q - k) * p + r)) by nia.
  assert (E0 : p * q + r - q * p = r) by ring. assert (E1 : p * q + r - (q + 1) * p = r - p) by ring.
  destruct (Z.compare_spec (2 * r) p) as [C|C|C]; [destruct (Z.even q)| |]; rewrite ?E0, ?E1; lia.
Qed.

Lemma abs_q : forall a, (Qabs (inject_Z a) == inject_Z (Z.abs a))%Q.
Proof. intros a. destruct a; reflexivity. Qed.

Lemma abs_scaled : forall x e, (Qabs (x * two e) == Qabs x * two e)%Q.
Proof. intros x e. rewrite Qabs_Qmult. rewrite (Qabs_pos (two e)) by (apply Qlt_le_weak, two_pos). reflexivity. Qed.

Lemma to_multiple_best : forall m e f k,
  (Qabs (inject_Z m * two e - inject_Z (to_multiple m e f) * two f) <= Qabs (inject_Z m * two e - inject_Z k * two f))%Q.
Proof.
  intros m e f k. unfold to_multiple. destruct (Z.leb_spec f e) as [L|L].
  - rewrite inject_Z_mult, two_nat by lia.
    setoid_replace (inject_Z m * two e - inject_Z m * two (e - f) * two f)%Q with 0%Q.
    + apply Qabs_nonneg.
    + rewrite <- Qmult_assoc, <- two_add. replace (e - f + f) with e by lia. ring.
  - assert (X : forall j, (inject_Z m * two e - inject_Z j * two f == inject_Z (m - j * 2 ^ (f - e)) * two e)%Q).
    { intros j. unfold Z.sub at 1. rewrite inject_Z_plus, inject_Z_opp, inject_Z_mult, two_nat by lia.
      setoid_replace (two f) with (two (f - e) * two e)%Q; [ring|]. rewrite <- two_add. replace (f - e + e) with f by lia. reflexivity. }
    rewrite !X, !abs_scaled, !abs_q. apply Qmult_le_compat_r; [|apply Qlt_le_weak, two_pos].
    apply inj_le. apply nearest_best. lia.
Qed.

Section Best.
  Variables prec emax : Z.
  Hypothesis prec_big : 1 < prec.

  Definition sign (s : bool) : Q := if s then -1 else 1.

  Lemma q_finite : forall s m e, (q_of (S754_finite s m e) == sign s * (inject_Z (Z.pos m) * two e))%Q.
  Proof. intros s m e. cbn [q_of]. destruct s; cbn [sign]; [change (Z.neg m) with (- Z.pos m); rewrite inject_Z_opp|]; ring. Qed.

  Lemma pack_value : forall s m e, 0 <= m -> is_number (pack prec emax s m e) ->
    (q_of (pack prec emax s m e) == sign s * (inject_Z m * two e))%Q.
  Proof.
    intros s m e M. pose proof (half_pos prec prec_big) as H. pose proof (full_half prec prec_big) as F. unfold pack.
    destruct (Z.eqb_spec m 0) as [->|N0]; [intros _; cbn [q_of]; change (inject_Z 0) with 0%Q; ring|].
    destruct (Z.eqb_spec m (2 ^ prec)) as [->|N1].
    - destruct (e + 1 <=? emax - prec); [intros _|intros []]. rewrite q_finite, Z2Pos.id by lia. rewrite F, inject_Z_mult.
      rewrite two_add. change (two 1) with (2 # 1). change (inject_Z 2) with (2 # 1). ring.
    - destruct (e <=? emax - prec); [intros _|intros []]. rewrite q_finite, Z2Pos.id by lia. reflexivity.
  Qed.

  (** A magnitude of the format: k * 2^g, k below 2^prec, g not below the least exponent. *)
  Lemma best_magnitude : forall m e k g,
    let f := exponent prec emax (Z.pos (digits2_pos m) + e) in
    0 <= k < 2 ^ prec -> 3 - emax - prec <= g ->
    (Qabs (inject_Z (Z.pos m) * two e - inject_Z (to_multiple (Z.pos m) e f) * two f) <=
     Qabs (inject_Z (Z.pos m) * two e - inject_Z k * two g))%Q.
  Proof.
    intros m e k g f K G. destruct (Z.le_gt_cases f g) as [L|L].
    - setoid_replace (inject_Z k * two g)%Q with (inject_Z (k * 2 ^ (g - f)) * two f)%Q; [apply to_multiple_best|].
      rewrite inject_Z_mult, two_nat by lia. rewrite <- Qmult_assoc, <- two_add. replace (g - f + f) with g by lia. reflexivity.
    - assert (E : f = Z.pos (digits2_pos m) + e - prec) by (unfold f, exponent in *; lia).
      set (d := Z.pos (digits2_pos m)) in *.
      eapply Qle_trans; [apply (to_multiple_best (Z.pos m) e f (2 ^ (prec - 1)))|].
      assert (X : (inject_Z (2 ^ (prec - 1)) * two f <= inject_Z (Z.pos m) * two e)%Q).
      { rewrite two_nat by lia. rewrite <- two_add. replace (prec - 1 + f) with ((d - 1) + e) by lia. rewrite two_add.
        apply Qmult_le_compat_r; [|apply Qlt_le_weak, two_pos]. rewrite <- two_nat by (unfold d; lia). apply inj_le.
        exact (proj1 (digits_bounds m)). }
      assert (Y : (inject_Z k * two g <= inject_Z (2 ^ (prec - 1)) * two f)%Q).
      { apply Qle_trans with (inject_Z (2 ^ prec) * two g)%Q.
        - apply Qmult_le_compat_r; [apply inj_le; lia|apply Qlt_le_weak, two_pos].
        - rewrite !two_nat by lia. rewrite <- !two_add.
          assert (Z : (two (prec + g) <= two (prec - 1 + f))%Q); [|exact Z].
          replace (prec - 1 + f) with ((prec + g) + (f - 1 - g)) by lia. rewrite (two_add (prec + g)).
          pose proof (two_pos (prec + g)). assert (1 <= two (f - 1 - g))%Q; [|nra].
          rewrite <- two_nat by lia. change 1%Q with (inject_Z 1). apply inj_le. pose proof (Z.pow_pos_nonneg 2 (f - 1 - g) ltac:(lia) ltac:(lia)). lia. }
      rewrite !Qabs_pos by lra. lra.
  Qed.

  Lemma valid_magnitude : forall s m e, valid_binary prec emax (S754_finite s m e) = true ->
    0 <= Z.pos m < 2 ^ prec /\ 3 - emax - prec <= e.
  Proof.
    intros s m e V. cbn [valid_binary] in V. unfold bounded in V. apply andb_prop in V as [C _].
    unfold canonical_mantissa in C. apply Zeq_bool_eq in C. unfold fexp, emin in C. split; [|lia]. split; [lia|].
    pose proof (digits_bounds m) as [_ U]. eapply Z.lt_le_trans; [exact U|]. apply Z.pow_le_mono_r; lia.
  Qed.

  Lemma round_best : forall s m e w,
    valid_binary prec emax w = true -> is_number w -> is_number (binary_round prec emax s m e) ->
    (Qabs (q_of (S754_finite s m e) - q_of (binary_round prec emax s m e)) <= Qabs (q_of (S754_finite s m e) - q_of w))%Q.
  Proof.
    intros s m e w V W. destruct (binary_round_is prec emax prec_big s m e) as [-> B]. intros R.
    rewrite (pack_value s _ _ (proj1 B) R). rewrite q_finite.
    set (f := exponent prec emax (Z.pos (digits2_pos m) + e)) in *.
    set (x := (inject_Z (Z.pos m) * two e)%Q). set (r := (inject_Z (to_multiple (Z.pos m) e f) * two f)%Q).
    assert (X0 : (0 < x)%Q) by (unfold x; apply Qmult_lt_0_compat; [reflexivity|apply two_pos]).
    assert (Z0 : (Qabs (x - r) <= x)%Q).
    { pose proof (best_magnitude m e 0 (3 - emax - prec) ltac:(split; [lia|apply Z.pow_pos_nonneg; lia]) ltac:(lia)) as H. cbv zeta in H. fold f in H.
      fold x in H. fold r in H. setoid_replace (x - inject_Z 0 * two (3 - emax - prec))%Q with x in H by (change (inject_Z 0) with 0%Q; ring).
      rewrite (Qabs_pos x) in H by lra. exact H. }
    assert (S : forall y, (Qabs (sign s * x - sign s * y) == Qabs (x - y))%Q).
    { intros y. setoid_replace (sign s * x - sign s * y)%Q with (sign s * (x - y))%Q by ring. rewrite Qabs_Qmult. destruct s; cbn; ring. }
    assert (U : (Qabs (sign s) == 1)%Q) by (destruct s; reflexivity).
    rewrite S. destruct w as [t|t| |t k g]; [| destruct W | destruct W |].
    - cbn [q_of]. setoid_replace (sign s * x - 0)%Q with (sign s * x)%Q by ring.
      rewrite Qabs_Qmult, (Qabs_pos x), U by lra. lra.
    - destruct (valid_magnitude _ _ _ V) as [K G]. rewrite q_finite. set (y := (inject_Z (Z.pos k) * two g)%Q).
      assert (Y0 : (0 < y)%Q) by (unfold y; apply Qmult_lt_0_compat; [reflexivity|apply two_pos]).
      destruct (Bool.bool_dec s t) as [<-|N].
      + rewrite S. exact (best_magnitude m e (Z.pos k) g K G).
      + setoid_replace (sign s * x - sign t * y)%Q with (sign s * (x + y))%Q by (destruct s, t; try congruence; cbn; ring).
        rewrite Qabs_Qmult, (Qabs_pos (x + y)), U by lra. lra.
  Qed.

  Lemma pack_valid : forall s m e,
    let f := exponent prec emax (Z.pos (digits2_pos m) + e) in
    valid_binary prec emax (pack prec emax s (to_multiple (Z.pos m) e f) f) = true.
  Proof.
    intros s m e f. destruct (binary_round_is prec emax prec_big s m e) as [_ B]. fold f in B.
    pose proof (half_pos prec prec_big) as H. pose proof (full_half prec prec_big) as F.
    assert (FE : forall d, fexp prec emax d = exponent prec emax d) by reflexivity.
    assert (LO : 3 - emax - prec < f -> 2 ^ (prec - 1) <= to_multiple (Z.pos m) e f).
    { intros L. assert (E : f = Z.pos (digits2_pos m) + e - prec) by (unfold f, exponent in *; lia).
      pose proof (digits_bounds m) as [D _]. unfold to_multiple. destruct (Z.leb_spec f e) as [Le|Le].
      - apply Z.le_trans with (2 ^ (Z.pos (digits2_pos m) - 1) * 2 ^ (e - f)).
        + rewrite <- Z.pow_add_r by lia. apply Z.pow_le_mono_r; lia.
        + apply Z.mul_le_mono_nonneg_r; [apply Z.pow_nonneg; lia|exact D].
      - eapply Z.le_trans; [|apply nearest_bounds; lia]. apply Z.div_le_lower_bound; [apply Z.pow_pos_nonneg; lia|].
        rewrite <- Z.pow_add_r by lia. eapply Z.le_trans; [|exact D]. apply Z.pow_le_mono_r; lia. }
    assert (Fl : 3 - emax - prec <= f) by (unfold f, exponent; lia).
    set (M := to_multiple (Z.pos m) e f) in *. clearbody M f. unfold pack.
    destruct (Z.eqb_spec M 0) as [->|N0]; [reflexivity|]. destruct (Z.eqb_spec M (2 ^ prec)) as [->|N1].
    - destruct (Z.leb_spec (f + 1) (emax - prec)) as [L|L]; [|reflexivity]. cbn [valid_binary]. unfold bounded, canonical_mantissa.
      rewrite FE. rewrite (digits_unique (Z.to_pos (2 ^ (prec - 1))) prec); [|rewrite Z2Pos.id by lia; lia|lia].
      apply andb_true_intro. split; [apply Zeq_is_eq_bool; unfold exponent; lia|now apply Z.leb_le].
    - destruct (Z.leb_spec f (emax - prec)) as [L|L]; [|reflexivity]. cbn [valid_binary]. unfold bounded, canonical_mantissa.
      rewrite FE. apply andb_true_intro. split; [|now apply Z.leb_le]. apply Zeq_is_eq_bool.
      destruct (Z.eq_dec f (3 - emax - prec)) as [->|NE].
      + assert (Z.pos (digits2_pos (Z.to_pos M)) <= prec) by (apply digits_le; [lia|rewrite Z2Pos.id by lia; lia]).
        unfold exponent. lia.
      + specialize (LO ltac:(lia)). rewrite (digits_unique (Z.to_pos M) prec); [|rewrite Z2Pos.id by lia; lia|lia].
        unfold exponent. lia.
  Qed.

  Lemma round_is_valid : forall s m e, valid_binary prec emax (binary_round prec emax s m e) = true.
  Proof. intros s m e. destruct (binary_round_is prec emax prec_big s m e) as [-> _]. apply pack_valid. Qed.
End Best.

(** A single precision value is kept by the conversion to double precision. *)
Lemma f64_of_f32_exact : forall f, single f -> double (f64_of_f32 f) /\
  (is_number f -> is_number (f64_of_f32 f) /\ (q_of (f64_of_f32 f) == q_of f)%Q) /\ (~ is_number f -> f64_of_f32 f = f).
Proof.
  intros f V. destruct f as [s|s| |s m e]; cbn [f64_of_f32]; try (split; [reflexivity|split; [intros H; split; [exact H|reflexivity]|reflexivity]]).
  split; [apply round_is_valid; lia|]. split; [intros _|intros N; destruct N; exact I].
  pose proof (valid_magnitude 24 128 s m e V) as [M E].
  assert (D : Z.pos (digits2_pos m) <= 24) by (apply digits_le; lia).
  unfold single in V. cbn [valid_binary] in V. unfold bounded in V. apply andb_prop in V as [_ U]. apply Z.leb_le in U.
  destruct (binary_round_is 53 1024 ltac:(lia) s m e) as [R B]. rewrite R.
  set (f := exponent 53 1024 (Z.pos (digits2_pos m) + e)) in *.
  assert (F : f <= e /\ f + 1 <= 1024 - 53) by (unfold f, exponent; lia).
  assert (N : is_number (pack 53 1024 s (to_multiple (Z.pos m) e f) f)).
  { unfold pack. destruct (_ =? 0); [exact I|]. rewrite (proj2 (Z.leb_le (f + 1) _)), (proj2 (Z.leb_le f _)) by lia. destruct (_ =? _); exact I. }
  split; [exact N|]. rewrite (pack_value 53 1024 ltac:(lia) s _ _ (proj1 B) N), q_finite. unfold to_multiple.
  rewrite (proj2 (Z.leb_le f e)) by lia. rewrite inject_Z_mult, two_nat by lia.
  rewrite <- (Qmult_assoc _ (two (e - f))), <- two_add. replace (e - f + f) with e by lia. reflexivity.
Qed.
