(** Rounding to a floating point format: what binary_round computes. *)
From Coq Require Import ZArith List Bool Lia Floats.SpecFloat.
From Verif Require Import Base AnyModel AnySpec AnyProofs AnyFloat.
Local Open Scope Z_scope.

(** The integer nearest to m / 2^n, an even one when two are as near. *)
Definition nearest (m n : Z) : Z :=
  let q := m / 2 ^ n in
  match 2 * (m mod 2 ^ n) ?= 2 ^ n with
  | Lt => q
  | Gt => q + 1
  | Eq => if Z.even q then q else q + 1
  end.

(** * Shifting right, with the two bits that remember what was lost *)
Lemma shr_1_bits : forall m r s, 0 <= m ->
  shr_1 {| shr_m := m; shr_r := r; shr_s := s |} = {| shr_m := m / 2; shr_r := Z.odd m; shr_s := r || s |}.
Proof.
  intros m r s H. destruct m as [|p|p]; [reflexivity| |lia]. destruct p as [p|p|].
  - cbn [shr_1 Z.odd]. f_equal. change (Z.pos p~1) with (2 * Z.pos p + 1). rewrite Z.mul_comm, Z.div_add_l by lia. cbn. lia.
  - cbn [shr_1 Z.odd]. f_equal. change (Z.pos p~0) with (2 * Z.pos p). rewrite Z.mul_comm, Z.div_mul by lia. reflexivity.
  - reflexivity.
Qed.

Lemma shr_bits : forall m n, 0 <= m ->
  exists r s, Nat.iter (S n) shr_1 {| shr_m := m; shr_r := false; shr_s := false |} =
              {| shr_m := m / 2 ^ Z.of_nat (S n); shr_r := r; shr_s := s |} /\
    exists t, m mod 2 ^ Z.of_nat (S n) = (if r then 2 ^ Z.of_nat n else 0) + t /\ 0 <= t < 2 ^ Z.of_nat n /\ (s = true <-> t <> 0).
Proof.
  intros m n M. induction n as [|n IH].
  - cbn [Nat.iter nat_rect]. rewrite shr_1_bits by exact M. exists (Z.odd m), false. split; [reflexivity|]. exists 0. cbn.
    change (Z.pow_pos 2 1) with 2. rewrite Zmod_odd. destruct (Z.odd m); repeat split; try lia; congruence.
  - destruct IH as (r & s & E & t & T & B & Z).
    change (Nat.iter (S (S n)) shr_1 {| shr_m := m; shr_r := false; shr_s := false |}) with
      (shr_1 (Nat.iter (S n) shr_1 {| shr_m := m; shr_r := false; shr_s := false |})).
    rewrite E. assert (P : 0 < 2 ^ Z.of_nat (S n)) by (apply Z.pow_pos_nonneg; lia).
    rewrite shr_1_bits by (apply Z.div_pos; lia). eexists. eexists. split.
    + f_equal. rewrite Z.div_div by lia. f_equal. rewrite (Nat2Z.inj_succ (S n)), Z.pow_succ_r by lia. lia.
    + exists (m mod 2 ^ Z.of_nat (S n)). split; [|split].
      * rewrite (Nat2Z.inj_succ (S n)), Z.pow_succ_r by lia. rewrite (Z.mul_comm 2), Z.rem_mul_r by lia.
        rewrite Zmod_odd. destruct (Z.odd _); lia.
      * apply Z.mod_pos_bound. exact P.
      * rewrite T. assert (0 < 2 ^ Z.of_nat n) by (apply Z.pow_pos_nonneg; lia).
        destruct r; cbn; [split; [intros _; lia|reflexivity]|]. rewrite Z. lia.
Qed.

Lemma shr_nearest : forall m e n, 0 <= m -> 0 <= n ->
  exists r, shr (shr_record_of_loc m loc_Exact) e n = (r, e + n) /\
  round_nearest_even (shr_m r) (loc_of_shr_record r) = nearest m n.
Proof.
  intros m e n M N. unfold nearest. destruct n as [|p|p]; [| |lia].
  - eexists. split; [cbn; rewrite Z.add_0_r; reflexivity|]. cbn. rewrite Z.div_1_r, Z.mod_1_r. reflexivity.
  - cbn [shr]. eexists. split; [reflexivity|]. rewrite iter_pos_nat. cbn [shr_record_of_loc].
    destruct (Pos2Nat.is_succ p) as [k K]. rewrite K.
    assert (Q : Z.pos p = Z.of_nat (S k)) by lia. rewrite Q.
    destruct (shr_bits m k M) as (r & s & -> & t & T & B & Z). cbn [shr_m].
    assert (P : 2 ^ Z.of_nat (S k) = 2 * 2 ^ Z.of_nat k) by (rewrite Nat2Z.inj_succ, Z.pow_succ_r; lia).
    rewrite T. destruct r, s; cbn [loc_of_shr_record round_nearest_even].
    + assert (t <> 0) by (now apply Z). replace (2 * (2 ^ Z.of_nat k + t) ?= 2 ^ Z.of_nat (S k)) with Gt; [reflexivity|].
      symmetry. apply Z.compare_gt_iff. rewrite P. lia.
    + assert (t = 0) by (destruct (Z.eq_dec t 0) as [e0|e0]; [exact e0|]; apply Z in e0; discriminate).
      replace (2 * (2 ^ Z.of_nat k + t) ?= 2 ^ Z.of_nat (S k)) with Eq; [reflexivity|].
      symmetry. apply Z.compare_eq_iff. rewrite P. lia.
    + replace (2 * (0 + t) ?= 2 ^ Z.of_nat (S k)) with Lt; [reflexivity|]. symmetry. apply Z.compare_lt_iff. rewrite P. lia.
    + replace (2 * (0 + t) ?= 2 ^ Z.of_nat (S k)) with Lt; [reflexivity|]. symmetry. apply Z.compare_lt_iff. rewrite P. lia.
Qed.

Section Format.
  Variables prec emax : Z.
  Hypothesis prec_big : 1 < prec.

  (** The exponent a value below 2^d and not below 2^(d-1) is given. *)
  Definition exponent (d : Z) : Z := Z.max (d - prec) (3 - emax - prec).

  Definition pack (sx : bool) (m e : Z) : spec_float :=
    if m =? 0 then S754_zero sx
    else if m =? 2 ^ prec then
      if e + 1 <=? emax - prec then S754_finite sx (Z.to_pos (2 ^ (prec - 1))) (e + 1) else S754_infinity sx
    else if e <=? emax - prec then S754_finite sx (Z.to_pos m) e else S754_infinity sx.

  (** m * 2^e rounded to a multiple of 2^f. *)
  Definition to_multiple (m e f : Z) : Z := if f <=? e then m * 2 ^ (e - f) else nearest m (f - e).

  Lemma nearest_bounds : forall m n, 0 <= n -> m / 2 ^ n <= nearest m n <= m / 2 ^ n + 1.
  Proof. intros m n N. unfold nearest. destruct (_ ?= _); [destruct (Z.even _)| |]; lia. Qed.

  Lemma binary_round_is : forall sx m e,
    let f := exponent (Z.pos (digits2_pos m) + e) in
    binary_round prec emax sx m e = pack sx (to_multiple (Z.pos m) e f) f /\
    0 <= to_multiple (Z.pos m) e f <= 2 ^ prec.
  Proof.
    intros sx m e f. assert (FE : forall d, fexp prec emax d = exponent d) by reflexivity.
    assert (G : exists mz ez, shl_align m e f = (mz, ez) /\ ez <= f /\
      nearest (Z.pos mz) (f - ez) = to_multiple (Z.pos m) e f /\
      Z.pos (digits2_pos mz) + ez = Z.pos (digits2_pos m) + e).
    { unfold shl_align, to_multiple.
      destruct (f - e) as [|p|p] eqn:E.
      - exists m, e. split; [reflexivity|]. split; [lia|]. replace (f <=? e) with true by (symmetry; apply Z.leb_le; lia).
        replace (e - f) with 0 by lia. split; [|reflexivity]. rewrite E. unfold nearest. cbn. rewrite Z.div_1_r, Z.mod_1_r. cbn. lia.
      - exists m, e. split; [reflexivity|]. split; [lia|]. replace (f <=? e) with false by (symmetry; apply Z.leb_gt; lia). rewrite E. auto.
      - exists (shift_pos p m), f. split; [reflexivity|]. split; [lia|]. replace (f <=? e) with true by (symmetry; apply Z.leb_le; lia).
        split.
        + rewrite Z.sub_diag. unfold nearest. change (2 ^ 0) with 1. rewrite Z.div_1_r, Z.mod_1_r.
          change (2 * 0 ?= 1) with Lt. rewrite shift_pos_val. replace (e - f) with (Z.pos p) by lia. reflexivity.
        + rewrite digits_shift. lia. }
    destruct G as (mz & ez & S & L & N & D). unfold binary_round. rewrite FE. fold f. rewrite S. unfold binary_round_aux.
    unfold shr_fexp at 1. rewrite FE. cbn [Zdigits2]. rewrite D. fold f.
    destruct (shr_nearest (Z.pos mz) ez (f - ez) ltac:(lia) ltac:(lia)) as (r & -> & ->).
    rewrite N. replace (ez + (f - ez)) with f by lia. set (m1 := to_multiple (Z.pos m) e f) in *.
    assert (B : 0 <= m1 <= 2 ^ prec).
    { rewrite <- N. pose proof (nearest_bounds (Z.pos mz) (f - ez) ltac:(lia)) as [A1 A2].
      assert (P : 0 < 2 ^ (f - ez)) by (apply Z.pow_pos_nonneg; lia).
      assert (0 <= Z.pos mz / 2 ^ (f - ez)) by (apply Z.div_pos; lia). split; [lia|].
      assert (Z.pos mz / 2 ^ (f - ez) < 2 ^ prec); [|lia]. apply Z.div_lt_upper_bound; [exact P|].
      rewrite <- Z.pow_add_r by lia. pose proof (digits_bounds mz) as [_ U]. eapply Z.lt_le_trans; [exact U|].
      apply Z.pow_le_mono_r; [lia|]. unfold f, exponent. lia. }
    clearbody m1. split; [|exact B].
    unfold shr_fexp. rewrite FE. unfold pack.
    destruct (Z.eqb_spec m1 0) as [->|N0].
    { destruct (exponent _ - f) as [|p|p]; cbn [shr shr_record_of_loc]; try reflexivity.
      rewrite iter_pos_nat. clear. cbn [shr_record_of_loc]. destruct (Pos.to_nat p) as [|n]; [reflexivity|].
      destruct (shr_bits 0 n ltac:(lia)) as (r & s & -> & _). rewrite Z.div_0_l by (apply Z.pow_nonzero; lia). reflexivity. }
    destruct m1 as [|p|p]; [lia| |lia]. cbn [Zdigits2].
    destruct (Z.eqb_spec (Z.pos p) (2 ^ prec)) as [E|E].
    - assert (DD : Z.pos (digits2_pos p) = prec + 1).
      { apply digits_unique; [|lia]. rewrite E. replace (prec + 1 - 1) with prec by lia.
        split; [lia|]. apply Z.pow_lt_mono_r; lia. }
      rewrite DD. assert (FD : 3 - emax - prec <= f) by (unfold f, exponent; lia).
      assert (X : exponent (prec + 1 + f) - f = 1) by (unfold exponent; lia). rewrite X.
      assert (H2 : Z.pos p = 2 * 2 ^ (prec - 1)).
      { rewrite E. replace prec with (Z.succ (prec - 1)) at 1 by lia. rewrite Z.pow_succ_r by lia. reflexivity. }
      unfold shr. cbn [iter_pos shr_record_of_loc]. rewrite shr_1_bits by lia. cbn [shr_m].
      replace (Z.pos p / 2) with (2 ^ (prec - 1)) by (rewrite H2, Z.mul_comm, Z.div_mul; lia).
      assert (Q : 0 < 2 ^ (prec - 1)) by (apply Z.pow_pos_nonneg; lia).
      destruct (2 ^ (prec - 1)) as [|q|q]; [lia| |lia]. reflexivity.
    - assert (DD : Z.pos (digits2_pos p) <= prec) by (apply digits_le; lia).
      assert (FD : 3 - emax - prec <= f) by (unfold f, exponent; lia).
      assert (X : exponent (Z.pos (digits2_pos p) + f) - f <= 0) by (unfold exponent; lia).
      destruct (exponent (Z.pos (digits2_pos p) + f) - f) as [|k|k]; [|lia|]; reflexivity.
  Qed.
End Format.
