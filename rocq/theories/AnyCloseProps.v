(** C32 and C80 on floating point values: when they are equal, and what storing a double
    in a single precision object does. *)
From Coq Require Import ZArith List Bool Lia Lqa Floats.SpecFloat QArith Qpower Qabs.
From Verif Require Import Base PaceModel PaceSpec AnyModel AnySpec AnyProofs AnyFloat AnyRound PaceFloat AnyCloseSpec AnyClose AnyBest.
Local Open Scope Z_scope.

Lemma eps32_is : eps32 = epsilon 24. Proof. reflexivity. Qed.
Lemma eps64_is : eps64 = epsilon 53. Proof. reflexivity. Qed.

(** A Float32 object equals another object exactly when that one can be read as a Float32,
    both are numbers, and they are at most 2^-23 apart (up to one part in 2^24: ties are
    rounded down). *)
Theorem C32_float32 : forall x b, single x ->
  (forall y, get_f32 b = Ok y -> single y ->
     exists r, any_eq (Any KF32 (PFloat x)) b = Ok r /\ (r = true <-> close 24 x y)) /\
  (get_f32 b = Throw InvalidAnyType -> any_eq (Any KF32 (PFloat x)) b = Ok false).
Proof.
  intros x b X. unfold any_eq. cbn [atype aval]. split.
  - intros y E Y. rewrite E. cbn [bind catch_false]. eexists. split; [reflexivity|]. rewrite eps32_is.
    apply sub_close; [lia|lia|exact X|exact Y].
  - intros E. rewrite E. reflexivity.
Qed.

(** The same of a Float64 object, with 2^-52 and 2^53. *)
Theorem C32_float64 : forall x b, double x ->
  (forall y, get_f64 b = Ok y -> double y ->
     exists r, any_eq (Any KF64 (PFloat x)) b = Ok r /\ (r = true <-> close 53 x y)) /\
  (get_f64 b = Throw InvalidAnyType -> any_eq (Any KF64 (PFloat x)) b = Ok false).
Proof.
  intros x b X. unfold any_eq. cbn [atype aval]. split.
  - intros y E Y. rewrite E. cbn [bind catch_false]. eexists. split; [reflexivity|]. rewrite eps64_is.
    apply sub_close; [lia|lia|exact X|exact Y].
  - intros E. rewrite E. reflexivity.
Qed.

(** Between objects of one floating point kind equality is symmetric, and a number equals
    itself. *)
Theorem C32_float_symmetric : forall x y,
  (single x -> single y -> any_eq (Any KF32 (PFloat x)) (Any KF32 (PFloat y)) = any_eq (Any KF32 (PFloat y)) (Any KF32 (PFloat x))) /\
  (double x -> double y -> any_eq (Any KF64 (PFloat x)) (Any KF64 (PFloat y)) = any_eq (Any KF64 (PFloat y)) (Any KF64 (PFloat x))).
Proof.
  assert (S : forall prec x y, close prec x y -> close prec y x).
  { intros prec x y (A & B & C). split; [exact B|]. split; [exact A|]. rewrite Qabs_Qminus. exact C. }
  intros x y. split; intros X Y.
  - destruct (proj1 (C32_float32 x (Any KF32 (PFloat y)) X) y eq_refl Y) as (r & -> & R).
    destruct (proj1 (C32_float32 y (Any KF32 (PFloat x)) Y) x eq_refl X) as (r' & -> & R').
    f_equal. apply eq_true_iff_eq. rewrite R, R'. split; apply S.
  - destruct (proj1 (C32_float64 x (Any KF64 (PFloat y)) X) y eq_refl Y) as (r & -> & R).
    destruct (proj1 (C32_float64 y (Any KF64 (PFloat x)) Y) x eq_refl X) as (r' & -> & R').
    f_equal. apply eq_true_iff_eq. rewrite R, R'. split; apply S.
Qed.

Theorem C32_float_reflexive : forall x,
  (single x -> is_number x -> any_eq (Any KF32 (PFloat x)) (Any KF32 (PFloat x)) = Ok true) /\
  (double x -> is_number x -> any_eq (Any KF64 (PFloat x)) (Any KF64 (PFloat x)) = Ok true).
Proof.
  assert (C : forall prec x, is_number x -> close prec x x).
  { intros prec x N. split; [exact N|]. split; [exact N|].
    setoid_replace (q_of x - q_of x)%Q with 0%Q by ring. change (Qabs 0) with 0%Q.
    pose proof (two_pos (1 - prec)). pose proof (two_pos (- prec)). nra. }
  intros x. split; intros X N.
  - destruct (proj1 (C32_float32 x (Any KF32 (PFloat x)) X) x eq_refl X) as (r & -> & R). f_equal. now apply R, C.
  - destruct (proj1 (C32_float64 x (Any KF64 (PFloat x)) X) x eq_refl X) as (r & -> & R). f_equal. now apply R, C.
Qed.

(** A single precision value read by a double precision object is the same number, so the
    two kinds compare as the doubles they are. *)
Theorem C32_mixed_floats : forall x y, double x -> single y ->
  exists r, any_eq (Any KF64 (PFloat x)) (Any KF32 (PFloat y)) = Ok r /\ (r = true <-> close 53 x y).
Proof.
  intros x y X Y. destruct (f64_of_f32_exact y Y) as (D & N & I).
  destruct (proj1 (C32_float64 x (Any KF32 (PFloat y)) X) _ eq_refl D) as (r & E & R).
  exists r. split; [exact E|]. rewrite R. unfold close.
  destruct y as [s|s| |s m e]; cbn [is_number] in *;
    try (rewrite (I (fun F => F)); cbn [is_number]; tauto);
    destruct (N Logic.I) as [A B]; rewrite B; tauto.
Qed.

(** The half-ulp below and above the border, for 1.0 and values next to it. *)
Example C32_float_nonvacuous :
  single (S754_finite false (2 ^ 23) (-23)) /\ single (S754_finite false (2 ^ 23 + 1) (-23)) /\
  close 24 (S754_finite false (2 ^ 23) (-23)) (S754_finite false (2 ^ 23 + 1) (-23)) /\
  ~ close 24 (S754_finite false (2 ^ 23) (-23)) (S754_finite false (2 ^ 23 + 2) (-23)) /\
  any_eq (Any KF32 (PFloat (S754_finite false (2 ^ 23) (-23)))) (Any KF32 (PFloat (S754_finite false (2 ^ 23 + 2) (-23)))) = Ok false /\
  any_eq (Any KF64 (PFloat (f64_of_int 7))) (Any KI8 (PInt 7)) = Ok true.
Proof.
  assert (A : single (S754_finite false (2 ^ 23) (-23))) by reflexivity.
  assert (B : single (S754_finite false (2 ^ 23 + 1) (-23))) by reflexivity.
  assert (C : single (S754_finite false (2 ^ 23 + 2) (-23))) by reflexivity.
  split; [exact A|]. split; [exact B|]. split; [|split; [|split; vm_compute; reflexivity]].
  - destruct (proj1 (C32_float32 _ (Any KF32 (PFloat _)) A) _ eq_refl B) as (r & E & R). apply R. vm_compute in E. now injection E as <-.
  - destruct (proj1 (C32_float32 _ (Any KF32 (PFloat _)) A) _ eq_refl C) as (r & E & R). rewrite <- R. vm_compute in E. injection E as <-. discriminate.
Qed.

Lemma ltb_leb : forall y z, y <> S754_nan -> z <> S754_nan -> SFltb y (SFabs z) = negb (SFleb (SFabs z) y).
Proof.
  intros y z Y Z. unfold SFltb, SFleb. destruct y as [t|t| |t n g], z as [s|s| |s m e]; try congruence; try reflexivity; try (destruct t; reflexivity).
  cbn [SFabs SFcompare]. destruct t; [reflexivity|].
  rewrite (Z.compare_antisym e g). destruct (e ?= g); cbn [CompOpp]; try reflexivity.
  change (Pos.compare_cont Eq n m) with (Pos.compare n m). change (Pos.compare_cont Eq m n) with (Pos.compare m n).
  rewrite (Pos.compare_antisym m). destruct (Pos.compare _ _); reflexivity.
Qed.

(** C80: storing a double in a single precision object.  What is stored is [f], a single
    precision value such that none is nearer to the double; it is stored when it is a number
    at most 2^-52 away from the double, and otherwise the double is refused. *)
Theorem C80_double_stored : forall a v, double v -> is_number v ->
  exists f, single f /\
    (is_number f -> forall w, single w -> is_number w -> (Qabs (q_of v - q_of f) <= Qabs (q_of v - q_of w))%Q) /\
    (snd (set_value a KF32 (GF64 v)) = Ok tt <-> close 53 v f) /\
    (close 53 v f -> get_f32 (fst (set_value a KF32 (GF64 v))) = Ok f) /\
    (~ close 53 v f -> snd (set_value a KF32 (GF64 v)) = Throw InvalidAnyType).
Proof.
  intros a v V N. exists (f32_of_f64 v).
  assert (S : single (f32_of_f64 v)) by (destruct v as [s|s| |s m e]; try reflexivity; apply round_is_valid; lia).
  assert (C : (convert_float_double v = Ok (f32_of_f64 v) /\ close 53 v (f32_of_f64 v)) \/
              (convert_float_double v = Throw InvalidAnyType /\ ~ close 53 v (f32_of_f64 v))).
  { destruct (f64_of_f32_exact _ S) as (D & Nf & If). unfold convert_float_double. set (f := f32_of_f64 v) in *.
    pose proof (sub_close 53 1024 ltac:(lia) ltac:(lia) v (f64_of_f32 f) V D) as K. rewrite <- eps64_is in K.
    assert (KC : (is_number v /\ is_number (f64_of_f32 f) /\ (Qabs (q_of v - q_of (f64_of_f32 f)) <= two (1 - 53) * (1 + two (- (53))))%Q) <-> close 53 v f).
    { unfold close. destruct f as [s|s| |s m e]; cbn [is_number] in *;
        try (rewrite (If (fun F => F)); cbn [is_number]; tauto); destruct (Nf Logic.I) as [A B]; rewrite B; tauto. }
    assert (NN : SFsub 53 1024 v (f64_of_f32 f) <> S754_nan).
    { assert (nn : f64_of_f32 f <> S754_nan).
      { intros E. destruct f as [s|s| |s m e] eqn:Ef; try discriminate E.
        - unfold f in Ef. destruct v as [s|s| |s m e]; try discriminate Ef; try (destruct N; fail).
          cbn [f32_of_f64] in Ef. destruct (binary_round_is 24 128 ltac:(lia) s m e) as [R _]. rewrite R in Ef. unfold pack in Ef.
          destruct (_ =? 0); [discriminate|]. destruct (_ =? _), (_ <=? _); discriminate.
        - destruct (Nf Logic.I) as [A _]. rewrite E in A. destruct A. }
      destruct v as [s|s| |s m e]; try (destruct N; fail); destruct (f64_of_f32 f) as [t|t| |t m' e']; try congruence; cbn [SFsub]; try discriminate.
      - destruct (Bool.eqb _ _); discriminate.
      - set (z := _ - _). set (k := Z.min _ _). clearbody z k. destruct z as [|p|p]; cbn [binary_normalize]; [discriminate| |].
        + destruct (binary_round_is 53 1024 ltac:(lia) false p k) as [-> _]. unfold pack. destruct (_ =? 0); [discriminate|]. destruct (_ =? _), (_ <=? _); discriminate.
        + destruct (binary_round_is 53 1024 ltac:(lia) true p k) as [-> _]. unfold pack. destruct (_ =? 0); [discriminate|]. destruct (_ =? _), (_ <=? _); discriminate. }
    rewrite KC in K. clear KC. set (z := SFsub 53 1024 v (f64_of_f32 f)) in *. clearbody z.
    assert (LT : SFltb eps64 (SFabs z) = negb (SFleb (SFabs z) eps64)) by (apply ltb_leb; [discriminate|exact NN]).
    rewrite LT. destruct (SFleb (SFabs z) eps64); cbn [negb].
    - left. split; [reflexivity|]. now apply K.
    - right. split; [reflexivity|]. intros X. apply K in X. discriminate. }
  split; [exact S|]. split.
  { intros Nf w W Nw. destruct v as [s|s| |s m e]; try (destruct N; fail).
    - cbn [f32_of_f64 q_of]. setoid_replace (0 - 0)%Q with 0%Q by ring. apply Qabs_nonneg.
    - cbn [f32_of_f64] in *. apply round_best; [lia|exact W|exact Nw|exact Nf]. }
  assert (SV : set_value a KF32 (GF64 v) = match convert_float_double v with
     | Ok f => (Any KF32 (PFloat f), Ok tt) | Throw e => (fst (set_value a KF32 (GF64 v)), Throw e) | UB => (fst (set_value a KF32 (GF64 v)), UB) end).
  { unfold set_value. cbn. unfold chkf. destruct (convert_float_double v); reflexivity. }
  destruct C as [[C1 C2]|[C1 C2]]; rewrite C1 in SV; rewrite SV; cbn [fst snd].
  - split; [split; [intros _; exact C2|reflexivity]|]. split; [reflexivity|]. intros X. contradiction.
  - split; [split; [discriminate|intros X; contradiction]|]. split; [intros X; contradiction|reflexivity].
Qed.

(** One third: the nearest Float32 is 1.3e-8 away, refused; 2^-30 more than one half:
    refused; one half and 2^-54 more: accepted and stored as one half. *)
Example C80_double_stored_nonvacuous :
  let v := S754_finite false (2 ^ 52 + 1) (-53) in
  double v /\ set_value (any_new KNone) KF32 (GF64 v) = (Any KF32 (PFloat (S754_finite false (2 ^ 23) (-24))), Ok tt) /\
  snd (set_value (any_new KNone) KF32 (GF64 (S754_finite false 6004799503160661 (-54)))) = Throw InvalidAnyType.
Proof. vm_compute. repeat split. Qed.

Print Assumptions C32_float32.
Print Assumptions C80_double_stored.
