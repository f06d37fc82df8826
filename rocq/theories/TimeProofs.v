From Coq Require Import ZArith List Bool Lia.
From Verif Require Import Base TimeModel TimeSpec.
Import ListNotations.
Local Open Scope Z_scope.

Lemma checked_ok : forall z r, checked z = Ok r <-> r = z /\ in_i64 z = true.
Proof.
  intros z r. unfold checked. destruct (in_i64 z); split.
  - intros [= <-]. auto.
  - intros [-> _]. reflexivity.
  - discriminate.
  - intros [_ X]. discriminate X.
Qed.

Lemma make_mul : forall u v, u <> Ns -> make u v = checked (v * ns_of u).
Proof. intros [] v H; try reflexivity. now destruct H. Qed.

Lemma literal_make : forall u v, 0 <= v < 2 ^ 63 -> literal u v = make u v.
Proof.
  intros u v H. assert (S : to_signed v = v).
  { unfold to_signed. destruct (Z.ltb_spec v (2 ^ 63)); [reflexivity|lia]. }
  destruct u; cbn [literal make]; unfold lit_ns, lit_us, lit_ms, lit_s, lit_mn, lit_h, lit_d, lit_w;
    rewrite S; reflexivity.
Qed.

Lemma ns_of_pos : forall u, 0 < ns_of u.
Proof. intros []; reflexivity. Qed.

Lemma cast_to_unit : forall p d, cden p = 1 -> in_i64 d = true ->
  cast_to p d = Ok (Z.quot d (cnum p)).
Proof.
  intros p d H I. unfold cast_to, mul, checked. rewrite H, Z.mul_1_r, I. reflexivity.
Qed.

Lemma cast_from_unit : forall p c, cden p = 1 ->
  cast_from p c = checked (c * cnum p).
Proof.
  intros p d H. unfold cast_from, mul, checked. rewrite H.
  destruct (in_i64 (d * cnum p)); [|reflexivity]. cbn [bind]. now rewrite Z.quot_1_r.
Qed.

Lemma dur_chrono_cast : forall o d p c ns, cast_from p c = Ok ns ->
  dur_chrono o d p c = Ok (holds o d ns) /\ chrono_dur o p c d = Ok (holds o ns d).
Proof.
  intros o d p c ns H.
  destruct o; cbn [dur_chrono chrono_dur holds]; unfold compare; rewrite H; cbn [bind negate];
    split; f_equal; rewrite ?Z.gtb_ltb; try reflexivity;
    try apply Z.eqb_sym; try (f_equal; apply Z.eqb_sym);
    try (symmetry; apply Z.leb_antisym).
Qed.
