(** Proofs about the texts of floating point values. *)
From Verif Require Import AnyModel AnySpec Base Text UuidModel AnyModel CalSpec CalModel CalProofs OutSpec OutModel OutProofs.
From Coq Require Import ZArith List Bool Lia QArith Qpower Qabs Lqa Floats.SpecFloat.
Import ListNotations.
Local Open Scope Z_scope.

(** * Digits *)

Lemma scale_up n : forall num den X, 0 < den -> den <= num < den * 10 ^ Z.of_nat (S n) ->
  exists p : nat, scale n num den X = (num, den * 10 ^ Z.of_nat p, X + Z.of_nat p) /\
    den * 10 ^ Z.of_nat p <= num < den * 10 ^ Z.of_nat (S p).
Proof.
  induction n as [|n IH]; intros num den X D H.
  - exists 0%nat. cbn [scale]. change (Z.of_nat 0) with 0. rewrite Z.pow_0_r, Z.mul_1_r, Z.add_0_r. auto.
  - cbn [scale]. destruct (Z.leb_spec (10 * den) num).
    + destruct (IH num (10 * den) (X + 1)) as (p & E & B); [lia| |].
      { rewrite (Nat2Z.inj_succ (S n)), Z.pow_succ_r in H by lia. split; [lia|nia]. }
      exists (S p). rewrite E.
      assert (P : 10 * den * 10 ^ Z.of_nat p = den * 10 ^ Z.of_nat (S p)) by (rewrite Nat2Z.inj_succ, Z.pow_succ_r by lia; ring).
      rewrite P. split; [f_equal; lia|].
      rewrite (Nat2Z.inj_succ (S p)), Z.pow_succ_r by lia. rewrite Nat2Z.inj_succ, Z.pow_succ_r in B by lia.
      rewrite Nat2Z.inj_succ, Z.pow_succ_r by lia. nia.
    + destruct (Z.ltb_spec num den); [lia|]. exists 0%nat. change (Z.of_nat 0) with 0.
      rewrite Z.pow_0_r, Z.mul_1_r, Z.add_0_r. split; [reflexivity|]. change (10 ^ Z.of_nat 1) with 10. lia.
Qed.

Lemma scale_down n : forall num den X, 0 < num < den -> den <= num * 10 ^ Z.of_nat n ->
  exists q : nat, scale n num den X = (num * 10 ^ Z.of_nat q, den, X - Z.of_nat q) /\
    den <= num * 10 ^ Z.of_nat q < 10 * den.
Proof.
  induction n as [|n IH]; intros num den X D H.
  - change (10 ^ Z.of_nat 0) with 1 in H. lia.
  - cbn [scale]. destruct (Z.leb_spec (10 * den) num); [lia|]. destruct (Z.ltb_spec num den); [|lia].
    rewrite Nat2Z.inj_succ, Z.pow_succ_r in H by lia.
    destruct (Z_lt_dec (10 * num) den) as [L|L].
    + destruct (IH (10 * num) den (X - 1)) as (q & E & B); [lia|lia|].
      exists (S q). rewrite E.
      assert (P : 10 * num * 10 ^ Z.of_nat q = num * 10 ^ Z.of_nat (S q)) by (rewrite Nat2Z.inj_succ, Z.pow_succ_r by lia; ring).
      rewrite P in *. split; [f_equal; lia|exact B].
    + exists 1%nat. change (10 ^ Z.of_nat 1) with 10. split; [|lia]. rewrite (Z.mul_comm num 10).
      change (Z.of_nat 1) with 1. destruct n as [|n]; [reflexivity|]. cbn [scale].
      destruct (Z.leb_spec (10 * den) (10 * num)); [lia|]. destruct (Z.ltb_spec (10 * num) den); [lia|]. reflexivity.
Qed.

Lemma nearest_ok a b : 0 < b -> 2 * Z.abs (nearest a b * b - a) <= b.
Proof.
  intros B. unfold nearest. pose proof (Z.div_mod a b ltac:(lia)). pose proof (Z.mod_pos_bound a b ltac:(lia)).
  set (q := a / b) in *. set (r := a mod b) in *. cbv zeta.
  destruct (Z.ltb_spec (2 * r) b); [nia|]. destruct (Z.ltb_spec b (2 * r)); [nia|].
  destruct (Z.even q); nia.
Qed.

(** * Rational numbers *)

Local Open Scope Q_scope.

Lemma ten_nz : ~ inject_Z 10 == 0.
Proof. intros H. discriminate H. Qed.
Lemma ten_plus a b : ten (a + b) == ten a * ten b.
Proof. apply Qpower_plus. exact ten_nz. Qed.
Lemma ten_nat k : (0 <= k)%Z -> ten k == inject_Z (10 ^ k).
Proof. intros H. unfold ten. rewrite Zpower_Qpower by assumption. reflexivity. Qed.
Lemma ten_pos k : 0 < ten k.
Proof. apply Qpower_0_lt. reflexivity. Qed.
Lemma two_plus a b : Qpower (inject_Z 2) (a + b) == Qpower (inject_Z 2) a * Qpower (inject_Z 2) b.
Proof. apply Qpower_plus. intros H. discriminate H. Qed.
Lemma two_nat k : (0 <= k)%Z -> Qpower (inject_Z 2) k == inject_Z (2 ^ k).
Proof. intros H. rewrite Zpower_Qpower by assumption. reflexivity. Qed.

Lemma magnitude_fraction m e :
  magnitude m e * inject_Z (2 ^ Z.max (- e) 0) == inject_Z (Z.pos m * 2 ^ Z.max e 0).
Proof.
  unfold magnitude. rewrite inject_Z_mult, <- Qmult_assoc. apply Qmult_comp; [reflexivity|].
  rewrite <- (two_nat (Z.max (- e) 0)), <- (two_nat (Z.max e 0)) by lia. rewrite <- two_plus.
  replace (e + Z.max (- e) 0)%Z with (Z.max e 0) by lia. reflexivity.
Qed.

Lemma big_num : (2 ^ 1024 <= 1 * 10 ^ Z.of_nat 401)%Z.
Proof. apply Z.leb_le. vm_compute. reflexivity. Qed.
Lemma big_den : (2 ^ 1074 <= 1 * 10 ^ Z.of_nat 400)%Z.
Proof. apply Z.leb_le. vm_compute. reflexivity. Qed.

Lemma scale_ok_n n num den v : (0 < num)%Z -> (0 < den)%Z -> (num < 10 ^ Z.of_nat (S n))%Z -> (den <= 10 ^ Z.of_nat n)%Z ->
  v * inject_Z den == inject_Z num ->
  exists a b Y, scale n num den 0 = (a, b, Y) /\ (0 < b)%Z /\ (b <= a < 10 * b)%Z /\
     v * inject_Z b == inject_Z a * ten Y.
Proof.
  intros Hnum Hden Bn Bd F. destruct (Z_lt_dec num den) as [L|L].
  - destruct (scale_down n num den 0) as (q & Q & B); [lia| |].
    { assert (0 < 10 ^ Z.of_nat n)%Z by (apply Z.pow_pos_nonneg; lia). nia. }
    do 3 eexists. split; [exact Q|]. split; [lia|]. split; [exact B|].
    rewrite F. rewrite inject_Z_mult. rewrite <- (ten_nat (Z.of_nat q)) by lia.
    rewrite <- Qmult_assoc, <- ten_plus. replace (Z.of_nat q + (0 - Z.of_nat q))%Z with 0%Z by lia.
    change (ten 0) with 1. ring.
  - destruct (scale_up n num den 0) as (p & Q & B); [lia| |].
    { assert (0 < 10 ^ Z.of_nat (S n))%Z by (apply Z.pow_pos_nonneg; lia). nia. }
    assert (0 < 10 ^ Z.of_nat p)%Z by (apply Z.pow_pos_nonneg; lia).
    do 3 eexists. split; [exact Q|]. split; [nia|]. split.
    { rewrite Nat2Z.inj_succ, Z.pow_succ_r in B by lia. lia. }
    rewrite inject_Z_mult, Qmult_assoc, F. rewrite <- (ten_nat (Z.of_nat p)) by lia. rewrite Z.add_0_l. reflexivity.
Qed.

Lemma scale_ok num den v : (1 <= num < 2 ^ 1024)%Z -> (1 <= den <= 2 ^ 1074)%Z -> v * inject_Z den == inject_Z num ->
  exists a b Y, scale 400 num den 0 = (a, b, Y) /\ (0 < b)%Z /\ (b <= a < 10 * b)%Z /\
     v * inject_Z b == inject_Z a * ten Y.
Proof.
  intros Hnum Hden. pose proof big_num as BN. pose proof big_den as BD. rewrite Z.mul_1_l in BN, BD.
  apply scale_ok_n; [apply Z.lt_le_trans with 1%Z; [reflexivity|apply Hnum]|apply Z.lt_le_trans with 1%Z; [reflexivity|apply Hden]| |].
  - eapply Z.lt_le_trans; [apply Hnum|exact BN].
  - eapply Z.le_trans; [apply Hden|exact BD].
Qed.

Lemma fraction_range m e : (Z.pos m < 2 ^ 53)%Z -> (-1074 <= e <= 971)%Z ->
  (1 <= Z.pos m * 2 ^ Z.max e 0 < 2 ^ 1024)%Z /\ (1 <= 2 ^ Z.max (- e) 0 <= 2 ^ 1074)%Z.
Proof.
  intros M E.
  assert (A : (0 < 2 ^ Z.max e 0)%Z) by (apply Z.pow_pos_nonneg; lia).
  assert (B : (2 ^ Z.max e 0 <= 2 ^ 971)%Z) by (apply Z.pow_le_mono_r; lia).
  assert (C : (0 < 2 ^ Z.max (- e) 0)%Z) by (apply Z.pow_pos_nonneg; lia).
  assert (D : (2 ^ Z.max (- e) 0 <= 2 ^ 1074)%Z) by (apply Z.pow_le_mono_r; lia).
  change 1024%Z with (53 + 971)%Z. rewrite Z.pow_add_r by lia.
  set (x := (2 ^ Z.max e 0)%Z) in *. set (y := (2 ^ Z.max (- e) 0)%Z) in *.
  generalize dependent (2 ^ 53)%Z. generalize dependent (2 ^ 971)%Z. generalize dependent (2 ^ 1074)%Z.
  clearbody x y. intros c Hc b Hb a Ha. split; [split; nia|split; lia].
Qed.

Lemma digits_bounds a b Y v : (0 < b)%Z -> (b <= a < 10 * b)%Z -> v * inject_Z b == inject_Z a * ten Y ->
  ten Y <= v /\ v < ten (Y + 1).
Proof.
  intros Bp B V. assert (bQ : 0 < inject_Z b) by (change 0 with (inject_Z 0); now rewrite <- Zlt_Qlt). split.
  - apply Qmult_le_r with (inject_Z b); [exact bQ|]. rewrite V, Qmult_comm. apply Qmult_le_compat_r; [|apply Qlt_le_weak, ten_pos].
    rewrite <- Zle_Qle. lia.
  - apply Qmult_lt_r with (inject_Z b); [exact bQ|]. rewrite V, ten_plus. change (ten 1) with (inject_Z 10).
    rewrite <- Qmult_assoc, <- inject_Z_mult, (Qmult_comm (ten Y)). apply Qmult_lt_r; [apply ten_pos|].
    rewrite <- Zlt_Qlt. lia.
Qed.

Lemma digits_nearest a b Y v n : (0 < b)%Z -> v * inject_Z b == inject_Z a * ten Y ->
  (2 * Z.abs (n * b - 100000 * a) <= b)%Z -> Qabs (dec n (Y - 5) - v) <= (1 # 2) * ten (Y - 5).
Proof.
  intros Bp V N. assert (bQ : 0 < inject_Z b) by (change 0 with (inject_Z 0); now rewrite <- Zlt_Qlt).
  assert (G : (dec n (Y - 5) - v) * inject_Z b == inject_Z (n * b - 100000 * a) * ten (Y - 5)).
  { unfold dec. replace (ten Y) with (ten (5 + (Y - 5))) in V by (f_equal; lia).
    rewrite ten_plus in V. change (ten 5) with (inject_Z 100000) in V.
    unfold Qminus. rewrite Qmult_plus_distr_l. setoid_replace (- v * inject_Z b) with (- (v * inject_Z b)) by ring.
    rewrite V. unfold Zminus. rewrite inject_Z_plus, inject_Z_opp, !inject_Z_mult. ring. }
  apply Qmult_le_r with (inject_Z b); [exact bQ|].
  setoid_replace (Qabs (dec n (Y - 5) - v) * inject_Z b) with (Qabs ((dec n (Y - 5) - v) * inject_Z b)).
  2: { rewrite Qabs_Qmult, (Qabs_pos (inject_Z b)); [reflexivity|now apply Qlt_le_weak]. }
  rewrite G, Qabs_Qmult, (Qabs_pos (ten (Y - 5))) by apply Qlt_le_weak, ten_pos.
  setoid_replace ((1 # 2) * ten (Y - 5) * inject_Z b) with ((1 # 2) * inject_Z b * ten (Y - 5)) by ring.
  apply Qmult_le_compat_r; [|apply Qlt_le_weak, ten_pos].
  assert (QA : Qabs (inject_Z (n * b - 100000 * a)) == inject_Z (Z.abs (n * b - 100000 * a))) by reflexivity.
  rewrite QA. apply Qmult_le_l with 2; [reflexivity|].
  setoid_replace (2 * ((1 # 2) * inject_Z b)) with (inject_Z b) by ring.
  change 2 with (inject_Z 2). rewrite <- inject_Z_mult, <- Zle_Qle. exact N.
Qed.

Lemma dec_carry Y : dec 100000 (Y + 1 - 5) == dec 1000000 (Y - 5).
Proof.
  unfold dec. replace (Y + 1 - 5)%Z with (1 + (Y - 5))%Z by lia. rewrite ten_plus.
  change (ten 1) with (inject_Z 10). rewrite Qmult_assoc, <- inject_Z_mult. reflexivity.
Qed.

Lemma six_digits_eq num den a b Y : scale 400 num den 0 = (a, b, Y) ->
  six_digits num den = (if nearest (100000 * a) b =? 1000000 then (100000, Y + 1) else (nearest (100000 * a) b, Y))%Z.
Proof. intros Q. unfold six_digits. now rewrite Q. Qed.

(** The digits are the nearest ones. *)
Lemma six_digits_ok m e d X : (Z.pos m < 2 ^ 53)%Z -> (-1074 <= e <= 971)%Z ->
  six_digits (Z.pos m * 2 ^ Z.max e 0) (2 ^ Z.max (- e) 0) = (d, X) ->
  (100000 <= d < 1000000)%Z /\
  (exists Y, ten Y <= magnitude m e /\ magnitude m e < ten (Y + 1) /\ (Y = X \/ (X = Y + 1 /\ d = 100000))%Z /\
    Qabs (dec d (X - 5) - magnitude m e) <= (1 # 2) * ten (Y - 5)).
Proof.
  intros M E S. destruct (fraction_range m e M E) as (Hnum & Hden).
  destruct (scale_ok _ _ _ Hnum Hden (magnitude_fraction m e)) as (a & b & Y & Q & Bp & B & V).
  rewrite (six_digits_eq _ _ _ _ _ Q) in S. clear Q Hnum Hden.
  pose proof (nearest_ok (100000 * a) b Bp) as N. set (n := nearest (100000 * a) b) in *. clearbody n.
  assert (Hn : (100000 <= n <= 1000000)%Z) by (clear - N B Bp; nia).
  destruct (digits_bounds a b Y _ Bp B V) as (LO & HI). pose proof (digits_nearest a b Y _ n Bp V N) as NQ.
  destruct (Z.eqb_spec n 1000000) as [E6|E6].
  - injection S as <- <-. split; [lia|]. exists Y. split; [exact LO|]. split; [exact HI|]. split; [right; split; reflexivity|].
    rewrite dec_carry. rewrite E6 in NQ. exact NQ.
  - injection S as <- <-. split; [lia|]. exists Y. split; [exact LO|]. split; [exact HI|]. split; [now left|exact NQ].
Qed.

(** No number of six digits is nearer. *)
Lemma Qabs_cases x : (0 <= x /\ Qabs x == x) \/ (x <= 0 /\ Qabs x == - x).
Proof.
  destruct (Qlt_le_dec x 0) as [H|H]; [right|left].
  - split; [now apply Qlt_le_weak|]. apply Qabs_neg. now apply Qlt_le_weak.
  - split; [exact H|]. now apply Qabs_pos.
Qed.

Lemma below x y v : y <= v -> x <= y -> Qabs (y - v) <= Qabs (x - v).
Proof.
  intros H K. rewrite (Qabs_neg (y - v)), (Qabs_neg (x - v)) by lra. lra.
Qed.

Lemma grid x y P v : (y + P <= x \/ x + P <= y) -> Qabs (x - v) <= (1 # 2) * P -> Qabs (x - v) <= Qabs (y - v).
Proof.
  intros J H. destruct (Qabs_cases (x - v)) as [(A1 & A2)|(A1 & A2)];
    destruct (Qabs_cases (y - v)) as [(B1 & B2)|(B1 & B2)]; rewrite A2 in *; rewrite B2; destruct J; lra.
Qed.

Lemma best m e d X n k : (Z.pos m < 2 ^ 53)%Z -> (-1074 <= e <= 971)%Z ->
  six_digits (Z.pos m * 2 ^ Z.max e 0) (2 ^ Z.max (- e) 0) = (d, X) -> (0 <= n < 1000000)%Z ->
  Qabs (dec d (X - 5) - magnitude m e) <= Qabs (dec n k - magnitude m e).
Proof.
  intros M E S N. destruct (six_digits_ok m e d X M E S) as (D & Y & LO & HI & XY & H).
  clear S M E. revert LO HI H. generalize (magnitude m e). intros v LO HI H. set (P := ten (Y - 5)) in *.
  assert (PP : 0 < P) by apply ten_pos.
  (* the digits on the grid of Y *)
  assert (G : exists g, dec d (X - 5) == inject_Z g * P).
  { destruct XY as [->|(-> & ->)]; [exists d; reflexivity|]. exists 1000000%Z. unfold dec, P.
    replace (Y + 1 - 5)%Z with (1 + (Y - 5))%Z by lia. rewrite ten_plus. change (ten 1) with (inject_Z 10).
    rewrite Qmult_assoc, <- inject_Z_mult. reflexivity. }
  destruct G as (g & G). rewrite G in *.
  assert (GR : forall j, Qabs (inject_Z g * P - v) <= Qabs (inject_Z j * P - v)).
  { intros j. destruct (Z.eq_dec j g) as [->|NE]; [apply Qle_refl|]. apply grid with P; [|exact H].
    assert (J : (j + 1 <= g \/ g + 1 <= j)%Z) by lia.
    destruct J as [J|J]; [left|right]; rewrite Zle_Qle, inject_Z_plus in J;
      apply Qmult_le_compat_r with (z := P) in J; try (now apply Qlt_le_weak);
      rewrite Qmult_plus_distr_l in J; change (inject_Z 1) with 1 in J; rewrite Qmult_1_l in J; exact J. }
  destruct (Z_le_dec (Y - 5) k) as [L|L].
  - setoid_replace (dec n k) with (inject_Z (n * 10 ^ (k - (Y - 5))) * P); [apply GR|].
    unfold dec, P. replace k with ((k - (Y - 5)) + (Y - 5))%Z at 1 by lia. rewrite ten_plus, (ten_nat (k - (Y - 5))) by lia.
    rewrite inject_Z_mult. ring.
  - eapply Qle_trans; [apply (GR 100000%Z)|].
    assert (T : inject_Z 100000 * P == ten Y).
    { unfold P. change (inject_Z 100000) with (ten 5). rewrite <- ten_plus. now replace (5 + (Y - 5))%Z with Y by lia. }
    rewrite T.
    assert (U : dec n k <= ten Y).
    { unfold dec. setoid_replace (ten Y) with (inject_Z (1000000 * 10 ^ (Y - 6 - k)) * ten k).
      - apply Qmult_le_compat_r; [|apply Qlt_le_weak, ten_pos]. rewrite <- Zle_Qle.
        assert (1 <= 10 ^ (Y - 6 - k))%Z by (assert (0 < 10 ^ (Y - 6 - k))%Z by (apply Z.pow_pos_nonneg; lia); lia). nia.
      - rewrite inject_Z_mult, <- (ten_nat (Y - 6 - k)) by lia. change (inject_Z 1000000) with (ten 6).
        rewrite <- !ten_plus. now replace (6 + (Y - 6 - k) + k)%Z with Y by lia. }
    apply below; assumption.
Qed.

(** * Texts *)

Local Open Scope Z_scope.

Lemma scale_range n : forall num den X, X - Z.of_nat n <= snd (scale n num den X) <= X + Z.of_nat n.
Proof.
  induction n as [|n IH]; intros num den X; [cbn; lia|]. cbn [scale].
  destruct (10 * den <=? num); [specialize (IH num (10 * den) (X + 1)); lia|].
  destruct (num <? den); [specialize (IH (10 * num) den (X - 1)); lia|]. cbn [snd]. lia.
Qed.

Lemma six_digits_range num den : -500 <= snd (six_digits num den) <= 500.
Proof.
  unfold six_digits. pose proof (scale_range 400 num den 0) as R. change (Z.of_nat 400) with 400 in R.
  destruct (scale 400 num den 0) as [[a b] X]. cbn [snd] in R.
  destruct (nearest (100000 * a) b =? 1000000); cbn [snd]; lia.
Qed.

Lemma trim_ok fuel : forall d n d' n', 0 <= d -> (n <= fuel)%nat -> trim fuel d n = (d', n') ->
  (n' <= n)%nat /\ d = d' * 10 ^ Z.of_nat (n - n') /\ 0 <= d' /\ (n' = 0%nat \/ d' mod 10 <> 0).
Proof.
  induction fuel as [|f IH]; intros d n d' n' D N E; cbn [trim] in E.
  - injection E as <- <-. replace (n - n)%nat with 0%nat by lia. change (10 ^ Z.of_nat 0) with 1. lia.
  - destruct (Z.eqb_spec (d mod 10) 0) as [M|M].
    + destruct (Nat.leb_spec 1 n) as [L|L]; cbn [andb] in E.
      * destruct (IH (d / 10) (n - 1)%nat d' n') as (A & B & C & G); [apply Z.div_pos; lia|lia|exact E|].
        split; [lia|]. split; [|auto].
        replace (n - n')%nat with (S (n - 1 - n')) by lia. rewrite Nat2Z.inj_succ, Z.pow_succ_r by lia.
        pose proof (Z.div_mod d 10 ltac:(lia)). rewrite B in *. lia.
      * injection E as <- <-. replace (n - n)%nat with 0%nat by lia. change (10 ^ Z.of_nat 0) with 1. lia.
    + cbn [andb] in E. injection E as <- <-. replace (n - n)%nat with 0%nat by lia. change (10 ^ Z.of_nat 0) with 1. lia.
Qed.

Lemma decimal_app l r : Forall is_digit r -> decimal_of (l ++ r) = 10 ^ Z.of_nat (length r) * decimal_of l + decimal_of r.
Proof. intros F. unfold decimal_of at 1. rewrite fold_left_app. now apply decimal_shift. Qed.

Lemma decimal_last l : l <> [] -> Forall is_digit l -> decimal_of l mod 10 = last l 0 - 48.
Proof.
  intros N F. destruct (exists_last N) as (r & c & ->). apply Forall_app in F. destruct F as (_ & F).
  rewrite decimal_app by assumption. cbn [length]. change (10 ^ Z.of_nat 1) with 10. rewrite last_last.
  apply Forall_inv in F. unfold is_digit in F. unfold decimal_of at 2. cbn [fold_left].
  replace (10 * decimal_of r + _) with (c - 48 + decimal_of r * 10) by lia.
  rewrite Z_mod_plus_full. rewrite Z.mod_small; lia.
Qed.

Lemma fixed_ok d n : 0 <= d < 10 ^ 50 -> (n <= 50)%nat -> (n = 0%nat \/ d mod 10 <> 0) ->
  exists ip fp, fixed d n = ip ++ (match fp with [] => [] | _ => 46 :: fp end) /\ ip = numeral 10 (d / 10 ^ Z.of_nat n) /\
    ip <> [] /\ Forall is_digit ip /\ Forall is_digit fp /\ length fp = n /\ decimal_of (ip ++ fp) = d /\
    (fp <> [] -> last fp 0 <> 48) /\ (hd 0 ip = 48 -> ip = [48]).
Proof.
  intros D N L. assert (P : 0 < 10 ^ Z.of_nat n) by (apply Z.pow_pos_nonneg; lia).
  assert (DM : d = 10 ^ Z.of_nat n * (d / 10 ^ Z.of_nat n) + d mod 10 ^ Z.of_nat n) by (apply Z.div_mod; lia).
  assert (MB : 0 <= d mod 10 ^ Z.of_nat n < 10 ^ Z.of_nat n) by (apply Z.mod_pos_bound; lia).
  assert (Q : 0 <= d / 10 ^ Z.of_nat n < 10 ^ 64).
  { split; [apply Z.div_pos; lia|]. apply Z.div_lt_upper_bound; [lia|]. assert (10 ^ 50 < 10 ^ 64) by reflexivity. nia. }
  destruct (numeral_integer _ Q) as (A1 & A2 & A3 & A4). exists (numeral 10 (d / 10 ^ Z.of_nat n)).
  destruct n as [|n].
  - exists []. unfold fixed. rewrite app_nil_r in *. cbn [length last]. change (10 ^ Z.of_nat 0) with 1 in *. rewrite Z.div_1_r in *.
    repeat split; try assumption; try constructor. congruence.
  - destruct (zeros_number (S n) (d mod 10 ^ Z.of_nat (S n))) as (B1 & B2 & B3); [lia|lia|lia|].
    set (fp := zeros (S n) (d mod 10 ^ Z.of_nat (S n))) in *.
    assert (DV : decimal_of (numeral 10 (d / 10 ^ Z.of_nat (S n)) ++ fp) = d).
    { rewrite decimal_app, B2, B3, A3 by assumption. lia. }
    exists fp. unfold fixed. fold fp. assert (fp <> []) by (destruct fp; discriminate).
    repeat split; try assumption.
    + destruct fp; [discriminate|reflexivity].
    + intros _ Z48. pose proof (decimal_last (numeral 10 (d / 10 ^ Z.of_nat (S n)) ++ fp)) as DL.
      rewrite DV in DL. destruct L as [L|L]; [discriminate|]. apply L. rewrite DL.
      * destruct (exists_last H) as (r & c & E). rewrite E in *. rewrite app_assoc. rewrite !last_last in *. lia.
      * destruct (numeral 10 (d / 10 ^ Z.of_nat (S n))); [congruence|discriminate].
      * apply Forall_app. auto.
Qed.

Lemma dec_shift d n k : (0 <= n)%Z -> (dec (d * 10 ^ n) k == dec d (k + n))%Q.
Proof.
  intros H. unfold dec. rewrite inject_Z_mult, <- (ten_nat n) by assumption. rewrite (ten_plus k n). ring.
Qed.

Lemma single n : 1 <= n <= 9 -> numeral 10 n = [48 + n].
Proof.
  intros H. unfold numeral. change 64%nat with (S 63). cbn [digits]. rewrite (proj2 (Z.ltb_lt n 10)) by lia.
  unfold hexa_char. now rewrite (proj2 (Z.ltb_lt n 10)) by lia.
Qed.

Lemma general_ok d X : 100000 <= d < 1000000 -> -500 <= X <= 500 -> exists n x w,
  reads (general d X) n x w /\ 0 <= n < 1000000 /\ (dec n (the_exponent x - Z.of_nat w) == dec d (X - 5))%Q /\
  (x = None <-> -4 <= X < 6).
Proof.
  intros D B. assert (T50 : 1000000 < 10 ^ 50) by reflexivity. assert (T64 : 1000 < 10 ^ 64) by reflexivity. unfold general.
  destruct ((X <? -4) || (6 <=? X)) eqn:C.
  - destruct (trim 6 d 5) as [d' n] eqn:T.
    destruct (trim_ok 6 d 5 d' n ltac:(lia) ltac:(lia) T) as (N & E & D0 & L).
    assert (P : 0 < 10 ^ Z.of_nat (5 - n)) by (apply Z.pow_pos_nonneg; lia).
    assert (D1 : d' <= d) by nia.
    destruct (fixed_ok d' n ltac:(lia) ltac:(lia) L) as (ip & fp & F1 & Fi & F2 & F3 & F4 & F5 & F6 & F7 & F8).
    exists d', (Some X), n. split; [|split; [lia|split]].
    + exists ip, fp, (101 :: (if X <? 0 then 45 else 43) :: zeros 2 (Z.abs X)). rewrite F1.
      split; [now rewrite <- app_assoc|]. repeat (split; [assumption|]). split; [|].
      { cbn [exponent]. exists (zeros 2 (Z.abs X)). split; [reflexivity|].
        destruct (zeros_many 2 (Z.abs X) ltac:(lia) ltac:(lia) ltac:(lia)) as (Z1 & Z2 & Z3).
        split; [exact Z1|]. split; [rewrite Z2; lia|exact Z3]. }
      intros _. rewrite Fi. rewrite single; [reflexivity|].
      assert (Q : d' / 10 ^ Z.of_nat n = d / 10 ^ 5).
      { rewrite E. replace (10 ^ 5) with (10 ^ Z.of_nat n * 10 ^ Z.of_nat (5 - n)).
        - rewrite Z.div_mul_cancel_r; [reflexivity|assert (0 < 10 ^ Z.of_nat n) by (apply Z.pow_pos_nonneg; lia); lia|lia].
        - rewrite <- Z.pow_add_r by lia. f_equal. lia. }
      rewrite Q. change (10 ^ 5) with 100000. pose proof (Z.div_mod d 100000 ltac:(lia)).
      pose proof (Z.mod_pos_bound d 100000 ltac:(lia)). lia.
    + cbn [the_exponent]. rewrite E, dec_shift by lia. replace (X - 5 + Z.of_nat (5 - n)) with (X - Z.of_nat n) by lia. reflexivity.
    + split; [discriminate|]. intros H. exfalso. destruct (Z.ltb_spec X (-4)), (Z.leb_spec 6 X); try discriminate; lia.
  - assert (XB : -4 <= X < 6) by (destruct (Z.ltb_spec X (-4)), (Z.leb_spec 6 X); try discriminate; lia).
    destruct (trim 20 d (Z.to_nat (5 - X))) as [d' n] eqn:T.
    destruct (trim_ok 20 d (Z.to_nat (5 - X)) d' n ltac:(lia) ltac:(lia) T) as (N & E & D0 & L).
    assert (P : 0 < 10 ^ Z.of_nat (Z.to_nat (5 - X) - n)) by (apply Z.pow_pos_nonneg; lia).
    assert (D1 : d' <= d) by nia.
    destruct (fixed_ok d' n ltac:(lia) ltac:(lia) L) as (ip & fp & F1 & Fi & F2 & F3 & F4 & F5 & F6 & F7 & F8).
    exists d', None, n. split; [|split; [lia|split]].
    + exists ip, fp, []. rewrite app_nil_r. repeat (split; [assumption|]). split; [reflexivity|]. congruence.
    + cbn [the_exponent]. rewrite E, dec_shift by lia.
      replace (X - 5 + Z.of_nat (Z.to_nat (5 - X) - n)) with (0 - Z.of_nat n) by lia. reflexivity.
    + split; [intros _; exact XB|reflexivity].
Qed.

(** * The result *)

Lemma ten_mono a b : a <= b -> (ten a <= ten b)%Q.
Proof.
  intros H. replace b with ((b - a) + a) by lia. rewrite ten_plus, (ten_nat (b - a)) by lia.
  rewrite <- (Qmult_1_l (ten a)) at 1. apply Qmult_le_compat_r; [|apply Qlt_le_weak, ten_pos].
  change 1%Q with (inject_Z 1). rewrite <- Zle_Qle. assert (0 < 10 ^ (b - a)) by (apply Z.pow_pos_nonneg; lia). lia.
Qed.

Lemma six_decade d X : 100000 <= d < 1000000 -> (ten X <= dec d (X - 5))%Q /\ (dec d (X - 5) < ten (X + 1))%Q.
Proof.
  intros H. unfold dec. split.
  - replace X with (5 + (X - 5)) at 1 by lia. rewrite ten_plus. apply Qmult_le_compat_r; [|apply Qlt_le_weak, ten_pos].
    change (ten 5) with (inject_Z 100000). rewrite <- Zle_Qle. lia.
  - replace (X + 1) with (6 + (X - 5)) by lia. rewrite ten_plus. apply Qmult_lt_r; [apply ten_pos|].
    change (ten 6) with (inject_Z 1000000). rewrite <- Zlt_Qlt. lia.
Qed.

Lemma decade_iff d X : 100000 <= d < 1000000 ->
  (-4 <= X < 6 <-> (ten (-4) <= dec d (X - 5))%Q /\ (dec d (X - 5) < ten 6)%Q).
Proof.
  intros H. destruct (six_decade d X H) as (L & U). split.
  - intros (A & B). split.
    + eapply Qle_trans; [apply (ten_mono (-4) X); lia|exact L].
    + eapply Qlt_le_trans; [exact U|]. apply ten_mono. lia.
  - intros (A & B). split.
    + destruct (Z_le_dec (-4) X) as [K|K]; [exact K|]. exfalso.
      apply (Qle_not_lt _ _ A). eapply Qlt_le_trans; [exact U|]. apply ten_mono. lia.
    + destruct (Z_lt_dec X 6) as [K|K]; [exact K|]. exfalso.
      apply (Qlt_not_le _ _ B). eapply Qle_trans; [|exact L]. apply ten_mono. lia.
Qed.

Lemma float_ok s m e : Z.pos m < 2 ^ 53 -> -1074 <= e <= 971 -> exists t n x w,
  float_text (S754_finite s m e) = (if s then [45] else []) ++ t /\
  reads t n x w /\ 0 <= n < 1000000 /\
  (forall n' k', 0 <= n' < 1000000 ->
    (Qabs (dec n (the_exponent x - Z.of_nat w) - magnitude m e) <= Qabs (dec n' k' - magnitude m e))%Q) /\
  (x = None <-> (ten (-4) <= dec n (the_exponent x - Z.of_nat w))%Q /\ (dec n (the_exponent x - Z.of_nat w) < ten 6)%Q).
Proof.
  intros M E. unfold float_text. pose proof (six_digits_range (Z.pos m * 2 ^ Z.max e 0) (2 ^ Z.max (- e) 0)) as R.
  pose proof (best m e) as BE. pose proof (six_digits_ok m e) as OK.
  destruct (six_digits _ _) as [d X]. cbn [snd] in R.
  destruct (OK d X M E eq_refl) as (D & _). destruct (general_ok d X D R) as (n & x & w & RD & N & V & XI).
  exists (general d X), n, x, w. split; [reflexivity|]. split; [exact RD|]. split; [exact N|]. split.
  - intros n' k' N'. rewrite V. exact (BE d X n' k' M E eq_refl N').
  - rewrite V. rewrite XI. now apply decade_iff.
Qed.

(** Small integers are written exactly. *)
Lemma canonical l r : l <> [] -> r <> [] -> Forall is_digit l -> Forall is_digit r ->
  (hd 0 l = 48 -> l = [48]) -> (hd 0 r = 48 -> r = [48]) -> decimal_of l = decimal_of r -> l = r.
Proof.
  assert (LB : forall l : list Z, l <> [] -> Forall is_digit l -> hd 0 l <> 48 -> 10 ^ (Z.of_nat (length l) - 1) <= decimal_of l).
  { intros [|c l'] N F H; [congruence|]. cbn [hd] in H. pose proof (Forall_inv F) as C. pose proof (Forall_inv_tail F) as F'.
    unfold decimal_of. rewrite decimal_cons, decimal_shift by assumption. pose proof (decimal_bound l' F'). unfold is_digit in C.
    cbn [length]. replace (Z.of_nat (S (length l')) - 1) with (Z.of_nat (length l')) by lia.
    assert (0 < 10 ^ Z.of_nat (length l')) by (apply Z.pow_pos_nonneg; lia). nia. }
  intros Nl Nr Fl Fr Hl Hr E.
  assert (len : forall a b : list Z, a <> [] -> b <> [] -> Forall is_digit a -> Forall is_digit b ->
    (hd 0 a = 48 -> a = [48]) -> (hd 0 b = 48 -> b = [48]) -> decimal_of a = decimal_of b -> (length a <= length b)%nat).
  { intros a b Na Nb Fa Fb Ha Hb V. destruct (Z.eq_dec (hd 0 a) 48) as [Z48|Z48].
    - rewrite (Ha Z48). destruct b; [congruence|cbn; lia].
    - pose proof (LB a Na Fa Z48) as A. pose proof (decimal_bound b Fb) as B. rewrite V in A.
      assert (P : 10 ^ (Z.of_nat (length a) - 1) < 10 ^ Z.of_nat (length b)) by lia.
      apply Z.pow_lt_mono_r_iff in P; lia. }
  assert (L : length l = length r).
  { pose proof (len l r Nl Nr Fl Fr Hl Hr E). pose proof (len r l Nr Nl Fr Fl Hr Hl (eq_sym E)). lia. }
  apply (number_inj (length l) l r (decimal_of l)); repeat split; auto.
Qed.

Lemma float_integer s m e v : Z.pos m < 2 ^ 53 -> -1074 <= e <= 971 -> 0 < v < 1000000 ->
  (magnitude m e == inject_Z v)%Q ->
  float_text (S754_finite s m e) = signed (if s then - v else v).
Proof.
  intros M E V MV. destruct (float_ok s m e M E) as (t & n & x & w & -> & R & N & B & X).
  assert (D : (dec n (the_exponent x - Z.of_nat w) == inject_Z v)%Q).
  { specialize (B v 0 ltac:(lia)). rewrite MV in B. unfold dec in B at 2. change (ten 0) with 1%Q in B.
    rewrite Qmult_1_r in B. setoid_replace (inject_Z v - inject_Z v)%Q with 0%Q in B by ring. change (Qabs 0) with 0%Q in B.
    assert (Z0 : (Qabs (dec n (the_exponent x - Z.of_nat w) - inject_Z v) == 0)%Q).
    { apply Qle_antisym; [exact B|apply Qabs_nonneg]. }
    set (y := (dec n (the_exponent x - Z.of_nat w))%Q) in *.
    destruct (Qabs_cases (y - inject_Z v)) as [(A1 & A2)|(A1 & A2)]; rewrite A2 in Z0; lra. }
  assert (XN : x = None).
  { apply X. rewrite D. change (ten 6) with (inject_Z 1000000). rewrite <- Zlt_Qlt. split; [|lia].
    apply Qle_trans with (inject_Z 1); [vm_compute; discriminate|]. rewrite <- Zle_Qle. lia. }
  subst x. cbn [the_exponent] in D.
  assert (NV : n = v * 10 ^ Z.of_nat w).
  { apply (eq_sym). apply inject_Z_injective. rewrite inject_Z_mult, <- (ten_nat (Z.of_nat w)) by lia. rewrite <- D.
    unfold dec. rewrite <- Qmult_assoc, <- ten_plus. replace (0 - Z.of_nat w + Z.of_nat w) with 0 by lia.
    change (ten 0) with 1%Q. ring. }
  destruct R as (ip & fp & ee & T & I1 & I2 & I3 & I4 & I5 & I6 & I7 & I8 & _). cbn in I8. subst ee.
  assert (W : fp = []).
  { destruct fp as [|c fp']; [reflexivity|]. exfalso. set (fp := c :: fp') in *. assert (FN : fp <> []) by discriminate.
    assert (n mod 10 = 0).
    { rewrite NV. destruct w as [|w]; [cbn in I4; lia|]. rewrite Nat2Z.inj_succ, Z.pow_succ_r by lia.
      replace (v * (10 * 10 ^ Z.of_nat w)) with (v * 10 ^ Z.of_nat w * 10) by ring. apply Z_mod_mult. }
    pose proof (decimal_last (ip ++ fp)) as DL. rewrite I5 in DL.
    rewrite DL in H; [|destruct ip; discriminate|apply Forall_app; auto].
    destruct (exists_last FN) as (r & z & EQ). rewrite EQ in *. rewrite app_assoc, last_last in H. specialize (I6 FN).
    rewrite last_last in I6. lia. }
  subst fp. cbn [length] in I4. subst w. change (10 ^ Z.of_nat 0) with 1 in NV. rewrite Z.mul_1_r in NV. subst n.
  rewrite !app_nil_r in *. subst t.
  assert (B64 : 0 <= v < 10 ^ 64) by (assert (1000000 < 10 ^ 64) by reflexivity; lia).
  destruct (numeral_integer v B64) as (A1 & A2 & A3 & A4).
  assert (IP : ip = numeral 10 v) by (apply canonical; auto; congruence). subst ip.
  unfold signed. destruct s.
  - rewrite (proj2 (Z.ltb_lt (- v) 0)) by lia. now rewrite Z.opp_involutive.
  - now rewrite (proj2 (Z.ltb_ge v 0)) by lia.
Qed.

Lemma valid_range prec emax s m e : (1 < prec)%Z -> valid_binary prec emax (S754_finite s m e) = true ->
  Z.pos m < 2 ^ prec /\ 3 - emax - prec <= e <= emax - prec.
Proof.
  intros P V. cbn [valid_binary] in V. unfold bounded in V. apply andb_prop in V as [C U]. apply Z.leb_le in U.
  unfold canonical_mantissa in C. apply Zeq_bool_eq in C. unfold fexp, emin in C. split; [|lia].
  assert (D : Z.pos (SpecFloat.digits2_pos m) <= prec) by lia.
  apply Z.lt_le_trans with (2 ^ Z.pos (SpecFloat.digits2_pos m)); [|apply Z.pow_le_mono_r; lia].
  clear. induction m as [m IH|m IH|]; cbn [SpecFloat.digits2_pos]; [| |reflexivity];
    rewrite Pos2Z.inj_succ, Z.pow_succ_r by lia; lia.
Qed.
Lemma double_range s m e : valid_binary 53 1024 (S754_finite s m e) = true -> Z.pos m < 2 ^ 53 /\ -1074 <= e <= 971.
Proof. intros V. apply valid_range in V; lia. Qed.
Lemma single_range s m e : valid_binary 24 128 (S754_finite s m e) = true -> Z.pos m < 2 ^ 53 /\ -1074 <= e <= 971.
Proof. intros V. apply valid_range in V; [|lia]. assert (2 ^ 24 < 2 ^ 53) by reflexivity. lia. Qed.

Lemma float_is_magnitude s m e v : float_is (S754_finite s m e) v -> (magnitude m e == inject_Z (Z.abs v))%Q.
Proof.
  intros F. cbn [float_is] in F. pose proof (magnitude_fraction m e) as MF.
  assert (0 < 2 ^ Z.max e 0) by (apply Z.pow_pos_nonneg; lia).
  assert (0 < 2 ^ Z.max (- e) 0) by (apply Z.pow_pos_nonneg; lia).
  assert (A : Z.pos m * 2 ^ Z.max e 0 = Z.abs v * 2 ^ Z.max (- e) 0) by (destruct s; nia).
  rewrite A, inject_Z_mult in MF. apply Qmult_inj_r in MF; [exact MF|].
  change 0%Q with (inject_Z 0). rewrite inject_Z_injective. lia.
Qed.
