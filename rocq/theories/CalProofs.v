(** Proofs about the texts of durations and dates. *)
From Verif Require Import Base Text TimeModel UuidModel CalSpec CalModel.
From Coq Require Import ZArith List Bool Lia.
Import ListNotations.
Local Open Scope Z_scope.

(** * Numerals *)

Definition dval (c : Z) : Z := if c <? 58 then c - 48 else c - 87.
Definition value (b : Z) (l : list Z) : Z := fold_left (fun a c => b * a + dval c) l 0.

Lemma dval_hexa d : 0 <= d < 16 -> dval (hexa_char d) = d.
Proof.
  intros H. unfold dval, hexa_char. destruct (Z.ltb_spec d 10).
  - destruct (Z.ltb_spec (48 + d) 58); lia.
  - destruct (Z.ltb_spec (87 + d) 58); lia.
Qed.

Lemma value_app b l r : forall a, fold_left (fun a c => b * a + dval c) (l ++ r) a =
  fold_left (fun a c => b * a + dval c) r (fold_left (fun a c => b * a + dval c) l a).
Proof. intros a. apply fold_left_app. Qed.

Lemma digits_spec b : 2 <= b <= 16 -> forall fuel n acc, 0 <= n < b ^ Z.of_nat (S fuel) ->
  exists d, digits (S fuel) b n acc = d ++ acc /\ d <> [] /\
    (forall a, fold_left (fun a c => b * a + dval c) d a = b ^ Z.of_nat (length d) * a + n) /\
    Forall (fun c => exists x, 0 <= x < b /\ c = hexa_char x) d /\
    (0 < n -> b ^ (Z.of_nat (length d) - 1) <= n) /\ (n = 0 -> d = [48]).
Proof.
  intros B. induction fuel as [|fuel IH]; intros n acc H.
  - change (Z.of_nat 1) with 1 in H. rewrite Z.pow_1_r in H.
    cbn [digits]. destruct (Z.ltb_spec n b) as [L|L]; [|lia].
    exists [hexa_char n]. repeat split; try discriminate.
    + intros a. cbn [fold_left length]. rewrite dval_hexa by lia. change (Z.of_nat 1) with 1.
      rewrite Z.pow_1_r. reflexivity.
    + constructor; [|constructor]. exists n. split; [lia|reflexivity].
    + intros P. cbn [length]. change (Z.of_nat 1 - 1) with 0. rewrite Z.pow_0_r. lia.
    + intros ->. reflexivity.
  - cbn [digits]. destruct (Z.ltb_spec n b) as [L|L].
    + exists [hexa_char n]. repeat split; try discriminate.
      * intros a. cbn [fold_left length]. rewrite dval_hexa by lia. change (Z.of_nat 1) with 1.
        rewrite Z.pow_1_r. reflexivity.
      * constructor; [|constructor]. exists n. split; [lia|reflexivity].
      * intros P. cbn [length]. change (Z.of_nat 1 - 1) with 0. rewrite Z.pow_0_r. lia.
      * intros ->. reflexivity.
    + destruct (IH (n / b) (hexa_char (n mod b) :: acc)) as (d & E & D & V & F & G & _).
      { rewrite Nat2Z.inj_succ, Z.pow_succ_r in H by lia. split; [apply Z.div_pos; lia|].
        apply Z.div_lt_upper_bound; lia. }
      pose proof (Z.mod_pos_bound n b ltac:(lia)) as MB.
      pose proof (Z.div_mod n b ltac:(lia)) as DM.
      assert (0 < n / b) by (apply Z.div_str_pos; lia).
      exists (d ++ [hexa_char (n mod b)]).
      change (digits (S fuel) b (n / b) (hexa_char (n mod b) :: acc) = d ++ hexa_char (n mod b) :: acc) in E.
      cbn [digits] in E. rewrite E.
      split; [now rewrite <- app_assoc|]. split; [destruct d; discriminate|].
      assert (LN : Z.of_nat (length (d ++ [hexa_char (n mod b)])) = Z.of_nat (length d) + 1)
        by (rewrite app_length; cbn [length]; lia).
      split.
      { intros a. rewrite value_app. cbn [fold_left]. rewrite V, dval_hexa by lia.
        rewrite LN, Z.pow_add_r, Z.pow_1_r by lia. nia. }
      split.
      { apply Forall_app. split; [exact F|]. constructor; [|constructor]. exists (n mod b). split; [lia|reflexivity]. }
      split; [|intros ->; lia].
      intros _. rewrite LN. specialize (G ltac:(lia)).
      assert (0 < Z.of_nat (length d)) by (destruct d; [congruence|cbn [length]; lia]).
      replace (Z.of_nat (length d) + 1 - 1) with (Z.succ (Z.of_nat (length d) - 1)) by lia.
      rewrite Z.pow_succ_r by lia. nia.
Qed.

Lemma numeral_spec b n : 2 <= b <= 16 -> 0 <= n < b ^ 64 ->
  numeral b n <> [] /\ value b (numeral b n) = n /\
  Forall (fun c => exists x, 0 <= x < b /\ c = hexa_char x) (numeral b n) /\
  (0 < n -> b ^ (Z.of_nat (length (numeral b n)) - 1) <= n) /\ (n = 0 -> numeral b n = [48]).
Proof.
  intros B H. destruct (digits_spec b B 63 n []) as (d & E & D & V & F & G & Z0); [exact H|].
  rewrite app_nil_r in E. change (numeral b n = d) in E. rewrite E.
  repeat split; try assumption. unfold value. rewrite V. lia.
Qed.

Lemma numeral_inj b n m : 2 <= b <= 16 -> 0 <= n < b ^ 64 -> 0 <= m < b ^ 64 ->
  numeral b n = numeral b m -> n = m.
Proof.
  intros B N M E. destruct (numeral_spec b n B N) as (_ & V & _).
  destruct (numeral_spec b m B M) as (_ & W & _). rewrite <- V, <- W, E. reflexivity.
Qed.

Lemma numeral10_digits n : 0 <= n < 10 ^ 64 -> Forall is_digit (numeral 10 n).
Proof.
  intros H. destruct (numeral_spec 10 n ltac:(lia) H) as (_ & _ & F & _).
  eapply Forall_impl; [|exact F]. intros c (x & X & ->). unfold is_digit, hexa_char.
  destruct (Z.ltb_spec x 10); lia.
Qed.

Lemma value_decimal l : Forall is_digit l -> forall a,
  fold_left (fun a c => 10 * a + dval c) l a = fold_left (fun a c => 10 * a + (c - 48)) l a.
Proof.
  induction 1 as [|c l D _ IH]; intros a; [reflexivity|]. cbn [fold_left].
  unfold is_digit in D. unfold dval at 2. destruct (Z.ltb_spec c 58); [|lia]. apply IH.
Qed.

Lemma numeral10_value n : 0 <= n < 10 ^ 64 -> decimal_of (numeral 10 n) = n.
Proof.
  intros H. destruct (numeral_spec 10 n ltac:(lia) H) as (_ & V & _).
  unfold decimal_of. rewrite <- value_decimal by now apply numeral10_digits. exact V.
Qed.

Lemma decimal_zeros k : decimal_of (repeat 48 k) = 0 /\ Forall is_digit (repeat 48 k).
Proof.
  unfold decimal_of. split.
  - induction k as [|k IH]; [reflexivity|]. cbn [repeat fold_left]. exact IH.
  - apply Forall_forall. intros x X. apply repeat_spec in X. subst. unfold is_digit. lia.
Qed.

Lemma zeros_number w n : (w <= 60)%nat -> 0 <= n < 10 ^ Z.of_nat w -> (0 < w)%nat -> number w (zeros w n) n.
Proof.
  intros W H P. assert (B : 0 <= n < 10 ^ 64).
  { split; [lia|]. apply Z.lt_le_trans with (10 ^ Z.of_nat w); [lia|]. apply Z.pow_le_mono_r; lia. }
  destruct (numeral_spec 10 n ltac:(lia) B) as (D & _ & _ & G & Z0).
  assert (L : (length (numeral 10 n) <= w)%nat).
  { destruct (Z.eq_dec n 0) as [E|E]; [rewrite (Z0 E); cbn; lia|].
    specialize (G ltac:(lia)). destruct (le_lt_dec (length (numeral 10 n)) w) as [LE|LT]; [exact LE|].
    assert (10 ^ Z.of_nat w <= 10 ^ (Z.of_nat (length (numeral 10 n)) - 1)) by (apply Z.pow_le_mono_r; lia).
    lia. }
  destruct (decimal_zeros (w - length (numeral 10 n))) as (V & F).
  unfold number, zeros. split; [|split].
  - apply Forall_app. split; [exact F|now apply numeral10_digits].
  - rewrite app_length, repeat_length. lia.
  - unfold decimal_of in *. rewrite fold_left_app, V. now apply numeral10_value.
Qed.

(** A number that may have more than [w] digits. *)
Lemma zeros_many w n : (w <= 60)%nat -> 0 <= n < 10 ^ 64 -> (0 < w)%nat ->
  number (Nat.max w (length (numeral 10 n))) (zeros w n) n.
Proof.
  intros W B P. destruct (decimal_zeros (w - length (numeral 10 n))) as (V & F).
  unfold number, zeros. split; [|split].
  - apply Forall_app. split; [exact F|now apply numeral10_digits].
  - rewrite app_length, repeat_length. lia.
  - unfold decimal_of in *. rewrite fold_left_app, V. now apply numeral10_value.
Qed.

Lemma decimal_cons c t : forall a, fold_left (fun a c => 10 * a + (c - 48)) (c :: t) a =
  fold_left (fun a c => 10 * a + (c - 48)) t (10 * a + (c - 48)).
Proof. reflexivity. Qed.

Lemma decimal_shift t : Forall is_digit t -> forall a,
  fold_left (fun a c => 10 * a + (c - 48)) t a = 10 ^ Z.of_nat (length t) * a + decimal_of t.
Proof.
  unfold decimal_of. induction 1 as [|c t D _ IH]; intros a.
  - cbn [fold_left length]. rewrite Z.pow_0_r. lia.
  - rewrite decimal_cons, (decimal_cons c t 0), IH, (IH (10 * 0 + (c - 48))). cbn [length].
    rewrite Nat2Z.inj_succ, Z.pow_succ_r by lia. ring.
Qed.

Lemma decimal_bound t : Forall is_digit t -> 0 <= decimal_of t < 10 ^ Z.of_nat (length t).
Proof.
  induction 1 as [|c t D F IH].
  - cbn. lia.
  - unfold decimal_of. rewrite decimal_cons, decimal_shift by assumption. cbn [length].
    rewrite Nat2Z.inj_succ, Z.pow_succ_r by lia. unfold is_digit in D. nia.
Qed.

Lemma number_inj w t t' v : number w t v -> number w t' v -> t = t'.
Proof.
  intros (F & L & V) (F' & L' & V'). subst w v. revert t F L' V'.
  induction t' as [|c' t' IH]; intros [|c t] F L V; try discriminate; [reflexivity|].
  inversion F as [|? ? D F0]; subst. inversion F' as [|? ? D' F0']; subst.
  cbn [length] in L. injection L as L.
  unfold decimal_of in V. rewrite !decimal_cons, !decimal_shift in V by assumption.
  rewrite L in V. pose proof (decimal_bound t F0) as B. pose proof (decimal_bound t' F0') as B'.
  rewrite L in B'. unfold is_digit in *.
  assert (c = c') by nia. subst c'. f_equal. apply IH; try assumption. lia.
Qed.

Lemma number_before w t t' v v' r r' : number w t v -> number w t' v' -> v < v' -> before (t ++ r) (t' ++ r').
Proof.
  intros (F & L & V) (F' & L' & V'). subst w v v'. revert t F L'.
  induction t' as [|c' t' IH]; intros [|c t] F L V; try discriminate.
  inversion F as [|? ? D F0]; subst. inversion F' as [|? ? D' F0']; subst.
  cbn [length] in L. injection L as L.
  unfold decimal_of in V. rewrite !decimal_cons, !decimal_shift in V by assumption.
  rewrite L in V. pose proof (decimal_bound t F0) as B. pose proof (decimal_bound t' F0') as B'.
  rewrite L in B'. unfold is_digit in *. cbn [app before].
  destruct (Z.lt_trichotomy c c') as [C|[C|C]]; [now left| |nia].
  right. split; [exact C|]. subst c'. apply IH; try assumption. lia.
Qed.

Lemma before_irrefl t : ~ before t t.
Proof. induction t as [|c t IH]; cbn; [auto|]. intros [H|[_ H]]; [lia|auto]. Qed.

Lemma before_same p t t' : before t t' -> before (p ++ t) (p ++ t').
Proof. intros H. induction p as [|c p IH]; [exact H|]. cbn [app before]. right. split; [reflexivity|exact IH]. Qed.

Lemma before_trans s t u : before s t -> before t u -> before s u.
Proof.
  revert t u. induction s as [|a s IH]; intros [|b t] [|c u]; cbn; try tauto.
  intros [H|[-> H]] [K|[-> K]]; try (left; lia); try (left; assumption).
  right. split; [reflexivity|]. eapply IH; eassumption.
Qed.

(** * The clock *)

Lemma clock_decomp t : 0 <= t -> let h := t / 3600000000000 in let m := t / 60000000000 mod 60 in
  let s := t / 1000000000 mod 60 in let f := t mod 1000000000 in
  t = ((h * 60 + m) * 60 + s) * 1000000000 + f /\ 0 <= h /\ 0 <= m < 60 /\ 0 <= s < 60 /\ 0 <= f < 1000000000.
Proof.
  intros H. cbv zeta.
  pose proof (Z.mod_pos_bound (t / 60000000000) 60 ltac:(lia)).
  pose proof (Z.mod_pos_bound (t / 1000000000) 60 ltac:(lia)).
  pose proof (Z.mod_pos_bound t 1000000000 ltac:(lia)).
  assert (0 <= t / 3600000000000) by (apply Z.div_pos; lia).
  repeat split; try lia.
  change 3600000000000 with (1000000000 * (60 * 60)). change 60000000000 with (1000000000 * 60).
  rewrite <- !Z.div_div by lia.
  pose proof (Z.div_mod t 1000000000 ltac:(lia)).
  pose proof (Z.div_mod (t / 1000000000) 60 ltac:(lia)).
  pose proof (Z.div_mod (t / 1000000000 / 60) 60 ltac:(lia)).
  lia.
Qed.

Lemma clock_text_ok t : 0 <= t < 10 ^ 60 ->
  clock (Nat.max 2 (length (numeral 10 (t / 3600000000000)))) (clock_text t) t.
Proof.
  intros H. destruct (clock_decomp t ltac:(lia)) as (E & Hh & Hm & Hs & Hf).
  assert (t / 3600000000000 < 10 ^ 60) by (apply Z.div_lt_upper_bound; lia).
  assert (10 ^ 60 < 10 ^ 64) by reflexivity.
  exists (zeros 2 (t / 3600000000000)), (zeros 2 (t / 60000000000 mod 60)), (zeros 2 (t / 1000000000 mod 60)),
    (zeros 9 (t mod 1000000000)), (t / 3600000000000), (t / 60000000000 mod 60), (t / 1000000000 mod 60), (t mod 1000000000).
  split; [reflexivity|]. split; [apply zeros_many; lia|].
  split; [apply zeros_number; cbn; lia|]. split; [apply zeros_number; cbn; lia|].
  split; [apply zeros_number; [lia| |lia]; change (10 ^ Z.of_nat 9) with 1000000000; lia|]. lia.
Qed.

(** A text that starts with digits stops them at one place only. *)
Lemma digits_split t t' c c' r r' : Forall is_digit t -> Forall is_digit t' -> ~ is_digit c -> ~ is_digit c' ->
  t ++ c :: r = t' ++ c' :: r' -> t = t' /\ c = c' /\ r = r'.
Proof.
  intros F F' C C'. revert t' F'. induction F as [|a t A F IH]; intros [|a' t'] F' E.
  - cbn in E. injection E as -> ->. auto.
  - cbn in E. injection E as -> _. inversion F'; subst. contradiction.
  - cbn in E. injection E as -> _. contradiction.
  - cbn in E. injection E as -> E. inversion F'; subst. destruct (IH t' ltac:(assumption) E) as (-> & -> & ->). auto.
Qed.

Lemma clock_unique wh wh' text t t' : clock wh text t -> clock wh' text t' -> t = t'.
Proof.
  intros (th & tm & ts & tf & h & m & s & f & E & Nh & Nm & Ns & Nf & _ & _ & V)
         (th' & tm' & ts' & tf' & h' & m' & s' & f' & E' & Nh' & Nm' & Ns' & Nf' & _ & _ & V').
  rewrite E in E'. assert (N58 : ~ is_digit 58) by (unfold is_digit; lia).
  assert (N46 : ~ is_digit 46) by (unfold is_digit; lia).
  destruct (digits_split _ _ 58 58 _ _ (proj1 Nh) (proj1 Nh') N58 N58 E') as (-> & _ & E1).
  destruct (digits_split _ _ 58 58 _ _ (proj1 Nm) (proj1 Nm') N58 N58 E1) as (-> & _ & E2).
  destruct (digits_split _ _ 46 46 _ _ (proj1 Ns) (proj1 Ns') N46 N46 E2) as (-> & _ & E3).
  cbn in E3. subst tf'.
  destruct Nh as (_ & _ & <-), Nm as (_ & _ & <-), Ns as (_ & _ & <-), Nf as (_ & _ & <-).
  destruct Nh' as (_ & _ & Ah), Nm' as (_ & _ & Am), Ns' as (_ & _ & As), Nf' as (_ & _ & Af). lia.
Qed.

Lemma clock_first wh text t : clock wh text t -> (0 < wh)%nat -> exists c r, text = c :: r /\ is_digit c.
Proof.
  intros (th & tm & ts & tf & h & m & s & f & E & (F & L & _) & _) W.
  destruct th as [|c th]; [cbn in L; lia|]. inversion F; subst. eexists; eexists. split; [reflexivity|assumption].
Qed.

Lemma clock_before w text text' t t' : clock w text t -> clock w text' t' -> t < t' -> before text text'.
Proof.
  intros (th & tm & ts & tf & h & m & s & f & -> & Nh & Nm & Ns & Nf & Hm & Hs & V)
         (th' & tm' & ts' & tf' & h' & m' & s' & f' & -> & Nh' & Nm' & Ns' & Nf' & Hm' & Hs' & V') L.
  assert (Bm : 0 <= m /\ 0 <= m' /\ 0 <= s /\ 0 <= s' /\ 0 <= f < 1000000000 /\ 0 <= f' < 1000000000).
  { pose proof (decimal_bound _ (proj1 Nm)). pose proof (decimal_bound _ (proj1 Nm')).
    pose proof (decimal_bound _ (proj1 Ns)). pose proof (decimal_bound _ (proj1 Ns')).
    pose proof (decimal_bound _ (proj1 Nf)) as Bf. pose proof (decimal_bound _ (proj1 Nf')) as Bf'.
    destruct Nm as (_ & _ & <-), Ns as (_ & _ & <-), Nf as (_ & Lf & <-).
    destruct Nm' as (_ & _ & <-), Ns' as (_ & _ & <-), Nf' as (_ & Lf' & <-).
    rewrite Lf in Bf. rewrite Lf' in Bf'. change (10 ^ Z.of_nat 9) with 1000000000 in *. lia. }
  destruct (Z.lt_trichotomy h h') as [C|[C|C]]; [eapply number_before; eassumption| |nia].
  subst h'. rewrite (number_inj _ _ _ _ Nh Nh'). apply before_same. cbn [app before]. right. split; [reflexivity|].
  destruct (Z.lt_trichotomy m m') as [C|[C|C]]; [eapply number_before; eassumption| |nia].
  subst m'. rewrite (number_inj _ _ _ _ Nm Nm'). apply before_same. cbn [app before]. right. split; [reflexivity|].
  destruct (Z.lt_trichotomy s s') as [C|[C|C]]; [eapply number_before; eassumption| |nia].
  subst s'. rewrite (number_inj _ _ _ _ Ns Ns'). apply before_same. cbn [app before]. right. split; [reflexivity|].
  rewrite <- (app_nil_r tf), <- (app_nil_r tf'). eapply number_before; try eassumption. lia.
Qed.

(** * The calendar *)

Definition eq_day (x y : Z * Z * Z) : bool :=
  let '(a, b, c) := x in let '(a', b', c') := y in (a =? a') && (b =? b') && (c =? c').
Lemma eq_day_ok x y : eq_day x y = true -> x = y.
Proof.
  destruct x as [[a b] c], y as [[a' b'] c']. unfold eq_day. rewrite !andb_true_iff, !Z.eqb_eq. intros ((-> & ->) & ->). reflexivity.
Qed.
Definition real_dayb (x : Z * Z * Z) : bool :=
  let '(y, m, d) := x in (1 <=? m) && (m <=? 12) && (1 <=? d) && (d <=? month_length y m).
Lemma real_dayb_ok x : real_dayb x = true -> real_day x.
Proof.
  destruct x as [[y m] d]. unfold real_dayb, real_day. rewrite !andb_true_iff, !Z.leb_le. lia.
Qed.

Fixpoint check (k : nat) (z : Z) (x : Z * Z * Z) : bool :=
  match k with
  | O => true
  | S k => let x' := civil (z + 1) in eq_day x' (next_day x) && real_dayb x && check k (z + 1) x'
  end.
Lemma check_ok k : forall z i, check k z (civil z) = true -> z <= i < z + Z.of_nat k ->
  civil (i + 1) = next_day (civil i) /\ real_day (civil i).
Proof.
  induction k as [|k IH]; intros z i C H; [lia|]. cbn [check] in C. cbv zeta in C.
  apply andb_true_iff in C. destruct C as (C & C3). apply andb_true_iff in C. destruct C as (C1 & C2).
  destruct (Z.eq_dec i z) as [->|N].
  - split; [now apply eq_day_ok|now apply real_dayb_ok].
  - apply (IH (z + 1)); [exact C3|lia].
Qed.
Lemma checked_cycle : check (Z.to_nat 146097) (-719468) (civil (-719468)) = true.
Proof. vm_cast_no_check (eq_refl true). Qed.

Definition later (n : Z) (x : Z * Z * Z) : Z * Z * Z := let '(y, m, d) := x in (y + n, m, d).

Lemma leap_cycle y k : leap (y + 400 * k) = leap y.
Proof.
  unfold leap. replace (y + 400 * k) with (y + (100 * k) * 4) by ring. rewrite Z_mod_plus_full.
  replace (y + 100 * k * 4) with (y + (4 * k) * 100) by ring. rewrite Z_mod_plus_full.
  replace (y + 4 * k * 100) with (y + k * 400) by ring. now rewrite Z_mod_plus_full.
Qed.
Lemma month_cycle y k m : month_length (y + 400 * k) m = month_length y m.
Proof. unfold month_length. now rewrite leap_cycle. Qed.
Lemma next_later k x : next_day (later (400 * k) x) = later (400 * k) (next_day x).
Proof.
  destruct x as [[y m] d]. unfold next_day, later. rewrite month_cycle.
  destruct (d <? month_length y m); [reflexivity|]. destruct (m <? 12); [reflexivity|]. do 2 f_equal. lia.
Qed.
Lemma real_later k x : real_day x -> real_day (later (400 * k) x).
Proof. destruct x as [[y m] d]. unfold real_day, later. now rewrite month_cycle. Qed.

Lemma civil_cycle z k : civil (z + 146097 * k) = later (400 * k) (civil z).
Proof.
  unfold civil. cbv zeta.
  replace (z + 146097 * k + 719468) with (z + 719468 + k * 146097) by ring.
  rewrite Z_div_plus_full by lia.
  replace (z + 719468 + k * 146097 - ((z + 719468) / 146097 + k) * 146097)
    with (z + 719468 - (z + 719468) / 146097 * 146097) by ring.
  set (doe := z + 719468 - (z + 719468) / 146097 * 146097).
  set (yoe := (doe - doe / 1460 + doe / 36524 - doe / 146096) / 365).
  set (mp := (5 * (doe - (365 * yoe + yoe / 4 - yoe / 100)) + 2) / 153).
  set (m := if mp <? 10 then mp + 3 else mp - 9).
  unfold later. do 2 f_equal. ring.
Qed.

Lemma civil_step z : civil (z + 1) = next_day (civil z) /\ real_day (civil z).
Proof.
  set (k := (z + 719468) / 146097). set (r := (z + 719468) mod 146097).
  assert (E : z = (r - 719468) + 146097 * k).
  { pose proof (Z.div_mod (z + 719468) 146097 ltac:(lia)). unfold k, r. lia. }
  assert (B : 0 <= r < 146097) by (apply Z.mod_pos_bound; lia).
  clearbody k r. subst z.
  destruct (check_ok _ _ (r - 719468) checked_cycle) as (S1 & R1).
  { rewrite Z2Nat.id by lia. lia. }
  replace (r - 719468 + 146097 * k + 1) with (r - 719468 + 1 + 146097 * k) by ring.
  rewrite !civil_cycle, S1, next_later. split; [reflexivity|]. now apply real_later.
Qed.

Lemma next_inj p q : real_day p -> real_day q -> next_day p = next_day q -> p = q.
Proof.
  destruct p as [[y m] d], q as [[y' m'] d']. unfold real_day, next_day. intros (M & D) (M' & D').
  destruct (Z.ltb_spec d (month_length y m)), (Z.ltb_spec d' (month_length y' m')).
  - intros E. injection E as -> -> E. f_equal. lia.
  - destruct (Z.ltb_spec m' 12); intros E; injection E; intros; lia.
  - destruct (Z.ltb_spec m 12); intros E; injection E; intros; lia.
  - destruct (Z.ltb_spec m 12), (Z.ltb_spec m' 12); intros E; injection E; intros; try lia;
      (assert (m = m') by lia; assert (y = y') by lia; subst m' y'; f_equal; lia).
Qed.

Lemma civil_2000 : civil 10957 = (2000, 1, 1).
Proof. reflexivity. Qed.

Lemma on_day_civil n x : on_day n x -> x = civil (n + 10957).
Proof.
  induction 1 as [|n x _ IH|n x _ IH R].
  - reflexivity.
  - rewrite IH. replace (n + 1 + 10957) with (n + 10957 + 1) by ring. symmetry. apply civil_step.
  - destruct (civil_step (n - 1 + 10957)) as (S1 & R1). apply next_inj; try assumption.
    rewrite <- S1, IH. f_equal. ring.
Qed.

Lemma civil_on_day n : on_day n (civil (n + 10957)).
Proof.
  assert (P : forall k : nat, on_day (Z.of_nat k) (civil (Z.of_nat k + 10957)) /\ on_day (- Z.of_nat k) (civil (- Z.of_nat k + 10957))).
  { induction k as [|k (I1 & I2)]; [split; rewrite ?civil_2000; constructor|]. rewrite Nat2Z.inj_succ. split.
    - replace (Z.succ (Z.of_nat k) + 10957) with (Z.of_nat k + 10957 + 1) by lia.
      rewrite (proj1 (civil_step (Z.of_nat k + 10957))). constructor. exact I1.
    - replace (- Z.succ (Z.of_nat k)) with (- Z.of_nat k - 1) by lia. constructor.
      + rewrite <- (proj1 (civil_step _)). replace (- Z.of_nat k - 1 + 10957 + 1) with (- Z.of_nat k + 10957) by ring. exact I2.
      + apply civil_step. }
  destruct (Z_le_dec 0 n).
  - destruct (P (Z.to_nat n)) as (H & _). now rewrite Z2Nat.id in H by lia.
  - destruct (P (Z.to_nat (- n))) as (_ & H). rewrite Z2Nat.id in H by lia. now rewrite Z.opp_involutive in H.
Qed.

(** Days follow one another. *)
Definition day_before (x y : Z * Z * Z) : Prop :=
  let '(a, b, c) := x in let '(a', b', c') := y in a < a' \/ (a = a' /\ (b < b' \/ (b = b' /\ c < c'))).
Lemma next_before x : day_before x (next_day x).
Proof.
  destruct x as [[y m] d]. unfold next_day. destruct (d <? month_length y m); [unfold day_before; lia|].
  destruct (m <? 12); unfold day_before; lia.
Qed.
Lemma day_before_trans x y z : day_before x y -> day_before y z -> day_before x z.
Proof. destruct x as [[? ?] ?], y as [[? ?] ?], z as [[? ?] ?]. unfold day_before. lia. Qed.
Lemma civil_before z z' : z < z' -> day_before (civil z) (civil z').
Proof.
  intros H. assert (P : forall k : nat, day_before (civil z) (civil (z + 1 + Z.of_nat k))).
  { induction k as [|k IH].
    - rewrite Z.add_0_r, (proj1 (civil_step z)). apply next_before.
    - rewrite Nat2Z.inj_succ. replace (z + 1 + Z.succ (Z.of_nat k)) with (z + 1 + Z.of_nat k + 1) by lia.
      rewrite (proj1 (civil_step (z + 1 + Z.of_nat k))). eapply day_before_trans; [exact IH|apply next_before]. }
  specialize (P (Z.to_nat (z' - z - 1))). rewrite Z2Nat.id in P by lia.
  now replace (z + 1 + (z' - z - 1)) with z' in P by ring.
Qed.

(** The days that date-times reach have years of four digits. *)
Lemma civil_year z : -106752 <= z <= 106752 ->
  let '(y, m, d) := civil z in 1000 <= y <= 9999 /\ 1 <= m <= 12 /\ 1 <= d <= 31.
Proof.
  intros H.
  assert (L : civil (-106753) = (1677, 9, 20)) by reflexivity. assert (U : civil 106753 = (2262, 4, 13)) by reflexivity.
  pose proof (civil_before (-106753) z ltac:(lia)) as A. pose proof (civil_before z 106753 ltac:(lia)) as B.
  destruct (civil_step z) as (_ & R). rewrite L in A. rewrite U in B. destruct (civil z) as [[y m] d].
  unfold day_before, real_day, month_length in *.
  destruct (m =? 2); [destruct (leap y); lia|]. destruct ((m =? 4) || (m =? 6) || (m =? 9) || (m =? 11)); lia.
Qed.

(** * Durations *)

Lemma duration_text_ok d : i64_min < d <= i64_max -> exists body,
  duration_text d = Ok ((if d <? 0 then [45] else []) ++ body) /\
  clock (Nat.max 2 (length (numeral 10 (Z.abs d / 3600000000000)))) body (Z.abs d).
Proof.
  unfold i64_min, i64_max. intros H. unfold duration_text. exists (clock_text (Z.abs d)).
  assert (10 ^ 20 < 10 ^ 60) by reflexivity. assert (2 ^ 63 < 10 ^ 20) by reflexivity. split.
  - destruct (Z.ltb_spec d 0).
    + unfold checked, in_i64, i64_min, i64_max.
      destruct (Z.leb_spec (- 2 ^ 63) (- d)); [|lia]. destruct (Z.leb_spec (- d) (2 ^ 63 - 1)); [|lia].
      cbn [andb bind]. now rewrite Z.abs_neq by lia.
    + now rewrite Z.abs_eq by lia.
  - apply clock_text_ok. lia.
Qed.

Lemma hours_two t : 0 <= t < 360000000000000 -> Nat.max 2 (length (numeral 10 (t / 3600000000000))) = 2%nat.
Proof.
  intros H. assert (B : 0 <= t / 3600000000000 < 100).
  { split; [apply Z.div_pos; lia|apply Z.div_lt_upper_bound; lia]. }
  assert (10 ^ 2 < 10 ^ 64) by reflexivity. change (10 ^ 2) with 100 in *.
  destruct (numeral_spec 10 (t / 3600000000000) ltac:(lia) ltac:(lia)) as (_ & _ & _ & G & Z0).
  set (h := t / 3600000000000) in *. set (l := length (numeral 10 h)) in *.
  destruct (Z.eq_dec h 0) as [E|E]; [unfold l; now rewrite (Z0 E)|].
  specialize (G ltac:(lia)). assert (l <= 2)%nat; [|lia].
  destruct (le_lt_dec l 2) as [L|L]; [exact L|].
  assert (10 ^ 2 <= 10 ^ (Z.of_nat l - 1)) by (apply Z.pow_le_mono_r; lia). change (10 ^ 2) with 100 in *. lia.
Qed.

Lemma duration_min : duration_text i64_min = UB.
Proof. reflexivity. Qed.

Lemma duration_inj d d' t : i64_min < d <= i64_max -> i64_min < d' <= i64_max ->
  duration_text d = Ok t -> duration_text d' = Ok t -> d = d'.
Proof.
  intros H H' E E'. destruct (duration_text_ok d H) as (b & T & C). destruct (duration_text_ok d' H') as (b' & T' & C').
  rewrite T in E. rewrite T' in E'. injection E as <-. injection E' as E'.
  destruct (clock_first _ _ _ C ltac:(lia)) as (c & r & Eb & Dc). destruct (clock_first _ _ _ C' ltac:(lia)) as (c' & r' & Eb' & Dc').
  unfold is_digit in *.
  destruct (Z.ltb_spec d 0), (Z.ltb_spec d' 0); cbn [app] in E'.
  - injection E' as ->. pose proof (clock_unique _ _ _ _ _ C C'). lia.
  - rewrite Eb' in E'. injection E' as Ec _. lia.
  - rewrite Eb in E'. injection E' as Ec _. lia.
  - rewrite E' in C'. pose proof (clock_unique _ _ _ _ _ C C'). lia.
Qed.

Lemma duration_order d d' t t' : 0 <= d -> d < d' -> d' < 360000000000000 ->
  duration_text d = Ok t -> duration_text d' = Ok t' -> before t t'.
Proof.
  intros H L H' E E'.
  destruct (duration_text_ok d) as (b & T & C); [unfold i64_min, i64_max; lia|].
  destruct (duration_text_ok d') as (b' & T' & C'); [unfold i64_min, i64_max; lia|].
  rewrite T in E. rewrite T' in E'. injection E as <-. injection E' as <-.
  rewrite (proj2 (Z.ltb_ge d 0)), (proj2 (Z.ltb_ge d' 0)) by lia. cbn [app].
  rewrite Z.abs_eq in * by lia. rewrite hours_two in C, C' by lia. eapply clock_before; eassumption.
Qed.

(** * Date-times *)

Lemma date_defined dt : i64_min <= dt <= i64_max ->
  date_text dt = if dt + epoch_to_mjd <=? i64_max then Ok (time_point_text (dt + epoch_to_mjd)) else UB.
Proof.
  intros H. unfold date_text, to_time_point, cast_to, add, mul, checked, in_i64, cnum, cden.
  assert (E : 0 <= epoch_to_mjd) by (vm_compute; discriminate).
  destruct (Z.leb_spec i64_min (dt + epoch_to_mjd)); [|lia]. cbn [andb].
  destruct (Z.leb_spec (dt + epoch_to_mjd) i64_max); cbn [bind]; [|reflexivity].
  rewrite Z.mul_1_r. rewrite (proj2 (Z.leb_le _ _)), (proj2 (Z.leb_le _ _)) by assumption. cbn [andb bind].
  now rewrite Z.quot_1_r.
Qed.

Lemma time_point_date dt : i64_min <= dt -> dt + epoch_to_mjd <= i64_max ->
  date (time_point_text (dt + epoch_to_mjd)) dt.
Proof.
  unfold i64_min, i64_max. intros L U. set (tp := dt + epoch_to_mjd) in *.
  set (n := tp / 86400000000000). set (t := tp mod 86400000000000).
  assert (T : 0 <= t < 86400000000000) by (apply Z.mod_pos_bound; lia).
  assert (E : tp = 86400000000000 * n + t) by (apply Z.div_mod; lia).
  assert (M : epoch_to_mjd = 946728000000000000) by reflexivity.
  assert (N : -106752 <= n <= 106752).
  { change (2 ^ 63) with 9223372036854775808 in *. unfold tp in *. lia. }
  pose proof (civil_year n N) as Y. pose proof (civil_on_day (n - 10957)) as O.
  replace (n - 10957 + 10957) with n in O by ring.
  unfold time_point_text. fold n t. destruct (civil n) as [[y m] d]. destruct Y as (Y & Mo & D).
  exists (zeros 4 y ++ [45] ++ zeros 2 m ++ [45] ++ zeros 2 d), (clock_text t), (n - 10957), (y, m, d), t.
  split; [cbn [app]; rewrite <- !app_assoc; cbn [app]; now rewrite <- !app_assoc|].
  split; [|split; [exact O|split; [|split; [exact T|]]]].
  - exists (zeros 4 y), (zeros 2 m), (zeros 2 d). split; [reflexivity|].
    split; [apply zeros_number; [lia| |lia]; change (10 ^ Z.of_nat 4) with 10000; lia|].
    split; apply zeros_number; try lia; change (10 ^ Z.of_nat 2) with 100; lia.
  - rewrite <- (hours_two t) by lia. apply clock_text_ok. assert (10 ^ 20 < 10 ^ 60) by reflexivity.
    change (10 ^ 20) with 100000000000000000000 in *. lia.
  - unfold noon, day_length. unfold tp in E. lia.
Qed.

Lemma date_order text text' dt dt' : date text dt -> date text' dt' -> dt < dt' -> before text text'.
Proof.
  intros (td & tc & n & x & t & -> & D & O & C & T & E) (td' & tc' & n' & x' & t' & -> & D' & O' & C' & T' & E') L.
  destruct x as [[y m] d], x' as [[y' m'] d'].
  destruct D as (ty & tm & tdd & -> & Ny & Nm & Nd), D' as (ty' & tm' & tdd' & -> & Ny' & Nm' & Nd').
  destruct (Z.lt_trichotomy n n') as [X|[X|X]].
  - pose proof (civil_before (n + 10957) (n' + 10957) ltac:(lia)) as B.
    rewrite <- (on_day_civil _ _ O), <- (on_day_civil _ _ O') in B. unfold day_before in B.
    rewrite <- !app_assoc.
    destruct B as [B|(-> & B)]; [eapply number_before; eassumption|].
    rewrite (number_inj _ _ _ _ Ny Ny'). apply before_same. cbn [app before]. right. split; [reflexivity|].
    destruct B as [B|(-> & B)]; [eapply number_before; eassumption|].
    rewrite (number_inj _ _ _ _ Nm Nm'). apply before_same. cbn [app before]. right. split; [reflexivity|].
    eapply number_before; eassumption.
  - subst n'. pose proof (on_day_civil _ _ O) as A. rewrite <- (on_day_civil _ _ O') in A. injection A as -> -> ->.
    rewrite (number_inj _ _ _ _ Ny Ny'), (number_inj _ _ _ _ Nm Nm'), (number_inj _ _ _ _ Nd Nd').
    apply before_same. cbn [app before]. right. split; [reflexivity|]. eapply clock_before; try eassumption. lia.
  - unfold day_length in *. lia.
Qed.
