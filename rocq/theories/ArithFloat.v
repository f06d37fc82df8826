(** Proofs about the operators on floating point fields. *)
From Coq Require Import ZArith List Bool Lia Lqa Floats.SpecFloat QArith Qabs.
From Verif Require Import Base AnyModel AnySpec AnyProofs AnyFloat AnyRound AnyCloseSpec PaceSpec PaceFloat AnyClose AnyBest.
From Verif Require Import FlowModel ArithModel ArithSpec.
Local Open Scope Z_scope.

Section Best.
  Variables prec emax : Z.
  Hypothesis prec_big : 1 < prec.

  Lemma best_eq : forall z z' r, (z == z')%Q -> best prec emax z r -> best prec emax z' r.
  Proof.
    intros z z' r E (V & N & H). split; [exact V|]. split; [exact N|]. intros v Vv Nv. rewrite <- E. now apply H.
  Qed.

  Lemma best_self : forall z r, valid_binary prec emax r = true -> is_number r -> (q_of r == z)%Q -> best prec emax z r.
  Proof.
    intros z r V N E. split; [exact V|]. split; [exact N|]. intros v _ _. rewrite E.
    setoid_replace (z - z)%Q with 0%Q by ring. apply Qabs_nonneg.
  Qed.

  Lemma normalize_best : forall m e, is_number (binary_normalize prec emax m e false) ->
    best prec emax (inject_Z m * two e) (binary_normalize prec emax m e false).
  Proof.
    intros [|m|m] e N; cbn [binary_normalize] in *.
    - apply best_self; [reflexivity|exact I|]. cbn [q_of]. change (inject_Z 0) with 0%Q. ring.
    - apply best_eq with (q_of (S754_finite false m e)); [reflexivity|].
      split; [now apply round_is_valid|]. split; [exact N|]. intros v Vv Nv. now apply round_best.
    - apply best_eq with (q_of (S754_finite true m e)); [reflexivity|].
      split; [now apply round_is_valid|]. split; [exact N|]. intros v Vv Nv. now apply round_best.
  Qed.

  Lemma valid_negb : forall s m e, valid_binary prec emax (S754_finite (negb s) m e) = valid_binary prec emax (S754_finite s m e).
  Proof. reflexivity. Qed.

  Lemma add_best : forall x y, valid_binary prec emax x = true -> valid_binary prec emax y = true ->
    is_number x -> is_number y -> is_number (SFadd prec emax x y) ->
    best prec emax (q_of x + q_of y) (SFadd prec emax x y).
  Proof.
    intros x y Vx Vy Nx Ny N.
    destruct x as [sx|sx| |sx mx ex]; try (destruct Nx; fail); destruct y as [sy|sy| |sy my ey]; try (destruct Ny; fail); cbn [SFadd] in *.
    - apply best_self; [now destruct (Bool.eqb sx sy)|exact N|]. cbn [q_of]. destruct (Bool.eqb sx sy); cbn [q_of]; ring.
    - apply best_self; [exact Vy|exact I|]. cbn [q_of]. ring.
    - apply best_self; [exact Vx|exact I|]. cbn [q_of]. ring.
    - eapply best_eq; [|apply normalize_best; exact N].
      rewrite inject_Z_plus, Qmult_plus_distr_l. rewrite !align_q by lia. reflexivity.
  Qed.

  Lemma sub_best : forall x y, valid_binary prec emax x = true -> valid_binary prec emax y = true ->
    is_number x -> is_number y -> is_number (SFsub prec emax x y) ->
    best prec emax (q_of x - q_of y) (SFsub prec emax x y).
  Proof.
    intros x y Vx Vy Nx Ny N.
    destruct x as [sx|sx| |sx mx ex]; try (destruct Nx; fail); destruct y as [sy|sy| |sy my ey]; try (destruct Ny; fail); cbn [SFsub] in *.
    - apply best_self; [now destruct (Bool.eqb sx (negb sy))|exact N|]. cbn [q_of]. destruct (Bool.eqb sx (negb sy)); cbn [q_of]; ring.
    - apply best_self; [exact Vy|exact I|]. cbn [q_of]. destruct sy; cbn [negb];
        change (Z.neg my) with (- Z.pos my); rewrite inject_Z_opp; ring.
    - apply best_self; [exact Vx|exact I|]. cbn [q_of]. ring.
    - eapply best_eq; [|apply normalize_best; exact N].
      unfold Z.sub. rewrite inject_Z_plus, inject_Z_opp, Qmult_plus_distr_l.
      setoid_replace (- inject_Z (cond_Zopp sy (Z.pos (fst (shl_align my ey (Z.min ex ey))))) * two (Z.min ex ey))%Q
        with (- (inject_Z (cond_Zopp sy (Z.pos (fst (shl_align my ey (Z.min ex ey))))) * two (Z.min ex ey)))%Q by ring.
      rewrite !align_q by lia. reflexivity.
  Qed.

  (** The mantissa is full, or the exponent is the least. *)
  Lemma valid_full : forall s m e, valid_binary prec emax (S754_finite s m e) = true ->
    3 - emax - prec <= e /\ (Z.pos (digits2_pos m) = prec \/ e = 3 - emax - prec).
  Proof.
    intros s m e V. cbn [valid_binary] in V. unfold bounded in V. apply andb_prop in V as [C _].
    unfold canonical_mantissa in C. apply Zeq_bool_eq in C. unfold fexp, emin in C. lia.
  Qed.

  Lemma digits_mul : forall a b, Z.pos (digits2_pos a) <= Z.pos (digits2_pos (a * b)).
  Proof.
    intros a b. pose proof (digits_bounds a) as [La Ua]. pose proof (digits_bounds (a * b)) as [L U].
    apply Z.nlt_ge. intros H.
    assert (Z.pos (a * b) < Z.pos a); [|rewrite Pos2Z.inj_mul in *; nia].
    eapply Z.lt_le_trans; [exact U|]. eapply Z.le_trans; [|exact La]. apply Z.pow_le_mono_r; lia.
  Qed.

  Lemma round_as_aux : forall s m e, e <= exponent prec emax (Z.pos (digits2_pos m) + e) ->
    binary_round_aux prec emax s (Z.pos m) e loc_Exact = binary_round prec emax s m e.
  Proof.
    intros s m e H. unfold binary_round. change (fexp prec emax (Z.pos (digits2_pos m) + e)) with (exponent prec emax (Z.pos (digits2_pos m) + e)).
    unfold shl_align. destruct (exponent prec emax (Z.pos (digits2_pos m) + e) - e) eqn:E; [reflexivity|reflexivity|lia].
  Qed.

  Hypothesis emax_big : 3 - emax - prec <= 0.

  Lemma mul_best : forall x y, valid_binary prec emax x = true -> valid_binary prec emax y = true ->
    is_number x -> is_number y -> is_number (SFmul prec emax x y) ->
    best prec emax (q_of x * q_of y) (SFmul prec emax x y).
  Proof.
    intros x y Vx Vy Nx Ny N.
    destruct x as [sx|sx| |sx mx ex]; try (destruct Nx; fail); destruct y as [sy|sy| |sy my ey]; try (destruct Ny; fail); cbn [SFmul] in *;
      try (apply best_self; [reflexivity|exact I|]; cbn [q_of]; ring; fail).
    assert (R : binary_round_aux prec emax (xorb sx sy) (Z.pos (mx * my)) (ex + ey) loc_Exact =
                binary_round prec emax (xorb sx sy) (mx * my) (ex + ey)).
    { apply round_as_aux. unfold exponent.
      pose proof (valid_full _ _ _ Vx) as [Lx Fx]. pose proof (valid_full _ _ _ Vy) as [Ly Fy].
      pose proof (digits_mul mx my). pose proof (digits_mul my mx) as D. rewrite Pos.mul_comm in D.
      lia. }
    rewrite R in *. apply best_eq with (q_of (S754_finite (xorb sx sy) (mx * my) (ex + ey))).
    - cbn [q_of]. rewrite two_add.
      assert (E : (if xorb sx sy then Z.neg (mx * my) else Z.pos (mx * my)) =
                  (if sx then Z.neg mx else Z.pos mx) * (if sy then Z.neg my else Z.pos my)) by (destruct sx, sy; reflexivity).
      rewrite E, inject_Z_mult. ring.
    - split; [now apply round_is_valid|]. split; [exact N|]. intros v Vv Nv. now apply round_best.
  Qed.

  (** * Division *)

  (** The quotient is known by four times its integral part and where in the unit
      interval the rest lies. *)
  Definition quarter (l : location) : Z :=
    match l with loc_Exact => 0 | loc_Inexact Lt => 1 | loc_Inexact Eq => 2 | loc_Inexact Gt => 3 end.

  Lemma quarter_range : forall l, 0 <= quarter l <= 3.
  Proof. intros [|[]]; cbn; lia. Qed.

  Lemma shr_quarter : forall q l, 0 <= q ->
    shr_1 (shr_1 (shr_record_of_loc (4 * q + quarter l) loc_Exact)) = shr_record_of_loc q l.
  Proof.
    intros q l Q. pose proof (quarter_range l). cbn [shr_record_of_loc].
    rewrite shr_1_bits by lia. rewrite shr_1_bits by (apply Z.div_pos; lia).
    assert (E : forall c, 0 <= c <= 3 -> (4 * q + c) / 2 = 2 * q + c / 2).
    { intros c _. replace (4 * q + c) with ((2 * q) * 2 + c) by ring. rewrite Z.div_add_l by lia. reflexivity. }
    rewrite E by exact H. replace ((2 * q + quarter l / 2) / 2) with q.
    - rewrite !Z.odd_add, !Z.odd_mul. destruct l as [|[]]; reflexivity.
    - replace (2 * q + quarter l / 2) with (q * 2 + quarter l / 2) by ring. rewrite Z.div_add_l by lia.
      destruct l as [|[]]; cbn; lia.
  Qed.

  Lemma shr_location : forall q l e n, 0 <= q -> 0 <= n ->
    shr (shr_record_of_loc (4 * q + quarter l) loc_Exact) (e - 2) (n + 2) = shr (shr_record_of_loc q l) e n.
  Proof.
    intros q l e n Q N. destruct (n + 2) as [|p|p] eqn:P; [lia| |lia]. cbn [shr]. rewrite iter_pos_nat.
    replace (Pos.to_nat p) with (Z.to_nat n + 2)%nat by lia.
    assert (I2 : forall k r, Nat.iter (k + 2) shr_1 r = Nat.iter k shr_1 (shr_1 (shr_1 r))).
    { intros k r. induction k as [|k IH]; [reflexivity|]. cbn [Nat.add]. simpl in *. now rewrite IH. }
    rewrite I2, shr_quarter by exact Q.
    destruct n as [|n|n]; [| |lia].
    - cbn [shr]. f_equal. lia.
    - cbn [shr]. rewrite iter_pos_nat. f_equal. lia.
  Qed.

  Lemma aux_location : forall s q l e m, 0 <= q -> Z.pos m = 4 * q + quarter l ->
    exponent prec emax (Z.pos (digits2_pos m) + (e - 2)) = exponent prec emax (Zdigits2 q + e) ->
    e <= exponent prec emax (Zdigits2 q + e) ->
    binary_round_aux prec emax s q e l = binary_round prec emax s m (e - 2).
  Proof.
    intros s q l e m Q M E L. rewrite <- round_as_aux by lia. unfold binary_round_aux, shr_fexp at 1 3.
    change (fexp prec emax (Zdigits2 q + e)) with (exponent prec emax (Zdigits2 q + e)).
    change (fexp prec emax (Zdigits2 (Z.pos m) + (e - 2))) with (exponent prec emax (Z.pos (digits2_pos m) + (e - 2))).
    rewrite E, M. rewrite <- (shr_location q l e) by lia.
    replace (exponent prec emax (Zdigits2 q + e) - e + 2) with (exponent prec emax (Zdigits2 q + e) - (e - 2)) by lia.
    reflexivity.
  Qed.

  (** A grid that is fine enough for the value. *)
  Lemma grid_best : forall s x T f w, (0 < x)%Q ->
    (forall k, (Qabs (x - inject_Z T * two f) <= Qabs (x - inject_Z k * two f))%Q) ->
    3 - emax - prec <= f -> (f = 3 - emax - prec \/ (inject_Z (2 ^ (prec - 1)) * two f <= x)%Q) ->
    valid_binary prec emax w = true -> is_number w ->
    (Qabs (sign s * x - sign s * (inject_Z T * two f)) <= Qabs (sign s * x - q_of w))%Q.
  Proof.
    intros s x T f w X0 B F C V W.
    assert (B' : forall k g, 0 <= k < 2 ^ prec -> 3 - emax - prec <= g ->
      (Qabs (x - inject_Z T * two f) <= Qabs (x - inject_Z k * two g))%Q).
    { intros k g K G. destruct (Z.le_gt_cases f g) as [L|L].
      - setoid_replace (inject_Z k * two g)%Q with (inject_Z (k * 2 ^ (g - f)) * two f)%Q; [apply B|].
        rewrite inject_Z_mult, two_nat by lia. rewrite <- Qmult_assoc, <- two_add. replace (g - f + f) with g by lia. reflexivity.
      - destruct C as [C|X]; [lia|]. eapply Qle_trans; [apply (B (2 ^ (prec - 1)))|].
        assert (Y : (inject_Z k * two g <= inject_Z (2 ^ (prec - 1)) * two f)%Q).
        { apply Qle_trans with (inject_Z (2 ^ prec) * two g)%Q.
          - apply Qmult_le_compat_r; [apply inj_le; lia|apply Qlt_le_weak, two_pos].
          - rewrite !two_nat by lia. rewrite <- !two_add.
            assert (Z : (two (prec + g) <= two (prec - 1 + f))%Q); [|exact Z].
            replace (prec - 1 + f) with ((prec + g) + (f - 1 - g)) by lia. rewrite (two_add (prec + g)).
            pose proof (two_pos (prec + g)). assert (1 <= two (f - 1 - g))%Q; [|nra].
            rewrite <- two_nat by lia. change 1%Q with (inject_Z 1). apply inj_le. pose proof (Z.pow_pos_nonneg 2 (f - 1 - g) ltac:(lia) ltac:(lia)). lia. }
        rewrite !Qabs_pos by lra. lra. }
    set (r := (inject_Z T * two f)%Q) in *.
    assert (Z0 : (Qabs (x - r) <= x)%Q).
    { pose proof (B' 0 (3 - emax - prec) ltac:(split; [lia|apply Z.pow_pos_nonneg; lia]) ltac:(lia)) as H.
      setoid_replace (x - inject_Z 0 * two (3 - emax - prec))%Q with x in H by (change (inject_Z 0) with 0%Q; ring).
      rewrite (Qabs_pos x) in H by lra. exact H. }
    assert (S : forall y, (Qabs (sign s * x - sign s * y) == Qabs (x - y))%Q).
    { intros y. setoid_replace (sign s * x - sign s * y)%Q with (sign s * (x - y))%Q by ring. rewrite Qabs_Qmult. destruct s; cbn; ring. }
    assert (U : (Qabs (sign s) == 1)%Q) by (destruct s; reflexivity).
    rewrite S. destruct w as [t|t| |t k g]; [| destruct W | destruct W |].
    - cbn [q_of]. setoid_replace (sign s * x - 0)%Q with (sign s * x)%Q by ring.
      rewrite Qabs_Qmult, (Qabs_pos x), U by lra. lra.
    - destruct (valid_magnitude prec emax _ _ _ V) as [K G]. rewrite q_finite. set (y := (inject_Z (Z.pos k) * two g)%Q).
      assert (Y0 : (0 < y)%Q) by (unfold y; apply Qmult_lt_0_compat; [reflexivity|apply two_pos]).
      destruct (Bool.bool_dec s t) as [<-|N].
      + rewrite S. exact (B' (Z.pos k) g K G).
      + setoid_replace (sign s * x - sign t * y)%Q with (sign s * (x + y))%Q by (destruct s, t; try congruence; cbn; ring).
        rewrite Qabs_Qmult, (Qabs_pos (x + y)), U by lra. lra.
  Qed.

  (** The position of the quotient. *)
  Lemma location_quarter : forall r d, 0 <= r < d ->
    let c := quarter (new_location d r) in
    (r = 0 /\ c = 0) \/ (0 < 2 * r < d /\ c = 1) \/ (2 * r = d /\ c = 2) \/ (d < 2 * r /\ c = 3).
  Proof.
    intros r d R. unfold new_location, new_location_even, new_location_odd.
    destruct (Z.even d) eqn:P; destruct (Zeq_bool r 0) eqn:E.
    - apply Zeq_bool_eq in E. left. split; [exact E|reflexivity].
    - apply Zeq_bool_neq in E. destruct (Z.compare_spec (2 * r) d); cbn [quarter]; lia.
    - apply Zeq_bool_eq in E. left. split; [exact E|reflexivity].
    - apply Zeq_bool_neq in E. assert (2 * r <> d) by (intros <-; rewrite Z.even_mul in P; discriminate P).
      destruct (Z.compare_spec (2 * r + 1) d); cbn [quarter]; lia.
  Qed.

  (** Both the quotient and its stand-in are on the same side of every even number. *)
  Lemma same_side : forall n d a b, 0 < d ->
    let m := 4 * (n / d) + quarter (new_location d (n mod d)) in
    Z.abs (m - 4 * a) <= Z.abs (m - 4 * b) -> Z.abs (4 * n - 4 * a * d) <= Z.abs (4 * n - 4 * b * d).
  Proof.
    intros n d a b D m H. pose proof (Z.div_mod n d ltac:(lia)) as E. pose proof (Z.mod_pos_bound n d D) as R.
    pose proof (location_quarter (n mod d) d R) as C. cbv zeta in C. unfold m in H. clear m.
    set (c := quarter (new_location d (n mod d))) in *. clearbody c.
    set (q := n / d) in *. set (r := n mod d) in *. clearbody q r. subst n.
    assert (G : (a <= b /\ 4 * q + c <= 2 * (a + b)) \/ (b <= a /\ 2 * (a + b) <= 4 * q + c)) by lia.
    destruct G as [[G1 G2]|[G1 G2]].
    - assert (4 * (d * q + r) <= 2 * (a + b) * d).
      { destruct C as [[C1 C2]|[[C1 C2]|[[C1 C2]|[C1 C2]]]].
        - assert (4 * q <= 2 * (a + b)) by lia. nia.
        - assert (4 * q + 2 <= 2 * (a + b)) by lia. nia.
        - assert (4 * q + 2 <= 2 * (a + b)) by lia. nia.
        - assert (4 * q + 4 <= 2 * (a + b)) by lia. nia. }
      assert (4 * a * d <= 4 * b * d) by nia. lia.
    - assert (2 * (a + b) * d <= 4 * (d * q + r)).
      { destruct C as [[C1 C2]|[[C1 C2]|[[C1 C2]|[C1 C2]]]].
        - assert (2 * (a + b) <= 4 * q) by lia. nia.
        - assert (2 * (a + b) <= 4 * q) by lia. nia.
        - assert (2 * (a + b) <= 4 * q + 2) by lia. nia.
        - assert (2 * (a + b) <= 4 * q + 2) by lia. nia. }
      assert (4 * b * d <= 4 * a * d) by nia. lia.
  Qed.

  (** The quotient of the magnitudes, in terms of the integers SFdiv_core_binary uses. *)
  Lemma scaled : forall mx ex my ey e, e <= ex - ey ->
    (inject_Z (Z.pos mx) * two ex / (inject_Z (Z.pos my) * two ey) ==
     inject_Z (Z.pos mx * 2 ^ (ex - ey - e)) / inject_Z (Z.pos my) * two e)%Q.
  Proof.
    intros mx ex my ey e L. rewrite inject_Z_mult, two_nat by lia.
    replace ex with ((ex - ey - e) + e + ey) at 1 by lia. rewrite !two_add.
    pose proof (two_pos ey). assert (0 < inject_Z (Z.pos my))%Q by reflexivity. field. split; lra.
  Qed.

  Lemma grid_of_integers : forall n d e a f k, 0 < d -> e <= f ->
    Z.abs (4 * n - 4 * (a * 2 ^ (f - e)) * d) <= Z.abs (4 * n - 4 * (k * 2 ^ (f - e)) * d) ->
    (Qabs (inject_Z n / inject_Z d * two e - inject_Z a * two f) <= Qabs (inject_Z n / inject_Z d * two e - inject_Z k * two f))%Q.
  Proof.
    intros n d e a f k D L H.
    assert (D' : (0 < inject_Z d)%Q) by (change 0%Q with (inject_Z 0); apply inj_lt; exact D).
    assert (E : forall j, (Qabs (inject_Z n / inject_Z d * two e - inject_Z j * two f) ==
                inject_Z (Z.abs (4 * n - 4 * (j * 2 ^ (f - e)) * d)) * ((/ (4 * inject_Z d)) * two e))%Q).
    { intros j. rewrite <- abs_q.
      setoid_replace (inject_Z n / inject_Z d * two e - inject_Z j * two f)%Q
        with (inject_Z (4 * n - 4 * (j * 2 ^ (f - e)) * d) * ((/ (4 * inject_Z d)) * two e))%Q.
      - rewrite Qabs_Qmult. apply Qmult_comp; [reflexivity|]. apply Qabs_pos.
        apply Qmult_le_0_compat; [|apply Qlt_le_weak, two_pos]. apply Qlt_le_weak, Qinv_lt_0_compat. lra.
      - unfold Z.sub at 1. rewrite inject_Z_plus, inject_Z_opp, !inject_Z_mult, two_nat by lia.
        replace f with ((f - e) + e) at 1 by lia. rewrite two_add. change (inject_Z 4) with 4%Q. field. lra. }
    rewrite !E. apply Qmult_le_compat_r; [now apply inj_le|].
    apply Qmult_le_0_compat; [|apply Qlt_le_weak, two_pos]. apply Qlt_le_weak, Qinv_lt_0_compat. lra.
  Qed.

  Lemma quot_digits : forall mx my k, 0 <= k ->
    let n := Z.pos mx * 2 ^ k in
    let d := Z.pos (digits2_pos mx) + k - Z.pos (digits2_pos my) in
    (n / Z.pos my = 0 -> d <= 0) /\
    (0 < n / Z.pos my -> d <= Zdigits2 (n / Z.pos my)).
  Proof.
    intros mx my k K n d. pose proof (digits_bounds mx) as [Lx Ux]. pose proof (digits_bounds my) as [Ly Uy].
    set (a := Z.pos (digits2_pos mx)) in *. set (b := Z.pos (digits2_pos my)) in *.
    assert (A : 0 < a) by reflexivity. assert (B : 0 < b) by reflexivity.
    assert (P : 0 < 2 ^ k) by (apply Z.pow_pos_nonneg; lia).
    assert (N : 2 ^ (a - 1 + k) <= n) by (rewrite Z.pow_add_r by lia; unfold n; nia).
    assert (Q : 0 <= d - 1 -> 2 ^ (d - 1) <= n / Z.pos my).
    { intros J. apply Z.div_le_lower_bound; [lia|]. eapply Z.le_trans; [|exact N].
      replace (a - 1 + k) with (b + (d - 1)) by (unfold d; lia). rewrite Z.pow_add_r by lia.
      apply Z.mul_le_mono_nonneg_r; [apply Z.pow_nonneg; lia|lia]. }
    split.
    - intros E. rewrite E in Q. apply Z.nlt_ge. intros J. specialize (Q ltac:(lia)).
      pose proof (Z.pow_pos_nonneg 2 (d - 1) ltac:(lia) ltac:(lia)). lia.
    - intros E. destruct (n / Z.pos my) as [|q|q]; [lia| |lia]. cbn [Zdigits2].
      apply Z.nlt_ge. intros J. specialize (Q ltac:(lia)). pose proof (digits_bounds q) as [_ U].
      assert (2 ^ Z.pos (digits2_pos q) <= 2 ^ (d - 1)) by (apply Z.pow_le_mono_r; lia). lia.
  Qed.

  Lemma quarter_digits : forall q m l, Z.pos m = 4 * Z.pos q + quarter l ->
    Z.pos (digits2_pos m) = Z.pos (digits2_pos q) + 2.
  Proof.
    intros q m l M. pose proof (digits_bounds q) as [L U]. pose proof (quarter_range l).
    apply digits_unique; [|lia]. rewrite M.
    replace (Z.pos (digits2_pos q) + 2 - 1) with ((Z.pos (digits2_pos q) - 1) + 2) by lia.
    rewrite !Z.pow_add_r by lia. change (2 ^ 2) with 4. lia.
  Qed.

  Lemma div_best : forall x y, valid_binary prec emax x = true -> valid_binary prec emax y = true ->
    is_number x -> is_number y -> ~ (q_of y == 0)%Q -> is_number (SFdiv prec emax x y) ->
    best prec emax (q_of x / q_of y) (SFdiv prec emax x y).
  Proof.
    intros x y Vx Vy Nx Ny Y0 N.
    destruct y as [sy|sy| |sy my ey]; try (destruct Ny; fail); [exfalso; apply Y0; reflexivity|].
    destruct x as [sx|sx| |sx mx ex]; try (destruct Nx; fail).
    { apply best_self; [reflexivity|exact I|]. change (q_of (S754_zero sx)) with 0%Q. unfold Qdiv. cbn [SFdiv q_of]. ring. }
    set (D := Z.pos (digits2_pos mx) + ex - (Z.pos (digits2_pos my) + ey)) in *.
    set (e := Z.min (exponent prec emax D) (ex - ey)) in *.
    set (n := Z.pos mx * 2 ^ (ex - ey - e)) in *.
    assert (Le : e <= ex - ey) by (unfold e; lia).
    assert (C : SFdiv prec emax (S754_finite sx mx ex) (S754_finite sy my ey) =
      binary_round_aux prec emax (xorb sx sy) (n / Z.pos my) e (new_location (Z.pos my) (n mod Z.pos my))).
    { cbn [SFdiv]. unfold SFdiv_core_binary. cbn [Zdigits2].
      change (fexp prec emax (Z.pos (digits2_pos mx) + ex - (Z.pos (digits2_pos my) + ey))) with (exponent prec emax D).
      fold e.
      replace (match ex - ey - e with Z0 => Z.pos mx | Z.pos _ => Z.shiftl (Z.pos mx) (ex - ey - e) | Z.neg _ => 0 end) with n.
      - unfold Z.div, Z.modulo. destruct (Z.div_eucl n (Z.pos my)). reflexivity.
      - unfold n. destruct (ex - ey - e) eqn:E; [lia| |lia]. rewrite Z.shiftl_mul_pow2 by lia. reflexivity. }
    rewrite C in *. clear C.
    assert (P : 0 < n) by (unfold n; pose proof (Z.pow_pos_nonneg 2 (ex - ey - e) ltac:(lia) ltac:(lia)); nia).
    set (q := n / Z.pos my) in *. set (l := new_location (Z.pos my) (n mod Z.pos my)) in *.
    assert (Q : 0 <= q) by (apply Z.div_pos; lia).
    pose proof (quot_digits mx my (ex - ey - e) ltac:(lia)) as [DZ DP]. cbv zeta in DZ, DP. fold n in DZ, DP. fold q in DZ, DP.
    assert (DD : Z.pos (digits2_pos mx) + (ex - ey - e) - Z.pos (digits2_pos my) = D - e) by (unfold D; lia).
    rewrite DD in DZ, DP.
    assert (M0 : 0 < 4 * q + quarter l).
    { pose proof (quarter_range l). destruct (Z.eq_dec q 0) as [E|E]; [|lia].
      pose proof (Z.div_mod n (Z.pos my) ltac:(lia)) as DM. fold q in DM.
      pose proof (location_quarter (n mod Z.pos my) (Z.pos my) (Z.mod_pos_bound n (Z.pos my) ltac:(lia))) as LQ. cbv zeta in LQ. fold l in LQ.
      rewrite E in DM. lia. }
    destruct (4 * q + quarter l) as [|m|m] eqn:M; [lia| |lia]. symmetry in M.
    assert (F : e <= exponent prec emax (Zdigits2 q + e) /\
      exponent prec emax (Z.pos (digits2_pos m) + (e - 2)) = exponent prec emax (Zdigits2 q + e)).
    { assert (EE : e <= exponent prec emax D) by (unfold e; lia).
      destruct q as [|p|p]; [| |lia].
      - specialize (DZ eq_refl). assert (e <= 3 - emax - prec) by (unfold exponent in EE; lia).
        assert (Z.pos (digits2_pos m) <= 2).
        { apply digits_le; [lia|]. pose proof (quarter_range l). change (2 ^ 2) with 4. lia. }
        cbn [Zdigits2]. unfold exponent. lia.
      - rewrite (quarter_digits p m l M). cbn [Zdigits2] in *. specialize (DP ltac:(lia)).
        unfold exponent in *. split; [lia|]. f_equal. lia. }
    destruct F as [F1 F2].
    rewrite (aux_location (xorb sx sy) q l e m Q M F2 F1) in *.
    split; [now apply round_is_valid|]. split; [exact N|]. intros v Vv Nv.
    destruct (binary_round_is prec emax prec_big (xorb sx sy) m (e - 2)) as [R B]. cbv zeta in R, B. rewrite F2 in R, B.
    set (f := exponent prec emax (Zdigits2 q + e)) in *. rewrite R in N |- *.
    rewrite (pack_value prec emax prec_big (xorb sx sy) _ _ (proj1 B) N).
    set (T := to_multiple (Z.pos m) (e - 2) f) in *.
    assert (X : (q_of (S754_finite sx mx ex) / q_of (S754_finite sy my ey) ==
                 sign (xorb sx sy) * (inject_Z n / inject_Z (Z.pos my) * two e))%Q).
    { rewrite !q_finite. unfold n. rewrite <- (scaled mx ex my ey e Le).
      assert (0 < inject_Z (Z.pos my) * two ey)%Q by (apply Qmult_lt_0_compat; [reflexivity|apply two_pos]).
      pose proof (two_pos ey). assert (0 < inject_Z (Z.pos my))%Q by reflexivity.
      destruct sx, sy; cbn [sign xorb]; field; split; lra. }
    rewrite X. apply grid_best; try assumption.
    - assert (0 < inject_Z n)%Q by (change 0%Q with (inject_Z 0); now apply inj_lt).
      apply Qmult_lt_0_compat; [|apply two_pos]. apply Qlt_shift_div_l; [reflexivity|]. lra.
    - intros k. apply grid_of_integers; [lia|exact F1|].
      apply same_side; [lia|]. fold q l. rewrite <- M.
      pose proof (nearest_best (Z.pos m) (f - (e - 2)) k ltac:(lia)) as NB.
      assert (T = nearest (Z.pos m) (f - (e - 2))) as TE.
      { unfold T, to_multiple. destruct (Z.leb_spec f (e - 2)); [lia|reflexivity]. }
      rewrite <- TE in NB. replace (f - (e - 2)) with ((f - e) + 2) in NB by lia.
      rewrite Z.pow_add_r in NB by lia. change (2 ^ 2) with 4 in NB.
      replace (4 * (T * 2 ^ (f - e))) with (T * (2 ^ (f - e) * 4)) by ring.
      replace (4 * (k * 2 ^ (f - e))) with (k * (2 ^ (f - e) * 4)) by ring. exact NB.
    - unfold f, exponent. lia.
    - destruct (Z.eq_dec f (3 - emax - prec)) as [E|E]; [now left|right].
      assert (FE : f = Zdigits2 q + e - prec) by (unfold f, exponent in *; lia).
      destruct q as [|p|p] eqn:Eq; [|clear Q|lia].
      { exfalso. specialize (DZ eq_refl). cbn [Zdigits2] in FE.
        assert (e <= exponent prec emax D) by (unfold e; lia). unfold exponent in *. lia. }
      cbn [Zdigits2] in FE. rewrite two_nat by lia. rewrite <- two_add.
      replace (prec - 1 + f) with ((Z.pos (digits2_pos p) - 1) + e) by lia. rewrite two_add.
      apply Qmult_le_compat_r; [|apply Qlt_le_weak, two_pos].
      apply Qle_shift_div_l; [reflexivity|]. rewrite <- two_nat by lia. rewrite <- inject_Z_mult. apply inj_le.
      pose proof (digits_bounds p) as [L _].
      pose proof (Z.div_mod n (Z.pos my) ltac:(lia)) as DM. pose proof (Z.mod_pos_bound n (Z.pos my) ltac:(lia)).
      fold q in DM. rewrite Eq in DM. nia.
  Qed.

  Lemma op_best : forall o x y, valid_binary prec emax x = true -> valid_binary prec emax y = true ->
    is_number x -> is_number y -> (o = FDiv -> ~ (q_of y == 0)%Q) -> is_number (fbinary prec emax o x y) ->
    best prec emax (fexact o (q_of x) (q_of y)) (fbinary prec emax o x y).
  Proof.
    intros [] x y Vx Vy Nx Ny Y0 N; cbn [fbinary fexact] in *.
    - now apply add_best. - now apply sub_best. - now apply mul_best. - apply div_best; auto.
  Qed.
End Best.

Lemma float_is_q : forall f v, float_is f v -> is_number f /\ (q_of f == inject_Z v)%Q.
Proof.
  intros [s|s| |s m e] v H; cbn [float_is] in H; try contradiction.
  - subst v. split; [exact I|reflexivity].
  - split; [exact I|]. cbn [q_of].
    assert (E : (inject_Z (if s then Z.neg m else Z.pos m) * two (Z.max e 0) == inject_Z v * two (Z.max (- e) 0))%Q).
    { rewrite <- !two_nat by lia. rewrite <- !inject_Z_mult. replace (if s then Z.neg m else Z.pos m) with (if s then - Z.pos m else Z.pos m) by (now destruct s).
      rewrite H. reflexivity. }
    assert (F : (two (Z.max e 0) == two e * two (Z.max (- e) 0))%Q) by (rewrite <- two_add; replace (e + Z.max (- e) 0) with (Z.max e 0) by lia; reflexivity).
    rewrite F in E. pose proof (two_pos (Z.max (- e) 0)) as P. rewrite Qmult_assoc in E.
    apply Qmult_inj_r in E; [exact E|lra].
Qed.

Lemma int_valid : forall prec emax z, 1 < prec -> valid_binary prec emax (binary_normalize prec emax z 0 false) = true.
Proof. intros prec emax [|p|p] H; [reflexivity| |]; cbn [binary_normalize]; now apply round_is_valid. Qed.

Lemma best_congr : forall prec emax z z' r, (z == z')%Q -> best prec emax z r -> best prec emax z' r.
Proof. intros prec emax. exact (best_eq prec emax). Qed.

Lemma fexact_congr : forall o x y y', (y == y')%Q -> (fexact o x y == fexact o x y')%Q.
Proof. intros [] x y y' E; cbn [fexact]; rewrite E; reflexivity. Qed.

Lemma double_best : forall o x y r, double x -> is_number x -> exact_operand 53 y ->
  (o = FDiv -> ~ (number_of y == 0)%Q) -> fcompute CF64 o x y = Some r -> is_number r ->
  best 53 1024 (fexact o (q_of x) (number_of y)) r.
Proof.
  intros o x y r Dx Nx Y Y0 E N.
  assert (G : forall g, double g -> is_number g -> (q_of g == number_of y)%Q -> r = fbinary 53 1024 o x g ->
              best 53 1024 (fexact o (q_of x) (number_of y)) r).
  { intros g Dg Ng Q ->. apply best_congr with (fexact o (q_of x) (q_of g)); [now apply fexact_congr|].
    apply op_best; try assumption; try lia. intros O. rewrite Q. now apply Y0. }
  destruct y as [z|g|g]; cbn [fcompute exact_operand number_of] in *; injection E as <-.
  - destruct (float_is_q _ _ (small_exact 53 1024 z ltac:(lia) ltac:(lia) Y)) as [Nf Q].
    refine (G _ _ Nf Q eq_refl). apply int_valid. lia.
  - destruct Y as [S Ng]. destruct (f64_of_f32_exact g S) as (D & Q & _). destruct (Q Ng) as [N' Q'].
    exact (G _ D N' Q' eq_refl).
  - destruct Y as (_ & D & Ng). apply (G g D Ng); reflexivity.
Qed.

Lemma single_best : forall o x y r, single x -> is_number x -> exact_operand 24 y ->
  (o = FDiv -> ~ (number_of y == 0)%Q) -> fcompute CF32 o x y = Some r -> is_number r ->
  best 24 128 (fexact o (q_of x) (number_of y)) r.
Proof.
  intros o x y r Dx Nx Y Y0 E N.
  assert (G : forall g, single g -> is_number g -> (q_of g == number_of y)%Q -> r = fbinary 24 128 o x g ->
              best 24 128 (fexact o (q_of x) (number_of y)) r).
  { intros g Dg Ng Q ->. apply best_congr with (fexact o (q_of x) (q_of g)); [now apply fexact_congr|].
    apply op_best; try assumption; try lia. intros O. rewrite Q. now apply Y0. }
  destruct y as [z|g|g]; cbn [fcompute exact_operand number_of] in *; [| |lia]; injection E as <-.
  - destruct (float_is_q _ _ (small_exact 24 128 z ltac:(lia) ltac:(lia) Y)) as [Nf Q].
    refine (G _ _ Nf Q eq_refl). apply int_valid. lia.
  - destruct Y as [S Ng]. apply (G g S Ng); reflexivity.
Qed.

Lemma f32_best : forall d, is_number d -> is_number (f32_of_f64 d) -> best 24 128 (q_of d) (f32_of_f64 d).
Proof.
  intros [s|s| |s m e] N R; try contradiction; cbn [f32_of_f64] in *.
  - apply best_self; [reflexivity|exact I|reflexivity].
  - split; [apply round_is_valid; lia|]. split; [exact R|]. intros v Vv Nv. apply round_best; try assumption. lia.
Qed.

Lemma single_double_best : forall o x y r, single x -> is_number x -> double y -> is_number y ->
  (o = FDiv -> ~ (q_of y == 0)%Q) -> fcompute CF32 o x (NF64 y) = Some r -> is_number r ->
  exists d, best 53 1024 (fexact o (q_of x) (q_of y)) d /\ best 24 128 (q_of d) r.
Proof.
  intros o x y r Sx Nx Dy Ny Y0 E N. cbn [fcompute] in E. injection E as <-.
  destruct (f64_of_f32_exact x Sx) as (D & Q & _). destruct (Q Nx) as [N' Q'].
  set (d := fbinary 53 1024 o (f64_of_f32 x) y) in *.
  assert (Nd : is_number d) by (destruct d; cbn [f32_of_f64] in N; [exact I|destruct N|destruct N|exact I]).
  exists d. split; [|now apply f32_best].
  apply best_congr with (fexact o (q_of (f64_of_f32 x)) (q_of y)).
  - destruct o; cbn [fexact]; rewrite Q'; reflexivity.
  - apply op_best; try assumption; lia.
Qed.
