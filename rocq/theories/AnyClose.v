(** When two floating point values are equal for AnySimple. *)
From Coq Require Import ZArith List Bool Lia Lqa Floats.SpecFloat QArith Qpower Qabs.
From Verif Require Import Base PaceModel PaceSpec AnyModel AnySpec AnyProofs AnyFloat AnyRound PaceFloat AnyCloseSpec.
Local Open Scope Z_scope.

Section Close.
  Variables prec emax : Z.
  Hypothesis prec_big : 1 < prec.
  Hypothesis emax_big : prec + 2 < emax.

  (** The epsilon of the format: 2^(1-prec). *)
  Definition epsilon : spec_float := S754_finite false (Z.to_pos (2 ^ (prec - 1))) (2 - 2 * prec).

  Lemma half_pos : 0 < 2 ^ (prec - 1). Proof. apply Z.pow_pos_nonneg; lia. Qed.
  Lemma full_half : 2 ^ prec = 2 * 2 ^ (prec - 1).
  Proof. replace prec with (Z.succ (prec - 1)) at 1 by lia. apply Z.pow_succ_r. lia. Qed.

  Lemma leb_pos : forall m e m' e', SFleb (S754_finite false m e) (S754_finite false m' e') = true <->
    e < e' \/ (e = e' /\ Z.pos m <= Z.pos m').
  Proof.
    intros m e m' e'. unfold SFleb, SFcompare. destruct (Z.compare_spec e e') as [E|E|E].
    - change (Pos.compare_cont Eq m m') with (Pos.compare m m'). destruct (Pos.compare_spec m m') as [H|H|H]; split; intros; try discriminate; try reflexivity; try lia.
    - split; auto.
    - split; [discriminate|lia].
  Qed.

  (** A packed value against epsilon. *)
  Lemma pack_leb : forall sx m e, 0 <= m <= 2 ^ prec -> 3 - emax - prec <= e ->
    SFleb (SFabs (pack prec emax sx m e)) epsilon = true <->
    m = 0 \/ e < 1 - 2 * prec \/ (e = 1 - 2 * prec) \/ (e = 2 - 2 * prec /\ m <= 2 ^ (prec - 1)).
  Proof.
    intros sx m e M E. pose proof half_pos as H. pose proof full_half as F. unfold pack.
    destruct (Z.eqb_spec m 0) as [->|N0]; [cbn; intuition|].
    destruct (Z.eqb_spec m (2 ^ prec)) as [->|N1].
    - destruct (Z.leb_spec (e + 1) (emax - prec)) as [L|L].
      + cbn [SFabs]. unfold epsilon. rewrite leb_pos. rewrite Z2Pos.id by lia. lia.
      + cbn [SFabs]. split; [discriminate|]. lia.
    - destruct (Z.leb_spec e (emax - prec)) as [L|L].
      + cbn [SFabs]. unfold epsilon. rewrite leb_pos. rewrite !Z2Pos.id by lia. lia.
      + cbn [SFabs]. split; [discriminate|]. lia.
  Qed.

  (** The bound on m * 2^e, in integers: m * 2^(e - k) <= 2^prec + 1 with k = 1 - 2 prec. *)
  Definition within (m e : Z) : Prop :=
    m * 2 ^ Z.max (e - (1 - 2 * prec)) 0 <= (2 ^ prec + 1) * 2 ^ Z.max (1 - 2 * prec - e) 0.

  Lemma pow_split : forall a b, 0 <= a -> 0 <= b -> 2 ^ (a + b) = 2 ^ a * 2 ^ b.
  Proof. intros. apply Z.pow_add_r; assumption. Qed.

  Lemma round_close : forall sx m e,
    SFleb (SFabs (binary_round prec emax sx m e)) epsilon = true <-> within (Z.pos m) e.
  Proof.
    intros sx m e. destruct (binary_round_is prec emax prec_big sx m e) as [-> B].
    set (d := Z.pos (digits2_pos m)) in *. set (f := exponent prec emax (d + e)) in *.
    pose proof half_pos as H. pose proof full_half as F. pose proof (digits_bounds m) as [L U]. fold d in L, U.
    assert (D0 : 0 < d) by (unfold d; lia).
    rewrite pack_leb; [|exact B|unfold f, exponent; lia]. unfold within.
    destruct (Z.lt_trichotomy (d + e) (2 - prec)) as [C|[C|C]].
    - split; [intros _|intros _; right; unfold f, exponent; lia].
      apply Z.le_trans with (2 ^ d * 2 ^ Z.max (e - (1 - 2 * prec)) 0).
      { apply Z.mul_le_mono_nonneg_r; [apply Z.pow_nonneg; lia|lia]. }
      rewrite <- pow_split by lia.
      apply Z.le_trans with (2 ^ (prec + Z.max (1 - 2 * prec - e) 0)).
      { apply Z.pow_le_mono_r; lia. }
      rewrite pow_split by lia. apply Z.mul_le_mono_nonneg_r; [apply Z.pow_nonneg; lia|lia].
    - assert (Ef : f = 2 - 2 * prec) by (unfold f, exponent; lia). clearbody f. subst f.
      unfold to_multiple in *. destruct (Z.leb_spec (2 - 2 * prec) e) as [Le|Le].
      + rewrite Z.max_l, Z.max_r by lia. change (2 ^ 0) with 1. rewrite Z.mul_1_r.
        replace (e - (1 - 2 * prec)) with (Z.succ (e - (2 - 2 * prec))) by lia. rewrite Z.pow_succ_r by lia.
        set (k := 2 ^ (e - (2 - 2 * prec))) in *.
        assert (P : 0 < k) by (apply Z.pow_pos_nonneg; lia). nia.
      + rewrite Z.max_r, Z.max_l by lia. change (2 ^ 0) with 1. rewrite Z.mul_1_r.
        set (n := 2 - 2 * prec - e) in *. replace (1 - 2 * prec - e) with (n - 1) by lia.
        assert (N : 0 < n) by lia.
        assert (P2 : 2 ^ n = 2 * 2 ^ (n - 1)) by (replace n with (Z.succ (n - 1)) at 1 by lia; apply Z.pow_succ_r; lia).
        assert (P : 0 < 2 ^ (n - 1)) by (apply Z.pow_pos_nonneg; lia).
        pose proof (Z.div_mod (Z.pos m) (2 ^ n) ltac:(lia)) as DM.
        pose proof (Z.mod_pos_bound (Z.pos m) (2 ^ n) ltac:(lia)) as MB.
        assert (Q : 2 ^ (prec - 1) <= Z.pos m / 2 ^ n).
        { apply Z.div_le_lower_bound; [lia|]. rewrite <- pow_split by lia. replace (n + (prec - 1)) with (d - 1) by lia. exact L. }
        assert (EV : Z.even (2 ^ (prec - 1)) = true).
        { rewrite Z.even_pow by lia. reflexivity. }
        unfold nearest in *. set (q := Z.pos m / 2 ^ n) in *. set (r := Z.pos m mod 2 ^ n) in *.
        assert (X : (q = 2 ^ (prec - 1) /\ 2 * r <= 2 ^ n) <-> Z.pos m <= (2 ^ prec + 1) * 2 ^ (n - 1)).
        { split.
          - intros [-> R]. rewrite DM, F. nia.
          - intros G. destruct (Z.eq_dec q (2 ^ (prec - 1))) as [E|E]; [|nia]. split; [exact E|]. nia. }
        rewrite <- X. clear X. destruct (Z.compare_spec (2 * r) (2 ^ n)) as [R|R|R].
        * destruct (Z.even q) eqn:Ev.
          -- split; [intros [?|[?|[?|?]]]; lia|]. lia.
          -- split; [intros [?|[?|[?|?]]]; lia|]. intros [Eq _]. rewrite Eq in Ev. congruence.
        * split; [intros [?|[?|[?|?]]]; lia|]. lia.
        * split; [intros [?|[?|[?|?]]]; lia|]. lia.
    - assert (Ef : f = d + e - prec) by (unfold f, exponent; lia).
      split; [|intros G; exfalso].
      + intros [Z|G]; [exfalso|lia]. unfold to_multiple in Z. destruct (Z.leb_spec f e) as [Le|Le].
        * assert (0 < 2 ^ (e - f)) by (apply Z.pow_pos_nonneg; lia). nia.
        * pose proof (nearest_bounds (Z.pos m) (f - e) ltac:(lia)) as [A _].
          assert (1 <= Z.pos m / 2 ^ (f - e)); [|lia]. apply Z.div_le_lower_bound; [apply Z.pow_pos_nonneg; lia|].
          rewrite Z.mul_1_r. apply Z.le_trans with (2 ^ (d - 1)); [|exact L]. apply Z.pow_le_mono_r; lia.
      + assert (G2 : 2 ^ (prec + 1 + Z.max (1 - 2 * prec - e) 0) <= 2 ^ (d - 1) * 2 ^ Z.max (e - (1 - 2 * prec)) 0).
        { rewrite <- pow_split by lia. apply Z.pow_le_mono_r; lia. }
        assert (P : 0 < 2 ^ Z.max (1 - 2 * prec - e) 0) by (apply Z.pow_pos_nonneg; lia).
        assert (P' : 0 < 2 ^ Z.max (e - (1 - 2 * prec)) 0) by (apply Z.pow_pos_nonneg; lia).
        rewrite !pow_split in G2 by lia. change (2 ^ 1) with 2 in G2.
        assert (1 < 2 ^ prec) by lia. nia.
  Qed.

  Lemma within_q : forall m e, within m e <-> (inject_Z m * two e <= two (1 - prec) * (1 + two (- prec)))%Q.
  Proof.
    intros m e. unfold within. set (a := Z.max (e - (1 - 2 * prec)) 0). set (b := Z.max (1 - 2 * prec - e) 0).
    assert (E : (two (1 - prec) * (1 + two (- prec)) == inject_Z (2 ^ prec + 1) * two (1 - 2 * prec))%Q).
    { rewrite inject_Z_plus, two_nat by lia. replace (1 - 2 * prec) with ((1 - prec) + - prec) by lia. rewrite two_add.
      setoid_replace ((two prec + inject_Z 1) * (two (1 - prec) * two (- prec)))%Q
        with (two (1 - prec) * (two prec * two (- prec)) + two (1 - prec) * two (- prec))%Q by (change (inject_Z 1) with 1%Q; ring).
      rewrite <- two_add. replace (prec + - prec) with 0 by lia. change (two 0) with 1%Q. ring. }
    rewrite E. rewrite Zle_Qle, !inject_Z_mult, !two_nat by (unfold a, b; lia).
    assert (K : (two a * two (1 - 2 * prec) == two b * two e)%Q).
    { rewrite <- !two_add. replace (a + (1 - 2 * prec)) with (b + e) by (unfold a, b; lia). reflexivity. }
    pose proof (two_pos a) as Pa. pose proof (two_pos b) as Pb. pose proof (two_pos (1 - 2 * prec)) as Pk.
    set (k := two (1 - 2 * prec)) in *. set (p := inject_Z (2 ^ prec + 1)) in *. set (x := inject_Z m) in *.
    split; intros G.
    - apply (Qmult_le_r _ _ (two b) Pb).
      setoid_replace (x * two e * two b)%Q with (x * (two b * two e))%Q by ring. rewrite <- K.
      setoid_replace (x * (two a * k))%Q with ((x * two a) * k)%Q by ring.
      setoid_replace (p * k * two b)%Q with ((p * two b) * k)%Q by ring. apply (Qmult_le_r _ _ k Pk). exact G.
    - apply (Qmult_le_r _ _ k Pk).
      setoid_replace (x * two a * k)%Q with (x * (two a * k))%Q by ring. rewrite K.
      setoid_replace (x * (two b * two e))%Q with ((x * two e) * two b)%Q by ring.
      setoid_replace (p * two b * k)%Q with ((p * k) * two b)%Q by ring. apply (Qmult_le_r _ _ (two b) Pb). exact G.
  Qed.

  (** Rounding a value of the format changes nothing. *)
  Lemma round_valid : forall sx m e, valid_binary prec emax (S754_finite sx m e) = true ->
    binary_round prec emax sx m e = S754_finite sx m e.
  Proof.
    intros sx m e V. cbn [valid_binary] in V. unfold bounded in V. apply andb_prop in V as [C L].
    unfold canonical_mantissa in C. apply Zeq_bool_eq in C. apply Z.leb_le in L.
    destruct (binary_round_is prec emax prec_big sx m e) as [-> _].
    change (exponent prec emax (Z.pos (digits2_pos m) + e)) with (fexp prec emax (Z.pos (digits2_pos m) + e)). rewrite C.
    unfold to_multiple. rewrite Z.leb_refl, Z.sub_diag, Z.mul_1_r. unfold pack.
    assert (D : Z.pos (digits2_pos m) <= prec) by (unfold fexp in C; lia).
    pose proof (digits_bounds m) as [_ U].
    assert (2 ^ Z.pos (digits2_pos m) <= 2 ^ prec) by (apply Z.pow_le_mono_r; lia).
    destruct (Z.eqb_spec (Z.pos m) 0); [lia|]. destruct (Z.eqb_spec (Z.pos m) (2 ^ prec)); [lia|].
    now rewrite (proj2 (Z.leb_le _ _) L).
  Qed.

  Lemma align_value : forall m e e', e' <= e -> Z.pos (fst (shl_align m e e')) = Z.pos m * 2 ^ (e - e').
  Proof.
    intros m e e' L. unfold shl_align. destruct (e' - e) as [|p|p] eqn:E; cbn [fst].
    - replace (e - e') with 0 by lia. lia.
    - lia.
    - rewrite shift_pos_val. do 2 f_equal. lia.
  Qed.

  Lemma align_q : forall s m e e', e' <= e ->
    (inject_Z (cond_Zopp s (Z.pos (fst (shl_align m e e')))) * two e' == q_of (S754_finite s m e))%Q.
  Proof.
    intros s m e e' L. rewrite align_value by exact L. cbn [q_of].
    replace (cond_Zopp s (Z.pos m * 2 ^ (e - e'))) with ((if s then Z.neg m else Z.pos m) * 2 ^ (e - e')) by (destruct s; cbn [cond_Zopp]; lia).
    rewrite inject_Z_mult, two_nat by lia. rewrite <- Qmult_assoc, <- two_add. replace (e - e' + e') with e by lia. reflexivity.
  Qed.

  Lemma normalize_close : forall m e,
    SFleb (SFabs (binary_normalize prec emax m e false)) (epsilon) = true <->
    (Qabs (inject_Z m * two e) <= two (1 - prec) * (1 + two (- prec)))%Q.
  Proof.
    intros m e. rewrite Qabs_Qmult. rewrite (Qabs_pos (two e)) by (apply Qlt_le_weak, two_pos).
    destruct m as [|m|m]; cbn [binary_normalize].
    - split; [intros _|reflexivity]. change (Qabs (inject_Z 0)) with 0%Q.
      pose proof (two_pos (1 - prec)). pose proof (two_pos (- prec)). nra.
    - rewrite round_close. change (Qabs (inject_Z (Z.pos m))) with (inject_Z (Z.pos m)). apply within_q.
    - rewrite round_close. change (Qabs (inject_Z (Z.neg m))) with (inject_Z (Z.pos m)). apply within_q.
  Qed.

  Lemma sub_close : forall x y, valid_binary prec emax x = true -> valid_binary prec emax y = true ->
    (SFleb (SFabs (SFsub prec emax x y)) epsilon = true <->
     is_number x /\ is_number y /\ (Qabs (q_of x - q_of y) <= two (1 - prec) * (1 + two (- prec)))%Q).
  Proof.
    intros x y Vx Vy.
    assert (Z0 : (Qabs (0 - 0) <= two (1 - prec) * (1 + two (- prec)))%Q).
    { change (Qabs (0 - 0)) with 0%Q. pose proof (two_pos (1 - prec)). pose proof (two_pos (- prec)). nra. }
    assert (O : forall s m e, valid_binary prec emax (S754_finite s m e) = true ->
      (SFleb (SFabs (S754_finite s m e)) epsilon = true <->
       (Qabs (q_of (S754_finite s m e)) <= two (1 - prec) * (1 + two (- prec)))%Q)).
    { intros s m e V. rewrite <- (round_valid s m e V). rewrite round_close, within_q, (round_valid s m e V).
      cbn [q_of]. rewrite Qabs_Qmult, (Qabs_pos (two e)) by (apply Qlt_le_weak, two_pos).
      now destruct s. }
    destruct x as [sx|sx| |sx mx ex], y as [sy|sy| |sy my ey]; cbn [SFsub is_number q_of];
      try (split; [intros E; discriminate E|intros (A & B & _); contradiction]; fail).
    - split; [intros _; auto|]. intros _. destruct (Bool.eqb _ _); reflexivity.
    - change (SFabs (S754_finite (negb sy) my ey)) with (SFabs (S754_finite sy my ey)). rewrite (O sy my ey Vy). cbn [q_of].
      setoid_replace (0 - inject_Z (if sy then Z.neg my else Z.pos my) * two ey)%Q with (- (inject_Z (if sy then Z.neg my else Z.pos my) * two ey))%Q by ring.
      rewrite Qabs_opp. tauto.
    - split; [|intros (A & _); destruct A]. destruct (Bool.eqb _ _); discriminate.
    - rewrite (O sx mx ex Vx). cbn [q_of].
      setoid_replace (inject_Z (if sx then Z.neg mx else Z.pos mx) * two ex - 0)%Q with (inject_Z (if sx then Z.neg mx else Z.pos mx) * two ex)%Q by ring. tauto.
    - rewrite normalize_close.
      assert (E : (inject_Z (cond_Zopp sx (Z.pos (fst (shl_align mx ex (Z.min ex ey)))) -
                   cond_Zopp sy (Z.pos (fst (shl_align my ey (Z.min ex ey))))) * two (Z.min ex ey) ==
                 q_of (S754_finite sx mx ex) - q_of (S754_finite sy my ey))%Q).
      { unfold Z.sub. rewrite inject_Z_plus, inject_Z_opp, Qmult_plus_distr_l.
        rewrite align_q by lia. setoid_replace (- inject_Z (cond_Zopp sy (Z.pos (fst (shl_align my ey (Z.min ex ey))))) * two (Z.min ex ey))%Q
          with (- (inject_Z (cond_Zopp sy (Z.pos (fst (shl_align my ey (Z.min ex ey))))) * two (Z.min ex ey)))%Q by ring.
        rewrite align_q by lia. reflexivity. }
      rewrite E. cbn [q_of]. tauto.
  Qed.
End Close.
