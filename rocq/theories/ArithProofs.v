(** Proofs about the arithmetic of typed fields. *)
From Coq Require Import ZArith List Bool Lia.
From Verif Require Import Base AnyModel AnySpec AnyProofs FlowModel ArithModel ArithSpec.
Local Open Scope Z_scope.

Ltac numbers :=
  repeat match goal with
  | H : context [tmin ?c] |- _ => let v := eval vm_compute in (tmin c) in change (tmin c) with v in H
  | |- context [tmin ?c] => let v := eval vm_compute in (tmin c) in change (tmin c) with v
  | H : context [tmax ?c] |- _ => let v := eval vm_compute in (tmax c) in change (tmax c) with v in H
  | |- context [tmax ?c] => let v := eval vm_compute in (tmax c) in change (tmax c) with v
  | H : context [bits ?c] |- _ => let v := eval vm_compute in (bits c) in change (bits c) with v in H
  | |- context [bits ?c] => let v := eval vm_compute in (bits c) in change (bits c) with v
  end.

Lemma fits_range : forall t z, in_type t z <-> tmin t <= z <= tmax t.
Proof. intros t z. unfold in_type, of_type. now rewrite <- tmin_range, <- tmax_range. Qed.

Lemma cast_fits : forall t z, in_type t (cast t z).
Proof. intros t z. exact (cast_of_type t z). Qed.

Lemma fits_cast : forall t z, in_type t z -> cast t z = z.
Proof. intros t z H. apply cast_id. exact H. Qed.

Lemma common_bits : forall t u, bits t <= bits (common t u) /\ bits u <= bits (common t u).
Proof. intros t u; destruct t, u; vm_compute; split; discriminate. Qed.

Lemma common_fits : forall t u x y, in_type t x -> in_type u y -> same_signs t u x y ->
  in_type (common t u) x /\ in_type (common t u) y.
Proof.
  intros t u x y Hx Hy Hs. rewrite ?fits_range in *. unfold same_signs in *.
  destruct t, u; cbn [is_signed] in Hs; numbers; (destruct Hs as [Hs|Hs]; [try discriminate Hs|]; clear -Hx Hy Hs; lia).
Qed.

Lemma common_signed : forall t u z, is_signed (common t u) = true -> in_type t z -> in_type (common t u) z.
Proof.
  intros t u z Hs H. rewrite ?fits_range in *.
  destruct t, u; vm_compute in Hs; try discriminate Hs; numbers; lia.
Qed.

Lemma promote_fits : forall t z, in_type t z -> in_type (promote t) z.
Proof. intros t z H. rewrite ?fits_range in *. destruct t; cbn [promote]; numbers; lia. Qed.

Lemma bits_pos : forall t, 0 < bits t.
Proof. destruct t; reflexivity. Qed.

Lemma cast_mod : forall t z, exists k, z - cast t z = k * 2 ^ bits t.
Proof.
  intros t z. unfold cast. exists ((z - tmin t) / 2 ^ bits t).
  pose proof (Z.pow_pos_nonneg 2 (bits t) ltac:(lia) ltac:(pose proof (bits_pos t); lia)).
  pose proof (Z.div_mod (z - tmin t) (2 ^ bits t) ltac:(lia)). lia.
Qed.

Lemma cast_shown : forall t z, shown t z (cast t z).
Proof. intros t z. split; [apply cast_fits|apply cast_mod]. Qed.

Lemma cast_eq : forall t a b k, a - b = k * 2 ^ bits t -> cast t a = cast t b.
Proof.
  intros t a b k H. unfold cast. replace (a - tmin t) with (b - tmin t + k * 2 ^ bits t) by lia.
  now rewrite Z_mod_plus_full.
Qed.

Lemma range_size : forall t, tmax t - tmin t + 1 = 2 ^ bits t.
Proof. destruct t; reflexivity. Qed.

Lemma shown_unique : forall t z v w, shown t z v -> shown t z w -> v = w.
Proof.
  intros t z v w [Hv [k Ek]] [Hw [l El]]. rewrite ?fits_range in *. pose proof (range_size t).
  assert (v - w = (l - k) * 2 ^ bits t) by lia.
  set (p := 2 ^ bits t) in *. clearbody p.
  assert (l = k) by nia. subst. lia.
Qed.

Lemma wider_multiple : forall t c k, bits t <= bits c -> exists m, k * 2 ^ bits c = m * 2 ^ bits t.
Proof.
  intros t c k H. exists (k * 2 ^ (bits c - bits t)).
  rewrite <- Z.mul_assoc, <- Z.pow_add_r by (pose proof (bits_pos t); lia). do 2 f_equal. lia.
Qed.

Lemma cast_cast : forall t c z, bits t <= bits c -> cast t (cast c z) = cast t z.
Proof.
  intros t c z H. destruct (cast_mod c z) as [k E]. destruct (wider_multiple t c k H) as [m M].
  apply (cast_eq t _ _ (- m)). lia.
Qed.

(** * Bits modulo a power of two *)

Lemma mod_bits : forall n a b, 0 <= n -> (exists k, a - b = k * 2 ^ n) <->
  (forall i, 0 <= i < n -> Z.testbit a i = Z.testbit b i).
Proof.
  intros n a b Hn. pose proof (Z.pow_pos_nonneg 2 n ltac:(lia) Hn) as P. split.
  - intros [k E] i Hi. rewrite <- (Z.mod_pow2_bits_low a n i) by lia. rewrite <- (Z.mod_pow2_bits_low b n i) by lia.
    replace a with (b + k * 2 ^ n) by lia. now rewrite Z_mod_plus_full.
  - intros H. assert (E : a mod 2 ^ n = b mod 2 ^ n).
    { apply Z.bits_inj'. intros i Hi. destruct (Z.lt_ge_cases i n).
      - rewrite !Z.mod_pow2_bits_low by lia. apply H. lia.
      - now rewrite !Z.mod_pow2_bits_high by lia. }
    exists (a / 2 ^ n - b / 2 ^ n).
    pose proof (Z.div_mod a (2 ^ n) ltac:(lia)). pose proof (Z.div_mod b (2 ^ n) ltac:(lia)). lia.
Qed.

Lemma bitwise_mod : forall (f : Z -> Z -> Z) g,
  (forall a b i, Z.testbit (f a b) i = g (Z.testbit a i) (Z.testbit b i)) ->
  forall n a a' b b' k l, 0 <= n -> a - a' = k * 2 ^ n -> b - b' = l * 2 ^ n ->
  exists m, f a b - f a' b' = m * 2 ^ n.
Proof.
  intros f g F n a a' b b' k l Hn Ha Hb. apply mod_bits; [exact Hn|]. intros i Hi. rewrite !F. f_equal.
  - apply (proj1 (mod_bits n a a' Hn)); eauto.
  - apply (proj1 (mod_bits n b b' Hn)); eauto.
Qed.

(** * The operators *)

Lemma result_ok : forall c z r, result c z = Ok r -> r = cast c z.
Proof.
  intros c z r H. unfold result in H. destruct (is_signed c).
  - destruct (_ && _) eqn:E; [|discriminate H]. injection H as <-. symmetry. apply fits_cast.
    apply fits_range. apply andb_true_iff in E as [E1 E2]. split; now apply Z.leb_le.
  - now injection H as <-.
Qed.

Lemma result_exact : forall c z, (is_signed c = true -> in_type c z) -> result c z = Ok (cast c z).
Proof.
  intros c z H. unfold result. destruct (is_signed c); [|reflexivity].
  destruct (proj1 (fits_range _ _) (H eq_refl)) as [A B]. rewrite (proj2 (Z.leb_le _ _) A), (proj2 (Z.leb_le _ _) B). simpl.
  rewrite fits_cast; [reflexivity|]. apply fits_range. now split.
Qed.

Lemma result_ub : forall c z, result c z = UB <-> is_signed c = true /\ ~ in_type c z.
Proof.
  intros c z. rewrite fits_range. unfold result. destruct (is_signed c).
  - destruct (_ && _) eqn:E.
    + apply andb_true_iff in E as [E1%Z.leb_le E2%Z.leb_le]. split; [discriminate|]. intros [_ H]. lia.
    + split; [|reflexivity]. intros _. split; [reflexivity|]. intros [A%Z.leb_le B%Z.leb_le].
      rewrite A, B in E. discriminate E.
  - split; [discriminate|]. intros [H _]. discriminate H.
Qed.

Lemma compute_result : forall o t u x y z,
  binary o t u x y = result (common t u) z -> is_signed (common t u) = false \/ in_type (common t u) z ->
  compute o t u x y = Ok (cast t z).
Proof.
  intros o t u x y z E H. unfold compute. rewrite E, result_exact.
  - simpl. now rewrite cast_cast by apply common_bits.
  - intros S. destruct H as [H|H]; [congruence|exact H].
Qed.

Lemma shift_bits_promote : forall t, shift_bits t = bits (promote t).
Proof. destruct t; reflexivity. Qed.

Lemma exact_stored : forall o t u x y,
  in_type t x -> in_type u y -> same_signs t u x y -> meaningful o t x y -> in_type t (exact o x y) ->
  compute o t u x y = Ok (exact o x y).
Proof.
  intros o t u x y Hx Hy Hs Hm Hr. destruct (common_fits t u x y Hx Hy Hs) as [Cx Cy].
  assert (D : is_signed (common t u) = false \/ in_type (common t u) (exact o x y)).
  { destruct (is_signed (common t u)) eqn:S; [right|now left]. now apply common_signed. }
  rewrite <- (fits_cast t _ Hr).
  destruct o; cbn [exact meaningful] in *;
    try (apply compute_result; [|exact D]; unfold binary; rewrite !fits_cast by assumption; reflexivity);
    try (unfold compute, binary; rewrite !(fits_cast (common t u)) by assumption; reflexivity).
  - apply compute_result; [|exact D]. unfold binary. rewrite !fits_cast by assumption.
    now rewrite (proj2 (Z.eqb_neq _ _) Hm).
  - destruct Hm as [Hm Hn]. unfold compute, binary. rewrite !(fits_cast (common t u)) by assumption.
    rewrite (proj2 (Z.eqb_neq _ _) Hm). rewrite result_exact; [reflexivity|]. intros S.
    destruct (Z.eq_dec y (-1)) as [->|Ny].
    + destruct (Z_lt_ge_dec (bits t) 32).
      * rewrite ?fits_range in *. change (-1) with (- (1)). rewrite (Z.quot_opp_r x 1), Z.quot_1_r by lia.
        destruct t, u; vm_compute in S; try discriminate S; numbers; lia.
      * rewrite <- tmin_range in Hn. assert (Nx : x <> tmin t) by (intros E; exact (Hn ltac:(lia) E eq_refl)).
        rewrite ?fits_range in *. change (-1) with (- (1)). rewrite (Z.quot_opp_r x 1), Z.quot_1_r by lia.
        destruct t, u; vm_compute in S; try discriminate S; numbers; lia.
    + assert (Q : Z.abs (Z.quot x y) <= Z.abs x).
      { rewrite <- Z.quot_abs by exact Hm. apply Z.quot_le_upper_bound; nia. }
      destruct (Z.eq_dec x (tmin t)) as [Ex|Nx].
      * assert (Z.abs (Z.quot x y) < Z.abs x \/ y = 1 \/ x = 0).
        { destruct (Z.eq_dec y 1); [tauto|]. destruct (Z.eq_dec x 0); [tauto|]. left.
          rewrite <- Z.quot_abs by exact Hm. apply Z.quot_lt_upper_bound; nia. }
        destruct H as [H|[->| ->]]; [|rewrite Z.quot_1_r; exact Cx|rewrite Z.quot_0_l; [apply Cx|exact Hm]].
        rewrite ?fits_range in *. destruct t, u; vm_compute in S; try discriminate S; numbers; lia.
      * rewrite ?fits_range in *. destruct t, u; vm_compute in S; try discriminate S; numbers; lia.
  - destruct Hm as [Hy0 Hx0]. unfold compute, binary, shift_left. rewrite fits_cast by now apply promote_fits.
    rewrite shift_bits_promote in Hy0. rewrite (proj2 (Z.leb_le _ _) (proj1 Hy0)), (proj2 (Z.ltb_lt _ _) (proj2 Hy0)).
    cbn [andb]. assert (P : in_type (promote t) (x * 2 ^ y)) by now apply promote_fits.
    assert (B : bits t <= bits (promote t)) by (destruct t; vm_compute; discriminate).
    destruct (is_signed (promote t)) eqn:S.
    + assert (X0 : 0 <= x) by (destruct (is_signed t) eqn:St; [now apply Hx0|apply fits_range in Hx; unfold tmin in Hx; rewrite St in Hx; lia]).
      rewrite (proj2 (Z.leb_le _ _) X0).
      assert (T : x * 2 ^ y <= tmax (make_unsigned (promote t))).
      { rewrite ?fits_range in *. set (v := x * 2 ^ y) in *. clearbody v. destruct t; vm_compute in S; try discriminate S; cbn [promote make_unsigned] in *; numbers; lia. }
      rewrite (proj2 (Z.leb_le _ _) T). simpl. now rewrite cast_cast.
    + simpl. now rewrite cast_cast.
  - unfold compute, binary, shift_right. rewrite fits_cast by now apply promote_fits.
    rewrite shift_bits_promote in Hm. rewrite (proj2 (Z.leb_le _ _) (proj1 Hm)), (proj2 (Z.ltb_lt _ _) (proj2 Hm)).
    cbn [andb bind]. now rewrite Z.shiftr_div_pow2 by lia.
Qed.

Lemma wraps : forall o t u x y r, in_type t x -> modular o -> compute o t u x y = Ok r ->
  shown t (exact o x y) r.
Proof.
  intros o t u x y r Hx Hm H. unfold compute in H.
  destruct (binary o t u x y) as [z|e|] eqn:E; try discriminate H. injection H as <-.
  destruct (common_bits t u) as [Bt _].
  destruct (cast_mod (common t u) x) as [k K]. destruct (cast_mod (common t u) y) as [l L].
  assert (N : 0 <= bits (common t u)) by (pose proof (bits_pos (common t u)); lia).
  assert (G : forall v, z = cast (common t u) v -> (exists m, exact o x y - v = m * 2 ^ bits (common t u)) ->
              shown t (exact o x y) (cast t z)).
  { intros v -> [m M]. rewrite cast_cast by exact Bt. destruct (wider_multiple t _ m Bt) as [m' M'].
    rewrite <- (cast_eq t (exact o x y) v m') by lia. apply cast_shown. }
  assert (G' : (exists m, exact o x y - z = m * 2 ^ bits (common t u)) -> shown t (exact o x y) (cast t z)).
  { intros [m M]. destruct (wider_multiple t _ m Bt) as [m' M'].
    rewrite <- (cast_eq t (exact o x y) z m') by lia. apply cast_shown. }
  set (a := cast (common t u) x) in *. set (b := cast (common t u) y) in *.
  destruct o; cbn [binary exact modular] in *; try contradiction; fold a b in E.
  - apply result_ok in E. apply (G _ E). exists (k + l). lia.
  - apply result_ok in E. apply (G _ E). exists (k - l). lia.
  - apply result_ok in E. apply (G _ E). exists (k * y + a * l). nia.
  - injection E as <-. apply G'. apply (bitwise_mod Z.land andb Z.land_spec _ _ _ _ _ k l N K L).
  - injection E as <-. apply G'. apply (bitwise_mod Z.lor orb Z.lor_spec _ _ _ _ _ k l N K L).
  - injection E as <-. apply G'. apply (bitwise_mod Z.lxor xorb Z.lxor_spec _ _ _ _ _ k l N K L).
  - unfold shift_left in E. rewrite fits_cast in E by now apply promote_fits.
    assert (B : bits t <= bits (promote t)) by (destruct t; vm_compute; discriminate).
    assert (z = cast (promote t) (x * 2 ^ y)) as ->.
    { destruct (_ && _); [|discriminate E]. destruct (is_signed (promote t)).
      - destruct (_ && _); [|discriminate E]. now injection E.
      - now injection E. }
    rewrite cast_cast by exact B. apply cast_shown.
Qed.

(** * When the result is undefined *)

Lemma compute_ub : forall o t u x y, compute o t u x y = UB <-> binary o t u x y = UB.
Proof. intros. unfold compute. destruct (binary o t u x y); simpl; split; congruence. Qed.

Lemma shl_ub : forall t u x y, in_type t x ->
  compute OShl t u x y = UB <->
  ~ (0 <= y < shift_bits t) \/
  (is_signed (promote t) = true /\ (x < 0 \/ tmax (make_unsigned (promote t)) < x * 2 ^ y)).
Proof.
  intros t u x y Hx. rewrite compute_ub. unfold binary, shift_left.
  rewrite fits_cast by now apply promote_fits. rewrite shift_bits_promote.
  destruct (0 <=? y) eqn:A; destruct (y <? bits (promote t)) eqn:B; cbn [andb];
    try apply Z.leb_le in A; try apply Z.leb_gt in A; try apply Z.ltb_lt in B; try apply Z.ltb_ge in B.
  - destruct (is_signed (promote t)); [|split; [discriminate|lia]].
    destruct (0 <=? x) eqn:C; destruct (x * 2 ^ y <=? tmax (make_unsigned (promote t))) eqn:D; cbn [andb];
      try apply Z.leb_le in C; try apply Z.leb_gt in C; try apply Z.leb_le in D; try apply Z.leb_gt in D;
      (split; intros G; first [discriminate G|reflexivity|right; lia|lia]).
  - split; [lia|reflexivity].
  - split; [lia|reflexivity].
  - split; [lia|reflexivity].
Qed.

Lemma shr_ub : forall t u x y,
  compute OShr t u x y = UB <-> ~ (0 <= y < shift_bits t).
Proof.
  intros t u x y. rewrite compute_ub. unfold binary, shift_right. rewrite shift_bits_promote.
  destruct (0 <=? y) eqn:A; destruct (y <? bits (promote t)) eqn:B; cbn [andb];
    try apply Z.leb_le in A; try apply Z.leb_gt in A; try apply Z.ltb_lt in B; try apply Z.ltb_ge in B;
    split; try discriminate; try reflexivity; lia.
Qed.

(** The other operators when both operands keep their values. *)
Lemma other_ub : forall o t u x y, o <> OShl -> o <> OShr ->
  in_type (common t u) x -> in_type (common t u) y ->
  compute o t u x y = UB <->
  ((o = ODiv \/ o = ORem) /\ y = 0) \/
  (is_signed (common t u) = true /\ ~ in_type (common t u) (exact o x y) /\ overflowing o) \/
  (o = ORem /\ is_signed (common t u) = true /\ ~ in_type (common t u) (Z.quot x y)).
Proof.
  intros o t u x y Nl Nr Cx Cy. rewrite compute_ub. unfold binary. rewrite !fits_cast by assumption.
  destruct o; try congruence; cbn [exact overflowing].
  - rewrite result_ub. intuition congruence.
  - rewrite result_ub. intuition congruence.
  - rewrite result_ub. intuition congruence.
  - destruct (Z.eqb_spec y 0) as [->|N]; [intuition congruence|]. rewrite result_ub. intuition congruence.
  - destruct (Z.eqb_spec y 0) as [->|N]; [intuition congruence|].
    assert (E : bind (result (common t u) (x ÷ y)) (fun _ : Z => Ok (Z.rem x y)) = UB <-> result (common t u) (x ÷ y) = UB)
      by (destruct (result _ _); simpl; split; congruence).
    rewrite E, result_ub. intuition congruence.
  - intuition congruence.
  - intuition congruence.
  - intuition congruence.
Qed.

Lemma quot_fits_small : forall x y, -32768 <= x <= 65535 -> y <> 0 -> - 65536 <= Z.quot x y <= 65536.
Proof.
  intros x y Hx Hy.
  assert (Z.abs (Z.quot x y) <= Z.abs x); [|lia].
  rewrite <- Z.quot_abs by exact Hy. apply Z.quot_le_upper_bound; nia.
Qed.

Lemma small_common : forall t u, small t -> small u -> common t u = TI32 /\ promote t = TI32.
Proof. intros t u [->|[->|[->| ->]]] [->|[->|[->| ->]]]; split; reflexivity. Qed.

Lemma small_range : forall t z, small t -> in_type t z -> -32768 <= z <= 65535.
Proof. intros t z [->|[->|[->| ->]]] H; unfold in_type, of_type in H; cbn [type_range fst snd] in H; lia. Qed.

Lemma fits_i32 : forall z, in_type TI32 z <-> -2147483648 <= z <= 2147483647.
Proof. intros z. unfold in_type, of_type. reflexivity. Qed.

Lemma small_undefined : forall o t u x y, small t -> small u -> in_type t x -> in_type u y ->
  compute o t u x y = UB <->
  match o with
  | ODiv | ORem => y = 0
  | OMul => x * y > 2147483647
  | OShl => ~ (0 <= y < 32) \/ x < 0 \/ x * 2 ^ y > 4294967295
  | OShr => ~ (0 <= y < 32)
  | _ => False
  end.
Proof.
  intros o t u x y St Su Hx Hy. destruct (small_common t u St Su) as [Ec Ep].
  pose proof (small_range _ _ St Hx). pose proof (small_range _ _ Su Hy).
  assert (W : shift_bits t = 32) by (destruct St as [->|[->|[->| ->]]]; reflexivity).
  destruct (match o with OShl | OShr => true | _ => false end) eqn:Sh.
  - destruct o; try discriminate Sh.
    + rewrite shl_ub by exact Hx. rewrite Ep, W. cbn [is_signed make_unsigned].
      change (tmax TU32) with 4294967295. intuition lia.
    + rewrite shr_ub, W. reflexivity.
  - rewrite other_ub; [|now intros ->|now intros ->|rewrite Ec; apply fits_i32; lia|rewrite Ec; apply fits_i32; lia].
    rewrite Ec, !fits_i32. cbn [is_signed].
    destruct o; try discriminate Sh; cbn [exact overflowing]; split;
      try (intros [[[E|E] G]|[(_ & F & _)|(E & _ & F)]]; try discriminate E; try discriminate G; first [exact G | lia | nia]);
      try contradiction; try (intros G; left; split; [tauto|exact G]).
    + intros G. right. left. split; [reflexivity|]. split; [lia|exact I].
    + intros [[_ G]|[(_ & F & _)|(E & _)]]; [exact G| |discriminate E].
      destruct (Z.eq_dec y 0) as [Y|Y]; [exact Y|]. pose proof (quot_fits_small x y ltac:(lia) Y). lia.
    + intros [[_ G]|[(_ & _ & F)|(_ & _ & F)]]; [exact G|destruct F|].
      destruct (Z.eq_dec y 0) as [Y|Y]; [exact Y|]. pose proof (quot_fits_small x y ltac:(lia) Y). lia.
    + intros [[[E|E] _]|[(_ & _ & F)|(E & _)]]; try discriminate E. exact F.
    + intros [[[E|E] _]|[(_ & _ & F)|(E & _)]]; try discriminate E. exact F.
    + intros [[[E|E] _]|[(_ & _ & F)|(E & _)]]; try discriminate E. exact F.
Qed.

Lemma unsigned_undefined : forall o t u x y, is_signed t = false -> is_signed u = false -> 32 <= bits t ->
  in_type t x -> in_type u y ->
  compute o t u x y = UB <->
  match o with
  | ODiv | ORem => y = 0
  | OShl | OShr => bits t <= y
  | _ => False
  end.
Proof.
  intros o t u x y St Su Bt Hx Hy.
  assert (Cf : is_signed (common t u) = false /\ is_signed (promote t) = false /\ shift_bits t = bits t).
  { destruct t; try discriminate St; try (cbn in Bt; lia); destruct u; try discriminate Su; vm_compute; auto. }
  destruct Cf as (Cf & Pf & W).
  assert (Y0 : 0 <= y) by (apply fits_range in Hy; unfold tmin in Hy; rewrite Su in Hy; lia).
  destruct (common_fits t u x y Hx Hy) as [Cx Cy]; [left; congruence|].
  destruct (match o with OShl | OShr => true | _ => false end) eqn:Sh.
  - destruct o; try discriminate Sh.
    + rewrite shl_ub by exact Hx. rewrite Pf, W. split; [intros [G|[G _]]; [lia|discriminate G]|lia].
    + rewrite shr_ub, W. lia.
  - rewrite other_ub; [|now intros ->|now intros ->|exact Cx|exact Cy]. rewrite Cf.
    destruct o; try discriminate Sh; split; try contradiction; try (intros G; left; split; [tauto|exact G]);
      intros [[[E|E] G]|[(F & _)|(_ & F & _)]]; try discriminate E; try discriminate F; try exact G.
Qed.

Lemma signed_undefined : forall o t u x y, is_signed t = true -> is_signed u = true -> 32 <= bits t -> bits u <= bits t ->
  in_type t x -> in_type u y ->
  compute o t u x y = UB <->
  match o with
  | OAdd | OSub | OMul => ~ in_type t (exact o x y)
  | ODiv | ORem => y = 0 \/ ~ in_type t (Z.quot x y)
  | OShl => ~ (0 <= y < bits t) \/ x < 0 \/ x * 2 ^ y >= 2 ^ bits t
  | OShr => ~ (0 <= y < bits t)
  | _ => False
  end.
Proof.
  intros o t u x y St Su Bt Bu Hx Hy.
  assert (Cf : common t u = t /\ promote t = t /\ shift_bits t = bits t /\ tmax (make_unsigned t) = 2 ^ bits t - 1).
  { destruct t; try discriminate St; try (cbn in Bt; lia); destruct u; try discriminate Su; try (cbn in Bu; lia); vm_compute; auto. }
  destruct Cf as (Cf & Pf & W & Mx).
  destruct (common_fits t u x y Hx Hy) as [Cx Cy]; [left; congruence|].
  destruct (match o with OShl | OShr => true | _ => false end) eqn:Sh.
  - destruct o; try discriminate Sh.
    + rewrite shl_ub by exact Hx. rewrite Pf, W, St, Mx. intuition lia.
    + rewrite shr_ub, W. reflexivity.
  - rewrite other_ub; [|now intros ->|now intros ->|exact Cx|exact Cy]. rewrite Cf, St.
    destruct o; try discriminate Sh; cbn [exact overflowing]; intuition congruence.
Qed.
