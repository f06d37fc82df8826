(** C89: the arithmetic operators of typed fields. *)
From Coq Require Import ZArith List Bool Lia Lqa Floats.SpecFloat QArith Qabs.
From Verif Require Import Base UuidModel AnyModel AnySpec HelperModel FlowModel FlowSpec FlowProofs FlowProps.
From Verif Require Import PaceSpec AnyCloseSpec ArithModel ArithSpec ArithProofs ArithFloat.
Import ListNotations.
Local Open Scope Z_scope.

(** * The value stored *)

(** The exact result is stored when it fits the type of the field, unless a negative
    operand meets an unsigned type. *)
Theorem C89_exact : forall o t u x y,
  in_type t x -> in_type u y -> same_signs t u x y -> meaningful o t x y -> in_type t (exact o x y) ->
  compute o t u x y = Ok (exact o x y).
Proof. exact exact_stored. Qed.

Example C89_exact_example :
  compute OMul TI16 TI8 (-300) 100 = Ok (-30000) /\ compute ORem TU64 TU8 (2 ^ 64 - 1) 10 = Ok 5 /\
  compute OShr TI8 TU16 (-5) 1 = Ok (-3) /\
  (in_type TI16 (-300) /\ in_type TI8 100 /\ same_signs TI16 TI8 (-300) 100 /\ in_type TI16 (exact OMul (-300) 100)).
Proof. vm_compute. intuition discriminate. Qed.

(** Otherwise sums, products, bit operations and left shifts keep as many low bits of
    the exact result as the type has, whatever the types. *)
Theorem C89_wraps : forall o t u x y r,
  in_type t x -> modular o -> compute o t u x y = Ok r -> shown t (exact o x y) r.
Proof. exact wraps. Qed.

(** The value shown is unique. *)
Theorem C89_shown_unique : forall t z v w, shown t z v -> shown t z w -> v = w.
Proof. exact shown_unique. Qed.

Example C89_wraps_example :
  compute OMul TI8 TU32 (-3) 100 = Ok (-44) /\ compute OSub TU16 TI32 0 1 = Ok 65535 /\
  compute OShl TU8 TI32 255 4 = Ok 240 /\ compute OXor TU8 TI64 5 (-1) = Ok 250.
Proof. repeat split. Qed.

(** * Undefined results *)

(** Fields and operands of less than 32 bits: only division by zero, shifts and large
    products. *)
Theorem C89_undefined_small : forall o t u x y, small t -> small u -> in_type t x -> in_type u y ->
  compute o t u x y = UB <->
  match o with
  | ODiv | ORem => y = 0
  | OMul => x * y > 2147483647
  | OShl => ~ (0 <= y < 32) \/ x < 0 \/ x * 2 ^ y > 4294967295
  | OShr => ~ (0 <= y < 32)
  | _ => False
  end.
Proof. exact small_undefined. Qed.

(** UInt32 and UInt64 fields with unsigned operands: only division by zero and shifts
    by too much. *)
Theorem C89_undefined_unsigned : forall o t u x y,
  is_signed t = false -> is_signed u = false -> 32 <= bits t -> in_type t x -> in_type u y ->
  compute o t u x y = UB <->
  match o with
  | ODiv | ORem => y = 0
  | OShl | OShr => bits t <= y
  | _ => False
  end.
Proof. exact unsigned_undefined. Qed.

(** Int32 and Int64 fields with operands of a signed type not wider: also every result
    that does not fit. *)
Theorem C89_undefined_signed : forall o t u x y,
  is_signed t = true -> is_signed u = true -> 32 <= bits t -> bits u <= bits t -> in_type t x -> in_type u y ->
  compute o t u x y = UB <->
  match o with
  | OAdd | OSub | OMul => ~ in_type t (exact o x y)
  | ODiv | ORem => y = 0 \/ ~ in_type t (Z.quot x y)
  | OShl => ~ (0 <= y < bits t) \/ x < 0 \/ x * 2 ^ y >= 2 ^ bits t
  | OShr => ~ (0 <= y < bits t)
  | _ => False
  end.
Proof. exact signed_undefined. Qed.

Example C89_undefined_example :
  compute OAdd TI8 TI8 127 127 = Ok (-2) /\ compute OAdd TI32 TI32 2147483647 1 = UB /\
  compute OAdd TU32 TU32 4294967295 1 = Ok 0 /\ compute ODiv TI32 TI8 (-2147483648) (-1) = UB /\
  compute ORem TI64 TI32 (- 2 ^ 63) (-1) = UB /\ compute OShl TU64 TU8 1 64 = UB.
Proof. repeat split. Qed.

(** Two UInt16 values, whose product modulo 65536 is always representable, may have an
    undefined product. *)
Theorem C89_uint16_product_refuted : exists x y,
  in_type TU16 x /\ in_type TU16 y /\ compute OMul TU16 TU16 x y = UB.
Proof. exists 65535, 65535. vm_compute. intuition discriminate. Qed.

(** A negative value divided by an unsigned one is not the quotient, although that fits. *)
Theorem C89_mixed_signs_refuted : exists x y,
  in_type TI32 x /\ in_type TU32 y /\ meaningful ODiv TI32 x y /\ in_type TI32 (exact ODiv x y) /\
  exists r, compute ODiv TI32 TU32 x y = Ok r /\ r <> exact ODiv x y.
Proof.
  exists (-6), 2. split; [vm_compute; intuition discriminate|]. split; [vm_compute; intuition discriminate|].
  split; [discriminate|]. split; [vm_compute; intuition discriminate|].
  exists 2147483645. split; [reflexivity|discriminate].
Qed.

(** * Floating point *)

(** A Float64 field takes a double nearest to the exact result, when the operand is a
    float, a double or an integer below 2^53 and the result does not overflow. *)
Theorem C89_double : forall o x y r, double x -> is_number x -> exact_operand 53 y ->
  (o = FDiv -> ~ (number_of y == 0)%Q) -> fcompute CF64 o x y = Some r -> is_number r ->
  best 53 1024 (fexact o (q_of x) (number_of y)) r.
Proof. exact double_best. Qed.

(** A Float32 field does with operands that are floats or integers below 2^24. *)
Theorem C89_single : forall o x y r, single x -> is_number x -> exact_operand 24 y ->
  (o = FDiv -> ~ (number_of y == 0)%Q) -> fcompute CF32 o x y = Some r -> is_number r ->
  best 24 128 (fexact o (q_of x) (number_of y)) r.
Proof. exact single_best. Qed.

Example C89_double_example :
  let x := f64_of_int 1 in
  exists r, fcompute CF64 FDiv x (NInt 3) = Some r /\ double x /\ is_number x /\ exact_operand 53 (NInt 3) /\
    is_number r /\ r = S754_finite false 6004799503160661 (-54).
Proof. eexists. split; [reflexivity|]. vm_compute. tauto. Qed.

(** With a double operand it takes a float nearest to a double nearest to the result. *)
Theorem C89_single_double : forall o x y r, single x -> is_number x -> double y -> is_number y ->
  (o = FDiv -> ~ (q_of y == 0)%Q) -> fcompute CF32 o x (NF64 y) = Some r -> is_number r ->
  exists d, best 53 1024 (fexact o (q_of x) (q_of y)) d /\ best 24 128 (q_of d) r.
Proof. exact single_double_best. Qed.

(** Rounded twice, it may miss the nearest float. *)
Theorem C89_single_double_refuted : exists x y r,
  single x /\ is_number x /\ double y /\ is_number y /\
  fcompute CF32 FAdd x (NF64 y) = Some r /\ is_number r /\ ~ best 24 128 (q_of x + q_of y) r.
Proof.
  exists (f32_of_int 1), (S754_finite false (2 ^ 52 + 2 ^ 22) (-76)), (f32_of_int 1).
  split; [reflexivity|]. split; [exact I|]. split; [reflexivity|]. split; [exact I|]. split; [vm_compute; reflexivity|].
  split; [exact I|]. intros (_ & _ & H).
  specialize (H (S754_finite false (2 ^ 23 + 1) (-23)) eq_refl I).
  vm_compute in H. apply H. reflexivity.
Qed.

(** * Fields *)

(** A field takes the exact result, and hands it on to every field it feeds that is not
    forced (under the conditions of C40); nothing else changes. *)
Theorem C89_field_partial : forall n w i t u x y o ids,
  lc (leafs w i) = CInt t -> lval (leafs w i) = PInt x ->
  in_type t x -> in_type u y -> same_signs t u x y -> meaningful o t x y -> in_type t (exact o x y) ->
  kinds_agree w -> loop_free w i ->
  (forall j, reaches w i j -> In j ids /\ takes (leafs w j) (PInt (exact o x y))) -> (length ids <= n)%nat ->
  exists w', compound n w i o u y = (w', Ok tt) /\
    (forall j, reaches w i j -> ~ is_forced w j -> lval (leafs w' j) = PInt (exact o x y)) /\
    (forall j, is_forced w j -> leafs w' j = leafs w j) /\
    (forall j, ~ reaches w i j -> leafs w' j = leafs w j).
Proof.
  intros n w i t u x y o ids C V Hx Hy Hs Hm Hr K L A Hn.
  destruct (C40_assignment_propagates_partial n w i (PInt (exact o x y)) ids K L A Hn) as (w' & E & R).
  exists w'. split; [|exact R]. unfold compound. rewrite C, V, exact_stored by assumption. exact E.
Qed.

(** A forced field is not changed by an operator with a defined result, nor is any
    other. *)
Theorem C89_forced_partial : forall n w i o u y t x,
  is_forced w i -> lc (leafs w i) = CInt t -> lval (leafs w i) = PInt x ->
  compute o t u x y <> UB -> (0 < n)%nat ->
  compound n w i o u y = (w, Ok tt).
Proof.
  intros n w i o u y t x [F1 F2] C V D Hn. unfold compound. rewrite C, V.
  destruct n as [|n]; [lia|]. unfold compute in *.
  destruct (binary o t u x y) as [r|e|] eqn:B; simpl in D.
  - simpl. unfold assign. cbn [set_val]. now rewrite F1, F2.
  - exfalso. clear -B. unfold binary, shift_left, shift_right, result in B.
    destruct o; repeat match type of B with
      | (if ?b then _ else _) = _ => destruct b
      | bind (if ?b then _ else _) _ = _ => destruct b
      | bind _ _ = _ => simpl in B end; try discriminate B.
  - congruence.
Qed.

(** The operators compute even when the field is forced: a division by zero is undefined
    although its result would not be used. *)
Theorem C89_forced_refuted : exists n w i o u y,
  is_forced w i /\ (0 < n)%nat /\ snd (compound n w i o u y) = UB.
Proof.
  exists 5%nat, (freeze (ex_world [ex_leaf 1 true false []] []) 0), 0%nat, ODiv, TI32, 0.
  split; [split; reflexivity|]. split; [lia|reflexivity].
Qed.

(** A float field that is not forced takes the result and hands it on; one that is
    forced is not changed. *)
Theorem C89_float_field_partial : forall n w i x o y r ids,
  lval (leafs w i) = PFloat x -> fcompute (lc (leafs w i)) o x y = Some r ->
  kinds_agree w -> loop_free w i ->
  (forall j, reaches w i j -> In j ids /\ takes (leafs w j) (PFloat r)) -> (length ids <= n)%nat ->
  exists w', fcompound n w i o y = (w', Ok tt) /\
    (forall j, reaches w i j -> ~ is_forced w j -> lval (leafs w' j) = PFloat r) /\
    (forall j, is_forced w j -> leafs w' j = leafs w j) /\
    (forall j, ~ reaches w i j -> leafs w' j = leafs w j).
Proof.
  intros n w i x o y r ids V E K L A Hn.
  destruct (C40_assignment_propagates_partial n w i (PFloat r) ids K L A Hn) as (w' & A' & R).
  exists w'. split; [|exact R]. unfold fcompound. rewrite V, E. exact A'.
Qed.

(** ++ and --: the next value and the one before; past the end, types of less than 32
    bits and unsigned types go round, and for Int32 and Int64 it is undefined. *)
Theorem C89_increment : forall t x, in_type t x ->
  (x < snd (type_range t) -> compute OAdd t TI32 x 1 = Ok (x + 1)) /\
  (x = snd (type_range t) ->
   compute OAdd t TI32 x 1 = if is_signed t && (32 <=? bits t) then UB else Ok (fst (type_range t))).
Proof.
  intros t x H. split; intros E.
  - change (x + 1) with (exact OAdd x 1). apply exact_stored.
    + exact H.
    + vm_compute. intuition discriminate.
    + unfold same_signs. destruct (is_signed t) eqn:S; [now left|]. right. apply fits_range in H.
      unfold tmin in H. rewrite S in H. lia.
    + exact I.
    + unfold in_type, of_type in *. simpl exact. lia.
  - subst x. destruct t; reflexivity.
Qed.
Theorem C89_decrement : forall t x, in_type t x ->
  (fst (type_range t) < x -> compute OSub t TI32 x 1 = Ok (x - 1)) /\
  (x = fst (type_range t) ->
   compute OSub t TI32 x 1 = if is_signed t && (32 <=? bits t) then UB else Ok (snd (type_range t))).
Proof.
  intros t x H. split; intros E.
  - change (x - 1) with (exact OSub x 1). apply exact_stored.
    + exact H.
    + vm_compute. intuition discriminate.
    + unfold same_signs. destruct (is_signed t) eqn:S; [now left|]. right. apply fits_range in H.
      unfold tmin in H. rewrite S in H. lia.
    + exact I.
    + unfold in_type, of_type in *. simpl exact. lia.
  - subst x. destruct t; reflexivity.
Qed.

(** [++field] and [--field] are these. *)
Theorem C89_step : forall n w i t x r, lc (leafs w i) = CInt t -> lval (leafs w i) = PInt x ->
  (compute OAdd t TI32 x 1 = Ok r -> increment n w i = assign n w i (PInt r)) /\
  (compute OSub t TI32 x 1 = Ok r -> decrement n w i = assign n w i (PInt r)).
Proof.
  intros n w i t x r C V. unfold increment, decrement, compound. rewrite C, V. split; intros ->; reflexivity.
Qed.

(** An item of an array takes the exact result, and so does the item of the arrays the
    array is connected to. *)
Theorem C89_item_partial : forall w i k t u x y o,
  ac (arrs w i) = CInt t -> nth_error (avals (arrs w i)) k = Some (PInt x) ->
  in_type t x -> in_type u y -> same_signs t u x y -> meaningful o t x y -> in_type t (exact o x y) ->
  aconn (arrs w i) = true -> ~ In i (atargets (arrs w i)) ->
  kind_of (CInt t) (ak (arrs w i)) -> value_of (CInt t) (PInt (exact o x y)) ->
  (forall j, In j (atargets (arrs w i)) ->
     length (avals (arrs w j)) = length (avals (arrs w i)) /\ ak (arrs w j) = ak (arrs w i) /\
     kind_of (ac (arrs w j)) (ak (arrs w j)) /\ value_of (ac (arrs w j)) (PInt (exact o x y))) ->
  exists w', item_compound w i k o u y = (w', Ok tt) /\
    nth_error (avals (arrs w' i)) k = Some (PInt (exact o x y)) /\
    (forall j, In j (atargets (arrs w i)) -> nth_error (avals (arrs w' j)) k = Some (PInt (exact o x y))) /\
    (forall j, j <> i -> ~ In j (atargets (arrs w i)) -> arrs w' j = arrs w j).
Proof.
  intros w i k t u x y o C V Hx Hy Hs Hm Hr Cn Ni Ki Vi Ht. unfold item_compound.
  rewrite C, V, exact_stored by assumption.
  apply C40_array_item_partial; try assumption.
  - apply nth_error_Some. congruence.
  - now rewrite C.
  - now rewrite C.
Qed.

Example C89_field_example :
  let w := ex_world [ex_leaf 1 false true [1%nat]; ex_leaf 2 true false []] [] in
  exists w', compound 5 w 0 OSub TI8 10 = (w', Ok tt) /\
    lval (leafs w' 0) = PInt (-9) /\ lval (leafs w' 1) = PInt (-9) /\
    compound 5 (freeze w 1) 1 OMul TI8 10 = (freeze w 1, Ok tt) /\ is_forced (freeze w 1) 1 /\
    kinds_agree w /\ in_type TI32 (exact OSub 1 10).
Proof.
  eexists. split; [reflexivity|]. split; [reflexivity|]. split; [reflexivity|]. split; [reflexivity|].
  split; [split; reflexivity|]. split; [|vm_compute; intuition discriminate].
  intros [|[|[|x]]] y; cbn; try tauto; intros; repeat split; cbn; try destruct y as [|[|[|y]]]; tauto.
Qed.

Print Assumptions C89_field_partial.
