(** C31 and C32: integers stored in and read from AnySimple, and its equality. *)
From Coq Require Import ZArith List Bool Lia Floats.SpecFloat.
From Verif Require Import Base Text UuidModel UuidProofs AnyModel AnySpec AnyProofs AnyFloat.
Import ListNotations.
Local Open Scope Z_scope.

(** C31: SetValue with an integer argument of any integral type [u] and any
    integral kind: the value is stored exactly, and stored whenever it is a
    value of the kind; otherwise InvalidAnyType is thrown. *)
Theorem C31_store : forall a u k t v,
  of_type u v -> kind_type k = Some t ->
  (of_type t v ->
     exists a', set_value a k (GInt u v) = (a', Ok tt) /\ holds a' k v) /\
  (~ of_type t v ->
     snd (set_value a k (GInt u v)) = Throw InvalidAnyType).
Proof.
  intros a u k t v Hu Hk. unfold set_value. simpl. split; intros Ht.
  - rewrite (set_int_ok u k t v) by assumption.
    eexists. split; [reflexivity|now split].
  - now rewrite (set_int_throw u k t v) by assumption.
Qed.

Example C31_store_ex :
  snd (set_value (any_new KNone) KI8 (GInt TU64 127)) = Ok tt /\
  snd (set_value (any_new KNone) KI8 (GInt TU64 128)) = Throw InvalidAnyType /\
  snd (set_value (any_new KNone) KU64 (GInt TI8 (-1))) = Throw InvalidAnyType /\
  fst (set_value (any_new KNone) KDuration (GInt TI16 (-5))) = Any KDuration (PInt (-5)).
Proof. vm_compute. repeat split. Qed.

(** C31: reading an object of an integral kind as an integral type. *)
Theorem C31_read : forall a k u t v,
  holds a k v -> kind_type k = Some u -> of_type u v ->
  (of_type t v -> get_int t a = Ok v) /\
  (~ of_type t v -> get_int t a = Throw InvalidAnyType).
Proof.
  intros a k u t v H Hk Hu. split; intros Ht.
  - eapply get_int_ok; eassumption.
  - eapply get_int_throw; eassumption.
Qed.

Example C31_read_ex :
  get_int TU8 (Any KDateTime (PInt 255)) = Ok 255 /\
  get_int TU8 (Any KDateTime (PInt 256)) = Throw InvalidAnyType /\
  get_int TI64 (Any KU64 (PInt 18446744073709551615)) = Throw InvalidAnyType.
Proof. vm_compute. repeat split. Qed.

(** An object of another kind cannot be read as an integer. *)
Theorem C31_read_other : forall a t,
  kind_type (atype a) = None -> get_int t a = Throw InvalidAnyType.
Proof. exact get_int_other. Qed.

(** An integer cannot be stored in a kind that is neither integral nor floating
    point. *)
Theorem C31_store_other : forall a u k v,
  k = KNone \/ k = KBool \/ k = KChar8 \/ k = KString8 ->
  snd (set_value a k (GInt u v)) = Throw InvalidAnyType.
Proof.
  intros a u k v [-> | [-> | [-> | ->]]]; unfold set_value; simpl;
    destruct u; reflexivity.
Qed.

(** Stored and read back, in one go and for every history of the object before
    that: whatever was done to the object, the value read is the value stored. *)
Theorem C31_round_trip : forall k0 l u k t v r,
  of_type u v -> kind_type k = Some t -> of_type t v ->
  let a := fst (set_value (any_run (any_new k0) l) k (GInt u v)) in
  (of_type r v -> get_int r a = Ok v) /\
  (~ of_type r v -> get_int r a = Throw InvalidAnyType).
Proof.
  intros k0 l u k t v r Hu Hk Ht a.
  destruct (C31_store (any_run (any_new k0) l) u k t v Hu Hk) as [S _].
  destruct (S Ht) as (a' & E & H). unfold a. rewrite E. simpl.
  now apply (C31_read a' k t r v).
Qed.

(** In every reachable object an integral kind holds a value of its type, so
    that the reading theorem applies to it. *)
Theorem C31_reachable : forall k0 l t,
  Forall op_ok l ->
  let a := any_run (any_new k0) l in
  kind_type (atype a) = Some t ->
  exists v, holds a (atype a) v /\ of_type t v.
Proof.
  intros k0 l t F a E. apply any_ok_int; [|exact E].
  apply any_run_ok; [apply new_ok|exact F].
Qed.

Example C31_reachable_ex :
  let l := [OSet KString8 (GStr (Some (codes "abc"))); OSet KU16 (GInt TI32 40000);
            OSet KI16 (GInt TI32 40000)] in
  Forall op_ok l /\ any_run (any_new KBool) l = Any KU16 (PInt 40000).
Proof.
  vm_compute. split; [|reflexivity].
  repeat constructor; vm_compute; intros X; discriminate X.
Qed.

(** A SetValue that throws keeps the kind of the object and its value, except
    that a string is lost: the object then holds the null string. *)
Theorem C31_failed_store : forall a k g e,
  snd (set_value a k g) = Throw e ->
  atype (fst (set_value a k g)) = atype a /\
  (atype a <> KString8 -> fst (set_value a k g) = a) /\
  (atype a = KString8 -> fst (set_value a k g) = Any KString8 (PStr None)).
Proof.
  intros [ka p] k g e. unfold set_value.
  destruct (set_payload k g); simpl; try discriminate. intros _.
  unfold release. simpl. destruct ka; simpl; repeat split; auto; try discriminate;
    intros X; try (exfalso; apply X; reflexivity); try discriminate X.
Qed.

Example C31_failed_store_loses_string :
  let a := fst (set_value (any_new KNone) KString8 (GStr (Some (codes "abc")))) in
  get_str a = Ok (Some (codes "abc")) /\
  snd (set_value a KU8 (GInt TU16 256)) = Throw InvalidAnyType /\
  get_str (fst (set_value a KU8 (GInt TU16 256))) = Ok None.
Proof. vm_compute. repeat split. Qed.

(** Integers stored in a floating point kind: a store that succeeds is exact. *)
Theorem C31_store_float32 : forall a u v f,
  of_type u v -> aval (fst (set_value a KF32 (GInt u v))) = PFloat f ->
  snd (set_value a KF32 (GInt u v)) = Ok tt -> float_is f v.
Proof.
  intros a u v f Hu. unfold set_value. simpl.
  assert (S : Z.abs v < 2 ^ 24 -> float_is (f32_of_int v) v).
  { intros B. apply (small_exact 24 128 v); lia. }
  assert (C : forall g, convert_float_int f32_of_int u v = Ok g -> float_is g v).
  { intros g. apply (convert_sound 24 128 u v g); [lia|lia|exact Hu]. }
  destruct u; simpl; unfold putf, chkf;
    try (intros E _; simpl in E; injection E as <-; apply S; unfold of_type in Hu;
         simpl in Hu; lia);
    destruct (convert_float_int _ _ _) as [g|x|]; simpl; intros E E2; try discriminate;
    injection E as <-; now apply C.
Qed.

Theorem C31_store_float64 : forall a u v f,
  of_type u v -> aval (fst (set_value a KF64 (GInt u v))) = PFloat f ->
  snd (set_value a KF64 (GInt u v)) = Ok tt -> float_is f v.
Proof.
  intros a u v f Hu. unfold set_value. simpl.
  assert (S : Z.abs v < 2 ^ 53 -> float_is (f64_of_int v) v).
  { intros B. apply (small_exact 53 1024 v); lia. }
  assert (C : forall g, convert_float_int f64_of_int u v = Ok g -> float_is g v).
  { intros g. apply (convert_sound 53 1024 u v g); [lia|lia|exact Hu]. }
  destruct u; simpl; unfold putf, chkf;
    try (intros E _; simpl in E; injection E as <-; apply S; unfold of_type in Hu;
         simpl in Hu; lia);
    destruct (convert_float_int _ _ _) as [g|x|]; simpl; intros E E2; try discriminate;
    injection E as <-; now apply C.
Qed.

(** ... and it succeeds whenever the integer has at most 24 (53) significant
    bits. *)
Theorem C31_store_float32_fits : forall a u v,
  of_type u v -> fits 24 v ->
  exists f, set_value a KF32 (GInt u v) = (Any KF32 (PFloat f), Ok tt) /\ float_is f v.
Proof.
  intros a u v Hu F. unfold set_value. simpl.
  assert (S : Z.abs v < 2 ^ 24 -> float_is (f32_of_int v) v).
  { intros B. apply (small_exact 24 128 v); lia. }
  destruct (convert_complete 24 128 u v) as (g & E & G); [lia|lia|lia|exact Hu|exact F|].
  change (of_int 24 128) with f32_of_int in E.
  destruct u; simpl; unfold putf, chkf;
    try (rewrite E; simpl; eexists; split; [reflexivity|exact G]);
    (eexists; split; [reflexivity|apply S; unfold of_type in Hu; simpl in Hu; lia]).
Qed.

Theorem C31_store_float64_fits : forall a u v,
  of_type u v -> fits 53 v ->
  exists f, set_value a KF64 (GInt u v) = (Any KF64 (PFloat f), Ok tt) /\ float_is f v.
Proof.
  intros a u v Hu F. unfold set_value. simpl.
  assert (S : Z.abs v < 2 ^ 53 -> float_is (f64_of_int v) v).
  { intros B. apply (small_exact 53 1024 v); lia. }
  destruct (convert_complete 53 1024 u v) as (g & E & G); [lia|lia|lia|exact Hu|exact F|].
  change (of_int 53 1024) with f64_of_int in E.
  destruct u; simpl; unfold putf, chkf;
    try (rewrite E; simpl; eexists; split; [reflexivity|exact G]);
    (eexists; split; [reflexivity|apply S; unfold of_type in Hu; simpl in Hu; lia]).
Qed.

Example C31_store_float_ex :
  fits 24 (2 ^ 40 + 2 ^ 30) /\
  snd (set_value (any_new KNone) KF32 (GInt TI64 (2 ^ 40 + 2 ^ 30))) = Ok tt /\
  snd (set_value (any_new KNone) KF32 (GInt TI32 16777217)) = Throw InvalidAnyType /\
  snd (set_value (any_new KNone) KF64 (GInt TI64 (2 ^ 53 + 1))) = Throw InvalidAnyType.
Proof.
  split; [exists 1025, 30; split; [lia|split; [lia|reflexivity]]|].
  vm_compute. repeat split.
Qed.

(** The largest integers are not: the conversion check converts the rounded
    value back to a type it no longer fits, which is undefined behaviour. *)
Theorem C31_store_float_overflow :
  snd (set_value (any_new KNone) KF32 (GInt TI32 2147483647)) = UB /\
  snd (set_value (any_new KNone) KF64 (GInt TI64 9223372036854775807)) = UB /\
  snd (set_value (any_new KNone) KF64 (GInt TU64 18446744073709551615)) = UB.
Proof. vm_compute. repeat split. Qed.

(** C32: on objects holding integers, characters or strings, equality is
    defined, and is equality of the values: an equivalence relation. *)
Theorem C32_equal_values_partial : forall a b,
  any_ok a -> any_ok b -> exact_kind (atype a) -> exact_kind (atype b) ->
  (same_value a b -> any_eq a b = Ok true) /\
  (~ same_value a b -> any_eq a b = Ok false).
Proof.
  intros a b Ha Hb (A1 & A2 & A3 & A4) (B1 & B2 & B3 & B4). unfold same_value.
  destruct (kind_type (atype a)) as [t|] eqn:Ka.
  - destruct (any_ok_int a t Ha Ka) as (v & Hv & Tv).
    destruct (kind_type (atype b)) as [u|] eqn:Kb.
    + destruct (any_ok_int b u Hb Kb) as (w & Hw & Tw).
      rewrite (any_eq_int a b t v u w) by assumption.
      destruct Hv as [_ ->], Hw as [_ ->]. split.
      * intros E. injection E as ->. now rewrite Z.eqb_refl.
      * intros N. f_equal. apply Z.eqb_neq. intros ->. now apply N.
    + split; [tauto|]. intros _. eapply any_eq_int_other; eassumption.
  - unfold any_ok in Ha. rewrite Ka in Ha.
    destruct (kind_type (atype b)) as [u|] eqn:Kb.
    + destruct (any_ok_int b u Hb Kb) as (w & [_ Hw] & Tw).
      split; [tauto|]. intros _.
      destruct a as [ka pa], b as [kb pb]. simpl in *. subst pb.
      unfold any_eq, get_char, get_str. simpl.
      destruct ka; try discriminate; try (exfalso; congruence).
      * destruct Ha as [c ->]. destruct kb; try discriminate; reflexivity.
      * destruct Ha as [c ->]. destruct kb; try discriminate; reflexivity.
    + unfold any_ok in Hb. rewrite Kb in Hb.
      destruct a as [ka pa], b as [kb pb]. simpl in *.
      unfold any_eq, get_char, get_str. simpl.
      destruct ka; try discriminate; try (exfalso; congruence);
        destruct kb; try discriminate; try (exfalso; congruence);
        destruct Ha as [x ->]; destruct Hb as [y ->]; simpl.
      * split.
        -- intros [_ E]. injection E as ->. now rewrite Z.eqb_refl.
        -- intros N. f_equal. apply Z.eqb_neq. intros ->. now apply N.
      * split; [intros [X _]; discriminate X|reflexivity].
      * split; [intros [X _]; discriminate X|reflexivity].
      * split.
        -- intros [_ E]. injection E as ->. destruct y as [s|]; [|reflexivity].
           f_equal. now apply list_eqb_eq.
        -- intros N. destruct x as [s|], y as [r|]; try reflexivity.
           ++ destruct (list_eqb s r) eqn:E; [|reflexivity].
              apply list_eqb_eq in E. subst. exfalso. now apply N.
           ++ exfalso. now apply N.
Qed.

Theorem C32_reflexive_partial : forall a,
  any_ok a -> exact_kind (atype a) -> any_eq a a = Ok true.
Proof.
  intros a H K. apply C32_equal_values_partial; auto.
  unfold same_value. destruct (kind_type (atype a)); auto.
Qed.

Theorem C32_symmetric_partial : forall a b,
  any_ok a -> any_ok b -> exact_kind (atype a) -> exact_kind (atype b) ->
  any_eq a b = any_eq b a.
Proof.
  intros a b Ha Hb Ka Kb.
  destruct (C32_equal_values_partial a b Ha Hb Ka Kb) as [P Q].
  destruct (C32_equal_values_partial b a Hb Ha Kb Ka) as [P' Q'].
  assert (S : same_value a b \/ ~ same_value a b).
  { destruct (any_eq a b) as [[|]|[]|] eqn:E.
    - left. unfold same_value in *.
      destruct (kind_type (atype a)) eqn:E1, (kind_type (atype b)) eqn:E2;
        try (specialize (Q (fun x => x)); discriminate Q).
      + unfold any_ok in Ha, Hb. rewrite E1 in Ha. rewrite E2 in Hb.
        destruct Ha as (v & Ha & _), Hb as (w & Hb & _). rewrite Ha, Hb in *.
        destruct (Z.eq_dec v w) as [->|N]; [reflexivity|].
        assert (NN : PInt v <> PInt w) by congruence. specialize (Q NN). discriminate Q.
      + destruct a as [ka pa], b as [kb pb]. simpl in *.
        unfold any_eq in E. simpl in E.
        unfold any_ok in Ha, Hb. simpl in Ha, Hb. rewrite E1 in Ha. rewrite E2 in Hb.
        destruct Ka as (A1 & A2 & A3 & A4), Kb as (B1 & B2 & B3 & B4). simpl in *.
        destruct ka; try discriminate; try (exfalso; congruence);
          destruct Ha as [x ->]; simpl in E;
          destruct kb; try discriminate; destruct Hb as [y ->]; simpl in E; try discriminate.
        * injection E as E. apply Z.eqb_eq in E. subst. auto.
        * split; [reflexivity|]. f_equal. destruct x, y; try discriminate; [|reflexivity].
          injection E as E. apply list_eqb_eq in E. congruence.
    - right. intros S. specialize (P S). discriminate P.
    - right. intros S. specialize (P S). discriminate P.
    - right. intros S. specialize (P S). discriminate P. }
  assert (Sym : forall x y, same_value x y -> same_value y x).
  { intros x y. unfold same_value.
    destruct (kind_type (atype x)), (kind_type (atype y)); try tauto; [auto|].
    intros [X Y]. auto. }
  destruct S as [S|S].
  - rewrite (P S), (P' (Sym _ _ S)). reflexivity.
  - rewrite (Q S). rewrite Q'; [reflexivity|]. intros X. apply S, Sym, X.
Qed.

Theorem C32_transitive_partial : forall a b c,
  any_ok a -> any_ok b -> any_ok c ->
  exact_kind (atype a) -> exact_kind (atype b) -> exact_kind (atype c) ->
  any_eq a b = Ok true -> any_eq b c = Ok true -> any_eq a c = Ok true.
Proof.
  intros a b c Ha Hb Hc Ka Kb Kc E1 E2.
  assert (Dec : forall x y, any_ok x -> any_ok y -> exact_kind (atype x) ->
            exact_kind (atype y) -> any_eq x y = Ok true -> same_value x y).
  { intros x y Hx Hy Kx Ky E.
    destruct (C32_equal_values_partial x y Hx Hy Kx Ky) as [P Q].
    unfold same_value in *.
    destruct (kind_type (atype x)) eqn:T1, (kind_type (atype y)) eqn:T2;
      try (rewrite E in Q; specialize (Q (fun x => x)); discriminate Q).
    - unfold any_ok in Hx, Hy. rewrite T1 in Hx. rewrite T2 in Hy.
      destruct Hx as (v & Hx & _), Hy as (w & Hy & _). rewrite Hx, Hy in *.
      destruct (Z.eq_dec v w) as [->|N]; [reflexivity|].
      assert (NN : PInt v <> PInt w) by congruence. specialize (Q NN). congruence.
    - destruct x as [kx px], y as [ky py]. simpl in *.
      unfold any_eq in E. simpl in E. unfold any_ok in Hx, Hy. simpl in Hx, Hy.
      rewrite T1 in Hx. rewrite T2 in Hy.
      destruct Kx as (A1 & A2 & A3 & A4), Ky as (B1 & B2 & B3 & B4). simpl in *.
      destruct kx; try discriminate; try (exfalso; congruence);
        destruct Hx as [u ->]; simpl in E;
        destruct ky; try discriminate; destruct Hy as [w ->]; simpl in E; try discriminate.
      + injection E as E. apply Z.eqb_eq in E. subst. auto.
      + split; [reflexivity|]. f_equal. destruct u, w; try discriminate; [|reflexivity].
        injection E as E. apply list_eqb_eq in E. congruence. }
  pose proof (Dec a b Ha Hb Ka Kb E1) as S1.
  pose proof (Dec b c Hb Hc Kb Kc E2) as S2.
  apply C32_equal_values_partial; auto.
  unfold same_value in *.
  destruct (kind_type (atype a)), (kind_type (atype b)), (kind_type (atype c)); try tauto.
  - congruence.
  - destruct S1, S2. split; congruence.
Qed.

Example C32_partial_ex :
  any_eq (Any KU8 (PInt 5)) (Any KDuration (PInt 5)) = Ok true /\
  any_eq (Any KI8 (PInt (-1))) (Any KU8 (PInt 255)) = Ok false /\
  any_eq (Any KString8 (PStr (Some (codes "a")))) (Any KString8 (PStr None)) = Ok false /\
  exact_kind KDuration /\ any_ok (Any KDuration (PInt 5)).
Proof.
  repeat split; try reflexivity; try discriminate.
  exists 5. split; [reflexivity|]. vm_compute. split; intros X; discriminate X.
Qed.

Definition nan64 := S754_nan.

(** Not reflexive: not-a-number. *)
Theorem C32_reflexive_refuted : exists a, any_ok a /\ any_eq a a = Ok false.
Proof.
  exists (Any KF64 (PFloat nan64)). split; [|reflexivity]. unfold any_ok. simpl. eauto.
Qed.

(** Not symmetric: None equals everything and nothing else equals None; a Bool
    is compared with an integer converted to Bool, an integer with a Bool never;
    a Float64 equals an integer, which does not equal it. *)
Theorem C32_symmetric_refuted :
  (exists a b, any_ok a /\ any_ok b /\ atype a = KNone /\
     any_eq a b = Ok true /\ any_eq b a = Ok false) /\
  (exists a b, any_ok a /\ any_ok b /\ atype a = KBool /\
     any_eq a b = Ok true /\ any_eq b a = Ok false) /\
  (exists a b, any_ok a /\ any_ok b /\ atype a = KF64 /\
     any_eq a b = Ok true /\ any_eq b a = Ok false).
Proof.
  assert (I : any_ok (Any KI32 (PInt 5))).
  { exists 5. split; [reflexivity|]. vm_compute. split; intros X; discriminate X. }
  repeat split.
  - exists (any_new KNone), (Any KI32 (PInt 5)). repeat split; exact I.
  - exists (Any KBool (PBool true)), (Any KI32 (PInt 5)).
    repeat split; [unfold any_ok; simpl; eauto|exact I].
  - exists (Any KF64 (PFloat (f64_of_int 5))), (Any KI32 (PInt 5)).
    repeat split; [unfold any_ok; simpl; eauto|exact I].
Qed.

(** Not transitive: two Float64 at a distance of at most 2^-52 are equal, so that
    a chain of small differences leads to values that are not. *)
Theorem C32_transitive_refuted :
  exists a b c, any_ok a /\ any_ok b /\ any_ok c /\
     atype a = KF64 /\ atype b = KF64 /\ atype c = KF64 /\
     any_eq a b = Ok true /\ any_eq b c = Ok true /\ any_eq a c = Ok false.
Proof.
  exists (Any KF64 (PFloat (S754_zero false))),
         (Any KF64 (PFloat eps64)),
         (Any KF64 (PFloat (S754_finite false (2 ^ 52) (-103)))).
  repeat split; unfold any_ok; simpl; eauto.
Qed.

(** Comparing can be undefined: a Float32 with the largest Int32. *)
Theorem C32_defined_refuted : exists a b,
  any_ok a /\ any_ok b /\ any_eq a b = UB.
Proof.
  exists (Any KF32 (PFloat (S754_zero false))), (Any KI32 (PInt 2147483647)).
  repeat split.
  - unfold any_ok. simpl. eauto.
  - exists 2147483647. split; [reflexivity|].
    vm_compute. split; intros X; discriminate X.
Qed.

(** operator!= is the negation of operator== wherever that is defined. *)
Theorem C32_different : forall a b r, any_eq a b = Ok r -> any_ne a b = Ok (negb r).
Proof. intros a b r E. unfold any_ne. now rewrite E. Qed.

Print Assumptions C31_round_trip.
Print Assumptions C31_store_float64_fits.
Print Assumptions C32_transitive_partial.
