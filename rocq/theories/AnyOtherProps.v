(** Theorems about the booleans, characters, strings and floating point values of
    AnySimple: C80. *)
From Coq Require Import ZArith List Bool Lia Floats.SpecFloat.
From Verif Require Import Base Text AnyModel AnySpec AnyProofs AnyFloat.
From Verif Require PyProofs.
Import ListNotations.
Local Open Scope Z_scope.

(** A value that is not null: true, a number or a character other than zero, a string. *)
Definition not_null (p : payload) : Prop :=
  match p with
  | PBool b => b = true | PInt v => v <> 0 | PChar c => c <> 0
  | PStr s => s <> None | _ => False
  end.

(** C80: reading as a boolean tells whether the value is null, and throws for an empty object
    and for the floating point kinds. *)
Theorem C80_read_bool : forall a, any_ok a ->
  (atype a = KNone \/ atype a = KF32 \/ atype a = KF64 -> get_bool a = Throw InvalidAnyType) /\
  (atype a <> KNone -> atype a <> KF32 -> atype a <> KF64 ->
     exists b, get_bool a = Ok b /\ (b = true <-> not_null (aval a))).
Proof.
  intros [k p] H. unfold any_ok in H. cbn [atype aval] in *. split.
  - intros [->|[->| ->]]; reflexivity.
  - intros N1 N2 N3. assert (Q : forall v, (negb (v =? 0) = true <-> v <> 0)).
    { intros v. rewrite negb_true_iff. apply Z.eqb_neq. }
    destruct k; try congruence; cbn in H; try (destruct H as (v & -> & _); eexists; split; [reflexivity|apply Q]).
    all: destruct H as (x & ->); eexists; (split; [reflexivity|]); first [apply Q|exact (iff_refl _)|destruct x; cbn; split; congruence].
Qed.

(** C80: booleans, characters and strings are read back as they were stored, whatever was done
    to the object before, and are refused by every other kind. *)
Theorem C80_bool : forall a k b,
  (k = KBool -> set_value a k (GBool b) = (Any KBool (PBool b), Ok tt) /\ get_bool (fst (set_value a k (GBool b))) = Ok b) /\
  (k <> KBool -> snd (set_value a k (GBool b)) = Throw InvalidAnyType).
Proof. intros a k b. split; [intros ->; now split|]. intros N. destruct k; congruence || reflexivity. Qed.
Theorem C80_char : forall a k c,
  (k = KChar8 -> set_value a k (GChar c) = (Any KChar8 (PChar c), Ok tt) /\ get_char (fst (set_value a k (GChar c))) = Ok c) /\
  (k <> KChar8 -> snd (set_value a k (GChar c)) = Throw InvalidAnyType) /\
  (atype a <> KChar8 -> get_char a = Throw InvalidAnyType).
Proof.
  intros a k c. split; [intros ->; now split|]. split; [intros N; destruct k; congruence || reflexivity|].
  intros N. unfold get_char. destruct (atype a); congruence || reflexivity.
Qed.
Theorem C80_string : forall a k s,
  (k = KString8 -> set_value a k (GStr s) = (Any KString8 (PStr s), Ok tt) /\ get_str (fst (set_value a k (GStr s))) = Ok s /\
     (let m := move_string (fst (set_value a k (GStr s))) in snd m = Ok s /\ get_str (fst m) = Ok None)) /\
  (k <> KString8 -> snd (set_value a k (GStr s)) = Throw InvalidAnyType) /\
  (atype a <> KString8 -> get_str a = Throw InvalidAnyType /\ move_string a = (a, Throw InvalidAnyType)).
Proof.
  intros a k s. split; [intros ->; repeat split|]. split; [intros N; destruct k; congruence || reflexivity|].
  intros N. unfold get_str, move_string. destruct a as [ka p]. cbn in *. destruct ka; congruence || (split; reflexivity).
Qed.

(** C80: a new object of a kind holds the zero of that kind. *)
Theorem C80_new : forall k t,
  (kind_type k = Some t -> holds (any_new k) k 0) /\
  get_bool (any_new KBool) = Ok false /\ get_char (any_new KChar8) = Ok 0 /\ get_str (any_new KString8) = Ok None /\
  get_f32 (any_new KF32) = Ok (S754_zero false) /\ get_f64 (any_new KF64) = Ok (S754_zero false) /\
  atype (any_new k) = k.
Proof.
  intros k t. split; [intros K; destruct k; try discriminate K; split; reflexivity|]. repeat split.
Qed.

(** C80: a floating point value is refused by every kind that is not a floating point one. *)
Theorem C80_float_other : forall a k f, k <> KF32 -> k <> KF64 ->
  snd (set_value a k (GF32 f)) = Throw InvalidAnyType /\ snd (set_value a k (GF64 f)) = Throw InvalidAnyType.
Proof. intros a k f N1 N2. destruct k; congruence || (split; reflexivity). Qed.

(** C80: values are kept by the floating point kinds: in their own kind, and when a single
    precision value (NaN and infinities included) is stored in a double or read as one. *)
Theorem C80_float_same : forall a f,
  get_f32 (fst (set_value a KF32 (GF32 f))) = Ok f /\ get_f64 (fst (set_value a KF64 (GF64 f))) = Ok f.
Proof. intros a f. split; reflexivity. Qed.

Lemma sub_self : forall f, SFltb eps64 (SFabs (SFsub 53 1024 f f)) = false.
Proof.
  intros [s|s| |s m e]; try (destruct s; reflexivity); [reflexivity|]. unfold SFsub. rewrite Z.min_id.
  rewrite Z.sub_diag. reflexivity.
Qed.

Theorem C80_float_kept_partial : forall a f, valid_binary 24 128 f = true ->
  (let x := fst (set_value a KF64 (GF32 f)) in get_f32 x = Ok f) /\
  (let x := set_value a KF32 (GF64 (f64_of_f32 f)) in
     snd x = Ok tt /\ get_f32 (fst x) = Ok f /\ get_f64 (fst x) = Ok (f64_of_f32 f)).
Proof.
  intros a f V. assert (C : convert_float_double (f64_of_f32 f) = Ok f).
  { unfold convert_float_double. rewrite (PyProofs.f32_f64_f32 f V). now rewrite sub_self. }
  split; cbn; unfold set_value; cbn.
  - exact C.
  - unfold chkf. rewrite C. now repeat split.
Qed.

(** C80: an accepted double need not be kept: what is compared is the absolute difference, so
    every small value is accepted.  2^-1000 is stored and read as zero. *)
Theorem C80_float_kept_refuted : exists f,
  valid_binary 53 1024 f = true /\ f <> S754_zero false /\
  set_value (any_new KNone) KF32 (GF64 f) = (Any KF32 (PFloat (S754_zero false)), Ok tt) /\
  get_f32 (Any KF64 (PFloat f)) = Ok (S754_zero false).
Proof. exists (S754_finite false (2 ^ 52) (-1052)). vm_compute. repeat split. discriminate. Qed.

(** C80: reading an integer as a floating point type: the exact value, when it is accepted; it
    is accepted when it has at most 24 (53) significant bits; dates and durations are refused. *)
Theorem C80_read_float : forall a k u v, holds a k v -> kind_type k = Some u -> of_type u v ->
  k <> KDuration -> k <> KDateTime ->
  (forall f, get_f32 a = Ok f -> float_is f v) /\ (forall f, get_f64 a = Ok f -> float_is f v) /\
  (fits 24 v -> exists f, get_f32 a = Ok f) /\ (fits 53 v -> exists f, get_f64 a = Ok f).
Proof.
  intros [ka p] k u v [Hk Hp] Hu Hv N1 N2. cbn in Hk, Hp. subst ka p.
  assert (S32 : Z.abs v < 2 ^ 24 -> float_is (f32_of_int v) v) by (intros B; apply (small_exact 24 128 v); lia).
  assert (S64 : Z.abs v < 2 ^ 53 -> float_is (f64_of_int v) v) by (intros B; apply (small_exact 53 1024 v); lia).
  assert (C32 : forall U g, of_type U v -> convert_float_int f32_of_int U v = Ok g -> float_is g v).
  { intros U g HU. apply (convert_sound 24 128 U v g); [lia|lia|exact HU]. }
  assert (C64 : forall U g, of_type U v -> convert_float_int f64_of_int U v = Ok g -> float_is g v).
  { intros U g HU. apply (convert_sound 53 1024 U v g); [lia|lia|exact HU]. }
  assert (K32 : forall U, of_type U v -> fits 24 v -> exists g, convert_float_int f32_of_int U v = Ok g).
  { intros U HU F. destruct (convert_complete 24 128 U v) as (g & E & _); [lia|lia|lia|exact HU|exact F|]. now exists g. }
  assert (K64 : forall U, of_type U v -> fits 53 v -> exists g, convert_float_int f64_of_int U v = Ok g).
  { intros U HU F. destruct (convert_complete 53 1024 U v) as (g & E & _); [lia|lia|lia|exact HU|exact F|]. now exists g. }
  destruct k; try discriminate; try congruence; injection Hu as <-; unfold get_f32, get_f64; cbn [atype aval];
    (split; [|split; [|split]]);
    first [ intros f E; exact (C32 _ _ Hv E) | intros f E; exact (C64 _ _ Hv E)
          | exact (K32 _ Hv) | exact (K64 _ Hv)
          | intros _; eexists; reflexivity
          | intros f E; injection E as <-; first [apply S32|apply S64]; unfold of_type in Hv; cbn in Hv; lia ].
Qed.
Theorem C80_read_float_times : forall a v, holds a KDuration v \/ holds a KDateTime v ->
  get_f32 a = Throw InvalidAnyType /\ get_f64 a = Throw InvalidAnyType.
Proof. intros [k p] v [[H1 H2]|[H1 H2]]; cbn in *; subst; split; reflexivity. Qed.

(** C80: the largest integers cannot be read as floating point numbers: the conversion back
    that checks the result is undefined. *)
Theorem C80_read_float_refuted :
  get_f32 (Any KI32 (PInt 2147483647)) = UB /\ get_f64 (Any KI64 (PInt 9223372036854775807)) = UB /\
  get_f64 (Any KU64 (PInt 18446744073709551615)) = UB.
Proof. vm_compute. repeat split. Qed.

Example C80_example :
  get_bool (Any KI16 (PInt 2)) = Ok true /\ get_bool (Any KString8 (PStr (Some []))) = Ok true /\
  get_bool (Any KString8 (PStr None)) = Ok false /\ get_bool (Any KF64 (PFloat (S754_zero false))) = Throw InvalidAnyType /\
  get_str (fst (set_value (any_new KI8) KString8 (GStr (Some (codes "ab"))))) = Ok (Some (codes "ab")) /\
  (valid_binary 24 128 (S754_finite true 12582912 (-23)) = true) /\
  get_f64 (fst (set_value (any_new KNone) KF64 (GF32 (S754_finite true 12582912 (-23))))) = Ok (S754_finite true 6755399441055744 (-52)) /\
  snd (set_value (any_new KNone) KF32 (GF64 (S754_finite false 6755399441055745 (-52)))) = Ok tt /\
  snd (set_value (any_new KNone) KF32 (GF64 (S754_finite false 6755399441055745 (-40)))) = Throw InvalidAnyType /\
  get_f32 (Any KI32 (PInt 16777217)) = Throw InvalidAnyType.
Proof. vm_compute. repeat split. Qed.

Print Assumptions C80_float_kept_partial.
