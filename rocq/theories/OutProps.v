(** C94: the texts of values on a stream. *)
From Verif Require Import Base Text UuidSpec UuidModel AnyModel AnySpec CalSpec CalModel CalProofs
  OutSpec OutModel OutProofs OutFloat.
From Coq Require Import ZArith List Bool Lia QArith Qabs Floats.SpecFloat.
Import ListNotations.
Local Open Scope Z_scope.

(** The text of a value on a stream with the usual format: decimal base, no width. *)
Definition usual (f : form) : Prop := base f = Dec /\ width f = 0%nat.
Definition any_prints (a : any) (t : list Z) : Prop := forall f, usual f -> exists f', put_any a f = Ok (t, f').

Lemma any_prints_text a t : any_prints a t <-> any_text a = Ok t.
Proof.
  split.
  - intros H. destruct (H plain (conj eq_refl eq_refl)) as (f' & E).
    rewrite (put_any_calm plain a plain_calm) in E. destruct (any_text a) as [x|[]|]; [|discriminate].
    cbn [bind] in E. injection E as -> _. reflexivity.
  - intros E f U. rewrite (put_any_calm f a U), E. cbn [bind]. eauto.
Qed.

(** * Integers *)

(** An integer is written in decimal, with the name of its type behind it, whatever
    boolalpha and the fill character of the stream; the format of the stream is kept. *)
Theorem C94_integers a k v : value_ok a -> holds a k v -> is_integer_kind k -> exists t,
  integer t v /\ forall f, usual f -> put_any a f = Ok (t ++ suffix k, f).
Proof.
  intros (V & _) (K & P) I. exists (signed v).
  assert (B : - 10 ^ 60 < v < 10 ^ 60).
  { unfold any_ok in V. rewrite K in V. destruct k; cbn [kind_type] in V; try contradiction;
      destruct V as (w & W & OT); rewrite P in W; injection W as <-; exact (int_bound _ _ OT). }
  split; [now apply signed_integer|]. intros f U. rewrite (put_any_calm f a U). unfold any_text. rewrite K, P.
  destruct k; try contradiction; reflexivity.
Qed.

Example C94_integers_example :
  value_ok (Any KI8 (PInt (-5))) /\ holds (Any KI8 (PInt (-5))) KI8 (-5) /\ is_integer_kind KI8 /\
  put_any (Any KI8 (PInt (-5))) (Form Dec true 0 42) = Ok (codes "-5i8", Form Dec true 0 42) /\
  put_any (Any KU64 (PInt 18446744073709551615)) plain = Ok (codes "18446744073709551615u64", plain).
Proof.
  repeat split; try reflexivity; try exact I; try discriminate.
  cbn. exists (-5). repeat split; discriminate.
Qed.

(** * Characters *)

(** The text of an ASCII character is the C literal of this character.  Missing: the
    other 128 values of a char. *)
Theorem C94_characters_partial a c : aval a = PChar c -> atype a = KChar8 -> 0 <= c <= 127 -> exists t,
  char_literal t c /\ any_prints a t.
Proof.
  intros P K H. exists (char_text c). split; [now apply char_literal_ok|]. apply any_prints_text.
  unfold any_text. now rewrite K, P.
Qed.

Example C94_characters_example :
  any_prints (Any KChar8 (PChar 65)) (codes "'A'") /\ any_prints (Any KChar8 (PChar 10)) (codes "'\n'") /\
  any_prints (Any KChar8 (PChar 0)) (codes "'\0'") /\ any_prints (Any KChar8 (PChar 127)) (codes "'\177'").
Proof. repeat split; apply any_prints_text; reflexivity. Qed.

(** The text of a character that is not ASCII is no C literal: it has an escape of eleven
    octal digits. *)
Theorem C94_characters_refuted : exists a c t, value_ok a /\ aval a = PChar c /\ atype a = KChar8 /\
  any_prints a t /\ forall x, ~ char_literal t x.
Proof.
  exists (Any KChar8 (PChar (-23))), (-23), (codes "'\37777777751'").
  split; [split; [exists (-23); reflexivity|intros c E; injection E as <-; lia]|].
  split; [reflexivity|]. split; [reflexivity|]. split; [apply any_prints_text; reflexivity|].
  intros x (e & E & H). vm_compute in E. injection E as E. change [39] with ([] ++ [39]) in E at 2.
  destruct H as [(-> & _)|(y & -> & Y)]; [discriminate|]. injection E as E.
  inversion Y; subst; try discriminate.
  do 4 (destruct y as [|? y]; [cbn in *; try lia; discriminate|]). cbn in H. lia.
Qed.

(** * The kind and the value are known from the text *)

Theorem C94_kind a a' t : value_ok a -> value_ok a' -> any_prints a t -> any_prints a' t ->
  atype a = atype a' \/ (quoted (atype a) /\ quoted (atype a')).
Proof.
  intros V V' E E'. apply any_prints_text in E, E'.
  exact (shape_kind _ _ _ (any_shape _ _ V E) (any_shape _ _ V' E')).
Qed.

(** Two values with the same text are equal.  Missing: floating point values; a string
    with the text of a duration or date-time. *)
Theorem C94_identifies_partial a a' t : value_ok a -> value_ok a' -> any_prints a t -> any_prints a' t ->
  ~ is_float (atype a) -> (atype a = KString8 <-> atype a' = KString8) -> a = a'.
Proof.
  intros V V' E E'. apply any_prints_text in E, E'. exact (any_inj a a' t V V' E E').
Qed.

Example C94_identifies_example :
  any_prints (Any KNone PNothing) (codes "None") /\ any_prints (Any KBool (PBool true)) (codes "true") /\
  any_prints (Any KString8 (PStr (Some (codes "None")))) (34 :: codes "None" ++ [34]) /\
  any_prints (Any KDuration (PInt 1500000000)) (34 :: codes "00:00:01.500000000" ++ [34]) /\
  any_prints (Any KDateTime (PInt 0)) (34 :: codes "2000-01-01 12:00:00.000000000" ++ [34]).
Proof. repeat split; apply any_prints_text; vm_compute; reflexivity. Qed.

Theorem C94_strings_refuted : exists a a' t, value_ok a /\ value_ok a' /\ any_prints a t /\ any_prints a' t /\
  atype a = KString8 /\ atype a' = KDuration.
Proof.
  exists (Any KString8 (PStr (Some (codes "00:00:01.000000000")))), (Any KDuration (PInt 1000000000)).
  exists (34 :: codes "00:00:01.000000000" ++ [34]).
  split; [split; [eexists; reflexivity|discriminate]|].
  split; [split; [exists 1000000000; repeat split; discriminate|discriminate]|].
  split; [apply any_prints_text; reflexivity|]. split; [apply any_prints_text; vm_compute; reflexivity|]. split; reflexivity.
Qed.

(** Writing a String8 that is the null pointer is undefined, and so are the durations and
    date-times of C93 that have no text; all other values have a text. *)
Theorem C94_undefined_exactly a f : value_ok a -> usual f -> (put_any a f = UB <->
  aval a = PStr None \/ (exists v, holds a KDuration v /\ v = i64_min) \/
  (exists v, holds a KDateTime v /\ i64_max < v + TimeModel.epoch_to_mjd)).
Proof.
  intros (V & _) U. rewrite (put_any_calm f a U). destruct a as [k p]. unfold any_ok in V. unfold any_text, holds.
  cbn [atype aval] in *.
  destruct k; cbn [kind_type] in V;
    try (destruct V as (v & -> & B)); try (destruct V as (v & ->)); try subst p;
    try (split; [discriminate|intros [X|[(w & (X & _) & _)|(w & (X & _) & _)]]; discriminate]).
  - apply i64_type in B. split.
    + destruct (Z.eq_dec v i64_min) as [->|N]; [intros _; right; left; eauto|].
      destruct (duration_text_ok v ltac:(lia)) as (b & -> & _). discriminate.
    + intros [X|[(w & (_ & X) & ->)|(w & (X & _) & _)]]; try discriminate. injection X as ->. reflexivity.
  - apply i64_type in B. rewrite date_defined by assumption. split.
    + destruct (Z.leb_spec (v + TimeModel.epoch_to_mjd) i64_max); [discriminate|]. intros _. right; right; eauto.
    + intros [X|[(w & (X & _) & _)|(w & (_ & X) & L)]]; try discriminate. injection X as ->.
      destruct (Z.leb_spec (w + TimeModel.epoch_to_mjd) i64_max); [lia|reflexivity].
  - destruct v as [t|].
    + split; [discriminate|]. intros [X|[(w & (X & _) & _)|(w & (X & _) & _)]]; discriminate.
    + split; [auto|reflexivity].
Qed.

Theorem C94_null_string_refuted : exists a, value_ok a /\ atype a = KString8 /\ put_any a plain = UB.
Proof.
  exists (Any KString8 (PStr None)). split; [split; [eexists; reflexivity|discriminate]|]. split; reflexivity.
Qed.

(** * Values with one text *)

(** Nothing is None; a Boolean is true or false; a string is between double quotes, as it
    is; a zero, an infinity and a NaN are 0, inf and nan with the sign before (but a NaN)
    and the name of the type behind. *)
Theorem C94_fixed_texts :
  any_prints (Any KNone PNothing) (codes "None") /\
  any_prints (Any KBool (PBool true)) (codes "true") /\ any_prints (Any KBool (PBool false)) (codes "false") /\
  (forall t, any_prints (Any KString8 (PStr (Some t))) (34 :: t ++ [34])) /\
  forall k, is_float k ->
    any_prints (Any k (PFloat S754_nan)) (codes "nan" ++ suffix k) /\
    forall s : bool, let sign := if s then codes "-" else [] in
    any_prints (Any k (PFloat (S754_zero s))) (sign ++ codes "0" ++ suffix k) /\
    any_prints (Any k (PFloat (S754_infinity s))) (sign ++ codes "inf" ++ suffix k).
Proof.
  split; [apply any_prints_text; reflexivity|]. split; [apply any_prints_text; reflexivity|].
  split; [apply any_prints_text; reflexivity|]. split; [intros t; apply any_prints_text; reflexivity|].
  intros k [-> | ->]; (split; [apply any_prints_text; reflexivity|]); intros [|];
    (split; apply any_prints_text; reflexivity).
Qed.

Example C94_fixed_texts_example :
  is_float KF32 /\ any_prints (Any KF32 (PFloat (S754_infinity true))) (codes "-inff32") /\
  any_prints (Any KF64 (PFloat (S754_zero false))) (codes "0f64").
Proof. split; [now left|]. split; apply any_prints_text; reflexivity. Qed.

(** * Floating point values *)

(** The text of a finite value is the sign and a decimal number of at most six digits
    without needless zeros, and no decimal number of at most six digits, whatever its
    exponent, is nearer to the value.  It has an exponent exactly when it is below
    0.0001 or not below 1000000. *)
Theorem C94_floats a s m e : aval a = PFloat (S754_finite s m e) ->
  (atype a = KF64 /\ valid_binary 53 1024 (S754_finite s m e) = true) \/
  (atype a = KF32 /\ valid_binary 24 128 (S754_finite s m e) = true) ->
  exists t n x w,
  any_prints a ((if s then [45] else []) ++ t ++ suffix (atype a)) /\
  reads t n x w /\ 0 <= n < 1000000 /\
  let number := dec n (the_exponent x - Z.of_nat w) in
  (forall n' k, 0 <= n' < 1000000 -> (Qabs (number - magnitude m e) <= Qabs (dec n' k - magnitude m e))%Q) /\
  (x = None <-> (ten (-4) <= number)%Q /\ (number < ten 6)%Q).
Proof.
  intros P K. assert (V : Z.pos m < 2 ^ 53 /\ -1074 <= e <= 971).
  { destruct K as [(_ & V)|(_ & V)]; [now apply (double_range s)|now apply (single_range s)]. }
  destruct (float_ok s m e (proj1 V) (proj2 V)) as (t & n & x & w & T & R & N & B & X).
  exists t, n, x, w. split; [|auto]. apply any_prints_text. unfold any_text. rewrite P.
  destruct K as [(-> & _)|(-> & _)]; rewrite T, <- app_assoc; reflexivity.
Qed.

(** Integers below 1000000 are written as integers. *)
Theorem C94_float_integers a x v : aval a = PFloat x -> v <> 0 -> Z.abs v < 1000000 -> float_is x v ->
  (atype a = KF64 /\ valid_binary 53 1024 x = true) \/ (atype a = KF32 /\ valid_binary 24 128 x = true) ->
  exists t, integer t v /\ any_prints a (t ++ suffix (atype a)).
Proof.
  intros P Z0 A F K. exists (signed v). split; [apply signed_integer; assert (1000000 < 10 ^ 60) by reflexivity; lia|].
  apply any_prints_text. unfold any_text. rewrite P. destruct x as [|s|s|s m e]; try contradiction.
  assert (V : Z.pos m < 2 ^ 53 /\ -1074 <= e <= 971).
  { destruct K as [(_ & V)|(_ & V)]; [now apply (double_range s)|now apply (single_range s)]. }
  rewrite (float_integer s m e (Z.abs v) (proj1 V) (proj2 V)).
  - replace (if s then - Z.abs v else Z.abs v) with v.
    + destruct K as [(-> & _)|(-> & _)]; reflexivity.
    + cbn [float_is] in F. assert (0 < 2 ^ Z.max e 0) by (apply Z.pow_pos_nonneg; lia).
      assert (0 < 2 ^ Z.max (- e) 0) by (apply Z.pow_pos_nonneg; lia). destruct s; nia.
  - lia.
  - now apply (float_is_magnitude s).
Qed.

Example C94_floats_example :
  any_prints (Any KF64 (PFloat (S754_finite false 7074237752028440 (-51)))) (codes "3.14159f64") /\
  any_prints (Any KF64 (PFloat (S754_finite true 4503599627370496 (-72)))) (codes "-9.53674e-07f64") /\
  any_prints (Any KF32 (PFloat (S754_finite false 8388608 1))) (codes "1.67772e+07f32") /\
  any_prints (Any KF32 (PFloat (S754_finite false 10485760 (-20)))) (codes "10f32") /\
  float_is (S754_finite false 10485760 (-20)) 10 /\ valid_binary 24 128 (S754_finite false 10485760 (-20)) = true /\
  valid_binary 53 1024 (S754_finite false 7074237752028440 (-51)) = true.
Proof.
  split; [apply any_prints_text; vm_compute; reflexivity|].
  split; [apply any_prints_text; vm_compute; reflexivity|].
  split; [apply any_prints_text; vm_compute; reflexivity|].
  split; [apply any_prints_text; vm_compute; reflexivity|].
  split; [reflexivity|]. split; reflexivity.
Qed.

(** Different floating point values may have the same text. *)
Theorem C94_floats_refuted : exists a a' t, a <> a' /\
  value_ok a /\ value_ok a' /\ any_prints a t /\ any_prints a' t /\ atype a = KF64 /\ atype a' = KF64.
Proof.
  exists (Any KF64 (PFloat (S754_finite false 9007199254740991 (-53)))), (Any KF64 (PFloat (S754_finite false 4503599627370496 (-52)))).
  exists (codes "1f64"). split; [discriminate|].
  split; [split; [eexists; reflexivity|discriminate]|]. split; [split; [eexists; reflexivity|discriminate]|].
  split; [apply any_prints_text; vm_compute; reflexivity|].
  split; [apply any_prints_text; vm_compute; reflexivity|]. split; reflexivity.
Qed.

(** * The format of the stream *)

(** Writing a value on a stream of the usual format keeps its format.  Missing: a Bool,
    which switches boolalpha off; other formats. *)
Theorem C94_format_kept_partial a f t f' : usual f -> put_any a f = Ok (t, f') -> atype a <> KBool -> f' = f.
Proof.
  intros U E K. rewrite (put_any_calm f a U) in E. destruct (any_text a) as [x|[]|]; [|discriminate].
  cbn [bind] in E. destruct (atype a); try (injection E; auto; fail). congruence.
Qed.

Theorem C94_format_kept_refuted :
  (exists a f t f', value_ok a /\ usual f /\ put_any a f = Ok (t, f') /\ f' <> f) /\
  (exists a f t f', value_ok a /\ width f = 0%nat /\ put_any a f = Ok (t, f') /\ base f' <> base f).
Proof.
  split.
  - exists (Any KBool (PBool true)), (Form Dec true 0 32). do 2 eexists.
    split; [split; [eexists; reflexivity|discriminate]|]. split; [split; reflexivity|]. split; [reflexivity|discriminate].
  - exists (Any KChar8 (PChar 1)), (Form Hex false 0 32). do 2 eexists.
    split; [split; [eexists; reflexivity|intros c E; injection E as <-; lia]|]. split; [reflexivity|].
    split; [vm_compute; reflexivity|discriminate].
Qed.

(** On a stream of hexadecimal format the text is another one: that of a different value. *)
Theorem C94_format_refuted : exists f a a' t g, base f = Hex /\ value_ok a /\ value_ok a' /\ a <> a' /\
  atype a = KI8 /\ atype a' = KI8 /\ put_any a f = Ok (t, g) /\ put_any a' plain = Ok (t, plain).
Proof.
  exists (Form Hex false 0 32), (Any KI8 (PInt 16)), (Any KI8 (PInt 10)). do 2 eexists.
  split; [reflexivity|]. split; [split; [exists 16; repeat split; discriminate|discriminate]|].
  split; [split; [exists 10; repeat split; discriminate|discriminate]|]. split; [discriminate|].
  split; [reflexivity|]. split; [reflexivity|]. split; vm_compute; reflexivity.
Qed.

(** * Enumerations *)

Definition names (e : enum) : list (list Z) :=
  match e with
  | EDirection => names_of_direction | ETime => names_of_time | EComponent => names_of_component
  | ESimulator => names_of_simulator | EView => names_of_view | EAccess => names_of_access
  | EPrimitive => names_of_primitive
  end.

(** The names of the enumerations themselves. *)
Definition type_name (e : enum) : list Z :=
  match e with
  | EDirection => codes "::Smp::Publication::ParameterDirectionKind"
  | ETime => codes "::Smp::Services::TimeKind"
  | EComponent => codes "::Smp::ComponentStateKind"
  | ESimulator => codes "::Smp::SimulatorStateKind"
  | EView => codes "::Smp::ViewKind"
  | EAccess => codes "::Smp::AccessKind"
  | EPrimitive => codes "::Smp::PrimitiveTypeKind"
  end.

(** The text of a literal is its name; every other value has a text that contains the
    name of the enumeration and the number; different values have different texts.  The format of the stream is kept. *)
Theorem C94_enumerations e v : - 2 ^ 31 <= v < 2 ^ 31 -> exists t,
  (forall f, usual f -> put_enum e v f = Ok (t, f)) /\
  (forall i name, nth_error (names e) i = Some name -> v = Z.of_nat i -> t = name) /\
  ((v < 0 \/ Z.of_nat (length (names e)) <= v) -> exists n, integer n v /\ t = codes "Unknown " ++ type_name e ++ codes "(" ++ n ++ codes ")") /\
  (forall v' f f', - 2 ^ 31 <= v' < 2 ^ 31 -> usual f -> put_enum e v' f = Ok (t, f') -> v' = v).
Proof.
  intros H. exists (enum_text e v). split; [intros f U; now apply put_enum_calm|]. split; [|split].
  - intros i name N ->.
    assert (A : forallb (fun i => match nth_error (names e) i with Some n => sameb (enum_text e (Z.of_nat i)) n | None => true end)
                  (seq 0 16) = true) by (destruct e; vm_compute; reflexivity).
    assert (I : (i < 16)%nat).
    { assert (L : (i < length (names e))%nat) by (apply nth_error_Some; congruence). destruct e; cbn in L; lia. }
    rewrite forallb_forall in A. specialize (A i). rewrite in_seq in A. specialize (A ltac:(lia)). rewrite N in A.
    now apply sameb_eq.
  - intros O. exists (signed v). split; [apply signed_integer; assert (2 ^ 31 < 10 ^ 60) by reflexivity; lia|].
    unfold enum_text. change (type_name e) with (enum_name e). destruct (find _ _) as [x|] eqn:F; [|now rewrite <- !app_assoc].
    exfalso. apply find_some in F. destruct F as (F & E). apply Z.eqb_eq in E.
    assert (A : forallb (fun x => (0 <=? fst x) && (fst x <? Z.of_nat (length (names e)))) (literals e) = true)
      by (destruct e; vm_compute; reflexivity).
    rewrite forallb_forall in A. specialize (A x F). apply andb_prop in A. destruct A as (A & B).
    apply Z.leb_le in A. apply Z.ltb_lt in B. lia.
  - intros v' f f' H' U E. rewrite put_enum_calm in E by assumption. injection E as E _. eapply enum_inj; eauto.
Qed.

Example C94_enumerations_example :
  put_enum ESimulator 4 plain = Ok (codes "Executing", plain) /\ put_enum EAccess 1 plain = Ok (codes "ReadOnly", plain) /\
  put_enum EView (-7) plain = Ok (codes "Unknown ::Smp::ViewKind(-7)", plain).
Proof. vm_compute. repeat split. Qed.

(** * Uuids *)

(** A Uuid has the text of the conversion to a string (C01) on every stream, which is
    then in decimal base with blanks as fill characters. *)
Theorem C94_uuid u f : uuid_ok u -> put_uuid u f = Ok (print u, Form Dec (alpha f) 0 32).
Proof. exact (put_uuid_any f u). Qed.

Example C94_uuid_example :
  let u := Uuid 3735928559 [1; 2; 65535] [1; 2; 3; 4; 5; 255] in
  uuid_ok u /\ put_uuid u (Form Oct true 7 42) = Ok (codes "deadbeef-0001-0002-ffff-0102030405ff", Form Dec true 0 32).
Proof.
  split; [|vm_compute; reflexivity].
  repeat split; try (cbn; lia); repeat constructor; lia.
Qed.

(** * Messages *)

(** A message is the texts of its parts one after the other; a part is written as if it
    were alone. *)
Theorem C94_messages l ts : Forall item_ok l -> Forall2 (fun i t => format_string [i] = Ok t) l ts ->
  format_string l = Ok (concat ts).
Proof. exact (fs_concat l ts). Qed.

(** It is defined when all its parts are. *)
Theorem C94_messages_defined l : Forall item_ok l ->
  (format_string l = UB <-> exists i, In i l /\ format_string [i] = UB).
Proof. exact (fs_defined l). Qed.

Example C94_messages_example :
  format_string [IText (codes "Cannot assign "); IAny (Any KBool (PBool true)); IText (codes " to "); IInt TU64 12;
                 IText (codes ", "); IUuid (Uuid 1 [2; 3; 4] [5; 6; 7; 8; 9; 10]); IText (codes " in "); IInt TI32 (-255);
                 IText (codes " "); IEnum EView 3; IText (codes " "); IDuration 1] =
    Ok (codes "Cannot assign true to 12, 00000001-0002-0003-0004-05060708090a in -255 All 00:00:00.000000001").
Proof. vm_compute. reflexivity. Qed.

Print Assumptions C94_floats.
Print Assumptions C94_identifies_partial.
Print Assumptions C94_messages.
