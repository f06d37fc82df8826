(** Proofs about the Python bindings. *)
From Coq Require Import ZArith List Bool Lia Floats.SpecFloat.
From Verif Require Import Base Text Assoc UuidModel HelperSpec PathModel AnyModel AnySpec AnyProofs AnyFloat FlowModel TypeModel TypeProofs
  ReqModel ReqSpec ReqProofs ReqMarshalProofs ReqInvokeProofs ReqProps PyModel PySpec.
Import ListNotations.
Local Open Scope Z_scope.
Arguments cast : simpl never.

(** * Indexes *)

Lemma u64_small : forall z, 0 <= z < 2 ^ 64 -> cast TU64 z = z.
Proof. intros z H. apply cast_id. unfold of_type. cbn. change (2 ^ 64) with 18446744073709551616 in H. lia. Qed.
Lemma u64_neg : forall z, - 2 ^ 63 <= z < 0 -> cast TU64 z = z + 2 ^ 64.
Proof.
  intros z H. unfold cast. change (tmin TU64) with 0. change (bits TU64) with 64. rewrite Z.sub_0_r, Z.add_0_l.
  replace z with ((z + 2 ^ 64) + (-1) * 2 ^ 64) at 1 by lia. rewrite Z.mod_add by lia. apply Z.mod_small.
  change (2 ^ 63) with 9223372036854775808 in H. change (2 ^ 64) with 18446744073709551616. lia.
Qed.
Lemma i64_small : forall z, int64 z -> in_i64 z = true.
Proof. intros z [A B]. unfold in_i64, i64_min, i64_max. change (2 ^ 63) with 9223372036854775808 in *. apply andb_true_iff. split; apply Z.leb_le; lia. Qed.

Lemma py_index_nonneg : forall i n, 0 <= i < 2 ^ 63 -> py_index i n = if i <? n then Ok i else Throw PyIndexError.
Proof.
  intros i n H. unfold py_index. rewrite (proj2 (Z.ltb_ge i 0)) by lia. rewrite i64_small by (unfold int64; lia). cbn [negb].
  rewrite (proj2 (Z.ltb_ge i 0)) by lia. cbn [orb].
  assert (2 ^ 63 < 2 ^ 64) by reflexivity. rewrite u64_small by lia.
  destruct (Z.leb_spec n i), (Z.ltb_spec i n); try lia; reflexivity.
Qed.

Lemma py_index_neg : forall i n, - 2 ^ 63 <= i < 0 -> 0 <= n < 2 ^ 63 -> py_index i n = Throw PyIndexError.
Proof.
  intros i n H N. unfold py_index. rewrite (proj2 (Z.ltb_lt i 0)) by lia.
  rewrite (cast_id TI64 n) by (unfold of_type; cbn; change (2 ^ 63) with 9223372036854775808 in N; lia).
  rewrite i64_small by (unfold int64; lia). cbn [negb]. rewrite u64_neg by lia.
  replace (n <=? i + 2 ^ 64) with true; [now rewrite orb_true_r|]. symmetry. apply Z.leb_le.
  change (2 ^ 63) with 9223372036854775808 in *. change (2 ^ 64) with 18446744073709551616. lia.
Qed.

Lemma getitem_nonneg : forall A (l : list A) i, 0 <= i < 2 ^ 63 ->
  py_getitem l i = match nth_error l (Z.to_nat i) with Some x => Ok x | None => Throw PyIndexError end.
Proof.
  intros A l i H. unfold py_getitem. rewrite py_index_nonneg by assumption. destruct (Z.ltb_spec i (Z.of_nat (length l))); [reflexivity|].
  cbn. replace (nth_error l (Z.to_nat i)) with (@None A); [reflexivity|]. symmetry. apply nth_error_None. lia.
Qed.

Lemma iter_all : forall A (l : list A) n i, Z.of_nat (length l) < 2 ^ 63 -> (i + n > length l)%nat -> (i <= length l)%nat -> py_iter l i n = skipn i l.
Proof.
  intros A l. induction n as [|n IH]; intros i L G B; [lia|]. cbn [py_iter]. rewrite getitem_nonneg by lia. rewrite Nat2Z.id.
  destruct (nth_error l i) as [x|] eqn:E.
  - assert (i < length l)%nat by (apply nth_error_Some; congruence). rewrite IH by lia. clear -E. revert i E. induction l as [|y l IH]; intros [|i] E; try discriminate E; cbn in *.
    + now injection E as <-.
    + now apply IH.
  - apply nth_error_None in E. now rewrite skipn_all2.
Qed.

(** * Names *)

Lemma py_name_cases : forall n, (In n reserved /\ py_name n = 95 :: n) \/ (~ In n reserved /\ py_name n = n).
Proof.
  intros n. unfold py_name. destruct (existsb (list_eqb n) reserved) eqn:E.
  - left. apply existsb_exists in E as (x & I & E). apply leq in E. subst x. auto.
  - right. split; [|reflexivity]. intros I. pose proof (existsb_false _ _ _ E n I) as X.
    rewrite (proj2 (leq n n) eq_refl) in X. discriminate.
Qed.

Lemma valid_not_underscore : forall n, valid_name (95 :: n) -> False.
Proof. intros n V. inversion V as [c s L F|]; subst. unfold letter in L. lia. Qed.

Lemma py_name_inj : forall a b, valid_name a -> valid_name b -> py_name a = py_name b -> a = b.
Proof.
  intros a b A B E. destruct (py_name_cases a) as [[_ X]|[_ X]], (py_name_cases b) as [[_ Y]|[_ Y]]; rewrite X, Y in E; try congruence.
  - subst b. destruct (valid_not_underscore _ B).
  - subst a. destruct (valid_not_underscore _ A).
Qed.

(** * Values *)

Lemma cut_id : forall s, ~ In 0 s -> cut s = s.
Proof.
  induction s as [|c s IH]; intros H; [reflexivity|]. cbn. destruct (Z.eqb_spec c 0) as [->|]; [exfalso; apply H; now left|].
  f_equal. apply IH. intros I. apply H. now right.
Qed.

(** * UTF-8 *)
Lemma utf8_encode u r : scalar u -> utf8 (encode u ++ r) = utf8 r.
Proof.
  intros [B N]. unfold encode. destruct (Z.ltb_spec u 0x80).
  { cbn [app utf8]. rewrite (proj2 (Z.leb_le 0 u)), (proj2 (Z.leb_le u 127)) by lia. reflexivity. }
  assert (M : 0 <= u mod 64 < 64) by (apply Z.mod_pos_bound; lia). pose proof (Z.div_mod u 64 ltac:(lia)) as D.
  destruct (Z.ltb_spec u 0x800).
  { cbn [app utf8]. unfold cont. set (q := u / 64) in *. set (m := u mod 64) in *. clearbody q m.
    repeat match goal with |- context [?a <=? ?b] => destruct (Z.leb_spec a b); try lia end; reflexivity. }
  assert (M1 : 0 <= u / 64 mod 64 < 64) by (apply Z.mod_pos_bound; lia). pose proof (Z.div_mod (u / 64) 64 ltac:(lia)) as D1.
  rewrite Z.div_div in D1 by lia. change (64 * 64) with 4096 in D1.
  destruct (Z.ltb_spec u 0x10000).
  { cbn [app utf8]. unfold cont. set (q := u / 4096) in *. set (m1 := u / 64 mod 64) in *. set (d := u / 64) in *. set (m := u mod 64) in *. clearbody q m1 m d.
    repeat match goal with |- context [?a <=? ?b] => destruct (Z.leb_spec a b); try lia end; cbn [andb].
    repeat match goal with |- context [?a =? ?b] => destruct (Z.eqb_spec a b); try lia end; cbn [andb negb];
    repeat match goal with |- context [?a <? ?b] => destruct (Z.ltb_spec a b); try lia end; reflexivity. }
  assert (M2 : 0 <= u / 4096 mod 64 < 64) by (apply Z.mod_pos_bound; lia). pose proof (Z.div_mod (u / 4096) 64 ltac:(lia)) as D2.
  rewrite Z.div_div in D2 by lia. change (4096 * 64) with 262144 in D2.
  cbn [app utf8]. unfold cont. set (q := u / 262144) in *. set (m2 := u / 4096 mod 64) in *. set (m1 := u / 64 mod 64) in *. set (d1 := u / 4096) in *.
  set (d := u / 64) in *. set (m := u mod 64) in *. clearbody q m2 m1 m d d1.
  repeat match goal with |- context [?a <=? ?b] => destruct (Z.leb_spec a b); try lia end; cbn [andb].
  repeat match goal with |- context [?a =? ?b] => destruct (Z.eqb_spec a b); try lia end; cbn [andb negb];
  repeat match goal with |- context [?a <? ?b] => destruct (Z.ltb_spec a b); try lia end; reflexivity.
Qed.

Lemma cont_ok b : cont b = true <-> 128 <= b <= 191.
Proof. unfold cont. rewrite andb_true_iff, !Z.leb_le. lia. Qed.
Lemma div_is u n q m : u = n * q + m -> 0 <= m < n -> u / n = q /\ u mod n = m.
Proof. intros -> B. split; [symmetry; apply Z.div_unique with m; lia|symmetry; apply Z.mod_unique with q; lia]. Qed.

Lemma utf8_ok s : utf8 s = true <-> is_utf8 s.
Proof.
  split.
  - assert (G : forall n s, (length s <= n)%nat -> utf8 s = true -> is_utf8 s).
    { induction n as [|n IH]; intros l L H.
      { destruct l; [|cbn in L; lia]. exists []. split; [constructor|reflexivity]. }
      assert (X : forall u r, scalar u -> l = encode u ++ r -> (length r <= n)%nat -> utf8 r = true -> is_utf8 l).
      { intros u r U -> Lr Hr. destruct (IH r Lr Hr) as (us & F & ->). exists (u :: us). split; [now constructor|reflexivity]. }
      destruct l as [|a r]; [exists []; split; [constructor|reflexivity]|]. cbn [utf8] in H. cbn [length] in L.
      destruct (Z.leb_spec 0 a); [destruct (Z.leb_spec a 127)|]; cbn [andb] in H.
      { apply (X a r); [split; lia| |lia|exact H]. unfold encode. now rewrite (proj2 (Z.ltb_lt a 0x80)) by lia. }
      all: destruct r as [|b r]; [discriminate|]; cbn [length] in L.
      all: destruct (Z.leb_spec 194 a); [destruct (Z.leb_spec a 223)|]; cbn [andb] in H; try lia.
      { apply andb_true_iff in H. destruct H as [C H]. apply cont_ok in C.
        destruct (div_is ((a - 192) * 64 + (b - 128)) 64 (a - 192) (b - 128)) as [D M]; [lia|lia|].
        apply (X ((a - 192) * 64 + (b - 128)) r); [split; lia| |lia|exact H]. unfold encode.
        rewrite (proj2 (Z.ltb_ge _ 0x80)), (proj2 (Z.ltb_lt _ 0x800)) by lia. rewrite D, M. cbn [app]. replace (0xC0 + (a - 192)) with a by lia. replace (0x80 + (b - 128)) with b by lia. reflexivity. }
      all: destruct r as [|c r]; [discriminate|]; cbn [length] in L.
      all: destruct (Z.leb_spec 224 a); [destruct (Z.leb_spec a 239)|]; cbn [andb] in H; try lia.
      { rewrite !andb_true_iff, !negb_true_iff, !andb_false_iff, !Z.eqb_neq, !Z.ltb_ge, !cont_ok in H. destruct H as [[[[B C] E1] E2] H].
        set (u := (a - 224) * 4096 + (b - 128) * 64 + (c - 128)).
        destruct (div_is u 64 ((a - 224) * 64 + (b - 128)) (c - 128)) as [D M]; [subst u; lia|lia|].
        destruct (div_is u 4096 (a - 224) ((b - 128) * 64 + (c - 128))) as [D2 _]; [subst u; lia|lia|].
        destruct (div_is ((a - 224) * 64 + (b - 128)) 64 (a - 224) (b - 128)) as [_ M1]; [lia|lia|].
        apply (X u r); [split; subst u; lia| |lia|exact H]. unfold encode.
        rewrite (proj2 (Z.ltb_ge _ 0x80)), (proj2 (Z.ltb_ge _ 0x800)), (proj2 (Z.ltb_lt _ 0x10000)) by (subst u; lia).
        rewrite D2, D, M, M1. cbn [app]. replace (0xE0 + (a - 224)) with a by lia. replace (0x80 + (b - 128)) with b by lia. replace (0x80 + (c - 128)) with c by lia. reflexivity. }
      all: destruct r as [|d r]; [discriminate|]; cbn [length] in L.
      all: rewrite !andb_true_iff, !negb_true_iff, !andb_false_iff, !Z.eqb_neq, !Z.ltb_ge, !cont_ok, !Z.leb_le in H; destruct H as [[[[[[[A1 A2] B] C] DD] E1] E2] H]; try lia.
      set (u := (a - 240) * 262144 + (b - 128) * 4096 + (c - 128) * 64 + (d - 128)).
      destruct (div_is u 64 ((a - 240) * 4096 + (b - 128) * 64 + (c - 128)) (d - 128)) as [D M]; [subst u; lia|lia|].
      destruct (div_is u 4096 ((a - 240) * 64 + (b - 128)) ((c - 128) * 64 + (d - 128))) as [D2 _]; [subst u; lia|lia|].
      destruct (div_is u 262144 (a - 240) ((b - 128) * 4096 + (c - 128) * 64 + (d - 128))) as [D3 _]; [subst u; lia|lia|].
      destruct (div_is ((a - 240) * 4096 + (b - 128) * 64 + (c - 128)) 64 ((a - 240) * 64 + (b - 128)) (c - 128)) as [_ M1]; [lia|lia|].
      destruct (div_is ((a - 240) * 64 + (b - 128)) 64 (a - 240) (b - 128)) as [_ M2]; [lia|lia|].
      apply (X u r); [split; subst u; lia| |lia|exact H]. unfold encode.
      rewrite (proj2 (Z.ltb_ge _ 0x80)), (proj2 (Z.ltb_ge _ 0x800)), (proj2 (Z.ltb_ge _ 0x10000)) by (subst u; lia).
      rewrite D3, D2, D, M, M1, M2. cbn [app].
      replace (0xF0 + (a - 240)) with a by lia. replace (0x80 + (b - 128)) with b by lia. replace (0x80 + (c - 128)) with c by lia. replace (0x80 + (d - 128)) with d by lia. reflexivity. }
    apply (G (length s)). lia.
  - intros (us & F & ->). induction F as [|u us U F IH]; [reflexivity|]. cbn [flat_map]. now rewrite utf8_encode.
Qed.

(** The text of a character, and the character of a text. *)
Lemma latin1_encode c : 0 <= c <= 255 -> latin1 c = encode c.
Proof.
  intros B. unfold latin1, encode. destruct (Z.leb_spec c 127), (Z.ltb_spec c 0x80); try lia; [reflexivity|].
  now rewrite (proj2 (Z.ltb_lt c 0x800)) by lia.
Qed.
Lemma load_char_encode u : scalar u -> load_char (PyStr (encode u)) = if u <=? 255 then Ok u else Throw PyCastError.
Proof.
  intros [B N]. unfold encode. destruct (Z.ltb_spec u 0x80).
  { cbn. rewrite (proj2 (Z.leb_le u 127)), (proj2 (Z.leb_le u 255)) by lia. reflexivity. }
  pose proof (Z.div_mod u 64 ltac:(lia)) as D. assert (M : 0 <= u mod 64 < 64) by (apply Z.mod_pos_bound; lia).
  destruct (Z.ltb_spec u 0x800).
  { cbn [load_char]. destruct (Z.leb_spec u 255).
    - assert (E : 0xC0 + u / 64 = 194 \/ 0xC0 + u / 64 = 195) by lia.
      assert (X : (0xC0 + u / 64 =? 194) || (0xC0 + u / 64 =? 195) = true) by (rewrite orb_true_iff, !Z.eqb_eq; exact E).
      rewrite X. f_equal. lia.
    - destruct (Z.eqb_spec (0xC0 + u / 64) 194); [lia|]. destruct (Z.eqb_spec (0xC0 + u / 64) 195); [lia|]. reflexivity. }
  rewrite (proj2 (Z.leb_gt u 255)) by lia. destruct (u <? 0x10000); reflexivity.
Qed.
Lemma char_text us c : Forall scalar us -> load_char (PyStr (flat_map encode us)) = Ok c -> us = [c] /\ 0 <= c <= 255.
Proof.
  intros F. assert (LN : forall u, scalar u -> encode u <> []) by (intros u _; unfold encode; repeat destruct (_ <? _); discriminate).
  destruct us as [|u [|u' us]]; [discriminate| |].
  - inversion F as [|? ? U _]; subst. cbn [flat_map]. rewrite app_nil_r, load_char_encode by assumption. destruct (Z.leb_spec u 255); [|discriminate].
    intros E. injection E as <-. split; [reflexivity|]. destruct U. lia.
  - intros E. exfalso. inversion F as [|? ? U F']; subst. inversion F' as [|? ? U' _]; subst. cbn [flat_map] in E.
    pose proof (LN u' U') as N'. destruct U as [B _].
    unfold encode at 1 in E. destruct (Z.ltb_spec u 0x80); [|repeat destruct (_ <? _) in E; cbn [app] in E].
    + cbn [app] in E. destruct (encode u' ++ flat_map encode us) as [|b [|b' r]] eqn:R; cbn in E; try discriminate.
      * apply app_eq_nil in R. tauto.
      * destruct (Z.eqb_spec u 194), (Z.eqb_spec u 195); try lia; discriminate.
    + destruct (encode u' ++ flat_map encode us) as [|b r] eqn:R; [apply app_eq_nil in R; tauto|discriminate].
    + discriminate.
    + discriminate.
Qed.

(** A canonical binary32 number survives the passage through binary64. *)
Lemma canon_bounds : forall m e, bounded 24 128 m e = true -> 1 <= Z.pos (digits2_pos m) <= 24 /\ Z.max (Z.pos (digits2_pos m) + e - 24) (-149) = e /\ e <= 104.
Proof.
  intros m e B. unfold bounded, canonical_mantissa in B. apply andb_true_iff in B as [B C].
  apply Zeq_bool_eq in B. apply Z.leb_le in C. unfold fexp, emin in B. split; [|split; [|lia]]; lia.
Qed.

Lemma to_f64 : forall s m e, bounded 24 128 m e = true ->
  exists d, f64_of_f32 (S754_finite s m e) = S754_finite s (shift_pos d m) (e - Z.pos d) /\ 1 <= Z.pos d.
Proof.
  intros s m e B. apply canon_bounds in B as (D & E & U). unfold f64_of_f32, binary_round.
  set (dm := Z.pos (digits2_pos m)) in *.
  assert (F : fexp 53 1024 (dm + e) = dm + e - 53) by (unfold fexp, emin; lia).
  rewrite F. unfold shl_align. destruct (dm + e - 53 - e) as [|d|d] eqn:X; [lia|lia|]. exists d.
  replace (dm + e - 53) with (e - Z.pos d) by lia. split; [|lia]. apply aux_full; rewrite ?digits_shift; fold dm; unfold emin; try lia.
Qed.

Lemma back_f32 : forall s m e d, bounded 24 128 m e = true ->
  f32_of_f64 (S754_finite s (shift_pos d m) (e - Z.pos d)) = S754_finite s m e.
Proof.
  intros s m e d B. apply canon_bounds in B as (D & E & U). unfold f32_of_f64, binary_round.
  rewrite digits_shift. set (dm := Z.pos (digits2_pos m)) in *.
  assert (F : fexp 24 128 (dm + Z.pos d + (e - Z.pos d)) = e) by (unfold fexp, emin; lia).
  rewrite F. unfold shl_align. replace (e - (e - Z.pos d)) with (Z.pos d) by lia. unfold binary_round_aux, shr_fexp. cbn [Zdigits2].
  rewrite digits_shift. fold dm. rewrite F. replace (e - (e - Z.pos d)) with (Z.pos d) by lia.
  cbn [shr shr_record_of_loc]. rewrite shr_exact. cbn [shr_m loc_of_shr_record round_nearest_even Zdigits2]. fold dm.
  replace (e - Z.pos d + Z.pos d) with e by lia.
  assert (G : fexp 24 128 (dm + e) - e = 0) by (unfold fexp, emin; lia). rewrite G. cbn [shr shr_m].
  replace (e <=? 128 - 24) with true by (symmetry; apply Z.leb_le; lia). reflexivity.
Qed.

Lemma f32_f64_f32 : forall f, valid_binary 24 128 f = true -> f32_of_f64 (f64_of_f32 f) = f.
Proof.
  intros [s|s| |s m e] V; try reflexivity. cbn [valid_binary] in V. destruct (to_f64 s m e V) as (d & -> & _). now apply back_f32.
Qed.

Lemma get_own : forall k t z, kind_type k = Some t -> of_type t z -> get_int t (Any k (PInt z)) = Ok z.
Proof. intros k t z K H. destruct k; try discriminate K; injection K as <-; cbn; unfold ld; now rewrite cast_id. Qed.
Lemma mk_own : forall k t z, kind_type k = Some t -> of_type t z -> mk_any k (GInt t z) = Ok (Any k (PInt z)).
Proof. intros k t z K H. destruct k; try discriminate K; injection K as <-; cbn; rewrite ?cast_id by assumption; reflexivity. Qed.
Lemma load_own : forall t z, of_type t z -> load_int t (PyInt z) = Ok z.
Proof.
  intros t z H. unfold load_int. unfold of_type in H. rewrite <- tmin_range, <- tmax_range in H.
  now rewrite (proj2 (Z.leb_le _ _) (proj1 H)), (proj2 (Z.leb_le _ _) (proj2 H)).
Qed.
Lemma load_int_cases : forall t z, (of_type t z /\ load_int t (PyInt z) = Ok z) \/ (~ of_type t z /\ load_int t (PyInt z) = Throw PyCastError).
Proof.
  intros t z. unfold load_int, of_type. rewrite <- tmin_range, <- tmax_range.
  destruct (Z.leb_spec (tmin t) z), (Z.leb_spec z (tmax t)); cbn; [left|right..]; split; try reflexivity; lia.
Qed.

Lemma to_py_int : forall k t z, kind_type k = Some t -> of_type t z -> to_py (Any k (PInt z)) = Ok (PyInt z).
Proof.
  intros k t z K H. pose proof (get_own k t z K H) as G. destruct k; try discriminate K; injection K as <-; unfold to_py, py_of_int; cbn [atype]; now rewrite G.
Qed.
Lemma of_py_int : forall k t p, kind_type k = Some t -> (forall v, p <> PyField v) -> of_py p k = bind (load_int t p) (fun z => mk_any k (GInt t z)).
Proof. intros k t p K N. destruct p; try (now destruct (N v)); destruct k; try discriminate K; injection K as <-; reflexivity. Qed.

Lemma round_trip : forall v, any_ok v -> showable v -> exists p, to_py v = Ok p /\ of_py p (atype v) = Ok v.
Proof.
  intros [k x] O S. unfold any_ok in O. cbn [atype aval] in *. destruct (kind_type k) as [t|] eqn:K.
  - destruct O as (z & -> & R). exists (PyInt z). rewrite (to_py_int k t z K R). split; [reflexivity|].
    rewrite (of_py_int k t _ K) by discriminate. rewrite load_own by assumption. cbn [bind]. now apply mk_own.
  - unfold showable in S. cbn [atype aval] in S. destruct k; try discriminate K.
    + subst x. now exists PyNone.
    + destruct S as (c & -> & B). exists (PyStr (latin1 c)). split; [reflexivity|]. unfold of_py. rewrite latin1_encode by lia.
      rewrite load_char_encode by (split; lia). rewrite (proj2 (Z.leb_le c 255)) by lia. reflexivity.
    + destruct O as (b & ->). now exists (PyBool b).
    + destruct S as (f & -> & V). exists (PyFloat (f64_of_f32 f)). cbn. now rewrite f32_f64_f32.
    + destruct O as (f & ->). now exists (PyFloat f).
    + destruct S as (s & -> & U & N). exists (PyStr s). cbn. unfold py_str. rewrite (proj2 (utf8_ok s) U), cut_id by assumption. auto.
Qed.

Lemma field_copy : forall v, any_ok v -> of_py (PyField v) (atype v) = Ok v.
Proof.
  intros [k x] O. unfold any_ok in O. cbn [atype aval] in *. destruct (kind_type k) as [t|] eqn:K.
  - destruct O as (z & -> & R). pose proof (get_own k t z K R) as G. pose proof (mk_own k t z K R) as M.
    destruct k; try discriminate K; injection K as <-; unfold of_py, of_field, any_int; cbn [atype]; rewrite G; cbn [of_any bind]; exact M.
  - destruct k; try discriminate K; try (destruct O as (y & ->)); try subst x; reflexivity.
Qed.

Lemma f64_small z : Z.abs z < 2 ^ 53 -> float_is (f64_of_int z) z.
Proof. intros B. apply (small_exact 53 1024 z); lia. Qed.
Lemma put_f64 f : mk_any KF64 (GF64 f) = Ok (Any KF64 (PFloat f)).
Proof. reflexivity. Qed.
Lemma numbers :
  (forall f, of_py (PyFloat f) KF64 = Ok (Any KF64 (PFloat f))) /\
  (forall z v, of_py (PyInt z) KF64 = Ok v -> v = Any KF64 (PFloat (binary_normalize 53 1024 z 0 false))) /\
  (forall z, of_py (PyInt z) KF64 = Throw PyCastError <-> exists s, binary_normalize 53 1024 z 0 false = S754_infinity s) /\
  (forall z, Z.abs z < 2 ^ 53 -> exists f, of_py (PyInt z) KF64 = Ok (Any KF64 (PFloat f)) /\ float_is f z) /\
  (forall b, exists f, of_py (PyBool b) KF64 = Ok (Any KF64 (PFloat f)) /\ float_is f (if b then 1 else 0)) /\
  (forall k t b, kind_type k = Some t -> of_py (PyBool b) k = Ok (Any k (PInt (if b then 1 else 0)))) /\
  (forall k t p, kind_type k = Some t -> match p with PyNone | PyFloat _ | PyStr _ => of_py p k = Throw PyCastError | _ => True end) /\
  (forall p, match p with PyNone | PyStr _ => of_py p KF64 = Throw PyCastError | _ => True end).
Proof.
  split; [reflexivity|]. split; [|split; [|split; [|split; [|split; [|split]]]]].
  - intros z v. cbn [of_py load_f64]. change (binary_normalize 53 1024 z 0 false) with (f64_of_int z).
    destruct (f64_of_int z); cbn [bind]; try discriminate; rewrite put_f64; congruence.
  - intros z. cbn [of_py load_f64]. change (binary_normalize 53 1024 z 0 false) with (f64_of_int z).
    destruct (f64_of_int z); cbn [bind]; rewrite ?put_f64; split; try discriminate; eauto; intros [s' E]; discriminate.
  - intros z B. exists (f64_of_int z). pose proof (f64_small z B) as F. split; [|exact F]. cbn [of_py load_f64].
    destruct (f64_of_int z); try reflexivity. destruct F.
  - intros b. exists (f64_of_int (if b then 1 else 0)). split; [reflexivity|]. apply f64_small. now destruct b.
  - intros k t b K. rewrite (of_py_int k t _ K) by discriminate. cbn [load_int bind]. apply mk_own; [assumption|].
    destruct k; try discriminate K; injection K as <-; destruct b; vm_compute; split; discriminate.
  - intros k t p K. destruct p; auto; rewrite (of_py_int k t _ K) by discriminate; reflexivity.
  - intros p. destruct p; auto.
Qed.

(** * Classes *)

Fixpoint labels (h : hier) : list iface := match h with Hier b cs => b :: flat_map labels cs end.
Inductive sub : hier -> hier -> Prop :=
| sub_refl : forall h, sub h h
| sub_child : forall h b cs c, In c cs -> sub h c -> sub h (Hier b cs).

Fixpoint hsize (h : hier) : nat := match h with Hier _ cs => S (list_sum (map hsize cs)) end.
Lemma hier_ind_nest : forall P : hier -> Prop, (forall b cs, (forall c, In c cs -> P c) -> P (Hier b cs)) -> forall h, P h.
Proof.
  intros P H h. assert (X : forall n h, (hsize h <= n)%nat -> P h).
  { induction n as [|n IH]; intros [b cs] L; cbn in L; [lia|]. apply H. intros c I. apply IH.
    assert (hsize c <= list_sum (map hsize cs))%nat; [|lia].
    clear -I. induction cs as [|d cs IH]; [destruct I|]. destruct I as [->|I]; cbn; [lia|]. specialize (IH I). unfold list_sum in *. cbn in *. lia. }
  now apply (X (hsize h)).
Qed.

Definition quiet (inst : iface -> bool) (cs : list hier) : Prop := forall c x, In c cs -> In x (labels c) -> inst x = false.

Lemma process_spec : forall inst h,
  (snd (process inst h) = true <-> exists x, In x (labels h) /\ inst x = true) /\
  (forall b, In b (fst (process inst h)) <-> exists cs, sub (Hier b cs) h /\ inst b = true /\ quiet inst cs).
Proof.
  intros inst. apply hier_ind_nest. intros b cs IH. cbn [process].
  set (step := fun '(l, i) c => let '(l', i') := process inst c in (l ++ l', i || i')).
  assert (F : forall cs, (forall c, In c cs -> (snd (process inst c) = true <-> exists x, In x (labels c) /\ inst x = true) /\
              (forall b, In b (fst (process inst c)) <-> exists cs, sub (Hier b cs) c /\ inst b = true /\ quiet inst cs)) ->
    forall l i, (snd (fold_left step cs (l, i)) = true <-> i = true \/ exists c x, In c cs /\ In x (labels c) /\ inst x = true) /\
    (forall b, In b (fst (fold_left step cs (l, i))) <-> In b l \/ exists c ds, In c cs /\ sub (Hier b ds) c /\ inst b = true /\ quiet inst ds)).
  { clear. induction cs as [|c cs IH]; intros H l i.
    - cbn. split; [split; [auto|intros [?|(c & x & [] & _)]; assumption]|]. intros b. split; [auto|]. intros [?|(c & ds & [] & _)]; assumption.
    - cbn [fold_left]. destruct (H c (or_introl eq_refl)) as [H1 H2]. unfold step at 2 4. destruct (process inst c) as [l' i'] eqn:P. cbn [fst snd] in *.
      destruct (IH (fun d I => H d (or_intror I)) (l ++ l') (i || i')) as [X Y]. split.
      + rewrite X. rewrite orb_true_iff, H1. split.
        * intros [[?|(x & A & B)]|(d & x & A & B)]; [auto|right; exists c, x; cbn; auto|right; exists d, x; cbn; tauto].
        * intros [?|(d & x & [->|A] & B)]; [auto|left; right; eauto|right; eauto].
      + intros b. rewrite Y, in_app_iff, H2. split.
        * intros [[?|(ds & A)]|(d & ds & A & B)]; [auto|right; exists c, ds; cbn; auto|right; exists d, ds; cbn; auto].
        * intros [?|(d & ds & [->|A] & B)]; [auto|left; right; eauto|right; eauto]. }
  destruct (F cs IH [] false) as [X Y]. destruct (fold_left step cs ([], false)) as [l i] eqn:E. cbn [fst snd] in X, Y.
  assert (Q : i = false -> quiet inst cs).
  { intros -> c x A B. destruct (inst x) eqn:Ix; [|reflexivity]. exfalso. assert (false = true) by (apply X; right; eauto). discriminate. }
  assert (NQ : i = true -> ~ quiet inst cs).
  { intros -> C. destruct (proj1 X eq_refl) as [?|(c & x & A & B & D)]; [discriminate|]. rewrite (C c x A B) in D. discriminate. }
  assert (YY : forall b, In b l <-> exists ds, (exists c, In c cs /\ sub (Hier b ds) c) /\ inst b = true /\ quiet inst ds).
  { intros x. rewrite Y. split.
    - intros [[]|(c & ds & A & B & C & D)]. exists ds. split; [eauto|auto].
    - intros (ds & (c & A & B) & C & D). right. exists c, ds. auto. }
  assert (SB : forall x ds, sub (Hier x ds) (Hier b cs) <-> (x = b /\ ds = cs) \/ exists c, In c cs /\ sub (Hier x ds) c).
  { intros x ds. split.
    - intros S. inversion S; subst; [auto|right; eauto].
    - intros [[-> ->]|(c & A & B)]; [constructor|econstructor; eauto]. }
  destruct (negb i && inst b) eqn:C; cbn [fst snd].
  - apply andb_true_iff in C as [C1 C2]. apply negb_true_iff in C1. split.
    + split; [|reflexivity]. intros _. exists b. split; [now left|assumption].
    + intros x. rewrite in_app_iff, YY. split.
      * intros [(ds & A & B)|[<-|[]]]; [exists ds; rewrite SB; tauto|]. exists cs. split; [constructor|auto].
      * intros (ds & A & B & D). apply SB in A as [[-> ->]|A]; [right; now left|left; eauto].
  - assert (C' : inst b = true -> i = true). { intros T. destruct i; [reflexivity|]. rewrite T in C. discriminate. }
    split.
    + rewrite X. split.
      * intros [?|(c & x & A & B & D)]; [discriminate|]. exists x. cbn. split; [right; apply in_flat_map; eauto|assumption].
      * intros (x & [<-|A] & B); [specialize (C' B); apply X in C'; exact C'|]. apply in_flat_map in A as (c & A1 & A2). right. eauto.
    + intros x. rewrite YY. split.
      * intros (ds & A & B). exists ds. rewrite SB. tauto.
      * intros (ds & A & B & D). apply SB in A as [[-> ->]|A]; [destruct (NQ (C' B) D)|eauto].
Qed.

(** Below every implemented interface of the tree there is a base. *)
Lemma process_covers : forall inst h, (exists x, In x (labels h) /\ inst x = true) -> exists b, In b (labels h) /\ In b (fst (process inst h)).
Proof.
  intros inst. apply (hier_ind_nest (fun h => (exists x, In x (labels h) /\ inst x = true) -> exists b, In b (labels h) /\ In b (fst (process inst h)))).
  intros b cs IH (x & I & T).
  assert (D : (exists c y, In c cs /\ In y (labels c) /\ inst y = true) \/ quiet inst cs).
  { clear. induction cs as [|c cs IH]; [right; intros c x []|]. destruct (existsb inst (labels c)) eqn:E.
    - apply existsb_exists in E as (y & A & B). left. exists c, y. cbn. auto.
    - destruct IH as [(d & y & A & B)|Q]; [left; exists d, y; cbn; tauto|]. right. intros d x [<-|I] J; [exact (existsb_false _ _ _ E x J)|exact (Q d x I J)]. }
  destruct D as [(c & y & A & B & C)|Q].
  - destruct (IH c A (ex_intro _ y (conj B C))) as (z & Z1 & Z2). exists z. split; [cbn; right; apply in_flat_map; eauto|].
    apply process_spec in Z2 as (ds & S & Z3). apply process_spec. exists ds. split; [econstructor; eauto|assumption].
  - assert (x = b). { cbn in I. destruct I as [->|I]; [reflexivity|]. apply in_flat_map in I as (c & A & B). rewrite (Q c x A B) in T. discriminate. }
    subst x. exists b. split; [now left|]. apply process_spec. exists cs. split; [constructor|auto].
Qed.

Lemma process_sub : forall inst h k b, sub h k -> In b (fst (process inst h)) -> In b (fst (process inst k)).
Proof.
  intros inst h k b S. induction S as [|h c0 cs c I S IH]; [auto|]. intros B. specialize (IH B).
  apply process_spec in IH as (ds & X & Y). apply process_spec. exists ds. split; [econstructor; eauto|exact Y].
Qed.

Definition in_tree (i : iface) : bool := match i with IFactory | ICollection => false | _ => true end.

(** The subtrees, in a list. *)
Fixpoint subs (h : hier) : list hier := match h with Hier b cs => h :: flat_map subs cs end.
Lemma subs_sub : forall h k, sub k h <-> In k (subs h).
Proof.
  apply (hier_ind_nest (fun h => forall k, sub k h <-> In k (subs h))). intros b cs IH k. cbn. split.
  - intros S. inversion S; subst; [now left|]. right. apply in_flat_map. exists c. split; [assumption|]. now apply IH.
  - intros [<-|I]; [constructor|]. apply in_flat_map in I as (c & A & B). econstructor; [exact A|]. now apply IH.
Qed.

Definition iface_eqb (a b : iface) : bool := Nat.eqb
  (let f i := match i with IObject => 0 | IComponent => 1 | IAggregate => 2 | IDynamicInvocation => 3 | IEventConsumer => 4 | IEventProvider => 5
   | ILinkingComponent => 6 | IModel => 7 | IFallibleModel => 8 | IService => 9 | IEventManager => 10 | ILinkRegistry => 11 | ILogger => 12
   | IResolver => 13 | IScheduler => 14 | ITimeKeeper => 15 | IComposite => 16 | ISimulator => 17 | IContainer => 18 | IEntryPoint => 19
   | IEntryPointPublisher => 20 | IEventSink => 21 | IEventSource => 22 | IOperation => 23 | IPersist => 24 | IFailure => 25 | IField => 26
   | IArrayField => 27 | ISimpleArrayField => 28 | ISimpleField => 29 | IForcibleField => 30 | IStructureField => 31 | IDataflowField => 32
   | IProperty => 33 | IReference => 34 | IParameter => 35 | IType => 36 | IArrayType => 37 | IEnumerationType => 38 | IStructureType => 39
   | IClassType => 40 | IFactory => 41 | ICollection => 42 end%nat in f a)
  (let f i := match i with IObject => 0 | IComponent => 1 | IAggregate => 2 | IDynamicInvocation => 3 | IEventConsumer => 4 | IEventProvider => 5
   | ILinkingComponent => 6 | IModel => 7 | IFallibleModel => 8 | IService => 9 | IEventManager => 10 | ILinkRegistry => 11 | ILogger => 12
   | IResolver => 13 | IScheduler => 14 | ITimeKeeper => 15 | IComposite => 16 | ISimulator => 17 | IContainer => 18 | IEntryPoint => 19
   | IEntryPointPublisher => 20 | IEventSink => 21 | IEventSource => 22 | IOperation => 23 | IPersist => 24 | IFailure => 25 | IField => 26
   | IArrayField => 27 | ISimpleArrayField => 28 | ISimpleField => 29 | IForcibleField => 30 | IStructureField => 31 | IDataflowField => 32
   | IProperty => 33 | IReference => 34 | IParameter => 35 | IType => 36 | IArrayType => 37 | IEnumerationType => 38 | IStructureType => 39
   | IClassType => 40 | IFactory => 41 | ICollection => 42 end%nat in f b).
Lemma iface_eqb_ok : forall a b, iface_eqb a b = true -> a = b.
Proof. intros a b. destruct a; destruct b; first [reflexivity|discriminate]. Qed.

Fixpoint derives_b (n : nat) (a b : iface) : bool :=
  iface_eqb a b || match n with O => false | S n => match extends a with Some c => derives_b n c b | None => false end end.
Lemma derives_b_ok : forall n a b, derives_b n a b = true -> derives a b.
Proof.
  induction n as [|n IH]; intros a b E; cbn in E; apply orb_true_iff in E as [E|E]; try discriminate.
  - apply iface_eqb_ok in E. subst b. constructor.
  - apply iface_eqb_ok in E. subst b. constructor.
  - destruct (extends a) as [c|] eqn:X; [|discriminate]. econstructor; eauto.
Qed.

Lemma tree_derives : forall b cs x, sub (Hier b cs) hierarchy -> In x (labels (Hier b cs)) -> derives x b.
Proof.
  intros b cs x S I. apply subs_sub in S.
  assert (C : forallb (fun h => match h with Hier b _ => forallb (fun x => derives_b 6 x b) (labels h) end) (subs hierarchy) = true) by (vm_compute; reflexivity).
  rewrite forallb_forall in C. specialize (C _ S). cbn beta iota in C. rewrite forallb_forall in C. exact (derives_b_ok _ _ _ (C _ I)).
Qed.

Lemma tree_has : forall i, in_tree i = true -> exists cs, sub (Hier i cs) hierarchy.
Proof.
  intros i T.
  assert (C : existsb (fun h => match h with Hier b _ => iface_eqb b i end) (subs hierarchy) = true).
  { destruct i; try discriminate T; vm_compute; reflexivity. }
  apply existsb_exists in C as ([b cs] & I & E). apply iface_eqb_ok in E. subst b. exists cs. now apply subs_sub.
Qed.

Lemma inst_up : forall inst a b, object inst -> derives a b -> inst a = true -> inst b = true.
Proof. intros inst a b [_ U] D. induction D as [|i j k E D IH]; [auto|]. intros H. apply IH. exact (U _ _ H E). Qed.

Lemma isinstance_iff : forall inst i, object inst -> in_tree i = true -> (isinstance (bases inst) i <-> inst i = true).
Proof.
  intros inst i O T. split.
  - intros (b & I & D). apply process_spec in I as (cs & _ & B & _). exact (inst_up _ _ _ O D B).
  - intros H. destruct (tree_has i T) as (cs & S). destruct (process_covers inst (Hier i cs)) as (b & L & B).
    { exists i. split; [now left|assumption]. }
    exists b. split; [exact (process_sub _ _ _ _ S B)|]. exact (tree_derives _ _ _ S L).
Qed.

(** An interface that derives from another is below it in the tree. *)
Lemma derives_below : forall a b cs, derives a b -> in_tree a = true -> sub (Hier b cs) hierarchy -> In a (labels (Hier b cs)).
Proof.
  intros a b cs D T S. revert cs S. induction D as [i|i j k E D IH]; intros cs S; [now left|].
  assert (T' : in_tree j = true) by (destruct i; try discriminate T; try discriminate E; injection E as <-; reflexivity).
  specialize (IH T' cs S). clear D.
  apply subs_sub in S.
  assert (C : forallb (fun h => forallb (fun j => forallb (fun i => match extends i with Some j' => if iface_eqb j j' then existsb (iface_eqb i) (labels h) || negb (in_tree i) else true | None => true end)
     (labels hierarchy)) (labels h)) (subs hierarchy) = true) by (vm_compute; reflexivity).
  rewrite forallb_forall in C. specialize (C _ S). cbn beta in C. rewrite forallb_forall in C. specialize (C _ IH). cbn beta in C. rewrite forallb_forall in C.
  assert (L : In i (labels hierarchy)).
  { destruct (tree_has i T) as (ds & Q). apply subs_sub in Q. clear -Q.
    assert (G : forall h k, In k (subs h) -> forall x, In x (labels k) -> In x (labels h)).
    { apply (hier_ind_nest (fun h => forall k, In k (subs h) -> forall x, In x (labels k) -> In x (labels h))).
      intros b cs IH k [<-|I] x J; [assumption|]. apply in_flat_map in I as (c & A & B). cbn. right. apply in_flat_map. exists c. split; [assumption|]. exact (IH c A k B x J). }
    apply (G _ _ Q). now left. }
  specialize (C _ L). cbn beta in C. rewrite E in C.
  assert (X : iface_eqb j j = true) by (destruct j; reflexivity). rewrite X, T in C. cbn in C. rewrite orb_false_r in C.
  assert (C' : existsb (iface_eqb i) (labels (Hier k cs)) = true) by exact C.
  apply existsb_exists in C' as (y & A & B). apply iface_eqb_ok in B. now subst y.
Qed.

Lemma bases_minimal : forall inst b c, In b (bases inst) -> in_tree c = true -> inst c = true -> derives c b -> c = b.
Proof.
  intros inst b c I T Ic D. apply process_spec in I as (cs & S & B & Q). pose proof (derives_below _ _ _ D T S) as L. cbn in L.
  destruct L as [L|L]; [congruence|]. apply in_flat_map in L as (d & A & L). rewrite (Q d c A L) in Ic. discriminate.
Qed.
