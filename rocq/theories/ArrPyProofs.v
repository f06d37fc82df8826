From Coq Require Import ZArith List Bool Lia.
From Verif Require Import Base UuidModel PathModel AnyModel AnySpec FlowModel FlowSpec FlowProofs FArrModel FArrSpec FArrProofs PyModel PySpec PyProofs ArrPyModel ArrPySpec.
Import ListNotations.
Local Open Scope Z_scope.

Lemma i64_of z : 0 <= z < 2 ^ 63 -> in_i64 z = true.
Proof. intros H. unfold in_i64, i64_min, i64_max. apply andb_true_iff. rewrite !Z.leb_le. lia. Qed.

Lemma getitem_spec w i n j : typed w -> has_size w i n ->
  arr_getitem w i j =
  if in_i64 j then
    if 0 <=? j then
      match nth_error (avals (arrs w i)) (Z.to_nat j) with
      | Some x => match to_py (Any (ak (arrs w i)) x) with Ok p => Ok p | Throw _ => Throw IndexError | UB => UB end
      | None => Throw IndexError
      end
    else Throw IndexError
  else Throw TypeError.
Proof.
  intros T (S & L). unfold arr_getitem, arr_len. rewrite S. destruct (in_i64 j) eqn:I; cbn [negb]; [|reflexivity].
  unfold in_i64, i64_min, i64_max in I. apply andb_true_iff in I. rewrite !Z.leb_le in I.
  destruct (Z.leb_spec 0 j) as [P|N].
  - rewrite py_index_nonneg by lia. destruct (Z.ltb_spec j n) as [Lt|Ge].
    + destruct (nth_error (avals (arrs w i)) (Z.to_nat j)) as [x|] eqn:E; [|apply nth_error_None in E; lia].
      rewrite (get_ok w i _ x T E). reflexivity.
    + destruct (nth_error (avals (arrs w i)) (Z.to_nat j)) as [x|] eqn:E; [|reflexivity].
      assert (X : (Z.to_nat j < length (avals (arrs w i)))%nat) by (apply nth_error_Some; congruence). lia.
  - rewrite py_index_neg by lia. reflexivity.
Qed.

Lemma getitem_at w i n k x p : typed w -> has_size w i n -> nth_error (avals (arrs w i)) k = Some x ->
  to_py (Any (ak (arrs w i)) x) = Ok p -> arr_getitem w i (Z.of_nat k) = Ok p.
Proof.
  intros T H N P. assert (K : (k < length (avals (arrs w i)))%nat) by (apply nth_error_Some; congruence).
  rewrite (getitem_spec w i n _ T H). destruct H as (S & L). rewrite i64_of by lia. rewrite (proj2 (Z.leb_le _ _)) by lia.
  now rewrite Nat2Z.id, N, P.
Qed.

Lemma getitem_out w i n j : typed w -> has_size w i n -> j < 0 \/ n <= j -> arr_getitem w i j = Throw IndexError \/ arr_getitem w i j = Throw TypeError.
Proof.
  intros T H O. rewrite (getitem_spec w i n j T H). destruct H as (S & L). destruct (in_i64 j); [left|now right].
  destruct (Z.leb_spec 0 j); [|reflexivity]. rewrite (proj2 (nth_error_None _ _)) by lia. reflexivity.
Qed.

Lemma put_other {A} k j (x : A) l : j <> k -> nth_error (put_nth k x l) j = nth_error l j.
Proof. revert k j. induction l as [|y l IH]; intros [|k] [|j] N; cbn; try reflexivity; try congruence. apply IH. congruence. Qed.
Lemma put_same {A} k (x : A) l : (k < length l)%nat -> nth_error (put_nth k x l) k = Some x.
Proof. revert k. induction l as [|y l IH]; intros [|k] N; cbn in *; try lia; [reflexivity|]. apply IH. lia. Qed.

Definition stored (w : world) (i k : nat) (v : payload) : world := set_arr w i (with_vals (arrs w i) (put_nth k v (avals (arrs w i)))).
Lemma stored_arr w i k v : arrs (stored w i k v) i = with_vals (arrs w i) (put_nth k v (avals (arrs w i))).
Proof. cbn. now rewrite upd_same. Qed.
Lemma stored_typed w i k v : typed w -> value_of (ac (arrs w i)) v -> typed (stored w i k v).
Proof.
  intros (A & B) V. split; [exact A|]. intros j. destruct (Nat.eq_dec j i) as [->|D].
  - rewrite stored_arr. cbn. destruct (B i) as (C & F). split; [exact C|]. now apply put_nth_forall.
  - cbn. rewrite upd_other by exact D. apply B.
Qed.
Lemma stored_size w i k v n : has_size w i n -> has_size (stored w i k v) i n.
Proof. unfold has_size. rewrite stored_arr. cbn. now rewrite put_nth_length. Qed.
Lemma stored_item w i k v x p : item_value (stored w i k v) i x p <-> item_value w i x p.
Proof. unfold item_value. rewrite stored_arr. reflexivity. Qed.

Lemma setitem_ok w i n k v p : typed w -> has_size w i n -> (k < length (avals (arrs w i)))%nat -> item_value w i v p ->
  arr_setitem false w i (Z.of_nat k) p = (stored w i k v, Ok tt).
Proof.
  intros T (S & L) K (V & Sh & P). set (a := Any (ak (arrs w i)) v) in *.
  assert (O : any_ok a) by (eapply typed_any; [apply (proj2 T i)|exact V]).
  destruct (round_trip a O Sh) as (p' & P' & B). rewrite P in P'. injection P' as <-. cbn [atype a] in B.
  unfold arr_setitem, arr_len. rewrite (proj2 (Z.leb_le _ _)), (proj2 (Z.ltb_lt (Z.of_nat k) (2 ^ 64))) by lia. cbn [andb negb].
  rewrite B, (proj2 (Z.ltb_lt _ _)), Nat2Z.id by lia. rewrite (set_item_same w i k a T O K eq_refl). unfold done.
  rewrite (item_itself _ (ak (arrs w i)) a (proj1 (proj2 T i)) V eq_refl). reflexivity.
Qed.

Lemma setitem_refused anon w i j p r : arr_setitem anon w i j p = r -> snd r <> Ok tt -> fst r = w.
Proof.
  intros <-. unfold arr_setitem. destruct (negb _); [reflexivity|]. destruct anon; [reflexivity|].
  destruct (of_py p (ak (arrs w i))) as [v|e|]; try reflexivity.
  destruct (j <? arr_len w i); [|reflexivity]. unfold arr_set_any. cbv zeta.
  destruct (Z.to_nat j <? length (avals (arrs w i)))%nat; [|reflexivity].
  destruct (negb (apub (arrs w i)) && _); [reflexivity|]. destruct (from_any _ _); try reflexivity. cbn. congruence.
Qed.

Lemma setitem_out anon w i n j p : has_size w i n -> j < 0 \/ n <= j -> snd (arr_setitem anon w i j p) <> Ok tt.
Proof.
  intros (S & L) O. unfold arr_setitem, arr_len. destruct (negb _) eqn:E; [discriminate|]. destruct anon; [discriminate|].
  destruct (of_py p (ak (arrs w i))) as [v|e|]; try discriminate.
  apply negb_false_iff, andb_true_iff in E. rewrite Z.leb_le in E. rewrite (proj2 (Z.ltb_ge _ _)) by lia. discriminate.
Qed.

Lemma write_ok i n vs ps : forall w done_ rest, typed w -> has_size w i n -> avals (arrs w i) = done_ ++ rest ->
  length vs = length rest -> Forall2 (item_value w i) vs ps ->
  exists w', arr_write false w i (Z.of_nat (length done_)) ps = (w', Ok tt) /\ only_items w w' i /\ typed w' /\
    avals (arrs w' i) = done_ ++ vs.
Proof.
  revert ps. induction vs as [|v vs IH]; intros ps w a b T H E L F; inversion F as [|v0 p vs0 ps0 I1 F1]; subst; destruct b as [|y b]; try discriminate L.
  - exists w. split; [reflexivity|]. split; [|now split]. split; [reflexivity|]. split; [reflexivity|]. split; [reflexivity|]. now destruct (arrs w i).
  - cbn [arr_write].
    assert (K : (length a < length (avals (arrs w i)))%nat) by (rewrite E, app_length; cbn; lia).
    rewrite (setitem_ok w i n (length a) v p T H K I1).
    set (w1 := stored w i (length a) v).
    assert (E1 : avals (arrs w1 i) = (a ++ [v]) ++ b).
    { unfold w1. rewrite stored_arr. cbn. rewrite E, (put_nth_mid a v y b _ eq_refl), <- app_assoc. reflexivity. }
    destruct (IH ps0 w1 (a ++ [v]) b) as (w' & W & O & T' & A); auto.
    + apply stored_typed; [exact T|]. apply I1.
    + now apply stored_size.
    + clear -F1 w1. induction F1; constructor; [now apply stored_item|assumption].
    + exists w'. rewrite app_length in W. cbn [length] in W. replace (Z.of_nat (length a) + 1) with (Z.of_nat (length a + 1)) by lia.
      split; [exact W|]. split; [|split; [exact T'|now rewrite A, <- app_assoc]].
      destruct O as (O1 & O2 & O3 & O4). split; [exact O1|]. split; [exact O2|]. split.
      * intros j D. rewrite (O3 j D). unfold w1. cbn. now rewrite upd_other.
      * rewrite O4. unfold w1. rewrite stored_arr. reflexivity.
Qed.

Lemma read_ok w i n : typed w -> has_size w i n -> forall b ps a, avals (arrs w i) = a ++ b ->
  Forall2 (item_value w i) b ps -> arr_read w i (Z.of_nat (length a)) (length b) = Ok ps.
Proof.
  intros T H. induction b as [|x b IH]; intros ps a E F; inversion F; subst; [reflexivity|]. cbn [arr_read length].
  rewrite (getitem_at w i n (length a) x y T H).
  - cbn [bind]. specialize (IH l' (a ++ [x])). rewrite app_length in IH. cbn [length] in IH.
    replace (Z.of_nat (length a) + 1) with (Z.of_nat (length a + 1)) by lia. rewrite IH; [reflexivity|now rewrite <- app_assoc|assumption].
  - rewrite E, nth_error_app2, Nat.sub_diag by lia. reflexivity.
  - now match goal with H : item_value w i x y |- _ => destruct H as (_ & _ & ?) end.
Qed.
