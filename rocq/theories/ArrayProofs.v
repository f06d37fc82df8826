(** Proofs about Xsmp::Array. *)
From Coq Require Import ZArith List Bool Lia Floats.SpecFloat.
From Verif Require Import Base ArrayModel ArraySpec.
Import ListNotations.
Local Open Scope nat_scope.

Section Items.
  Context {A : Type}.

  Lemma fill_n_all (v : A) l : fill_n l (length l) v = repeat v (length l).
  Proof. induction l as [|x l IH]; cbn; congruence. Qed.

  Lemma put_length k (x : A) l : length (put k x l) = length l.
  Proof. revert k. induction l as [|y l IH]; intros [|k]; cbn; auto. Qed.

  Lemma put_at k (x : A) l : k < length l -> nth_error (put k x l) k = Some x.
  Proof. revert k. induction l as [|y l IH]; intros [|k] L; cbn in *; try lia; auto. apply IH. lia. Qed.

  Lemma put_other k j (x : A) l : j <> k -> nth_error (put k x l) j = nth_error l j.
  Proof. revert k j. induction l as [|y l IH]; intros [|k] [|j] N; cbn; auto; try lia. Qed.

  Lemma put_mid (p : list A) x y q k : k = length p -> put k x (p ++ y :: q) = p ++ x :: q.
  Proof. intros ->. induction p as [|z p IH]; cbn; congruence. Qed.

  Lemma nth_mid (p : list A) y q k : k = length p -> nth_error (p ++ y :: q) k = Some y.
  Proof. intros ->. now rewrite nth_error_app2, Nat.sub_diag by lia. Qed.

  Lemma write_same (m : store) i (l : list A) : write m i l i = l.
  Proof. unfold write. now rewrite Nat.eqb_refl. Qed.
  Lemma write_other (m : store) i j (l : list A) : j <> i -> write m i l j = m j.
  Proof. unfold write. intros N. now apply Nat.eqb_neq in N as ->. Qed.

  (** Two different arrays: what is left of [i] is moved to [j] and the other way round. *)
  Lemma swap_from_ok i j : i <> j -> forall (x y : list A) m p q,
    length p = length q -> length x = length y ->
    m i = p ++ x -> m j = q ++ y ->
    exists m', swap_from (length x) (length p) m i j = Ok m' /\ m' i = p ++ y /\ m' j = q ++ x /\
      forall k, k <> i -> k <> j -> m' k = m k.
  Proof.
    intros N. induction x as [|a x IH]; intros [|b y] m p q L1 L2 E1 E2; cbn in L2; try discriminate.
    - exists m. repeat split; auto.
    - cbn [length swap_from]. rewrite E1, E2.
      rewrite (nth_mid p a x), (nth_mid q b y) by congruence. cbv zeta.
      rewrite (write_other m i j) by auto. rewrite E2.
      rewrite (put_mid p b a x) by reflexivity. rewrite (put_mid q a b y) by congruence.
      set (m2 := write (write m i _) j _).
      destruct (IH y m2 (p ++ [b]) (q ++ [a])) as (m' & S' & A1 & A2 & A3).
      + rewrite !app_length. cbn. lia.
      + lia.
      + unfold m2. rewrite write_other, write_same by auto. now rewrite <- app_assoc.
      + unfold m2. rewrite write_same. now rewrite <- app_assoc.
      + exists m'. rewrite app_length in S'. cbn [length] in S'. rewrite Nat.add_1_r in S'.
        split; [exact S'|]. split; [rewrite A1; now rewrite <- app_assoc|]. split; [rewrite A2; now rewrite <- app_assoc|].
        intros k K1 K2. rewrite A3 by auto. unfold m2. now rewrite !write_other.
  Qed.

  Lemma put_same k (x : A) l : nth_error l k = Some x -> put k x l = l.
  Proof. revert k. induction l as [|y l IH]; intros [|k]; cbn; intros H; try congruence. now rewrite IH. Qed.

  Lemma swap_self_ok i : forall n k m, k + n <= length (m i) ->
    exists m' : @store A, swap_from n k m i i = Ok m' /\ forall j, m' j = m j.
  Proof.
    induction n as [|n IH]; intros k m L; cbn [swap_from]; [eauto|].
    destruct (nth_error (m i) k) as [x|] eqn:E.
    - cbv zeta. rewrite write_same. rewrite (put_same k x (m i) E). rewrite (put_same k x (m i) E).
      destruct (IH (S k) (write (write m i (m i)) i (m i))) as (m' & S' & A').
      + rewrite write_same. lia.
      + exists m'. split; [exact S'|]. intros j. rewrite A'. unfold write. destruct (Nat.eqb_spec j i); now subst.
    - apply nth_error_None in E. lia.
  Qed.

  Lemma backwards_ok (a : list A) : forall p q, a = p ++ q -> backwards a (length p) = Ok (rev p).
  Proof.
    intros p. induction p as [|x p IH] using rev_ind; intros q E; [reflexivity|].
    rewrite app_length, Nat.add_1_r. cbn [backwards]. rewrite <- app_assoc in E. cbn in E.
    unfold index. rewrite E at 1. rewrite (nth_mid p x q) by reflexivity. cbn [bind].
    rewrite (IH _ E). cbn [bind]. now rewrite rev_app_distr.
  Qed.

  (** * Comparisons *)
  Variable P : A -> Prop.
  Variable eq lt : A -> A -> bool.

  Lemma arr_eq_same a b : length a = length b -> (arr_eq eq a b = true <-> same_items eq a b).
  Proof.
    revert b. induction a as [|x a IH]; intros [|y b] L; cbn in *; try discriminate.
    - split; [constructor|reflexivity].
    - destruct (eq x y) eqn:E.
      + rewrite IH by lia. split; [now constructor|now inversion 1].
      + split; [discriminate|inversion 1; congruence].
  Qed.

  Hypothesis O : ordered P eq lt.

  Lemma arr_lt_before a b : length a = length b -> Forall P a -> Forall P b ->
    (arr_lt lt a b = true <-> before eq lt a b).
  Proof.
    intros L Fa. revert b L. induction Fa as [|x a Px Fa IH]; intros [|y b] L Fb; cbn in L; try discriminate.
    - cbn. split; [discriminate|]. intros (k & u & v & _ & H & _). now destruct k.
    - inversion Fb as [|? ? Py Fb']; subst. cbn [arr_lt]. destruct (lt x y) eqn:E1.
      + split; [|reflexivity]. intros _. exists 0, x, y. repeat split; auto. constructor.
      + destruct (lt y x) eqn:E2.
        * split; [discriminate|]. intros (k & u & v & S' & H1 & H2 & H3). destruct k as [|k]; cbn in *.
          -- congruence.
          -- inversion S' as [|? ? ? ? Q _]; subst. pose proof (o_lt_eq _ _ _ O y x Py Px E2) as W.
             rewrite (o_sym _ _ _ O y x Py Px) in W. congruence.
        * rewrite IH by (auto; lia). split.
          -- intros (k & u & v & S' & H1 & H2 & H3). exists (S k), u, v. cbn. repeat split; auto.
             constructor; auto. destruct (o_total _ _ _ O x y Px Py) as [T|[T|T]]; congruence.
          -- intros (k & u & v & S' & H1 & H2 & H3). destruct k as [|k]; cbn in *; [congruence|].
             inversion S'; subst. exists k, u, v. auto.
  Qed.

  Lemma arr_refl a : Forall P a -> arr_eq eq a a = true.
  Proof. induction 1; cbn; auto. now rewrite (o_refl _ _ _ O). Qed.

  Lemma arr_sym a b : length a = length b -> Forall P a -> Forall P b -> arr_eq eq a b = arr_eq eq b a.
  Proof.
    intros L Fa. revert b L. induction Fa as [|x a Px Fa IH]; intros [|y b] L Fb; cbn in *; try discriminate; auto.
    inversion Fb; subst. rewrite (o_sym _ _ _ O x y) by auto. now rewrite IH by (auto; lia).
  Qed.

  Lemma arr_eq_trans a b c : length a = length b -> length b = length c -> Forall P a -> Forall P b -> Forall P c ->
    arr_eq eq a b = true -> arr_eq eq b c = true -> arr_eq eq a c = true.
  Proof.
    intros L M Fa. revert b c L M. induction Fa as [|x a Px Fa IH]; intros [|y b] [|z c] L M Fb Fc; cbn in *; try discriminate; auto.
    inversion Fb; inversion Fc; subst. destruct (eq x y) eqn:E1; [|discriminate]. destruct (eq y z) eqn:E2; [|discriminate].
    rewrite (o_trans _ _ _ O x y z) by auto. apply IH; auto; lia.
  Qed.

  Lemma arr_lt_trans a b c : length a = length b -> length b = length c -> Forall P a -> Forall P b -> Forall P c ->
    arr_lt lt a b = true -> arr_lt lt b c = true -> arr_lt lt a c = true.
  Proof.
    intros L M Fa. revert b c L M. induction Fa as [|x a Px Fa IH]; intros [|y b] [|z c] L M Fb Fc; cbn in *; try discriminate; auto.
    inversion Fb as [|? ? Py Fb']; inversion Fc as [|? ? Pz Fc']; subst.
    destruct (lt x y) eqn:E1.
    - intros _. destruct (lt y z) eqn:E2.
      + intros _. now rewrite (o_lt_trans _ _ _ O x y z).
      + destruct (lt z y) eqn:E3; [discriminate|]. intros _.
        assert (Q : eq y z = true) by (destruct (o_total _ _ _ O y z Py Pz) as [T|[T|T]]; congruence).
        rewrite <- (o_lt_r _ _ _ O y z x) by auto. now rewrite E1.
    - destruct (lt y x) eqn:E2; [discriminate|]. intros H1.
      assert (Q : eq x y = true) by (destruct (o_total _ _ _ O x y Px Py) as [T|[T|T]]; congruence).
      rewrite (o_lt_l _ _ _ O x y z), (o_lt_r _ _ _ O x y z) by auto.
      destruct (lt y z) eqn:E3; [reflexivity|]. destruct (lt z y) eqn:E4; [discriminate|].
      intros H2. apply IH with b; auto; lia.
  Qed.

  Lemma arr_lt_l a b c : length a = length b -> length b = length c -> Forall P a -> Forall P b -> Forall P c ->
    arr_eq eq a b = true -> arr_lt lt a c = arr_lt lt b c /\ arr_lt lt c a = arr_lt lt c b.
  Proof.
    intros L M Fa. revert b c L M. induction Fa as [|x a Px Fa IH]; intros [|y b] [|z c] L M Fb Fc; cbn in *; try discriminate; auto.
    inversion Fb; inversion Fc; subst. destruct (eq x y) eqn:E1; [|discriminate]. intros H.
    rewrite (o_lt_l _ _ _ O x y z), (o_lt_r _ _ _ O x y z) by auto.
    destruct (IH b c) as [I1 I2]; auto; try lia. now rewrite I1, I2.
  Qed.

  Lemma arr_lt_eq a b : length a = length b -> Forall P a -> Forall P b ->
    arr_lt lt a b = true -> arr_eq eq a b = false /\ arr_lt lt b a = false.
  Proof.
    intros L Fa. revert b L. induction Fa as [|x a Px Fa IH]; intros [|y b] L Fb; cbn in *; try discriminate.
    inversion Fb; subst. destruct (lt x y) eqn:E1.
    - intros _. rewrite (o_lt_eq _ _ _ O x y), (o_asym _ _ _ O x y) by auto. auto.
    - destruct (lt y x) eqn:E2; [discriminate|]. intros H. destruct (IH b) as [I1 I2]; auto; try lia.
      rewrite I1, I2. now destruct (eq x y).
  Qed.

  Lemma arr_total a b : length a = length b -> Forall P a -> Forall P b ->
    arr_lt lt a b = true \/ arr_eq eq a b = true \/ arr_lt lt b a = true.
  Proof.
    intros L Fa. revert b L. induction Fa as [|x a Px Fa IH]; intros [|y b] L Fb; cbn in *; try discriminate; auto.
    inversion Fb as [|? ? Py Fb']; subst. destruct (lt x y) eqn:E1; [auto|]. destruct (lt y x) eqn:E2; [auto|].
    assert (Q : eq x y = true) by (destruct (o_total _ _ _ O x y Px Py) as [T|[T|T]]; congruence).
    rewrite Q. apply IH; auto.
  Qed.

  Lemma arr_ordered n : ordered (arr_of n P) (arr_eq eq) (arr_lt lt).
  Proof.
    constructor.
    - intros x [_ F]. now apply arr_refl.
    - intros x y [L F] [L' F']. apply arr_sym; auto; congruence.
    - intros x y z [? ?] [? ?] [? ?]. apply arr_eq_trans; auto; congruence.
    - intros x y z [? ?] [? ?] [? ?]. apply arr_lt_trans; auto; congruence.
    - intros x y z [? ?] [? ?] [? ?] E. apply arr_lt_l; auto; congruence.
    - intros x y z [? ?] [? ?] [? ?] E. apply arr_lt_l; auto; congruence.
    - intros x y [? ?] [? ?] E. apply arr_lt_eq; auto; congruence.
    - intros x y [? ?] [? ?] E. apply arr_lt_eq; auto; congruence.
    - intros x y [? ?] [? ?]. apply arr_total; auto; congruence.
  Qed.
End Items.

Lemma Z_ordered P : ordered P Z.eqb Z.ltb.
Proof.
  constructor; intros; rewrite ?Z.eqb_eq, ?Z.ltb_lt, ?Z.eqb_neq, ?Z.ltb_ge in *; try lia.
Qed.

(** * Floating point numbers other than NaN *)

(** Their order is that of these triples. *)
Definition key (f : spec_float) : Z * Z * Z :=
  match f with
  | S754_infinity true => (-2, 0, 0)%Z
  | S754_finite true m e => (-1, -e, Z.neg m)%Z
  | S754_zero _ => (0, 0, 0)%Z
  | S754_finite false m e => (1, e, Z.pos m)%Z
  | S754_infinity false => (2, 0, 0)%Z
  | S754_nan => (3, 0, 0)%Z
  end.
Definition keylt (a b : Z * Z * Z) : Prop :=
  let '(a1, a2, a3) := a in let '(b1, b2, b3) := b in
  (a1 < b1 \/ a1 = b1 /\ (a2 < b2 \/ a2 = b2 /\ a3 < b3))%Z.

Lemma compare_key f g : not_nan f -> not_nan g ->
  (SFcompare f g = Some Lt /\ keylt (key f) (key g)) \/
  (SFcompare f g = Some Eq /\ key f = key g) \/
  (SFcompare f g = Some Gt /\ keylt (key g) (key f)).
Proof.
  unfold not_nan. intros F G.
  destruct f as [s|s| |s m e], g as [s'|s'| |s' m' e']; try congruence;
    try destruct s; try destruct s'; cbn; auto; try (left; split; [reflexivity|lia]); try (right; right; split; [reflexivity|lia]).
  - destruct (Z.compare_spec e e') as [->|L|L].
    + pose proof (Pos.compare_spec m m') as C. change (Pos.compare_cont Eq m m') with (Pos.compare m m').
      destruct C as [->|C|C]; cbn; [right; left; auto|right; right|left]; (split; [reflexivity|lia]).
    + right; right. split; [reflexivity|lia].
    + left. split; [reflexivity|lia].
  - destruct (Z.compare_spec e e') as [->|L|L].
    + pose proof (Pos.compare_spec m m') as C. change (Pos.compare_cont Eq m m') with (Pos.compare m m').
      destruct C as [->|C|C]; cbn; [right; left; auto|left|right; right]; (split; [reflexivity|lia]).
    + left. split; [reflexivity|lia].
    + right; right. split; [reflexivity|lia].
Qed.

Lemma keylt_irr a : ~ keylt a a.
Proof. destruct a as [[a1 a2] a3]. cbn. lia. Qed.
Lemma keylt_trans a b c : keylt a b -> keylt b c -> keylt a c.
Proof. destruct a as [[a1 a2] a3], b as [[b1 b2] b3], c as [[c1 c2] c3]. cbn. lia. Qed.

Lemma ltb_key f g : not_nan f -> not_nan g -> (SFltb f g = true <-> keylt (key f) (key g)).
Proof.
  intros F G. unfold SFltb. destruct (compare_key f g F G) as [[-> H]|[[-> H]|[-> H]]].
  - tauto.
  - split; [discriminate|]. rewrite H. intros K. now apply keylt_irr in K.
  - split; [discriminate|]. intros K. destruct (keylt_irr _ (keylt_trans _ _ _ H K)).
Qed.
Lemma eqb_key f g : not_nan f -> not_nan g -> (SFeqb f g = true <-> key f = key g).
Proof.
  intros F G. unfold SFeqb. destruct (compare_key f g F G) as [[-> H]|[[-> H]|[-> H]]].
  - split; [discriminate|]. intros K. rewrite K in H. now apply keylt_irr in H.
  - tauto.
  - split; [discriminate|]. intros K. rewrite K in H. now apply keylt_irr in H.
Qed.

Lemma bool_iff (a b : bool) : (a = true <-> b = true) -> a = b.
Proof. destruct a, b; intuition congruence. Qed.

Lemma float_ordered : ordered not_nan SFeqb SFltb.
Proof.
  constructor.
  - intros x F. now apply eqb_key.
  - intros x y F G. apply bool_iff. rewrite !eqb_key by auto. split; congruence.
  - intros x y z F G H. rewrite !eqb_key by auto. congruence.
  - intros x y z F G H. rewrite !ltb_key by auto. apply keylt_trans.
  - intros x y z F G H E. apply bool_iff. rewrite eqb_key in E by auto. rewrite !ltb_key by auto. now rewrite E.
  - intros x y z F G H E. apply bool_iff. rewrite eqb_key in E by auto. rewrite !ltb_key by auto. now rewrite E.
  - intros x y F G E. apply not_true_is_false. rewrite ltb_key in E by auto. rewrite eqb_key by auto.
    intros K. rewrite K in E. now apply keylt_irr in E.
  - intros x y F G E. apply not_true_is_false. rewrite ltb_key in * by auto. intros K.
    exact (keylt_irr _ (keylt_trans _ _ _ E K)).
  - intros x y F G. rewrite !ltb_key, eqb_key by auto. destruct (compare_key x y F G) as [[_ H]|[[_ H]|[_ H]]]; auto.
Qed.
