From Coq Require Import ZArith List Bool Arith Lia Sorting.Permutation.
From Verif Require Import Base PersistModel PersistSpec.
Import ListNotations.
Local Open Scope Z_scope.

(** * Numbers *)

Lemma le_bytes_length : forall n z, length (le_bytes n z) = n.
Proof. induction n; intros; simpl; auto. Qed.

Lemma le_value_bytes : forall n z, 0 <= z < 256 ^ Z.of_nat n -> le_value (le_bytes n z) = z.
Proof.
  induction n as [|n IH]; intros z H.
  - simpl in *. lia.
  - rewrite Nat2Z.inj_succ, Z.pow_succ_r in H by lia. cbn [le_bytes le_value].
    rewrite IH.
    + pose proof (Z.div_mod z 256). lia.
    + split; [apply Z.div_pos; lia|]. apply Z.div_lt_upper_bound; lia.
Qed.

Lemma read_app : forall n a r, length a = n -> read n (a ++ r) = Ok (a, r).
Proof.
  intros n a r H. unfold read.
  replace (length (a ++ r) <? n)%nat with false.
  - rewrite firstn_app, skipn_app, H, Nat.sub_diag. simpl.
    rewrite firstn_all2 by lia. rewrite skipn_all2 by lia. now rewrite app_nil_r.
  - symmetry. apply Nat.ltb_ge. rewrite app_length. lia.
Qed.

Lemma read_short : forall n p, (length p < n)%nat -> read n p = Throw CannotRestore.
Proof. intros n p H. unfold read. apply Nat.ltb_lt in H. now rewrite H. Qed.

Lemma read_size_app : forall z r,
  0 <= z < 2 ^ 64 -> read_size (le_bytes size_bytes z ++ r) = Ok (z, r).
Proof.
  intros z r H. unfold read_size. rewrite read_app by apply le_bytes_length. cbn [bind].
  rewrite le_value_bytes; [reflexivity|]. exact H.
Qed.

Lemma read_size_short : forall z p q,
  le_bytes size_bytes z = p ++ q -> q <> [] -> read_size p = Throw CannotRestore.
Proof.
  intros z p q H N. unfold read_size. rewrite read_short; [reflexivity|].
  pose proof (le_bytes_length size_bytes z) as L. rewrite H, app_length in L.
  destruct q; [congruence|]. simpl in L. lia.
Qed.

(** * Sequences of elements *)

Lemma restore_n_app : forall A (f : list Z -> res pexn (A * list Z)) (enc : A -> list Z)
  (S : A -> A -> Prop) l r,
  (forall v r, In v l -> exists v', f (enc v ++ r) = Ok (v', r) /\ S v v') ->
  exists l', restore_n f (length l) (flat_map enc l ++ r) = Ok (l', r) /\ Forall2 S l l'.
Proof.
  intros A f enc S l. induction l as [|v l IH]; intros r H.
  - exists []. split; [reflexivity|constructor].
  - destruct (H v (flat_map enc l ++ r) (or_introl eq_refl)) as (v' & E & V).
    destruct (IH r) as (l' & E' & L); [intros; apply H; now right|].
    exists (v' :: l'). split; [|now constructor].
    simpl. rewrite <- app_assoc, E. cbn [bind]. rewrite E'. reflexivity.
Qed.

Lemma app_eq_cases : forall A (a b p q : list A),
  a ++ b = p ++ q ->
  (exists q', q' <> [] /\ a = p ++ q' /\ q = q' ++ b) \/ (exists p', p = a ++ p' /\ b = p' ++ q).
Proof.
  induction a as [|x a IH]; intros b p q H.
  - right. exists p. split; [reflexivity|exact H].
  - destruct p as [|y p].
    + left. exists (x :: a). split; [discriminate|]. split; [reflexivity|]. simpl in H. now symmetry.
    + injection H as <- H. destruct (IH b p q H) as [(q' & N & E & F)|(p' & E & F)].
      * left. exists q'. split; [exact N|]. split; [now rewrite E|exact F].
      * right. exists p'. split; [now rewrite E|exact F].
Qed.

Lemma restore_n_short : forall A (f : list Z -> res pexn (A * list Z)) (enc : A -> list Z) l p q,
  (forall v r, In v l -> exists v', f (enc v ++ r) = Ok (v', r)) ->
  (forall v p q, In v l -> enc v = p ++ q -> q <> [] -> f p = Throw CannotRestore) ->
  flat_map enc l = p ++ q -> q <> [] ->
  restore_n f (length l) p = Throw CannotRestore.
Proof.
  intros A f enc l. induction l as [|v l IH]; intros p q H1 H2 E N.
  - simpl in E. symmetry in E. apply app_eq_nil in E. now destruct E.
  - simpl in E. apply app_eq_cases in E. destruct E as [(q' & N' & E & _)|(p' & E & F)].
    + simpl. rewrite (H2 v p q' (or_introl eq_refl) E N'). reflexivity.
    + subst p. simpl. destruct (H1 v p' (or_introl eq_refl)) as (v' & ->). cbn [bind].
      rewrite (IH p' q); auto.
      * intros; apply H1; now right.
      * intros v0 p0 q0 I. apply H2. now right.
Qed.

(** * Strings of bytes *)

Lemma flat_map_bytes1 : forall l, Forall (fun z => 0 <= z < 256) l -> flat_map (le_bytes 1) l = l.
Proof.
  induction l as [|x l IH]; intros H; [reflexivity|]. inversion H; subst.
  cbn [flat_map]. rewrite IH by assumption. cbn [le_bytes app]. f_equal. now apply Z.mod_small.
Qed.

Lemma units1 : forall l, units 1 (length l) l = l.
Proof. induction l as [|x l IH]; [reflexivity|]. simpl. rewrite IH. f_equal. lia. Qed.

Definition str_bytes (l : list Z) : list Z :=
  le_bytes size_bytes (Z.of_nat (length l)) ++ firstn (length l) (flat_map (le_bytes 1) l).

Lemma restore_str_app : forall mem l r,
  Forall (fun z => 0 <= z < 256) l -> small l -> Z.of_nat (length l) <= mem ->
  restore_str mem 1 (str_bytes l ++ r) = Ok (l, r).
Proof.
  intros mem l r H S M. unfold restore_str, str_bytes.
  rewrite <- app_assoc, read_size_app by (unfold small in S; lia). cbn [bind].
  replace (mem <? Z.of_nat (length l)) with false by (symmetry; apply Z.ltb_ge; lia).
  rewrite Nat2Z.id, flat_map_bytes1 by exact H. rewrite firstn_all.
  rewrite read_app by reflexivity. cbn [bind].
  rewrite Nat.mul_1_r, Nat.sub_diag. simpl. rewrite app_nil_r, units1. reflexivity.
Qed.

Lemma restore_str_short : forall mem l p q,
  Forall (fun z => 0 <= z < 256) l -> small l -> Z.of_nat (length l) <= mem ->
  str_bytes l = p ++ q -> q <> [] -> restore_str mem 1 p = Throw CannotRestore.
Proof.
  intros mem l p q H S M E N. unfold str_bytes in E. apply app_eq_cases in E.
  unfold restore_str. destruct E as [(q' & N' & E & _)|(p' & E & F)].
  - now rewrite (read_size_short _ _ _ E N').
  - subst p. rewrite read_size_app by (unfold small in S; lia). cbn [bind].
    replace (mem <? Z.of_nat (length l)) with false by (symmetry; apply Z.ltb_ge; lia).
    rewrite Nat2Z.id. rewrite read_short; [reflexivity|].
    rewrite flat_map_bytes1 in F by exact H. rewrite firstn_all in F.
    apply (f_equal (@length Z)) in F. rewrite app_length in F.
    destruct q; [congruence|]. simpl in F. lia.
Qed.

(** * Containers *)

Lemma pairwise_app : forall A (R : A -> A -> Prop) a b,
  pairwise R (a ++ b) <->
  pairwise R a /\ pairwise R b /\ (forall x y, In x a -> In y b -> R x y).
Proof.
  intros A R a b. induction a as [|x a IH]; simpl.
  - split; [intros H|intros (_ & H & _)]; [|exact H].
    split; [constructor|]. split; [exact H|]. intros x y [].
  - split.
    + intros H. inversion H; subst. apply IH in H3. destruct H3 as (A1 & A2 & A3).
      apply Forall_app in H2. destruct H2 as [B1 B2].
      split; [now constructor|]. split; [exact A2|].
      intros y z [<-|I] J; [|now apply A3]. rewrite Forall_forall in B2. now apply B2.
    + intros (H1 & H2 & H3). inversion H1; subst. constructor.
      * apply Forall_app. split; [assumption|]. rewrite Forall_forall. intros y J.
        apply H3; [now left|exact J].
      * apply IH. split; [assumption|]. split; [assumption|]. intros y z I J. apply H3; [now right|exact J].
Qed.

Lemma emplace_last : forall lt key v l, strict lt ->
  (forall x, In x l -> lt (key x) (key v) = true) -> emplace lt key v l = l ++ [v].
Proof.
  intros lt key v l [I T]. induction l as [|x l IH]; intros H; [reflexivity|]. simpl.
  pose proof (H x (or_introl eq_refl)) as X. rewrite X.
  destruct (lt (key v) (key x)) eqn:Y.
  - pose proof (T _ _ _ X Y) as Z. rewrite I in Z. discriminate.
  - rewrite IH; [reflexivity|]. intros y J. apply H. now right.
Qed.

Lemma emplace_all : forall lt key l acc, strict lt ->
  pairwise (fun a b => lt (key a) (key b) = true) (acc ++ l) ->
  fold_left (fun s v => emplace lt key v s) l acc = acc ++ l.
Proof.
  intros lt key l. induction l as [|v l IH]; intros acc S P; simpl; [now rewrite app_nil_r|].
  rewrite emplace_last; [|exact S|].
  - rewrite IH; [now rewrite <- app_assoc|exact S|]. now rewrite <- app_assoc.
  - intros x J. apply pairwise_app in P. destruct P as (_ & _ & P). apply P; [exact J|now left].
Qed.

Lemma uemplace_all : forall eqk key l acc,
  pairwise (fun a b => eqk (key a) (key b) = false) (acc ++ l) ->
  fold_left (fun s v => uemplace eqk key v s) l acc = acc ++ l.
Proof.
  intros eqk key l. induction l as [|v l IH]; intros acc P; simpl; [now rewrite app_nil_r|].
  unfold uemplace at 2. replace (existsb _ acc) with false.
  - rewrite IH; [now rewrite <- app_assoc|]. now rewrite <- app_assoc.
  - symmetry. apply not_true_is_false. intros X. apply existsb_exists in X.
    destruct X as (x & J & X). apply pairwise_app in P. destruct P as (_ & _ & P).
    rewrite (P x v J (or_introl eq_refl)) in X. discriminate.
Qed.

(** * Plain types: the same is equal *)

Lemma Forall2_eq : forall A (R : A -> A -> Prop) l m,
  (forall x y, In x l -> R x y -> x = y) -> Forall2 R l m -> l = m.
Proof.
  intros A R l m H F. induction F as [|x y l m XY F IH]; [reflexivity|].
  rewrite (H x y (or_introl eq_refl) XY), IH; [reflexivity|]. intros a b I. apply H. now right.
Qed.

Lemma same_plain : forall mem t v w, plain t -> wt mem t v -> same t v w -> v = w.
Proof.
  intros mem. induction t; intros v v' P W S; simpl in P, W, S;
    destruct v, v'; try contradiction; try congruence; try (now apply IHt).
  - destruct W as [_ W]. f_equal. eapply Forall2_eq; [|exact S].
    intros x y I XY. rewrite Forall_forall in W. apply IHt; auto.
  - destruct W as [_ W]. f_equal. eapply Forall2_eq; [|exact S].
    intros x y I XY. rewrite Forall_forall in W. apply IHt; auto.
  - destruct W as (_ & W & _). f_equal. eapply Forall2_eq; [|exact S].
    intros x y I XY. rewrite Forall_forall in W. specialize (W x I).
    destruct x, y; try contradiction. destruct P, W, XY.
    f_equal; [now apply IHt1|now apply IHt2].
  - destruct P, W, S. f_equal; [now apply IHt1|now apply IHt2].
Qed.

Lemma Forall2_first : forall (R : val -> val -> Prop) l m,
  (forall x y, R x y -> first x = first y) -> Forall2 R l m -> map first l = map first m.
Proof.
  intros R l m H F. induction F as [|x y l m XY F IH]; [reflexivity|]. simpl.
  rewrite IH. f_equal. now apply H.
Qed.

Lemma pairwise_map : forall A B (f : A -> B) (R : B -> B -> Prop) l,
  pairwise (fun a b => R (f a) (f b)) l <-> pairwise R (map f l).
Proof.
  intros A B f R l. induction l as [|x l IH]; simpl; [split; constructor|].
  split; intros H; inversion H; subst; constructor; try (now apply IH);
    rewrite Forall_map in *; assumption.
Qed.

(** * Round trip *)

Definition entry (k t : ty) (e : val) : list Z :=
  match e with VPair a b => store k a ++ store t b | _ => [] end.
Definition read_entry (mem : Z) (k t : ty) (bs : list Z) : res pexn (val * list Z) :=
  bind (restore mem k bs) (fun '(a, r) =>
  bind (restore mem t r) (fun '(b, r') => Ok (VPair a b, r'))).
Definition wt_entry (mem : Z) (k t : ty) (e : val) : Prop :=
  match e with VPair a b => wt mem k a /\ wt mem t b | _ => False end.
Definition same_entry (k t : ty) (e f : val) : Prop :=
  match e, f with VPair a b, VPair c d => same k a c /\ same t b d | _, _ => False end.

Lemma read_entry_app : forall mem k t e r,
  (forall v r, wt mem k v -> exists v', restore mem k (store k v ++ r) = Ok (v', r) /\ same k v v') ->
  (forall v r, wt mem t v -> exists v', restore mem t (store t v ++ r) = Ok (v', r) /\ same t v v') ->
  wt_entry mem k t e ->
  exists e', read_entry mem k t (entry k t e ++ r) = Ok (e', r) /\ same_entry k t e e'.
Proof.
  intros mem k t e r Hk Ht W. destruct e; try contradiction. destruct W as [Wa Wb].
  unfold read_entry, entry. rewrite <- app_assoc.
  destruct (Hk e1 (store t e2 ++ r) Wa) as (a' & -> & Sa). cbn [bind].
  destruct (Ht e2 r Wb) as (b' & -> & Sb). cbn [bind].
  exists (VPair a' b'). split; [reflexivity|now split].
Qed.

Lemma round_trip : forall mem t v r, wt mem t v ->
  exists v', restore mem t (store t v ++ r) = Ok (v', r) /\ same t v v'.
Proof.
  intros mem. induction t; intros v r W; simpl in W; destruct v; try contradiction;
    cbn [store restore].
  - rewrite read_app by apply le_bytes_length. cbn [bind]. rewrite le_value_bytes by exact W.
    eexists; split; reflexivity.
  - rewrite read_app by apply le_bytes_length. cbn [bind].
    rewrite le_value_bytes by (simpl; lia).
    destruct W as [-> | ->]; eexists; split; reflexivity.
  - destruct W as (-> & W1 & W2 & W3).
    match goal with |- context [restore_str mem 1 ?x] => change x with (str_bytes l ++ r) end.
    rewrite (restore_str_app mem l r W1 W2 W3). cbn [bind]. eexists; split; reflexivity.
  - destruct W as [<- W]. rewrite Forall_forall in W.
    destruct (restore_n_app _ (restore mem t) (store t) (same t) l r) as (l' & E & F).
    { intros v r0 I. apply IHt. now apply W. }
    rewrite E. cbn [bind]. exists (VSeq l'). split; [reflexivity|exact F].
  - destruct W as [N W]. rewrite Forall_forall in W. unfold small in N.
    rewrite <- app_assoc, read_size_app by lia. cbn [bind]. rewrite Nat2Z.id.
    destruct (restore_n_app _ (restore mem t) (store t) (same t) l r) as (l' & E & F).
    { intros v r0 I. apply IHt. now apply W. }
    rewrite E. cbn [bind]. exists (VSeq l'). split; [reflexivity|exact F].
  - destruct W as (N & W & P & S & O). pose proof W as W'. rewrite Forall_forall in W'.
    unfold small in N.
    rewrite <- app_assoc, read_size_app by lia. cbn [bind]. rewrite Nat2Z.id.
    destruct (restore_n_app _ (restore mem t) (store t) (same t) l r) as (l' & E & F).
    { intros v r0 I. apply IHt. now apply W'. }
    rewrite E. cbn [bind].
    apply Forall2_eq in F; [|intros x y I XY; apply (same_plain mem t); auto]. subst l'.
    exists (VSeq l). split; [|reflexivity].
    pose proof (emplace_all lt self l [] S) as X. simpl in X. rewrite X; [reflexivity|exact O].
  - destruct W as (N & W & P & S & O). rewrite Forall_forall in W.
    unfold small in N.
    rewrite <- app_assoc, read_size_app by lia. cbn [bind]. rewrite Nat2Z.id.
    destruct (restore_n_app _ (read_entry mem t1 t2) (entry t1 t2) (same_entry t1 t2) l r) as (l' & E & F).
    { intros v r0 I. apply (read_entry_app mem t1 t2 v r0 IHt1 IHt2). now apply W. }
    unfold read_entry, entry in E. rewrite E. cbn [bind].
    exists (VSeq (fold_left (fun s v => emplace lt first v s) l' [])). split; [reflexivity|].
    assert (K : map first l = map first l').
    { clear -F W P. induction F as [|x y l m XY F IH]; [reflexivity|]. simpl.
      rewrite IH by (intros z I; apply W; now right). f_equal.
      specialize (W x (or_introl eq_refl)).
      destruct x, y; try contradiction. simpl. destruct W, XY.
      now apply (same_plain mem t1). }
    pose proof (emplace_all lt first l' [] S) as X. simpl in X. rewrite X; [exact F|].
    apply (pairwise_map _ _ first (fun a b => lt a b = true)). rewrite <- K.
    apply (pairwise_map _ _ first (fun a b => lt a b = true)). exact O.
  - destruct W as (N & W & P & S & O). pose proof W as W'. rewrite Forall_forall in W'.
    unfold small in N.
    rewrite <- app_assoc, read_size_app by lia. cbn [bind]. rewrite Nat2Z.id.
    destruct (restore_n_app _ (restore mem t) (store t) (same t) l r) as (l' & E & F).
    { intros v r0 I. apply IHt. now apply W'. }
    rewrite E. cbn [bind].
    apply Forall2_eq in F; [|intros x y I XY; apply (same_plain mem t); auto]. subst l'.
    eexists. split; [reflexivity|].
    pose proof (uemplace_all eqk self l []) as X. simpl in X. rewrite X; [|exact O].
    simpl. apply Permutation_sym, S.
  - destruct W as (N & W & P & S & O). rewrite Forall_forall in W.
    unfold small in N.
    rewrite <- app_assoc, read_size_app by lia. cbn [bind]. rewrite Nat2Z.id.
    destruct (restore_n_app _ (read_entry mem t1 t2) (entry t1 t2) (same_entry t1 t2) l r) as (l' & E & F).
    { intros v r0 I. apply (read_entry_app mem t1 t2 v r0 IHt1 IHt2). now apply W. }
    unfold read_entry, entry in E. rewrite E. cbn [bind].
    eexists. split; [reflexivity|]. simpl.
    assert (K : map first l = map first l').
    { clear -F W P. induction F as [|x y l m XY F IH]; [reflexivity|]. simpl.
      rewrite IH by (intros z I; apply W; now right). f_equal.
      specialize (W x (or_introl eq_refl)).
      destruct x, y; try contradiction. simpl. destruct W, XY.
      now apply (same_plain mem t1). }
    pose proof (uemplace_all eqk first l' []) as X. simpl in X. rewrite X.
    + exists l'. split; [apply Permutation_sym, S|exact F].
    + apply (pairwise_map _ _ first (fun a b => eqk a b = false)). rewrite <- K.
      apply (pairwise_map _ _ first (fun a b => eqk a b = false)). exact O.
  - destruct W as [W1 W2]. rewrite <- app_assoc.
    destruct (IHt1 v1 (store t2 v2 ++ r) W1) as (x & -> & S1). cbn [bind].
    destruct (IHt2 v2 r W2) as (y & -> & S2). cbn [bind].
    eexists. split; [reflexivity|]. now split.
  - now apply IHt.
  - now apply IHt.
  - now apply IHt.
  - now apply IHt.
  - now apply IHt.
  - destruct W as (W1 & W2 & W3 & W4).
    match goal with |- context [restore_str mem 1 ?x] => change x with (str_bytes (path o) ++ r) end.
    rewrite (restore_str_app mem (path o) r W1 W2 W3). cbn [bind]. rewrite W4.
    eexists; split; reflexivity.
Qed.

(** * Storage that ends too early *)

Lemma read_entry_short : forall mem k t e p q,
  (forall v p q, wt mem k v -> store k v = p ++ q -> q <> [] -> restore mem k p = Throw CannotRestore) ->
  (forall v p q, wt mem t v -> store t v = p ++ q -> q <> [] -> restore mem t p = Throw CannotRestore) ->
  wt_entry mem k t e -> entry k t e = p ++ q -> q <> [] ->
  read_entry mem k t p = Throw CannotRestore.
Proof.
  intros mem k t e p q Hk Ht W E N. destruct e; try contradiction. destruct W as [Wa Wb].
  unfold entry in E. unfold read_entry. apply app_eq_cases in E.
  destruct E as [(q' & N' & E & _)|(p' & E & F)].
  - rewrite (Hk _ _ _ Wa E N'). reflexivity.
  - subst p. destruct (round_trip mem k e1 p' Wa) as (v' & -> & _). cbn [bind].
    rewrite (Ht _ _ _ Wb F N). reflexivity.
Qed.

Lemma truncated : forall mem t v p q, wt mem t v ->
  store t v = p ++ q -> q <> [] -> restore mem t p = Throw CannotRestore.
Proof.
  intros mem. induction t; intros v p q W E N; simpl in W; destruct v; try contradiction;
    cbn [store restore] in *.
  - rewrite read_short; [reflexivity|].
    pose proof (le_bytes_length n z) as L. rewrite E, app_length in L.
    destruct q; [congruence|simpl in L; lia].
  - rewrite read_short; [reflexivity|].
    pose proof (le_bytes_length 1 z) as L. rewrite E, app_length in L.
    destruct q; [congruence|simpl in L; lia].
  - destruct W as (-> & W1 & W2 & W3).
    rewrite (restore_str_short mem l p q W1 W2 W3 E N). reflexivity.
  - destruct W as [<- W]. rewrite Forall_forall in W.
    rewrite (restore_n_short _ (restore mem t) (store t) l p q); auto.
    + intros v r I. destruct (round_trip mem t v r (W v I)) as (v' & X & _). now exists v'.
    + intros v p0 q0 I. apply IHt. now apply W.
  - destruct W as [S W]. rewrite Forall_forall in W. unfold small in S.
    apply app_eq_cases in E. destruct E as [(q' & N' & E & _)|(p' & E & F)].
    { now rewrite (read_size_short _ _ _ E N'). }
    subst p. rewrite read_size_app by lia. cbn [bind]. rewrite Nat2Z.id.
    rewrite (restore_n_short _ (restore mem t) (store t) l p' q); auto.
    + intros v r I. destruct (round_trip mem t v r (W v I)) as (v' & X & _). now exists v'.
    + intros v p0 q0 I. apply IHt. now apply W.
  - destruct W as (S & W & _). rewrite Forall_forall in W. unfold small in S.
    apply app_eq_cases in E. destruct E as [(q' & N' & E & _)|(p' & E & F)].
    { now rewrite (read_size_short _ _ _ E N'). }
    subst p. rewrite read_size_app by lia. cbn [bind]. rewrite Nat2Z.id.
    rewrite (restore_n_short _ (restore mem t) (store t) l p' q); auto.
    + intros v r I. destruct (round_trip mem t v r (W v I)) as (v' & X & _). now exists v'.
    + intros v p0 q0 I. apply IHt. now apply W.
  - destruct W as (S & W & _). rewrite Forall_forall in W. unfold small in S.
    apply app_eq_cases in E. destruct E as [(q' & N' & E & _)|(p' & E & F)].
    { now rewrite (read_size_short _ _ _ E N'). }
    subst p. rewrite read_size_app by lia. cbn [bind]. rewrite Nat2Z.id.
    pose proof (restore_n_short _ (read_entry mem t1 t2) (entry t1 t2) l p' q) as X.
    unfold read_entry in X at 3. rewrite X; auto.
    + intros v r I. destruct (read_entry_app mem t1 t2 v r (round_trip mem t1) (round_trip mem t2) (W v I))
        as (v' & Y & _). now exists v'.
    + intros v p0 q0 I. apply read_entry_short; auto. now apply W.
  - destruct W as (S & W & _). rewrite Forall_forall in W. unfold small in S.
    apply app_eq_cases in E. destruct E as [(q' & N' & E & _)|(p' & E & F)].
    { now rewrite (read_size_short _ _ _ E N'). }
    subst p. rewrite read_size_app by lia. cbn [bind]. rewrite Nat2Z.id.
    rewrite (restore_n_short _ (restore mem t) (store t) l p' q); auto.
    + intros v r I. destruct (round_trip mem t v r (W v I)) as (v' & X & _). now exists v'.
    + intros v p0 q0 I. apply IHt. now apply W.
  - destruct W as (S & W & _). rewrite Forall_forall in W. unfold small in S.
    apply app_eq_cases in E. destruct E as [(q' & N' & E & _)|(p' & E & F)].
    { now rewrite (read_size_short _ _ _ E N'). }
    subst p. rewrite read_size_app by lia. cbn [bind]. rewrite Nat2Z.id.
    pose proof (restore_n_short _ (read_entry mem t1 t2) (entry t1 t2) l p' q) as X.
    unfold read_entry in X at 3. rewrite X; auto.
    + intros v r I. destruct (read_entry_app mem t1 t2 v r (round_trip mem t1) (round_trip mem t2) (W v I))
        as (v' & Y & _). now exists v'.
    + intros v p0 q0 I. apply read_entry_short; auto. now apply W.
  - destruct W as [W1 W2]. apply app_eq_cases in E.
    destruct E as [(q' & N' & E & _)|(p' & E & F)].
    + rewrite (IHt1 v1 p q' W1 E N'). reflexivity.
    + subst p. destruct (round_trip mem t1 v1 p' W1) as (v' & -> & _). cbn [bind].
      rewrite (IHt2 v2 p' q W2 F N). reflexivity.
  - now apply (IHt (VInt z) p q).
  - now apply (IHt (VStr l) p q).
  - now apply (IHt (VSeq l) p q).
  - now apply (IHt (VPair v1 v2) p q).
  - now apply (IHt (VObj o) p q).
  - destruct W as (W1 & W2 & W3 & W4).
    rewrite (restore_str_short mem (path o) p q W1 W2 W3 E N). reflexivity.
Qed.

(** * Several values *)

Definition wt_all (mem : Z) (l : list (ty * val)) : Prop := Forall (fun '(t, v) => wt mem t v) l.
Definition same_all (l : list (ty * val)) (vs : list val) : Prop :=
  Forall2 (fun '(t, v) v' => same t v v') l vs.

Lemma restore_all_app : forall mem l r, wt_all mem l ->
  exists vs, restore_all mem (map fst l) (store_all l ++ r) = Ok (vs, r) /\ same_all l vs.
Proof.
  intros mem l r W. induction W as [|[t v] l W _ IH].
  - exists []. split; [reflexivity|constructor].
  - destruct IH as (vs & E & S).
    destruct (round_trip mem t v (store_all l ++ r) W) as (v' & E1 & S1).
    exists (v' :: vs). split; [|now constructor].
    unfold store_all in *. cbn [map fst flat_map restore_all]. rewrite <- app_assoc, E1. cbn [bind].
    rewrite E. reflexivity.
Qed.

Lemma restore_all_short : forall mem l p q, wt_all mem l ->
  store_all l = p ++ q -> q <> [] -> restore_all mem (map fst l) p = Throw CannotRestore.
Proof.
  intros mem l p q W. revert p q. induction W as [|[t v] l W _ IH]; intros p q E N.
  - symmetry in E. apply app_eq_nil in E. now destruct E.
  - unfold store_all in E. cbn [flat_map] in E. apply app_eq_cases in E.
    cbn [map fst restore_all]. destruct E as [(q' & N' & E & _)|(p' & E & F)].
    + rewrite (truncated mem t v p q' W E N'). reflexivity.
    + subst p. destruct (round_trip mem t v p' W) as (v' & -> & _). cbn [bind].
      rewrite (IH p' q F N). reflexivity.
Qed.

Section Typed.
  Variables (mem : Z) (hash : ty -> Z).
  Hypothesis hash_range : forall t, 0 <= hash t < 2 ^ 64.

  Lemma trestore_all_app : forall l r, wt_all mem l ->
    exists vs, trestore_all mem hash (map fst l) (tstore_all hash l ++ r) = Ok (vs, r) /\ same_all l vs.
  Proof.
    intros l r W. induction W as [|[t v] l W _ IH].
    - exists []. split; [reflexivity|constructor].
    - destruct IH as (vs & E & S).
      destruct (round_trip mem t v (tstore_all hash l ++ r) W) as (v' & E1 & S1).
      exists (v' :: vs). split; [|now constructor].
      unfold tstore_all in *. cbn [map fst flat_map trestore_all]. rewrite <- !app_assoc.
      rewrite read_size_app by apply hash_range. cbn [bind]. rewrite Z.eqb_refl.
      rewrite E1. cbn [bind]. rewrite E. reflexivity.
  Qed.

  Lemma trestore_all_short : forall l p q, wt_all mem l ->
    tstore_all hash l = p ++ q -> q <> [] ->
    trestore_all mem hash (map fst l) p = Throw CannotRestore.
  Proof.
    intros l p q W. revert p q. induction W as [|[t v] l W _ IH]; intros p q E N.
    - symmetry in E. apply app_eq_nil in E. now destruct E.
    - unfold tstore_all in E. cbn [flat_map] in E. rewrite <- app_assoc in E.
      apply app_eq_cases in E. cbn [map fst trestore_all].
      destruct E as [(q' & N' & E & _)|(p' & E & F)].
      { rewrite (read_size_short _ _ _ E N'). reflexivity. }
      subst p. rewrite read_size_app by apply hash_range. cbn [bind]. rewrite Z.eqb_refl.
      apply app_eq_cases in F. destruct F as [(q' & N' & F & _)|(p'' & F & G)].
      + rewrite (truncated mem t v p' q' W F N'). reflexivity.
      + subst p'. destruct (round_trip mem t v p'' W) as (v' & -> & _). cbn [bind].
        rewrite (IH p'' q G N). reflexivity.
  Qed.

  Lemma trestore_all_foreign : forall l ts, wt_all mem l ->
    (forall t t', In t ts -> In t' (map fst l) -> hash t = hash t' -> t = t') ->
    (forall c, map fst l <> ts ++ c) ->
    trestore_all mem hash ts (tstore_all hash l) = Throw CannotRestore.
  Proof.
    intros l ts W. revert ts. induction W as [|[t v] l W _ IH]; intros ts I N.
    - destruct ts as [|t ts]; [now destruct (N [])|].
      cbn [tstore_all flat_map trestore_all]. unfold read_size. rewrite read_short by (unfold size_bytes; cbn; lia).
      reflexivity.
    - destruct ts as [|t' ts]; [now destruct (N (map fst ((t, v) :: l)))|].
      unfold tstore_all. cbn [flat_map trestore_all]. rewrite <- app_assoc.
      rewrite read_size_app by apply hash_range. cbn [bind].
      destruct (Z.eqb_spec (hash t) (hash t')) as [E|E]; [|reflexivity].
      assert (t' = t) by (apply I; [now left|now left|congruence]). subst t'.
      destruct (round_trip mem t v (tstore_all hash l) W) as (v' & E1 & _).
      unfold tstore_all in E1. rewrite E1. cbn [bind].
      unfold tstore_all in IH. rewrite IH; [reflexivity| |].
      + intros a b A B. apply I; [now right|now right].
      + intros c X. apply (N c). cbn [map fst app]. now rewrite X.
  Qed.
End Typed.
