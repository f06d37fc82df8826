(** Shared vocabulary of the model: outcomes, ordered maps and ordered sets.

    The C++ code uses std::map and std::set; both iterate in key order.  They
    are modelled by key-sorted lists, so that "the first element" and "the next
    element" of the model are those of the C++ containers. *)
From Coq Require Export List ZArith Lia Bool Arith.
From Coq Require Export Sorting.Sorted.
Export ListNotations.
Open Scope Z_scope.

(** Outcome of a C++ call: a value, a C++ exception, or undefined behaviour. *)
Inductive res (E A : Type) : Type :=
| Ok (a : A)
| Throw (e : E)
| UB.
Arguments Ok {E A} _.
Arguments Throw {E A} _.
Arguments UB {E A}.

Definition bind {E A B} (r : res E A) (f : A -> res E B) : res E B :=
  match r with Ok a => f a | Throw e => Throw e | UB => UB end.

(** Bounds of the C++ signed 64-bit integer used for Duration and DateTime. *)
Definition i64_min : Z := - 2 ^ 63.
Definition i64_max : Z := 2 ^ 63 - 1.
Definition in_i64 (z : Z) : bool := (i64_min <=? z) && (z <=? i64_max).

Lemma in_i64_spec z : in_i64 z = true <-> i64_min <= z <= i64_max.
Proof.
  unfold in_i64. rewrite andb_true_iff, !Z.leb_le. tauto.
Qed.

(** * Ordered map with integer keys (std::map<integer, A>) *)
Section OMap.
  Context {A : Type}.
  Definition omap := list (Z * A).

  Fixpoint mget (k : Z) (m : omap) : option A :=
    match m with
    | [] => None
    | (k', a) :: r => if k =? k' then Some a else mget k r
    end.

  (** m[k] = a *)
  Fixpoint mset (k : Z) (a : A) (m : omap) : omap :=
    match m with
    | [] => [(k, a)]
    | (k', a') :: r =>
        if k <? k' then (k, a) :: m
        else if k =? k' then (k, a) :: r
        else (k', a') :: mset k a r
    end.

  (** m.erase(k) *)
  Fixpoint mdel (k : Z) (m : omap) : omap :=
    match m with
    | [] => []
    | (k', a') :: r => if k =? k' then r else (k', a') :: mdel k r
    end.

  Definition keys (m : omap) : list Z := map fst m.

  Definition msorted (m : omap) : Prop := StronglySorted Z.lt (keys m).

  Lemma msorted_nil : msorted [].
  Proof. constructor. Qed.

  Lemma msorted_cons k a r :
    msorted ((k, a) :: r) <-> msorted r /\ (forall k', In k' (keys r) -> k < k').
  Proof.
    unfold msorted; cbn. split.
    - intros H. inversion H; subst. split; auto.
      rewrite Forall_forall in *. auto.
    - intros [H1 H2]. constructor; auto. rewrite Forall_forall. auto.
  Qed.

  Lemma mget_in k a m : mget k m = Some a -> In (k, a) m.
  Proof.
    induction m as [|[k' a'] r IH]; cbn; [discriminate|].
    destruct (Z.eqb_spec k k') as [->|]; [intros [= ->]|]; auto.
  Qed.

  Lemma mget_in_keys k m : In k (keys m) <-> mget k m <> None.
  Proof.
    induction m as [|[k' a'] r IH]; cbn; [tauto|].
    destruct (Z.eqb_spec k k') as [->|Hn].
    - split; [discriminate|auto].
    - rewrite <- IH. split; [intros [?|?]|]; auto; congruence.
  Qed.

  Lemma mget_notin k m : ~ In k (keys m) -> mget k m = None.
  Proof. rewrite mget_in_keys. destruct (mget k m); [|auto]. intros H; exfalso; apply H; discriminate. Qed.

  Lemma msorted_get_in k a m : msorted m -> In (k, a) m -> mget k m = Some a.
  Proof.
    induction m as [|[k' a'] r IH]; [intros _ []|].
    rewrite msorted_cons. intros [Hs Hlt] [Heq|Hin]; cbn.
    - inversion Heq; subst. now rewrite Z.eqb_refl.
    - destruct (Z.eqb_spec k k') as [->|]; [|auto].
      assert (k' < k'); [|lia]. apply Hlt. apply in_map_iff. exists (k', a). auto.
  Qed.

  Lemma mget_mset_same k a m : mget k (mset k a m) = Some a.
  Proof.
    induction m as [|[k' a'] r IH]; cbn.
    - now rewrite Z.eqb_refl.
    - destruct (Z.ltb_spec k k'); cbn; [now rewrite Z.eqb_refl|].
      destruct (Z.eqb_spec k k'); cbn; [now rewrite Z.eqb_refl|].
      destruct (Z.eqb_spec k k'); [lia|auto].
  Qed.

  Lemma mget_mset_other k k' a m : k <> k' -> mget k (mset k' a m) = mget k m.
  Proof.
    intros Hn. induction m as [|[k1 a1] r IH]; cbn.
    - destruct (Z.eqb_spec k k'); [lia|auto].
    - destruct (Z.ltb_spec k' k1); cbn.
      { destruct (Z.eqb_spec k k'); [lia|auto]. }
      destruct (Z.eqb_spec k' k1); cbn.
      { subst k1. destruct (Z.eqb_spec k k'); [lia|auto]. }
      destruct (Z.eqb_spec k k1); auto.
  Qed.

  Lemma mget_mset k k' a m :
    mget k (mset k' a m) = if k =? k' then Some a else mget k m.
  Proof.
    destruct (Z.eqb_spec k k') as [->|]; [apply mget_mset_same|now apply mget_mset_other].
  Qed.

  Lemma keys_mset x k a m : In x (keys (mset k a m)) <-> x = k \/ In x (keys m).
  Proof.
    rewrite !mget_in_keys, mget_mset. destruct (Z.eqb_spec x k); split; intros; auto.
    - discriminate.
    - destruct H; [contradiction|auto].
  Qed.

  Lemma mset_sorted k a m : msorted m -> msorted (mset k a m).
  Proof.
    induction m as [|[k' a'] r IH]; cbn [mset]; intros Hs.
    - apply msorted_cons. split; [constructor|intros ? []].
    - destruct (Z.ltb_spec k k').
      { apply msorted_cons. split; auto. cbn. intros x [<-|Hx]; auto.
        apply msorted_cons in Hs as [_ Hs]. specialize (Hs x Hx). lia. }
      apply msorted_cons in Hs as [Hs Hlt].
      destruct (Z.eqb_spec k k') as [->|].
      { apply msorted_cons; auto. }
      apply msorted_cons. split; [auto|]. intros x Hx. apply keys_mset in Hx as [->|Hx]; [lia|auto].
  Qed.

  Lemma mget_mdel_other k k' m : k <> k' -> mget k (mdel k' m) = mget k m.
  Proof.
    intros Hn. induction m as [|[k1 a1] r IH]; cbn; auto.
    destruct (Z.eqb_spec k' k1) as [->|]; cbn; destruct (Z.eqb_spec k k1); auto; lia.
  Qed.

  Lemma mget_mdel_same k m : msorted m -> mget k (mdel k m) = None.
  Proof.
    induction m as [|[k1 a1] r IH]; cbn; auto.
    intros Hs. apply msorted_cons in Hs as [Hs Hlt].
    destruct (Z.eqb_spec k k1) as [->|]; cbn.
    - apply mget_notin. intros Hin. specialize (Hlt _ Hin). lia.
    - destruct (Z.eqb_spec k k1); [lia|auto].
  Qed.

  Lemma mget_mdel k k' m :
    msorted m -> mget k (mdel k' m) = if k =? k' then None else mget k m.
  Proof.
    intros Hs. destruct (Z.eqb_spec k k') as [->|]; [now apply mget_mdel_same|now apply mget_mdel_other].
  Qed.

  Lemma keys_mdel_incl x k m : In x (keys (mdel k m)) -> In x (keys m).
  Proof.
    induction m as [|[k1 a1] r IH]; cbn; auto.
    destruct (k =? k1); cbn; tauto.
  Qed.

  Lemma mdel_sorted k m : msorted m -> msorted (mdel k m).
  Proof.
    induction m as [|[k1 a1] r IH]; cbn; auto.
    intros Hs. apply msorted_cons in Hs as [Hs Hlt].
    destruct (k =? k1); auto. apply msorted_cons. split; auto.
    intros x Hx. apply Hlt. eapply keys_mdel_incl; eauto.
  Qed.

  Lemma keys_mdel x k m : msorted m -> In x (keys (mdel k m)) <-> x <> k /\ In x (keys m).
  Proof.
    intros Hs. rewrite !mget_in_keys, mget_mdel by auto.
    destruct (Z.eqb_spec x k); split; intros; try tauto.
  Qed.

  (** Two sorted maps with the same content are the same list. *)
  Lemma msorted_ext m m' :
    msorted m -> msorted m' -> (forall k, mget k m = mget k m') -> m = m'.
  Proof.
    revert m'. induction m as [|[k a] r IH]; intros [|[k' a'] r'] Hs Hs' Hext; auto.
    - specialize (Hext k'). cbn in Hext. rewrite Z.eqb_refl in Hext. discriminate.
    - specialize (Hext k). cbn in Hext. rewrite Z.eqb_refl in Hext. discriminate.
    - apply msorted_cons in Hs as [Hs Hlt], Hs' as [Hs' Hlt'].
      assert (Hkk : k = k').
      { pose proof (Hext k) as H1. pose proof (Hext k') as H2. cbn in H1, H2.
        rewrite Z.eqb_refl in H1, H2.
        destruct (Z.eqb_spec k k'); auto. destruct (Z.eqb_spec k' k); [lia|].
        assert (In k (keys r')) by (apply mget_in_keys; congruence).
        assert (In k' (keys r)) by (apply mget_in_keys; congruence).
        specialize (Hlt k' ltac:(auto)). specialize (Hlt' k ltac:(auto)). lia. }
      subst k'. pose proof (Hext k) as H1. cbn in H1. rewrite Z.eqb_refl in H1.
      injection H1 as ->. f_equal. apply IH; auto.
      intros x. specialize (Hext x). cbn in Hext.
      destruct (Z.eqb_spec x k) as [Hxk|_]; [|exact Hext].
      rewrite !mget_notin; auto; intros Hin;
        [specialize (Hlt' _ Hin)|specialize (Hlt _ Hin)]; lia.
  Qed.
End OMap.
Arguments omap : clear implicits.

(** * Ordered set of integers (std::set) *)
Fixpoint sins (x : Z) (s : list Z) : list Z :=
  match s with
  | [] => [x]
  | y :: r => if x <? y then x :: s else if x =? y then s else y :: sins x r
  end.

Fixpoint sdel (x : Z) (s : list Z) : list Z :=
  match s with
  | [] => []
  | y :: r => if x =? y then r else y :: sdel x r
  end.

(** set.insert(first, last) *)
Definition sins_all (xs s : list Z) : list Z := fold_left (fun acc x => sins x acc) xs s.

Definition ssorted (s : list Z) : Prop := StronglySorted Z.lt s.

Lemma ssorted_cons x r : ssorted (x :: r) <-> ssorted r /\ (forall y, In y r -> x < y).
Proof.
  unfold ssorted. split.
  - intros H; inversion H; subst. split; auto. now rewrite Forall_forall in *.
  - intros [H1 H2]. constructor; auto. now rewrite Forall_forall.
Qed.

Lemma in_sins y x s : In y (sins x s) <-> y = x \/ In y s.
Proof.
  induction s as [|z r IH]; cbn.
  - intuition.
  - destruct (Z.ltb_spec x z); cbn; [intuition|].
    destruct (Z.eqb_spec x z); cbn; [subst; intuition|].
    rewrite IH. intuition.
Qed.

Lemma sins_sorted x s : ssorted s -> ssorted (sins x s).
Proof.
  induction s as [|z r IH]; cbn; intros Hs.
  - apply ssorted_cons. split; [constructor|intros ? []].
  - destruct (Z.ltb_spec x z).
    { apply ssorted_cons. split; auto. intros y [<-|Hy]; auto.
      apply ssorted_cons in Hs as [_ Hs]. specialize (Hs _ Hy). lia. }
    destruct (Z.eqb_spec x z); auto.
    apply ssorted_cons in Hs as [Hs Hlt]. apply ssorted_cons. split; auto.
    intros y Hy. apply in_sins in Hy as [->|Hy]; [lia|auto].
Qed.

Lemma in_sdel_incl y x s : In y (sdel x s) -> In y s.
Proof.
  induction s as [|z r IH]; cbn; auto. destruct (x =? z); cbn; tauto.
Qed.

Lemma in_sdel y x s : ssorted s -> In y (sdel x s) <-> y <> x /\ In y s.
Proof.
  induction s as [|z r IH]; cbn; [tauto|]. intros Hs.
  apply ssorted_cons in Hs as [Hs Hlt]. destruct (Z.eqb_spec x z) as [->|].
  - split.
    + intros Hy. specialize (Hlt _ Hy). split; [lia|auto].
    + intros [Hn [Hy|Hy]]; congruence.
  - cbn. rewrite IH by auto. intuition congruence.
Qed.

Lemma sdel_sorted x s : ssorted s -> ssorted (sdel x s).
Proof.
  induction s as [|z r IH]; cbn; auto. intros Hs.
  apply ssorted_cons in Hs as [Hs Hlt]. destruct (x =? z); auto.
  apply ssorted_cons. split; auto. intros y Hy. apply Hlt. eapply in_sdel_incl; eauto.
Qed.

Lemma in_sins_all y xs s : In y (sins_all xs s) <-> In y xs \/ In y s.
Proof.
  unfold sins_all. revert s; induction xs as [|x xs IH]; intros s; cbn; [tauto|].
  rewrite IH, in_sins. intuition.
Qed.

Lemma sins_all_sorted xs s : ssorted s -> ssorted (sins_all xs s).
Proof.
  unfold sins_all. revert s; induction xs as [|x xs IH]; intros s Hs; cbn; auto.
  apply IH. now apply sins_sorted.
Qed.

Lemma ssorted_ext s s' : ssorted s -> ssorted s' -> (forall x, In x s <-> In x s') -> s = s'.
Proof.
  revert s'. induction s as [|x r IH]; intros [|y r'] Hs Hs' Hext; auto.
  - exfalso. apply (Hext y). now left.
  - exfalso. apply (Hext x). now left.
  - apply ssorted_cons in Hs as [Hs Hlt], Hs' as [Hs' Hlt'].
    assert (x = y).
    { destruct (Hext x) as [H1 _]. destruct (Hext y) as [_ H2].
      destruct (H1 (or_introl eq_refl)) as [|Hx]; auto.
      destruct (H2 (or_introl eq_refl)) as [|Hy]; auto.
      specialize (Hlt _ Hy). specialize (Hlt' _ Hx). lia. }
    subst y. f_equal. apply IH; auto. intros z. specialize (Hext z). cbn in Hext.
    split; intros Hz; destruct Hext as [H1 H2].
    + destruct (H1 (or_intror Hz)); auto. subst z. specialize (Hlt _ Hz). lia.
    + destruct (H2 (or_intror Hz)); auto. subst z. specialize (Hlt' _ Hz). lia.
Qed.

Lemma sins_nonempty x s : sins x s <> [].
Proof. destruct s as [|y r]; cbn; [discriminate|]. destruct (x <? y); [discriminate|]. destruct (x =? y); discriminate. Qed.
