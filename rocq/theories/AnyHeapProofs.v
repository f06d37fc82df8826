From Coq Require Import ZArith List Bool Arith Lia.
From Verif Require Import Base AnyHeapModel AnyHeapSpec.
Import ListNotations.
Local Open Scope nat_scope.

Lemma upd_same {A} (f : nat -> A) k a : upd f k a k = a.
Proof. unfold upd. now rewrite Nat.eqb_refl. Qed.
Lemma upd_other {A} (f : nat -> A) k a x : x <> k -> upd f k a x = f x.
Proof. intros H. unfold upd. now apply Nat.eqb_neq in H as ->. Qed.

Record HInv (s : hs) : Prop := {
  hi_obj : forall i p, objs s i = Some (OStr (Some p)) -> heap s p <> None;
  hi_held : forall p, held s p = true -> heap s p <> None;
  hi_uniq : forall i j p, objs s i = Some (OStr (Some p)) ->
                          objs s j = Some (OStr (Some p)) -> i = j;
  hi_excl : forall i p, objs s i = Some (OStr (Some p)) -> held s p = false;
  hi_own : forall p, heap s p <> None ->
             held s p = true \/ exists i, objs s i = Some (OStr (Some p));
  hi_next : forall p, heap s p <> None -> p < next s;
  hi_tame : forall i, objs s i <> Some OWild
}.

Lemma hinv_init : HInv h_init.
Proof. constructor; simpl; intros; try discriminate; congruence. Qed.

Lemma hinv_owned : forall s, HInv s -> owned_once s.
Proof.
  intros s I p. split.
  - intros H. destruct (hi_own s I p H) as [E|[i E]].
    + exists ByCaller. split; [exact E|]. intros [j|]; [|reflexivity].
      simpl. intros X. apply (hi_excl s I) in X. congruence.
    + exists (ByObject i). split; [exact E|]. intros [j|]; simpl.
      * intros X. f_equal. eapply (hi_uniq s I); eassumption.
      * intros X. apply (hi_excl s I) in E. congruence.
  - intros (w & H & _). destruct w as [i|]; simpl in H.
    + eapply (hi_obj s I), H.
    + now apply (hi_held s I).
Qed.

(** Releasing an object that is not wild succeeds. *)
Lemma release_inv : forall s i o,
  HInv s -> objs s i = Some o ->
  exists s1, release_content i s = Ok s1 /\ HInv s1 /\
    (forall k, k <> i -> objs s1 k = objs s k) /\
    (forall k, k <> i -> value_of s1 k = value_of s k) /\
    (objs s1 i = match o with OStr _ => Some (OStr None) | _ => Some o end) /\
    (forall p, (forall q, o = OStr (Some q) -> p <> q) -> heap s1 p = heap s p) /\
    held s1 = held s.
Proof.
  intros s i o I E. unfold release_content. rewrite E.
  destruct o as [z|[p|]|].
  - exists s. split; [reflexivity|]. split; [exact I|].
    split; [auto|]. split; [auto|]. split; [auto|]. split; auto.
  - unfold delete. destruct (heap s p) as [c|] eqn:Hp;
      [|exfalso; now apply (hi_obj s I i p E)].
    eexists. split; [reflexivity|]. simpl.
    assert (Q : forall k, k <> i -> objs s k <> Some (OStr (Some p))).
    { intros k Hk X. apply Hk. eapply (hi_uniq s I); eassumption. }
    split; [|split; [|split; [|split; [|split]]]].
    + constructor; simpl.
      * intros k q. unfold upd. destruct (Nat.eqb_spec k i) as [->|Hk]; [discriminate|].
        intros X. destruct (Nat.eqb_spec q p) as [->|Hq]; [exfalso; now apply (Q k Hk)|].
        eapply (hi_obj s I), X.
      * intros q X. unfold upd. destruct (Nat.eqb_spec q p) as [->|Hq].
        -- rewrite (hi_excl s I i p E) in X. discriminate.
        -- now apply (hi_held s I).
      * intros k j q. unfold upd.
        destruct (Nat.eqb_spec k i) as [->|Hk]; [discriminate|].
        destruct (Nat.eqb_spec j i) as [->|Hj]; [discriminate|].
        apply (hi_uniq s I).
      * intros k q. unfold upd. destruct (Nat.eqb_spec k i) as [->|Hk]; [discriminate|].
        apply (hi_excl s I).
      * intros q. unfold upd. destruct (Nat.eqb_spec q p) as [->|Hq]; [congruence|].
        intros X. destruct (hi_own s I q X) as [Y|[k Y]]; [now left|].
        right. exists k. destruct (Nat.eqb_spec k i) as [->|Hk]; [congruence|exact Y].
      * intros q. unfold upd. destruct (Nat.eqb_spec q p) as [->|Hq]; [congruence|].
        apply (hi_next s I).
      * intros k. unfold upd. destruct (Nat.eqb_spec k i) as [->|Hk]; [discriminate|].
        apply (hi_tame s I).
    + intros k Hk. now apply upd_other.
    + intros k Hk. unfold value_of. simpl. rewrite upd_other by exact Hk.
      destruct (objs s k) as [[z|[q|]|]|] eqn:Ek; try reflexivity.
      rewrite upd_other; [reflexivity|]. intros ->. now apply (Q k Hk).
    + apply upd_same.
    + intros q Hq. apply upd_other. now apply Hq.
    + reflexivity.
  - cbn. eexists. split; [reflexivity|]. simpl.
    split; [|split; [|split; [|split; [|split]]]].
    + constructor; simpl.
      * intros k q. unfold upd. destruct (Nat.eqb_spec k i) as [->|Hk]; [discriminate|].
        apply (hi_obj s I).
      * apply (hi_held s I).
      * intros k j q. unfold upd.
        destruct (Nat.eqb_spec k i) as [->|Hk]; [discriminate|].
        destruct (Nat.eqb_spec j i) as [->|Hj]; [discriminate|].
        apply (hi_uniq s I).
      * intros k q. unfold upd. destruct (Nat.eqb_spec k i) as [->|Hk]; [discriminate|].
        apply (hi_excl s I).
      * intros q X. destruct (hi_own s I q X) as [Y|[k Y]]; [now left|].
        right. exists k. unfold upd. destruct (Nat.eqb_spec k i) as [->|Hk]; [congruence|exact Y].
      * apply (hi_next s I).
      * intros k. unfold upd. destruct (Nat.eqb_spec k i) as [->|Hk]; [discriminate|].
        apply (hi_tame s I).
    + intros k Hk. now apply upd_other.
    + intros k Hk. unfold value_of. simpl. now rewrite upd_other by exact Hk.
    + apply upd_same.
    + reflexivity.
    + reflexivity.
  - exfalso. now apply (hi_tame s I i).
Qed.

(** Replacing an object that owns nothing by one that owns nothing. *)
Lemma set_plain_inv : forall s i o,
  HInv s -> (forall p, objs s i <> Some (OStr (Some p))) ->
  (forall p, o <> Some (OStr (Some p))) -> o <> Some OWild ->
  HInv (set_obj i o s).
Proof.
  intros s i o I N M W. constructor; simpl.
  - intros k q. unfold upd. destruct (Nat.eqb_spec k i) as [->|Hk]; [intros X; now apply M in X|].
    apply (hi_obj s I).
  - apply (hi_held s I).
  - intros k j q. unfold upd.
    destruct (Nat.eqb_spec k i) as [->|Hk]; [intros X; now apply M in X|].
    destruct (Nat.eqb_spec j i) as [->|Hj]; [intros _ X; now apply M in X|].
    apply (hi_uniq s I).
  - intros k q. unfold upd. destruct (Nat.eqb_spec k i) as [->|Hk]; [intros X; now apply M in X|].
    apply (hi_excl s I).
  - intros q X. destruct (hi_own s I q X) as [Y|[k Y]]; [now left|].
    right. exists k. unfold upd. destruct (Nat.eqb_spec k i) as [->|Hk]; [now apply N in Y|exact Y].
  - apply (hi_next s I).
  - intros k. unfold upd. destruct (Nat.eqb_spec k i) as [->|Hk]; [exact W|].
    apply (hi_tame s I).
Qed.

(** Giving a fresh string to an object that owns nothing. *)
Lemma set_fresh_inv : forall s i c,
  HInv s -> (forall p, objs s i <> Some (OStr (Some p))) ->
  HInv (set_obj i (Some (OStr (Some (next s))))
          (HS (upd (heap s) (next s) (Some c)) (S (next s)) (objs s) (held s))).
Proof.
  intros s i c I N.
  assert (F : heap s (next s) = None).
  { destruct (heap s (next s)) eqn:E; [|reflexivity]. exfalso.
    assert (next s < next s); [|lia]. apply (hi_next s I). congruence. }
  constructor; simpl.
  - intros k q. unfold upd. destruct (Nat.eqb_spec q (next s)) as [->|Hq]; [discriminate|].
    destruct (Nat.eqb_spec k i) as [->|Hk]; [intros X; injection X; intros; congruence|].
    apply (hi_obj s I).
  - intros q X. unfold upd. destruct (Nat.eqb_spec q (next s)); [discriminate|].
    now apply (hi_held s I).
  - intros k j q. unfold upd.
    destruct (Nat.eqb_spec k i) as [->|Hk], (Nat.eqb_spec j i) as [->|Hj]; auto.
    + intros X Y. injection X as <-. now apply (hi_obj s I) in Y.
    + intros X Y. injection Y as <-. now apply (hi_obj s I) in X.
    + apply (hi_uniq s I).
  - intros k q. unfold upd. destruct (Nat.eqb_spec k i) as [->|Hk].
    + intros X. injection X as <-. destruct (held s (next s)) eqn:E; [|reflexivity].
      now apply (hi_held s I) in E.
    + apply (hi_excl s I).
  - intros q. unfold upd. destruct (Nat.eqb_spec q (next s)) as [->|Hq].
    + intros _. right. exists i. now rewrite Nat.eqb_refl.
    + intros X. destruct (hi_own s I q X) as [Y|[k Y]]; [now left|].
      right. exists k. destruct (Nat.eqb_spec k i) as [->|Hk]; [now apply N in Y|exact Y].
  - intros q. unfold upd. destruct (Nat.eqb_spec q (next s)) as [->|Hq]; [lia|].
    intros X. apply (hi_next s I) in X. lia.
  - intros k. unfold upd. destruct (Nat.eqb_spec k i); [discriminate|]. apply (hi_tame s I).
Qed.

Lemma set_fresh_value : forall s i c k,
  HInv s -> value_of (set_obj i (Some (OStr (Some (next s))))
          (HS (upd (heap s) (next s) (Some c)) (S (next s)) (objs s) (held s))) k
  = if k =? i then Some (VStr (Some c)) else value_of s k.
Proof.
  intros s i c k I. unfold value_of. simpl.
  destruct (Nat.eqb_spec k i) as [->|Hk].
  - rewrite upd_same. rewrite upd_same. reflexivity.
  - rewrite upd_other by exact Hk.
    destruct (objs s k) as [[z|[q|]|]|] eqn:E; try reflexivity.
    rewrite upd_other; [reflexivity|]. intros ->.
    pose proof (hi_obj s I k (next s) E) as H. apply (hi_next s I) in H. lia.
Qed.

Lemma set_obj_value : forall s i o k, k <> i -> value_of (set_obj i o s) k = value_of s k.
Proof. intros s i o k H. unfold value_of. simpl. now rewrite upd_other. Qed.

Ltac none := intros ? ?; congruence.

(** The copy assignment of distinct objects. *)
Lemma copy_assign_inv : forall s i j fail oi oj,
  HInv s -> objs s i = Some oi -> objs s j = Some oj -> i <> j ->
  exists s1 r, copy_assign i j fail s = (s1, r) /\ r <> UB /\
    (r = Ok tt -> HInv s1 /\ value_of s1 i = value_of s j) /\
    (fail = false -> r = Ok tt) /\
    (r <> Ok tt -> oi = OVal 0 -> HInv s1 /\ objs s1 i = Some (OStr None)) /\
    (forall k, k <> i -> value_of s1 k = value_of s k) /\
    (forall k, k <> i -> objs s1 k = objs s k).
Proof.
  intros s i j fail oi oj I Ei Ej N.
  destruct (release_inv s i oi I Ei) as (s1 & R & I1 & O & V & Oi & Hp & Hh).
  assert (Ni : forall p, objs s1 i <> Some (OStr (Some p))).
  { intros p. rewrite Oi. destruct oi as [z|[q|]|]; try congruence; discriminate. }
  unfold copy_assign. rewrite R.
  assert (Ej1 : objs s1 j = Some oj) by (rewrite O by auto; exact Ej). rewrite Ej1.
  assert (Plain : forall o, o = oj -> (forall p, o <> OStr (Some p)) -> o <> OWild ->
    exists s' (r : res h_exn unit), (set_obj i (Some o) s1, Ok tt) = (s', r) /\ r <> UB /\
    (r = Ok tt -> HInv s' /\ value_of s' i = value_of s j) /\
    (fail = false -> r = Ok tt) /\
    (r <> Ok tt -> oi = OVal 0 -> HInv s' /\ objs s' i = Some (OStr None)) /\
    (forall k, k <> i -> value_of s' k = value_of s k) /\
    (forall k, k <> i -> objs s' k = objs s k)).
  { intros o -> Np Nw. exists (set_obj i (Some oj) s1), (Ok tt : res h_exn unit).
    split; [reflexivity|]. split; [discriminate|]. split; [|split; [reflexivity|split; [congruence|split]]].
    - intros _. split.
      + apply set_plain_inv; auto; try congruence; try (intros p X; injection X as X; now apply (Np p)).
      + unfold value_of at 1. simpl. rewrite upd_same. unfold value_of. rewrite Ej.
        destruct oj as [z|[q|]|]; try reflexivity. now exfalso; apply (Np q).
    - intros k Hk. rewrite set_obj_value by exact Hk. now apply V.
    - intros k Hk. simpl. rewrite upd_other by exact Hk. now apply O. }
  destruct oj as [z|[p|]|].
  - apply (Plain (OVal z)); [reflexivity|discriminate|discriminate].
  - clear Plain. unfold read.
    destruct (heap s1 p) as [c|] eqn:Hc; [|exfalso; now apply (hi_obj s1 I1 j p Ej1)].
    unfold alloc. destruct fail.
    + eexists _, _. split; [reflexivity|]. split; [discriminate|].
      split; [discriminate|]. split; [discriminate|]. split; [|split].
      * intros _ ->. rewrite Oi. simpl. split; [|apply upd_same].
        apply set_plain_inv; auto; congruence.
      * intros k Hk. rewrite set_obj_value by exact Hk. now apply V.
      * intros k Hk. simpl. rewrite upd_other by exact Hk. now apply O.
    + eexists _, _. split; [reflexivity|]. split; [discriminate|].
      split; [|split; [reflexivity|split; [congruence|split]]].
      * intros _. split; [now apply set_fresh_inv|].
        rewrite set_fresh_value by exact I1. rewrite Nat.eqb_refl.
        unfold value_of. rewrite Ej.
        rewrite <- Hp.
        -- now rewrite Hc.
        -- intros q -> ->. apply N. eapply (hi_uniq s I); eassumption.
      * intros k Hk. rewrite set_fresh_value by exact I1.
        apply Nat.eqb_neq in Hk as Hk'. rewrite Hk'. now apply V.
      * intros k Hk. simpl. rewrite upd_other by exact Hk. now apply O.
  - apply (Plain (OStr None)); [reflexivity|discriminate|discriminate].
  - exfalso. now apply (hi_tame s I j).
Qed.

Lemma set_str_inv : forall s i oi v fail,
  HInv s -> objs s i = Some oi ->
  (forall p, v = Some (inl p) -> heap s p <> None /\ oi <> OStr (Some p)) ->
  exists s1 r, set_str i v fail s = (s1, r) /\ r <> UB /\ HInv s1 /\
    (r = Ok tt -> value_of s1 i = Some (VStr
       match v with
       | None => None
       | Some (inr c) => Some c
       | Some (inl p) => heap s p
       end)) /\
    (fail = false -> r = Ok tt) /\
    (forall k, k <> i -> value_of s1 k = value_of s k).
Proof.
  intros s i oi v fail I Ei A.
  destruct (release_inv s i oi I Ei) as (s1 & R & I1 & O & V & Oi & Hp & Hh).
  assert (Ni : forall p, objs s1 i <> Some (OStr (Some p))).
  { intros p. rewrite Oi. destruct oi as [z|[q|]|]; try congruence; discriminate. }
  unfold set_str. rewrite R.
  assert (F : forall c, exists s' (r : res h_exn unit),
      match alloc fail c s1 with
      | Ok (q, s2) => (set_obj i (Some (OStr (Some q))) s2, Ok tt)
      | Throw e => (s1, Throw e)
      | UB => (s1, UB)
      end = (s', r) /\ r <> UB /\ HInv s' /\
      (r = Ok tt -> value_of s' i = Some (VStr (Some c))) /\
      (fail = false -> r = Ok tt) /\
      (forall k, k <> i -> value_of s' k = value_of s k)).
  { intros c. unfold alloc. destruct fail.
    - eexists _, _. split; [reflexivity|]. split; [discriminate|]. split; [exact I1|].
      split; [discriminate|]. split; [discriminate|exact V].
    - eexists _, _. split; [reflexivity|]. split; [discriminate|].
      split; [now apply set_fresh_inv|]. split; [|split; [reflexivity|]].
      + intros _. rewrite set_fresh_value by exact I1. now rewrite Nat.eqb_refl.
      + intros k Hk. rewrite set_fresh_value by exact I1.
        apply Nat.eqb_neq in Hk as Hk'. rewrite Hk'. now apply V. }
  destruct v as [[p|c]|].
  - destruct (A p eq_refl) as [A1 A2]. unfold read.
    assert (E : heap s1 p = heap s p).
    { apply Hp. intros q Hq ->. now apply A2. }
    rewrite E. destruct (heap s p) as [c|] eqn:Hc; [|congruence].
    apply F.
  - apply F.
  - exists (set_obj i (Some (OStr None)) s1), (Ok tt : res h_exn unit).
    split; [reflexivity|]. split; [discriminate|]. split; [|split; [|split; [reflexivity|]]].
    + apply set_plain_inv; auto; congruence.
    + intros _. unfold value_of. simpl. now rewrite upd_same.
    + intros k Hk. rewrite set_obj_value by exact Hk. now apply V.
Qed.

(** Moving the content of [j] into [i], which owns nothing. *)
Lemma steal_inv : forall s i j,
  HInv s -> i <> j -> (forall p, objs s i <> Some (OStr (Some p))) ->
  HInv (set_obj j (Some (OVal 0)) (set_obj i (objs s j) s)).
Proof.
  intros s i j I N Ni. constructor; simpl.
  - intros k q. unfold upd. destruct (Nat.eqb_spec k j) as [->|Hk]; [discriminate|].
    destruct (Nat.eqb_spec k i) as [->|Hi]; apply (hi_obj s I).
  - apply (hi_held s I).
  - intros k l q. unfold upd.
    destruct (Nat.eqb_spec k j) as [->|Hk]; [discriminate|].
    destruct (Nat.eqb_spec l j) as [->|Hl]; [discriminate|].
    destruct (Nat.eqb_spec k i) as [->|Hki], (Nat.eqb_spec l i) as [->|Hli]; auto; intros X Y.
    + exfalso. apply Hl. eapply (hi_uniq s I); eassumption.
    + exfalso. apply Hk. eapply (hi_uniq s I); eassumption.
    + eapply (hi_uniq s I); eassumption.
  - intros k q. unfold upd. destruct (Nat.eqb_spec k j) as [->|Hk]; [discriminate|].
    destruct (Nat.eqb_spec k i) as [->|Hi]; apply (hi_excl s I).
  - intros q X. destruct (hi_own s I q X) as [Y|[k Y]]; [now left|]. right.
    destruct (Nat.eq_dec k j) as [->|Hk].
    + exists i. unfold upd. apply Nat.eqb_neq in N as ->. now rewrite Nat.eqb_refl.
    + exists k. unfold upd. apply Nat.eqb_neq in Hk as ->.
      destruct (Nat.eqb_spec k i) as [->|Hi]; [now apply Ni in Y|exact Y].
  - apply (hi_next s I).
  - intros k. unfold upd. destruct (Nat.eqb_spec k j); [discriminate|].
    destruct (Nat.eqb_spec k i); apply (hi_tame s I).
Qed.

Lemma steal_value : forall s i j k,
  i <> j ->
  value_of (set_obj j (Some (OVal 0)) (set_obj i (objs s j) s)) k =
  if k =? j then Some (VBits 0) else if k =? i then value_of s j else value_of s k.
Proof.
  intros s i j k N. unfold value_of. simpl. unfold upd.
  destruct (Nat.eqb_spec k j) as [->|Hk]; [reflexivity|].
  destruct (Nat.eqb_spec k i) as [->|Hi]; reflexivity.
Qed.

Lemma h_step_inv : forall s o,
  HInv s -> fine o ->
  exists s' r, h_step s o = (s', r) /\ r <> UB /\ HInv s' /\
    (forall k, ~ targets o k -> value_of s' k = value_of s k).
Proof.
  intros s o I F.
  assert (Skip : exists s' (r : res h_exn unit), (s, Ok tt) = (s', r) /\ r <> UB /\ HInv s' /\
    (forall k, ~ targets o k -> value_of s' k = value_of s k)).
  { exists s, (Ok tt). split; [reflexivity|]. split; [discriminate|]. split; [exact I|reflexivity]. }
  destruct o as [i z|i j fail|i j|i j fail|i j|i z ok|i v fail|i|p|i]; simpl h_step; cbn in F.
  - destruct (objs s i) as [oi|] eqn:Ei; [exact Skip|].
    eexists _, _. split; [reflexivity|]. split; [discriminate|]. split.
    + apply set_plain_inv; auto; destruct z; try congruence; discriminate.
    + intros k Hk. now apply set_obj_value.
  - destruct (objs s i) as [oi|] eqn:Ei; [exact Skip|].
    destruct (objs s j) as [oj|] eqn:Ej; [|exact Skip].
    assert (N : i <> j) by congruence.
    set (s0 := set_obj i (Some (OVal 0)) s).
    assert (I0 : HInv s0) by (apply set_plain_inv; auto; congruence).
    assert (Ei0 : objs s0 i = Some (OVal 0)) by apply upd_same.
    assert (Ej0 : objs s0 j = Some oj) by (simpl; rewrite upd_other; auto).
    destruct (copy_assign_inv s0 i j fail _ _ I0 Ei0 Ej0 N)
      as (s1 & r & E & NU & Y & _ & T & V & _).
    rewrite E. destruct r as [[]|e|]; [| |congruence].
    + exists s1, (Ok tt : res h_exn unit). split; [reflexivity|]. split; [discriminate|].
      split; [now apply Y|]. intros k Hk. rewrite V by exact Hk. now apply set_obj_value.
    + destruct (T ltac:(discriminate) eq_refl) as [I1 O1].
      unfold release_content. rewrite O1. cbn.
      eexists _, _. split; [reflexivity|]. split; [discriminate|]. split.
      * apply set_plain_inv; [apply set_plain_inv|..]; simpl; auto; try congruence.
        intros p. rewrite upd_same. congruence.
      * intros k Hk. rewrite !set_obj_value by exact Hk.
        rewrite V by exact Hk. now apply set_obj_value.
  - destruct (objs s i) as [oi|] eqn:Ei; [exact Skip|].
    destruct (objs s j) as [oj|] eqn:Ej; [|exact Skip].
    assert (N : i <> j) by congruence.
    eexists _, _. split; [reflexivity|]. split; [discriminate|]. rewrite <- Ej. split.
    + apply steal_inv; auto. congruence.
    + intros k Hk. rewrite steal_value by exact N. cbn in Hk.
      destruct (Nat.eqb_spec k j); [tauto|]. destruct (Nat.eqb_spec k i); [tauto|reflexivity].
  - destruct (objs s i) as [oi|] eqn:Ei; [|exact Skip].
    destruct (objs s j) as [oj|] eqn:Ej; [|exact Skip].
    destruct (Nat.eqb_spec i j) as [->|N]; [exact Skip|]. subst fail.
    destruct (copy_assign_inv s i j false _ _ I Ei Ej N) as (s1 & r & E & NU & Y & T & _ & V & _).
    rewrite E. exists s1, r. split; [reflexivity|]. split; [exact NU|].
    split; [now apply Y, T|]. exact V.
  - destruct (objs s i) as [oi|] eqn:Ei; [|exact Skip].
    destruct (objs s j) as [oj|] eqn:Ej; [|exact Skip].
    destruct (release_inv s i oi I Ei) as (s1 & R & I1 & O & V & Oi & Hp & Hh).
    assert (Ni : forall p, objs s1 i <> Some (OStr (Some p))).
    { intros p. rewrite Oi. destruct oi as [z|[q|]|]; try congruence; discriminate. }
    unfold move_assign. rewrite R.
    eexists _, _. split; [reflexivity|]. split; [discriminate|].
    destruct (Nat.eq_dec i j) as [->|N].
    + split.
      * apply set_plain_inv; [apply set_plain_inv|..]; simpl; auto; try congruence.
        -- apply (hi_tame s1 I1).
        -- intros p. rewrite upd_same. apply Ni.
      * intros k Hk. cbn in Hk. rewrite !set_obj_value by tauto. apply V. tauto.
    + split; [now apply steal_inv|].
      intros k Hk. cbn in Hk. rewrite steal_value by exact N.
      destruct (Nat.eqb_spec k j); [tauto|]. destruct (Nat.eqb_spec k i); [tauto|].
      apply V. tauto.
  - destruct (objs s i) as [oi|] eqn:Ei; [|exact Skip].
    destruct (release_inv s i oi I Ei) as (s1 & R & I1 & O & V & Oi & Hp & Hh).
    assert (Ni : forall p, objs s1 i <> Some (OStr (Some p))).
    { intros p. rewrite Oi. destruct oi as [z'|[q|]|]; try congruence; discriminate. }
    rewrite R. eexists _, _. split; [reflexivity|]. split; [discriminate|].
    destruct ok.
    + split; [apply set_plain_inv; auto; congruence|].
      intros k Hk. rewrite set_obj_value by exact Hk. now apply V.
    + split; [exact I1|exact V].
  - destruct (objs s i) as [oi|] eqn:Ei; [|exact Skip].
    assert (K : forall v', (forall p, v' = Some (inl p) -> heap s p <> None /\ oi <> OStr (Some p)) ->
      exists s' r, set_str i v' fail s = (s', r) /\ r <> UB /\ HInv s' /\
      (forall k, ~ k = i -> value_of s' k = value_of s k)).
    { intros v' A. destruct (set_str_inv s i oi v' fail I Ei A)
        as (s1 & r & E & NU & I1 & _ & _ & V). eauto 10. }
    destruct v as [|c|j].
    + apply K. discriminate.
    + apply K. discriminate.
    + destruct (objs s j) as [[z|[p|]|]|] eqn:Ej; try exact Skip.
      * apply K. intros q X. injection X as <-. split; [now apply (hi_obj s I j)|].
        intros ->. apply F. eapply (hi_uniq s I); eassumption.
      * apply K. discriminate.
      * exfalso. now apply (hi_tame s I j).
  - destruct (objs s i) as [[z|[p|]|]|] eqn:Ei; try exact Skip.
    eexists _, _. split; [reflexivity|]. split; [discriminate|]. split.
    + constructor; simpl.
      * intros k q. unfold upd. destruct (Nat.eqb_spec k i); [discriminate|]. apply (hi_obj s I).
      * intros q. unfold upd. destruct (Nat.eqb_spec q p) as [->|Hq].
        -- intros _. now apply (hi_obj s I i).
        -- apply (hi_held s I).
      * intros k j q. unfold upd.
        destruct (Nat.eqb_spec k i); [discriminate|]. destruct (Nat.eqb_spec j i); [discriminate|].
        apply (hi_uniq s I).
      * intros k q. unfold upd. destruct (Nat.eqb_spec k i) as [->|Hk]; [discriminate|].
        intros X. destruct (Nat.eqb_spec q p) as [->|Hq].
        -- exfalso. apply Hk. eapply (hi_uniq s I); eassumption.
        -- now apply (hi_excl s I) in X.
      * intros q X. unfold upd. destruct (Nat.eqb_spec q p) as [->|Hq]; [now left|].
        destruct (hi_own s I q X) as [Y|[k Y]]; [now left|]. right. exists k.
        destruct (Nat.eqb_spec k i) as [->|Hk]; [congruence|exact Y].
      * apply (hi_next s I).
      * intros k. unfold upd. destruct (Nat.eqb_spec k i); [discriminate|]. apply (hi_tame s I).
    + intros k Hk. unfold value_of. simpl. now rewrite upd_other.
  - destruct (held s p) eqn:Hh; [|exact Skip]. unfold delete.
    destruct (heap s p) as [c|] eqn:Hp; [|exfalso; now apply (hi_held s I p)].
    eexists _, _. split; [reflexivity|]. split; [discriminate|].
    assert (Q : forall k, objs s k <> Some (OStr (Some p))).
    { intros k X. apply (hi_excl s I) in X. congruence. }
    split.
    + constructor; simpl.
      * intros k q X. unfold upd. destruct (Nat.eqb_spec q p) as [->|Hq]; [now apply Q in X|].
        now apply (hi_obj s I k).
      * intros q. unfold upd. destruct (Nat.eqb_spec q p); [discriminate|]. apply (hi_held s I).
      * apply (hi_uniq s I).
      * intros k q X. unfold upd. destruct (Nat.eqb_spec q p); [reflexivity|].
        now apply (hi_excl s I k).
      * intros q. unfold upd. destruct (Nat.eqb_spec q p); [congruence|]. apply (hi_own s I).
      * intros q. unfold upd. destruct (Nat.eqb_spec q p); [congruence|]. apply (hi_next s I).
      * apply (hi_tame s I).
    + intros k _. unfold value_of. simpl.
      destruct (objs s k) as [[z|[q|]|]|] eqn:E; try reflexivity.
      rewrite upd_other; [reflexivity|]. intros ->. now apply Q in E.
  - destruct (objs s i) as [oi|] eqn:Ei; [|exact Skip].
    destruct (release_inv s i oi I Ei) as (s1 & R & I1 & O & V & Oi & Hp & Hh).
    assert (Ni : forall p, objs s1 i <> Some (OStr (Some p))).
    { intros p. rewrite Oi. destruct oi as [z|[q|]|]; try congruence; discriminate. }
    rewrite R. eexists _, _. split; [reflexivity|]. split; [discriminate|].
    split; [apply set_plain_inv; auto; congruence|].
    intros k Hk. rewrite set_obj_value by exact Hk. now apply V.
Qed.

Lemma h_run_inv : forall l s,
  HInv s -> Forall fine l -> exists s', h_run s l = Some s' /\ HInv s'.
Proof.
  induction l as [|o l IH]; intros s I F; [exists s; auto|].
  inversion F as [|? ? F1 F2]. subst.
  destruct (h_step_inv s o I F1) as (s1 & r & E & NU & I1 & _).
  simpl. rewrite E. destruct r; [apply IH; auto|apply IH; auto|congruence].
Qed.
