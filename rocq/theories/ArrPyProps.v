(** Property C108: simple array fields from Python.  The theorems called partial are about
    all simple array fields but those made by PublishArray with a count. *)
From Coq Require Import String ZArith List Bool Lia.
From Verif Require Import Base Text UuidModel PathModel AnyModel AnySpec FlowModel FlowSpec FlowProofs FArrModel FArrSpec FArrProofs PyModel PySpec PyProofs ArrPyModel ArrPySpec ArrPyProofs.
Import ListNotations.
Local Open Scope Z_scope.

(** [a[j] = p] with the Python value of a value of the type of the items: this item, and
    nothing else, becomes that value, and [a[j]] is [p] again. *)
Theorem C108_set_partial : forall w i n j v p, typed w -> has_size w i n -> 0 <= j < n -> item_value w i v p ->
  let k := Z.to_nat j in let old := avals (arrs w i) in
  exists w', arr_setitem false w i j p = (w', Ok tt) /\ only_items w w' i /\ typed w' /\
    avals (arrs w' i) = firstn k old ++ v :: skipn (S k) old /\
    arr_getitem w' i j = Ok p /\ forall x, x <> j -> arr_getitem w' i x = arr_getitem w i x.
Proof.
  intros w i n j v p T H J V k old. subst k old. pose proof H as (S & L).
  assert (K : (Z.to_nat j < length (avals (arrs w i)))%nat) by lia. exists (stored w i (Z.to_nat j) v).
  rewrite <- (Z2Nat.id j) at 1 by lia.
  split; [now apply setitem_ok with n|]. split; [apply with_vals_only|]. split; [apply stored_typed; [exact T|apply V]|].
  split; [rewrite stored_arr; cbn; now apply put_nth_split|].
  assert (T' : typed (stored w i (Z.to_nat j) v)) by (apply stored_typed; [exact T|apply V]).
  split.
  - rewrite <- (Z2Nat.id j) at 2 by lia. apply getitem_at with n v; auto.
    + now apply stored_size.
    + rewrite stored_arr. cbn. now apply put_same.
    + rewrite stored_arr. cbn. apply V.
  - intros x D. rewrite (getitem_spec _ i n x T' (stored_size w i _ v n H)), (getitem_spec w i n x T H), stored_arr. cbn [avals ak with_vals].
    destruct (in_i64 x); [|reflexivity]. destruct (Z.leb_spec 0 x); [|reflexivity]. now rewrite put_other by lia.
Qed.

(** Integers: those of the type of the items are stored, all others are refused and
    nothing changes. *)
Theorem C108_integers_partial : forall w i n j t z, typed w -> has_size w i n -> 0 <= j < n -> ac (arrs w i) = CInt t ->
  (of_type t z -> exists w', arr_setitem false w i j (PyInt z) = (w', Ok tt) /\ only_items w w' i /\
     avals (arrs w' i) = firstn (Z.to_nat j) (avals (arrs w i)) ++ PInt z :: skipn (S (Z.to_nat j)) (avals (arrs w i))) /\
  (~ of_type t z -> arr_setitem false w i j (PyInt z) = (w, Throw (Convert PyCastError))).
Proof.
  intros w i n j t z T H J C. destruct (proj2 T i) as (K & _). rewrite C in K. cbn in K. split.
  - intros Z. destruct (C108_set_partial w i n j (PInt z) (PyInt z) T H J) as (w' & E & O & _ & A & _).
    + unfold item_value. rewrite C. split; [exact Z|]. split; [|now apply (to_py_int _ t)].
      unfold showable. cbn [atype]. destruct (ak (arrs w i)); try exact I; discriminate K.
    + exists w'. auto.
  - intros Z. destruct H as (S & L). unfold arr_setitem. rewrite (proj2 (Z.leb_le _ _)), (proj2 (Z.ltb_lt j (2 ^ 64))) by lia. cbn [andb negb].
    rewrite (of_py_int _ t _ K) by discriminate. destruct (load_int_cases t z) as [(Y & _)|(_ & ->)]; [contradiction|reflexivity].
Qed.

(** A loop over all items writes all items, and the list of the items is what was written. *)
Theorem C108_loops_partial : forall w i n vs ps, typed w -> has_size w i n -> Z.of_nat (length vs) = n ->
  Forall2 (item_value w i) vs ps ->
  exists w', arr_write false w i 0 ps = (w', Ok tt) /\ only_items w w' i /\ avals (arrs w' i) = vs /\
    arr_read w' i 0 (length vs) = Ok ps.
Proof.
  intros w i n vs ps T H L F. destruct (write_ok i n vs ps w [] (avals (arrs w i)) T H eq_refl) as (w' & W & O & T' & A); [destruct H; lia|exact F|].
  exists w'. split; [exact W|]. split; [exact O|]. split; [exact A|]. cbn in A.
  assert (X : arr_read w' i (Z.of_nat (length (@nil payload))) (length vs) = Ok ps).
  { apply (read_ok w' i n T') with (b := vs) (a := []); [|exact A|].
    - split; [now rewrite A|apply H].
    - destruct O as (_ & _ & _ & O). clear -F O. induction F; constructor; [|assumption]. unfold item_value in *. rewrite O. exact H. }
  exact X.
Qed.

(** Reading the items of an array that Python can show gives all of them in order. *)
Theorem C108_read : forall w i n ps, typed w -> has_size w i n -> shown w i ps -> arr_read w i 0 (Z.to_nat n) = Ok ps.
Proof.
  intros w i n ps T H F. pose proof (read_ok w i n T H (avals (arrs w i)) ps [] eq_refl F) as X. destruct H as (<- & _).
  rewrite Nat2Z.id. exact X.
Qed.

(** Whatever is assigned: a statement that raises changes nothing, and an index that is
    negative or not below the size always raises, in reading as well. *)
Theorem C108_refused : forall anon w i j p, snd (arr_setitem anon w i j p) <> Ok tt -> fst (arr_setitem anon w i j p) = w.
Proof. intros anon w i j p. now apply (setitem_refused anon w i j p). Qed.
Theorem C108_outside : forall anon w i n j p, typed w -> has_size w i n -> j < 0 \/ n <= j ->
  snd (arr_setitem anon w i j p) <> Ok tt /\ forall x, arr_getitem w i j <> Ok x.
Proof.
  intros anon w i n j p T H O. split; [now apply setitem_out with n|]. intros x.
  destruct (getitem_out w i n j T H O) as [-> | ->]; discriminate.
Qed.

(** The items of arrays made by PublishArray with a count can be read, but no item can be
    assigned in Python, although SetValue of the field accepts the values. *)
Theorem C108_anonymous : forall w i j p, exists e, arr_setitem true w i j p = (w, Throw e).
Proof. intros w i j p. unfold arr_setitem. destruct (negb _); eauto. Qed.

Definition bytes (l : list Z) : world :=
  World (fun _ => Leaf (CInt TI8) KI8 (PInt 0) false false false [] true None true true)
        (fun _ => SArr (CInt TI8) KI8 (map PInt l) false [] true None true true) (fun _ => []).
Lemma bytes_typed l : Forall (of_type TI8) l -> typed (bytes l).
Proof.
  intros F. split; intros j; (split; [reflexivity|]); [vm_compute; split; discriminate|]. cbn. induction F; constructor; assumption.
Qed.
Theorem C108_anonymous_refuted : exists w i n j v p, typed w /\ has_size w i n /\ 0 <= j < n /\ item_value w i v p /\
  (exists w', anon_set w i (Z.to_nat j) (Any (ak (arrs w i)) v) = done w') /\
  arr_setitem true w i j p = (w, Throw ValueError).
Proof.
  exists (bytes [1; 2; 3]), 0%nat, 3, 1, (PInt 7), (PyInt 7). split; [apply bytes_typed; repeat constructor; discriminate|].
  split; [split; reflexivity|]. split; [lia|]. split; [split; [vm_compute; split; discriminate|split; [exact I|reflexivity]]|]. split; [eexists; reflexivity|reflexivity].
Qed.

Example C108_example :
  let w := bytes [1; 2; 3] in
  typed w /\ has_size w 0 3 /\ Forall2 (item_value w 0) [PInt (-128); PInt 127; PInt 5] [PyInt (-128); PyInt 127; PyInt 5] /\
  arr_read w 0 0 3 = Ok [PyInt 1; PyInt 2; PyInt 3] /\
  arr_setitem false w 0 1 (PyInt 128) = (w, Throw (Convert PyCastError)) /\
  arr_setitem false w 0 3 (PyInt 1) = (w, Throw (Smp InvalidArrayIndex)) /\
  arr_setitem false w 0 (-1) (PyInt 1) = (w, Throw TypeError) /\ arr_getitem w 0 (-1) = Throw IndexError.
Proof.
  cbv zeta. split; [apply bytes_typed; repeat constructor; discriminate|]. split; [split; reflexivity|]. split.
  { repeat constructor; try exact I; try reflexivity; vm_compute; discriminate. }
  repeat split.
Qed.
Print Assumptions C108_set_partial.
Print Assumptions C108_loops_partial.
