(** C37, C38: Xsmp::Persist. *)
From Coq Require Import ZArith List Bool Arith Lia Sorting.Permutation.
From Verif Require Import Base PersistModel PersistSpec PersistProofs.
Import ListNotations.
Local Open Scope Z_scope.

(** C37: what Restore yields from the bytes of Store is the stored value, and the
    reader is at the end of those bytes, whatever follows.  Missing: strings of
    wide characters. *)
Theorem C37_round_trip_partial : forall mem t v rest,
  wt mem t v ->
  exists v', restore mem t (store t v ++ rest) = Ok (v', rest) /\ same t v v'.
Proof. exact round_trip. Qed.

(** ... and, without unordered containers, it is equal. *)
Theorem C37_round_trip_plain_partial : forall mem t v rest,
  wt mem t v -> plain t -> restore mem t (store t v ++ rest) = Ok (v, rest).
Proof.
  intros mem t v rest W P. destruct (round_trip mem t v rest W) as (v' & E & S).
  pose proof (same_plain mem t v v' P W S). now subst v'.
Qed.

(** Several values, stored and restored in the same order. *)
Theorem C37_sequence_partial : forall mem l rest,
  wt_all mem l ->
  exists vs, restore_all mem (map fst l) (store_all l ++ rest) = Ok (vs, rest) /\ same_all l vs.
Proof. exact restore_all_app. Qed.

(** The same with the hashes of the types. *)
Theorem C37_typed_sequence_partial : forall mem hash l rest,
  (forall t, 0 <= hash t < 2 ^ 64) -> wt_all mem l ->
  exists vs, trestore_all mem hash (map fst l) (tstore_all hash l ++ rest) = Ok (vs, rest) /\
             same_all l vs.
Proof. exact (fun mem hash l rest H => trestore_all_app mem hash H l rest). Qed.

Definition zlt (a b : val) : bool :=
  match a, b with VInt x, VInt y => x <? y | _, _ => false end.

Lemma zlt_strict : strict zlt.
Proof.
  split.
  - intros []; simpl; try reflexivity. apply Z.ltb_irrefl.
  - intros [] [] []; simpl; try discriminate. rewrite !Z.ltb_lt. lia.
Qed.

(** map<uint16, vector<pair<string, bool>>>, std::array<set<uint8>, 2>,
    unordered_set<uint8> *)
Example C37_example :
  let t1 := TMap zlt (TInt 2) (TVector (TPair (TStr 1) TBool)) in
  let v1 := VSeq [VPair (VInt 3) (VSeq [VPair (VStr [65; 66]) (VInt 1); VPair (VStr []) (VInt 0)]);
                  VPair (VInt 700) (VSeq [])] in
  let t2 := TArray 2 (TSet zlt (TInt 1)) in
  let v2 := VSeq [VSeq [VInt 1; VInt 255]; VSeq []] in
  let t3 := TUSet (fun a b => match a, b with VInt x, VInt y => x =? y | _, _ => false end) (@rev val) (TInt 1) in
  let v3 := VSeq [VInt 7; VInt 5] in
  wt_all 100 [(t1, v1); (t2, v2); (t3, v3)] /\
  restore_all 100 [t1; t2; t3] (store_all [(t1, v1); (t2, v2); (t3, v3)] ++ [9]) =
    Ok ([v1; v2; VSeq [VInt 5; VInt 7]], [9]).
Proof.
  split; [|vm_compute; reflexivity].
  unfold wt_all. cbn [wt].
  repeat match goal with
         | |- _ /\ _ => split
         | |- Forall _ [] => constructor
         | |- Forall _ (_ :: _) => constructor
         | |- pairwise _ [] => constructor
         | |- pairwise _ (_ :: _) => constructor
         | |- strict _ => exact zlt_strict
         | |- small _ => unfold small; simpl; lia
         | |- plain _ => exact I
         | |- forall l, Permutation (rev l) l => intros l; apply Permutation_sym, Permutation_rev
         | |- wt _ _ _ => cbn [wt]
         | |- _ \/ _ => solve [left; reflexivity|right; reflexivity]
         | |- _ => solve [reflexivity|simpl; lia]
         end.
Qed.

(** A string of wide characters: only as many bytes as there are characters are
    stored, so the second of two 4-byte characters is lost. *)
Theorem C37_wide_string_refuted :
  exists v v' r, store (TStr 4) v = store (TStr 4) v' /\ v <> v' /\
    restore 100 (TStr 4) (store (TStr 4) v) = Ok (v', r).
Proof.
  exists (VStr [65; 66]), (VStr [65; 0]), []. repeat split; try discriminate; vm_compute; reflexivity.
Qed.

(** C38: a storage that ends too early: Restore throws CannotRestore. *)
Theorem C38_truncated : forall mem t v p q,
  wt mem t v -> store t v = p ++ q -> q <> [] -> restore mem t p = Throw CannotRestore.
Proof. exact truncated. Qed.

Theorem C38_truncated_sequence : forall mem l p q,
  wt_all mem l -> store_all l = p ++ q -> q <> [] ->
  restore_all mem (map fst l) p = Throw CannotRestore.
Proof. exact restore_all_short. Qed.

Theorem C38_truncated_typed : forall mem hash l p q,
  (forall t, 0 <= hash t < 2 ^ 64) -> wt_all mem l ->
  tstore_all hash l = p ++ q -> q <> [] ->
  trestore_all mem hash (map fst l) p = Throw CannotRestore.
Proof. exact (fun mem hash l p q H => trestore_all_short mem hash H l p q). Qed.

Example C38_truncated_example :
  restore 100 (TVector (TInt 2)) (firstn 11 (store (TVector (TInt 2)) (VSeq [VInt 1; VInt 2]))) =
  Throw CannotRestore.
Proof. vm_compute. reflexivity. Qed.

(** A storage written for other types, with the hashes of the types: CannotRestore,
    unless the types expected are the first ones of those stored.  The hashes of
    the types involved have to be different. *)
Theorem C38_foreign_partial : forall mem hash l ts,
  (forall t, 0 <= hash t < 2 ^ 64) ->
  (forall t t', In t ts -> In t' (map fst l) -> hash t = hash t' -> t = t') ->
  wt_all mem l ->
  (forall more, map fst l <> ts ++ more) ->
  trestore_all mem hash ts (tstore_all hash l) = Throw CannotRestore.
Proof. intros mem hash l ts H I W. exact (trestore_all_foreign mem hash H l ts W I). Qed.

Definition demo_hash (t : ty) : Z :=
  match t with TInt n => Z.of_nat n mod 100 + 20 | TVector _ => 5 | _ => 6 end.

Example C38_foreign_example :
  wt_all 100 [(TInt 4, VInt 7); (TInt 2, VInt 8)] /\
  trestore_all 100 demo_hash [TInt 4; TInt 8] (tstore_all demo_hash [(TInt 4, VInt 7); (TInt 2, VInt 8)])
    = Throw CannotRestore /\
  trestore_all 100 demo_hash [TInt 4; TInt 2; TInt 2]
    (tstore_all demo_hash [(TInt 4, VInt 7); (TInt 2, VInt 8)]) = Throw CannotRestore.
Proof. split; [repeat constructor; simpl; lia|split; vm_compute; reflexivity]. Qed.

(** If the types expected are the first ones of those stored, values are returned. *)
Theorem C38_foreign_prefix_refuted :
  exists mem hash l ts vs rest, (forall t, 0 <= hash t < 2 ^ 64) /\ wt_all mem l /\
    map fst l <> ts /\ trestore_all mem hash ts (tstore_all hash l) = Ok (vs, rest).
Proof.
  exists 100, demo_hash, [(TInt 4, VInt 7); (TInt 2, VInt 8)], [TInt 4]. do 2 eexists.
  split; [|split; [repeat constructor; simpl; lia|split; [discriminate|vm_compute; reflexivity]]].
  intros t. unfold demo_hash. destruct t; try lia.
  pose proof (Z.mod_pos_bound (Z.of_nat n) 100). lia.
Qed.

(** Without the hashes a foreign storage can be taken for a value, or make the
    process allocate a string of any size. *)
Theorem C38_untyped_refuted :
  (exists v rest, restore 100 (TStr 1) (store (TPair (TInt 8) (TInt 1)) (VPair (VInt 1) (VInt 65))) = Ok (v, rest)) /\
  restore 100 (TStr 1) (store (TInt 8) (VInt (2 ^ 63))) = Throw OutOfMemory.
Proof. split; [do 2 eexists|]; vm_compute; reflexivity. Qed.

Print Assumptions C37_round_trip_partial.
Print Assumptions C37_typed_sequence_partial.
Print Assumptions C38_truncated_typed.
Print Assumptions C38_foreign_partial.
