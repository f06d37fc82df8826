(** C99: reading and writing the items of simple array fields; the values of fields and
    items stay values of their types. *)
From Coq Require Import ZArith List Bool Lia.
From Verif Require Import Base UuidModel AnyModel AnySpec AnyProofs HelperModel FlowModel FlowSpec FlowProofs FArrModel FArrSpec FArrProofs.
Import ListNotations.
Local Open Scope nat_scope.

(** SetValue(index, value).  A value of the kind of the items replaces exactly the item
    asked for; any other outcome is an exception that leaves everything as it was.  A
    published field converts values of other kinds, and it is only when its items are
    floating point numbers that this may be undefined. *)
Theorem C99_set_item : forall w i k a, typed w -> any_ok a ->
  let old := avals (arrs w i) in
  (length old <= k -> arr_set_any w i k a = throw w InvalidArrayIndex) /\
  (k < length old -> atype a = ak (arrs w i) ->
     exists w', arr_set_any w i k a = done w' /\ only_items w w' i /\
       avals (arrs w' i) = firstn k old ++ item_of (ac (arrs w i)) a :: skipn (S k) old) /\
  (k < length old -> atype a <> ak (arrs w i) -> apub (arrs w i) = false ->
     arr_set_any w i k a = throw w InvalidFieldValue) /\
  (k < length old -> atype a <> ak (arrs w i) -> apub (arrs w i) = true ->
     (exists w' p, from_any (ac (arrs w i)) a = Ok p /\ value_of (ac (arrs w i)) p /\
        arr_set_any w i k a = done w' /\ only_items w w' i /\
        avals (arrs w' i) = firstn k old ++ p :: skipn (S k) old) \/
     (exists e, from_any (ac (arrs w i)) a = Throw e /\ arr_set_any w i k a = throw w BadAny) \/
     (arr_set_any w i k a = (w, UB) /\ (ac (arrs w i) = CF32 \/ ac (arrs w i) = CF64))).
Proof.
  intros w i k a T A old. subst old. split; [|split; [|split]].
  - intros L. unfold arr_set_any. cbv zeta. now rewrite (proj2 (Nat.ltb_ge _ _) L).
  - intros L E. rewrite (set_item_same w i k a T A L E). eexists. split; [reflexivity|].
    split; [apply with_vals_only|]. cbn. rewrite upd_same. cbn. now apply put_nth_split.
  - intros L E P. unfold arr_set_any. cbv zeta.
    now rewrite (proj2 (Nat.ltb_lt _ _) L), P, (proj2 (kind_eqb_neq _ _) E).
  - intros L E P. unfold arr_set_any. cbv zeta. rewrite (proj2 (Nat.ltb_lt _ _) L), P. cbn [negb andb].
    destruct (from_any (ac (arrs w i)) a) as [p|e|] eqn:F.
    + left. eexists _, p. split; [reflexivity|]. split; [eapply from_any_value; eassumption|]. split; [reflexivity|].
      split; [apply with_vals_only|]. cbn. rewrite upd_same. cbn. now apply put_nth_split.
    + right; left. now exists e.
    + right; right. split; [reflexivity|]. eapply from_any_defined; eassumption.
Qed.

(** SetValues(length, values).  The number of values must be the size of the array.  The
    values are written from the first one on, up to the first one of another kind: the
    call then throws and what was written before it stays written. *)
Theorem C99_set_values : forall w i vs, typed w -> Forall any_ok vs ->
  let old := avals (arrs w i) in
  let j := leading (ak (arrs w i)) vs in
  (length vs <> length old -> arr_set_values w i vs = throw w InvalidArraySize) /\
  (length vs = length old ->
     exists w', only_items w w' i /\
       avals (arrs w' i) = map (item_of (ac (arrs w i))) (firstn j vs) ++ skipn j old /\
       arr_set_values w i vs = (if j =? length vs then done w' else throw w' InvalidArrayValue)).
Proof.
  intros w i vs T F old j. subst old j. unfold arr_set_values. split.
  - intros N. apply Nat.eqb_neq in N as ->. reflexivity.
  - intros E. rewrite (proj2 (Nat.eqb_eq _ _) E).
    exact (set_values_from_ok i vs F w [] _ T eq_refl E).
Qed.

(** GetValue and GetValues give the items, with their kind. *)
Theorem C99_get : forall w i, typed w ->
  (forall k p, nth_error (avals (arrs w i)) k = Some p -> arr_get w i k = Ok (Any (ak (arrs w i)) p)) /\
  (forall k, length (avals (arrs w i)) <= k -> arr_get w i k = Throw InvalidArrayIndex) /\
  (forall n, arr_get_values w i n =
     if n =? length (avals (arrs w i)) then Ok (map (Any (ak (arrs w i))) (avals (arrs w i)))
     else Throw InvalidArraySize).
Proof.
  intros w i T. split; [|split].
  - intros k p. now apply get_ok.
  - intros k L. unfold arr_get. now rewrite (proj2 (nth_error_None _ _) L).
  - intros n. destruct (n =? length (avals (arrs w i))) eqn:E.
    + apply Nat.eqb_eq in E as ->. now apply get_values_ok.
    + unfold arr_get_values. now rewrite E.
Qed.

(** What SetValues accepts, GetValues gives back: the very values when there is room for
    the strings among them. *)
Theorem C99_round_trip : forall w i vs w', typed w -> Forall any_ok vs ->
  arr_set_values w i vs = done w' ->
  arr_get_values w' i (length vs) = Ok (map (fun a => Any (atype a) (item_of (ac (arrs w i)) a)) vs) /\
  (Forall (fun a => value_of (ac (arrs w i)) (aval a)) vs -> arr_get_values w' i (length vs) = Ok vs).
Proof.
  intros w i vs w' T F H. destruct (C99_set_values w i vs T F) as [N S].
  destruct (Nat.eq_dec (length vs) (length (avals (arrs w i)))) as [E|E].
  2:{ rewrite (N E) in H. discriminate H. }
  destruct (S E) as (w1 & O & V & R). rewrite H in R.
  destruct (leading (ak (arrs w i)) vs =? length vs) eqn:J; [|discriminate R]. injection R as <-.
  apply Nat.eqb_eq in J. rewrite J in V. rewrite firstn_all in V. rewrite E in V at 1. rewrite skipn_all, app_nil_r in V.
  assert (T' : typed w').
  { unfold arr_set_values in H. rewrite (proj2 (Nat.eqb_eq _ _) E) in H. eapply set_values_good; eassumption. }
  assert (G : arr_get_values w' i (length vs) = Ok (map (fun a => Any (atype a) (item_of (ac (arrs w i)) a)) vs)).
  { pose proof (get_values_ok w' i T') as G. rewrite V, map_length in G. rewrite G. f_equal. rewrite map_map.
    destruct O as (_ & _ & _ & O). rewrite O. cbn [ak with_vals].
    apply map_ext_in. intros a I. pose proof (leading_full _ _ J) as L. rewrite Forall_forall in L. now rewrite (L a I). }
  split; [exact G|]. intros FV. rewrite G. f_equal. rewrite <- (map_id vs) at 2. apply map_ext_in. intros a I.
  pose proof (leading_full _ _ J) as L. rewrite Forall_forall in L, FV.
  rewrite (item_itself _ (ak (arrs w i)) a (proj1 (proj2 T i)) (FV a I) (L a I)). now destruct a.
Qed.

(** The arrays made by PublishArray with a count convert every value: SetValues stops at the
    first value that cannot be converted, what was written before it staying written, and
    accepts all values of the kind of the items. *)
Theorem C99_anonymous : forall w i vs, typed w -> Forall any_ok vs -> plain (ac (arrs w i)) ->
  let c := ac (arrs w i) in
  let old := avals (arrs w i) in
  (length vs <> length old -> anon_set_values w i vs = throw w InvalidArraySize) /\
  (length vs = length old ->
     exists w' ps, only_items w w' i /\ avals (arrs w' i) = ps ++ skipn (length ps) old /\
       Forall2 (fun a p => from_any c a = Ok p /\ value_of c p) (firstn (length ps) vs) ps /\
       ((length ps = length vs /\ anon_set_values w i vs = done w') \/
        (exists a e, nth_error vs (length ps) = Some a /\ from_any c a = Throw e /\
           anon_set_values w i vs = throw w' BadAny) \/
        (anon_set_values w i vs = (w', UB) /\ (c = CF32 \/ c = CF64)))) /\
  (length vs = length old -> Forall (fun a => atype a = ak (arrs w i)) vs ->
     exists w', only_items w w' i /\ avals (arrs w' i) = map (item_of c) vs /\ anon_set_values w i vs = done w').
Proof.
  intros w i vs T F P c old. subst c old. unfold anon_set_values. split; [|split].
  - intros N. apply Nat.eqb_neq in N as ->. reflexivity.
  - intros E. rewrite (proj2 (Nat.eqb_eq _ _) E).
    destruct (anon_from_ok i vs w [] _ P eq_refl E) as (w' & ps & O & A & V & R).
    exists w', ps. split; [exact O|]. split; [exact V|]. split.
    { apply converted_values; [now apply forall_firstn|exact A]. }
    destruct R as [R|[R|(a & N & U & R)]]; [left; exact R|right; left; exact R|right; right].
    split; [exact R|]. eapply from_any_defined; [|exact U]. rewrite Forall_forall in F. apply F. eapply nth_error_In, N.
  - intros E K. rewrite (proj2 (Nat.eqb_eq _ _) E).
    destruct (anon_from_ok i vs w [] _ P eq_refl E) as (w' & ps & O & A & V & R).
    assert (Q : forall a, In a vs -> from_any (ac (arrs w i)) a = Ok (item_of (ac (arrs w i)) a)).
    { intros a I. rewrite Forall_forall in F, K. refine (from_any_same _ (ak (arrs w i)) a _ (F a I) (K a I)). apply T. }
    destruct R as [[R1 R2]|[(a & e & N & U & R)|(a & N & U & R)]].
    2,3: rewrite (Q a (nth_error_In _ _ N)) in U; discriminate U.
    exists w'. split; [exact O|]. split; [|exact R2]. rewrite V. rewrite R1 at 1. rewrite E, skipn_all, app_nil_r. cbn [app].
    rewrite R1, firstn_all in A. clear - A Q. induction A; [reflexivity|]. cbn. f_equal.
    + rewrite Q in H by now left. now injection H.
    + apply IHA. intros a I. apply Q. now right.
Qed.

(** Whatever is called, and in whatever order, every field and every item stays a value of
    its type, and no array changes its size. *)
Theorem C99_typed : forall n w os w', typed w -> Forall (well_called w) os -> frun n w os = Some w' ->
  typed w' /\
  (forall i, lc (leafs w' i) = lc (leafs w i) /\ lk (leafs w' i) = lk (leafs w i)) /\
  (forall i, ac (arrs w' i) = ac (arrs w i) /\ ak (arrs w' i) = ak (arrs w i) /\
             length (avals (arrs w' i)) = length (avals (arrs w i))).
Proof.
  intros n w os w' T F H. destruct (frun_good n os w w' T F H) as [[A B] T']. auto.
Qed.

(** Array 0: three Int32; array 1: two String8 with room for two characters, published;
    array 2 and the others: Float32, published. *)
Definition demo : world :=
  World (fun _ => Leaf (CInt TI32) KI32 (PInt 5) false false true [] false None true true)
        (fun i => match i with
           | 0 => SArr (CInt TI32) KI32 [PInt 1; PInt 2; PInt 3] true [] false None true true
           | 1 => SArr (CStr 2) KString8 [PStr (Some []); PStr (Some [])] true [] true None true true
           | _ => SArr CF32 KF32 [PFloat (SpecFloat.S754_zero false)] true [] true None true true end)
        (fun _ => []).
Lemma demo_typed : typed demo.
Proof.
  split.
  - intros i. cbn. split; [reflexivity|]. unfold of_type; cbn. now split.
  - intros [|[|i]]; cbn; (split; [reflexivity|]); repeat constructor; unfold of_type; cbn; try lia; try discriminate.
Qed.
Definition i32 (z : Z) : any := Any KI32 (PInt z).
Lemma i32_ok z : of_type TI32 z -> any_ok (i32 z).
Proof. intros H. now exists z. Qed.

Example C99_set_item_example :
  (exists w', arr_set_any demo 0 1 (i32 7) = done w' /\ avals (arrs w' 0) = [PInt 1; PInt 7; PInt 3]) /\
  arr_set_any demo 0 3 (i32 7) = throw demo InvalidArrayIndex /\
  arr_set_any demo 0 1 (Any KI16 (PInt 7)) = throw demo InvalidFieldValue.
Proof. split; [eexists; split; reflexivity|]. split; reflexivity. Qed.

(** The second value is of another kind: the first item was replaced nevertheless. *)
Example C99_set_values_example :
  Forall any_ok [i32 7; Any KI16 (PInt 8); i32 9] /\
  exists w', arr_set_values demo 0 [i32 7; Any KI16 (PInt 8); i32 9] = throw w' InvalidArrayValue /\
    avals (arrs w' 0) = [PInt 7; PInt 2; PInt 3].
Proof.
  split; [repeat constructor; eexists; (split; [reflexivity|]); unfold of_type; now cbn|].
  eexists. split; reflexivity.
Qed.

Example C99_get_example :
  arr_get demo 0 1 = Ok (i32 2) /\ arr_get demo 0 3 = Throw InvalidArrayIndex /\
  arr_get_values demo 0 3 = Ok [i32 1; i32 2; i32 3] /\ arr_get_values demo 0 2 = Throw InvalidArraySize.
Proof. repeat split. Qed.

Definition str (l : list Z) : any := Any KString8 (PStr (Some l)).
Example C99_round_trip_example :
  (exists w', arr_set_values demo 0 [i32 7; i32 8; i32 9] = done w' /\ arr_get_values w' 0 3 = Ok [i32 7; i32 8; i32 9]) /\
  (exists w', arr_set_values demo 1 [str [65%Z; 66%Z; 67%Z]; str [68%Z]] = done w' /\
     arr_get_values w' 1 2 = Ok [str [65%Z; 66%Z]; str [68%Z]]).
Proof. split; eexists; split; reflexivity. Qed.

(** Array 0 is used as if it were anonymous:
    the Int64 value 2^40 is refused after the first item was converted and written. *)
Example C99_anonymous_example :
  plain (ac (arrs demo 0)) /\
  Forall any_ok [Any KI16 (PInt 7); Any KI64 (PInt (2 ^ 40)); i32 9] /\
  (exists w', anon_set_values demo 0 [Any KI16 (PInt 7); Any KI64 (PInt (2 ^ 40)); i32 9] = throw w' BadAny /\
     avals (arrs w' 0) = [PInt 7; PInt 2; PInt 3]) /\
  (exists w', anon_set_values demo 0 [Any KI16 (PInt 7); Any KI64 (PInt 8); i32 9] = done w' /\
     avals (arrs w' 0) = [PInt 7; PInt 8; PInt 9]).
Proof.
  split; [intros n; discriminate|].
  split; [repeat constructor; eexists; (split; [reflexivity|]); unfold of_type; now cbn|].
  split; eexists; split; reflexivity.
Qed.

Example C99_typed_example :
  let os := [WArrSetValues 0 [i32 7; Any KI16 (PInt 8); i32 9]; WArrAssign 0 2 (PInt 4); WArrSet 1 0 (str [65%Z; 66%Z; 67%Z]); WSetAny 3 (i32 8)] in
  Forall (well_called demo) os /\
  exists w', frun 5 demo os = Some w' /\ avals (arrs w' 0) = [PInt 7; PInt 2; PInt 4] /\
    avals (arrs w' 1) = [PStr (Some [65%Z; 66%Z]); PStr (Some [])] /\ lval (leafs w' 3) = PInt 8.
Proof.
  split.
  - repeat constructor; cbn; try (eexists; try (split; [reflexivity|])); unfold of_type; cbn; try reflexivity; try lia; now split.
  - eexists. split; [reflexivity|]. repeat split.
Qed.

Print Assumptions C99_set_item.
Print Assumptions C99_set_values.
Print Assumptions C99_round_trip.
Print Assumptions C99_typed.
