(** Property C107: references from Python. *)
From Coq Require Import String ZArith List Bool Lia.
From Verif Require Import Base Text UuidModel EventModel CollModel CollSpec CollProofs PyModel RefPyModel RefPySpec RefPyProofs.
Import ListNotations.
Local Open Scope Z_scope.

(** A component i is called "a", "b", ... by its tens. *)
Definition called_ (c : Z) : list Z := [97 + c / 10].
Definition kind_ (c : Z) : bool := negb (c =? 99).

(** Any script on a reference to which no component is added twice: after every statement
    the reference is the list that a Python list would be, [+=] and [-=] within the bounds,
    [del] by index (not negative) and by name; every refused statement changes nothing and
    says why. *)
Theorem C107_scripts_partial : forall nm typ lo up l ss, in_i64 lo = true -> in_i64 up = true ->
  typed typ l -> countable l ss -> NoDup (l ++ adds ss) ->
  all_do nm typ lo up l ss (fst (ref_script nm typ lo up l ss)) (snd (ref_script nm typ lo up l ss)).
Proof. intros. now apply script_does. Qed.

Example C107_scripts_example :
  let ss := [RAdd 10; RAdd 20; RAdd 21; RAdd 99; RAdd 30; RAdd 40; RDelAt 3; RDelName (codes "c"); RDelAt (-1); RSub 20; RDelAt 0; RDelName (codes "z")] in
  NoDup (adds ss) /\
  ref_script called_ kind_ 1 4 [] ss =
    ([21], [RDone; RDone; RDone; RSmp FInvalidObjectType; RDone; RSmp FReferenceFull; RDone; RDone; RIndexError; RSmp FNotReferenced; RDone; RKeyError]).
Proof. cbv zeta. split; [|reflexivity]. cbn. repeat (constructor; [cbn; intuition discriminate|]). constructor. Qed.

(** Without that condition, for every statement but [del r[i]]. *)
Theorem C107_statements : forall nm typ lo up l s, in_i64 lo = true -> in_i64 up = true ->
  typed typ l -> Z.of_nat (length l) < 2 ^ 63 -> (forall i, s <> RDelAt i) ->
  does nm typ lo up l s (fst (ref_exec nm typ lo up l s)) (snd (ref_exec nm typ lo up l s)).
Proof. intros nm typ lo up l s I J T L N. apply exec_does; auto. intros a c b E. now destruct (N _ E). Qed.

(** [del r[i]] of a component that is in the reference several times: the first occurrence
    goes, whatever the index. *)
Theorem C107_delete_at : forall nm typ lo up a c b, in_i64 lo = true -> in_i64 up = true ->
  typed typ (a ++ c :: b) -> Z.of_nat (length (a ++ c :: b)) < 2 ^ 63 -> spare lo (a ++ c :: b) ->
  exists a' b', a ++ c :: b = a' ++ c :: b' /\ ~ In c a' /\
    ref_exec nm typ lo up (a ++ c :: b) (RDelAt (Z.of_nat (length a))) = (a' ++ b', RDone).
Proof.
  intros nm typ lo up a c b I J T L Sp. destruct (without_split c (a ++ c :: b) (in_mid c a b)) as (a' & b' & E & W & N).
  exists a', b'. split; [exact E|]. split; [exact N|]. pose proof (len_mid c a b) as M. cbn [ref_exec].
  rewrite (proj2 (i64_range _)) by lia. cbn [negb]. rewrite PyProofs.py_index_nonneg by lia. rewrite (proj2 (Z.ltb_lt _ _) M).
  unfold coll_at_index. rewrite Nat2Z.id, (proj2 (Nat.ltb_lt _ _)) by lia.
  rewrite nth_error_app2, Nat.sub_diag by lia. cbn [nth_error].
  destruct (remove_there typ lo up I (a ++ c :: b) c T (in_mid c a b) L) as [(_ & ->)|(X & _)]; [now rewrite W|contradiction].
Qed.

(** So it is not the element at the index that goes, nor does a negative index count from
    the end, as with lists of Python. *)
Theorem C107_delete_refuted : exists nm typ lo up ss a c b, let l := fst (ref_script nm typ lo up [] ss) in
  l = a ++ c :: b /\ spare lo l /\
  fst (ref_exec nm typ lo up l (RDelAt (Z.of_nat (length a)))) <> a ++ b /\
  ref_exec nm typ lo up l (RDelAt (-1)) = (l, RIndexError).
Proof.
  exists called_, kind_, 0, (-1), [RAdd 10; RAdd 20; RAdd 10], [10; 20], 10, []. cbv zeta.
  split; [reflexivity|]. split; [split; vm_compute; congruence|]. split; [vm_compute; discriminate|reflexivity].
Qed.

(** The specification leaves no choice: what a statement does and says is determined. *)
Theorem C107_determined : forall nm typ lo up l s l1 r1 l2 r2, Z.of_nat (length l) < 2 ^ 63 ->
  does nm typ lo up l s l1 r1 -> does nm typ lo up l s l2 r2 -> l1 = l2 /\ r1 = r2.
Proof. exact does_one. Qed.

(** Between the bounds, if they are sensible: a reference never has more than Upper
    components, and a statement never takes it below Lower. *)
Theorem C107_bounds : forall nm typ lo up l s, in_i64 lo = true -> in_i64 up = true -> typed typ l -> Z.of_nat (length l) < 2 ^ 63 ->
  let l' := fst (ref_exec nm typ lo up l s) in
  (0 <= up -> Z.of_nat (length l) <= up -> Z.of_nat (length l') <= up) /\
  (Z.of_nat (length l') < Z.of_nat (length l) -> 0 <= lo <= Z.of_nat (length l')) /\ typed typ l'.
Proof.
  intros nm typ lo up l s I J T L l'.
  assert (D : does nm typ lo up l s l' (snd (ref_exec nm typ lo up l s)) \/
    exists c, l' = without c l /\ In c l /\ spare lo l).
  { destruct s as [c|c|i|n]; try (left; apply C107_statements; auto; discriminate).
    unfold l'. destruct (in_i64 i) eqn:Ei.
    2:{ left. cbn [ref_exec]. rewrite Ei. apply d_at_type. rewrite <- i64_range. congruence. }
    apply i64_range in Ei as R. destruct (Z_lt_le_dec i 0) as [Ng|Ps]; [left; cbn [ref_exec]; rewrite Ei; cbn [negb]; rewrite PyProofs.py_index_neg by lia; apply d_at_out; auto|].
    destruct (Z_lt_le_dec i (Z.of_nat (length l))) as [Lt|Ge].
    2:{ left. cbn [ref_exec]. rewrite Ei. cbn [negb]. rewrite PyProofs.py_index_nonneg by lia. rewrite (proj2 (Z.ltb_ge _ _)) by lia. apply d_at_out; auto. }
    cbn [ref_exec]. rewrite Ei. cbn [negb]. rewrite PyProofs.py_index_nonneg by lia. rewrite (proj2 (Z.ltb_lt _ _)) by lia.
    unfold coll_at_index. rewrite (proj2 (Nat.ltb_lt _ _)) by lia.
    destruct (nth_error l (Z.to_nat i)) as [c|] eqn:E; [|apply nth_error_None in E; lia]. apply nth_error_In in E as Ic.
    destruct (remove_there typ lo up I l c T Ic L) as [(Sp & ->)|(Sp & ->)]; [right; now exists c|left; cbn [fst snd]; apply d_at_lower; [lia|exact Sp]]. }
  clearbody l'. destruct D as [D|(c & -> & Ic & Sp)].
  - split; [|split; [|now apply (does_typed nm typ lo up l s l' _ D)]].
    + intros U B. inversion D; subst; rewrite ?app_length in *; cbn [length] in *; try lia. match goal with H : room up _ |- _ => unfold room in H; specialize (H U); lia end.
    + intros X. inversion D; subst; rewrite ?app_length in *; cbn [length] in *; try lia;
        match goal with H : spare lo _ |- _ => unfold spare in H; rewrite app_length in H; cbn [length] in H end; lia.
  - pose proof (without_length c l Ic). unfold spare in Sp. split; [lia|]. split; [lia|]. intros x X. apply T. now apply (without_In x c).
Qed.
Print Assumptions C107_scripts_partial.
Print Assumptions C107_bounds.
