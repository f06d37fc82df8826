(** C41: structured fields whose parts hand values on. *)
From Coq Require Import ZArith List Bool Lia Relations.
From Verif Require Import Base AnyModel AnySpec AnyProofs HelperModel HelperSpec HelperProofs
  FlowModel FlowSpec FlowProofs FlowTreeProofs FlowCopyProofs FlowPubProofs
  FlowLinksProofs FlowHandSpec FlowProps FlowHandProofs.
Import ListNotations.
Local Open Scope nat_scope.

(** An acceptable Connect between separate fields of any structure, with all parts of the
    source connectable, succeeds when the parts of the target hand the values on to fields
    that can hold them, without a loop; the values of the source have then arrived in the
    parts of the target and in everything they feed, forced fields excepted. *)
Theorem C41_hands_on_tree_partial : forall n w s t ids,
  acceptable w s t -> all_connectable w s -> separate s t -> kinds_agree w ->
  hands_on w s t ids -> length ids <= n ->
  exists w', connect n w s t = (w', Ok tt) /\ arrived w w' s t.
Proof. exact connect_hands_on. Qed.

(** Two Int32 fields of a structure; the first of the target feeds the field 4, the
    second is forced. *)
Example C41_hands_on_tree_example :
  let w := freeze (ex_world [ex_leaf 5 false true []; ex_leaf 7 false true []; ex_leaf 1 false true [4];
                             ex_leaf 2 true false []; ex_leaf 3 false false []] []) 3 in
  let s := TStr 10 true false true [TSimple 0; TSimple 1] in
  let t := TStr 20 false true false [TSimple 2; TSimple 3] in
  acceptable w s t /\ all_connectable w s /\ separate s t /\ kinds_agree w /\ hands_on w s t [2; 3; 4] /\
  exists w', connect 3 w s t = (w', Ok tt) /\
    lval (leafs w' 2) = PInt 5 /\ lval (leafs w' 4) = PInt 5 /\ lval (leafs w' 3) = PInt 2.
Proof.
  cbv zeta. set (w := freeze _ _).
  assert (Hp : forall x y, parts (TStr 10 true false true [TSimple 0; TSimple 1]) (TStr 20 false true false [TSimple 2; TSimple 3]) x y ->
    (x = TStr 10 true false true [TSimple 0; TSimple 1] /\ y = TStr 20 false true false [TSimple 2; TSimple 3]) \/
    (x = TSimple 0 /\ y = TSimple 2) \/ (x = TSimple 1 /\ y = TSimple 3)).
  { intros x y P. inversion P as [| |i0 df0 a0 b0 l0 j0 df1 a1 b1 l1 x1 y1 s1 t1 Hxy P1]; subst; [now left|].
    right. destruct Hxy as [E|[E|[]]]; injection E as <- <-; inversion P1; subst; auto. }
  assert (Hs : forall i j, parts (TStr 10 true false true [TSimple 0; TSimple 1]) (TStr 20 false true false [TSimple 2; TSimple 3]) (TSimple i) (TSimple j) ->
    (i = 0 /\ j = 2) \/ (i = 1 /\ j = 3)).
  { intros i j P. apply Hp in P as [[E _]|[[E F]|[E F]]]; [discriminate E| |]; injection E as ->; injection F as ->; auto. }
  assert (F : forall x y, feeds w x y -> x = 2 /\ y = 4).
  { intros x y (_ & _ & I). do 5 (destruct x as [|x]; [cbn in I; try contradiction; destruct I as [<-|[]]; auto|]). cbn in I. destruct x; contradiction. }
  assert (R2 : forall k, reaches w 2 k -> k = 2 \/ k = 4).
  { intros k H. inversion H as [|y z G H']; subst; [now left|]. apply F in G as [_ ->].
    inversion H' as [|y z G H2]; subst; [now right|]. apply F in G as [G _]. discriminate G. }
  assert (R3 : forall k, reaches w 3 k -> k = 3).
  { intros k H. inversion H as [|y z G H']; subst; [reflexivity|]. apply F in G as [G _]. discriminate G. }
  assert (L : forall x, loop_free w x).
  { intros x j m _ Cc. inversion Cc as [|? ? y z G C']; subst; [reflexivity|]. apply F in G as [-> ->].
    inversion C' as [|? ? y z G C2]; subst. apply F in G as [G _]. discriminate G. }
  assert (T : forall i k, i < 5 -> k < 5 -> takes (leafs w k) (lval (leafs w i))).
  { intros i k Hi Hk. do 5 (destruct i as [|i]; [do 5 (destruct k as [|k];
      [split; [reflexivity|split; [vm_compute; split; discriminate|intros H; discriminate H]]|]); lia|]). lia. }
  split; [|split; [|split; [|split; [|split]]]].
  - split; [reflexivity|]. split; [reflexivity|]. split; [discriminate|]. split.
    + apply are_equivalent_ok. reflexivity.
    + intros x y P K G. apply Hp in P as [[-> ->]|[[-> ->]|[-> ->]]]; exact G.
  - constructor. intros x [<-|[<-|[]]]; now constructor.
  - split; [|split].
    + apply (NoDup_nodup Nat.eq_dec [10; 0; 1]).
    + apply (NoDup_nodup Nat.eq_dec [20; 2; 3]).
    + intros i [<-|[<-|[<-|[]]]] [H|[H|[H|[]]]]; discriminate H.
  - intros x y I. do 5 (destruct x as [|x]; [cbn in I; try contradiction; destruct I as [<-|[]]; reflexivity|]). cbn in I. destruct x; contradiction.
  - split.
    + intros i j P. apply Hs in P as [[-> ->]|[-> ->]].
      * split; [apply T; lia|]. split; [apply L|]. intros k Hk. apply R2 in Hk as [-> | ->].
        -- split; [now left|]. split; [apply T; lia|]. intros i' j' P. apply Hs in P as [[-> ->]|[-> ->]]; (split; [discriminate|]); [reflexivity|].
           intros H. apply R3 in H. discriminate H.
        -- split; [right; right; now left|]. split; [apply T; lia|]. intros i' j' P. apply Hs in P as [[-> ->]|[-> ->]]; (split; [discriminate|]); [reflexivity|].
           intros H. apply R3 in H. discriminate H.
      * split; [apply T; lia|]. split; [apply L|]. intros k Hk. apply R3 in Hk as ->.
        split; [right; now left|]. split; [apply T; lia|]. intros i' j' P. apply Hs in P as [[-> ->]|[-> ->]]; (split; [discriminate|]); [|reflexivity].
        intros H. apply R2 in H as [H|H]; discriminate H.
    + intros i j P. apply Hp in P as [[E _]|[[E _]|[E _]]]; discriminate E.
  - eexists. repeat split.
Qed.

Print Assumptions C41_hands_on_tree_partial.
