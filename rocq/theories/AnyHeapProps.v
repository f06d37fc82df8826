(** C62: the strings held by AnySimple objects are owned by exactly one object,
    freed exactly once, and copies are independent. *)
From Coq Require Import ZArith List Bool Arith Lia.
From Verif Require Import Base Text AnyHeapModel AnyHeapSpec AnyHeapProofs.
Import ListNotations.
Local Open Scope nat_scope.

Definition h_reachable (s : hs) : Prop :=
  exists l, Forall fine l /\ h_run h_init l = Some s.

Lemma h_reachable_inv : forall s, h_reachable s -> HInv s.
Proof.
  intros s (l & F & E). destruct (h_run_inv l h_init hinv_init F) as (s' & E' & I).
  congruence.
Qed.

(** No use after free and no double free, and one owner for each string, in
    every history. *)
Theorem C62_owned_once_partial : forall l,
  Forall fine l -> exists s, h_run h_init l = Some s /\ owned_once s.
Proof.
  intros l F. destruct (h_run_inv l h_init hinv_init F) as (s & E & I).
  exists s. split; [exact E|now apply hinv_owned].
Qed.

(** When all objects are gone and the caller has deleted what MoveString gave
    it, nothing is left. *)
Theorem C62_no_leak_partial : forall s,
  h_reachable s -> (forall i, objs s i = None) -> (forall p, held s p = false) ->
  forall p, heap s p = None.
Proof.
  intros s R Hi Hh p. apply h_reachable_inv in R.
  destruct (heap s p) eqn:E; [|reflexivity].
  destruct (hi_own s R p) as [X|[i X]]; [congruence| |].
  - rewrite Hh in X. discriminate.
  - rewrite Hi in X. discriminate.
Qed.

(** A copy has the value of the original ... *)
Theorem C62_copy_partial : forall s i j,
  h_reachable s -> objs s j <> None ->
  (objs s i <> None ->
     exists s', h_step s (HCopy i j false) = (s', Ok tt) /\
                value_of s' i = value_of s j /\ value_of s' j = value_of s j) /\
  (objs s i = None ->
     exists s', h_step s (HCopyNew i j false) = (s', Ok tt) /\
                value_of s' i = value_of s j /\ value_of s' j = value_of s j).
Proof.
  intros s i j R Hj. apply h_reachable_inv in R.
  destruct (objs s j) as [oj|] eqn:Ej; [|congruence]. split; intros Hi; simpl.
  - destruct (objs s i) as [oi|] eqn:Ei; [|congruence]. rewrite Ej.
    destruct (Nat.eqb_spec i j) as [->|N]; [exists s; auto|].
    destruct (copy_assign_inv s i j false _ _ R Ei Ej N)
      as (s1 & r & E & _ & Y & T & _ & V & _).
    rewrite E. rewrite T in * by reflexivity. exists s1.
    split; [reflexivity|]. split; [now apply Y|]. apply V. auto.
  - rewrite Hi, Ej. assert (N : i <> j) by congruence.
    set (s0 := set_obj i (Some (OVal 0)) s).
    assert (I0 : HInv s0) by (apply set_plain_inv; auto; congruence).
    assert (Ei0 : objs s0 i = Some (OVal 0)) by apply upd_same.
    assert (Ej0 : objs s0 j = Some oj) by (simpl; rewrite upd_other; auto).
    destruct (copy_assign_inv s0 i j false _ _ I0 Ei0 Ej0 N)
      as (s1 & r & E & _ & Y & T & _ & V & _).
    rewrite E. rewrite T in * by reflexivity. exists s1. split; [reflexivity|].
    assert (V0 : value_of s0 j = value_of s j) by (apply set_obj_value; auto).
    split; [now rewrite (proj2 (Y eq_refl))|]. rewrite V by auto. exact V0.
Qed.

(** ... and nothing done to another object changes it afterwards. *)
Theorem C62_independent_partial : forall s o s' r k,
  h_reachable s -> fine o -> h_step s o = (s', r) -> ~ targets o k ->
  value_of s' k = value_of s k.
Proof.
  intros s o s' r k R F E T. apply h_reachable_inv in R.
  destruct (h_step_inv s o R F) as (s1 & r1 & E1 & _ & _ & V).
  rewrite E in E1. injection E1 as <- <-. now apply V.
Qed.

(** A moved value arrives intact; the source is left empty, also when it is the
    target itself. *)
Theorem C62_move : forall s i j,
  h_reachable s -> objs s i <> None -> objs s j <> None ->
  exists s', h_step s (HMove i j) = (s', Ok tt) /\
    (i <> j -> value_of s' i = value_of s j) /\ value_of s' j = Some (VBits 0).
Proof.
  intros s i j R Hi Hj. apply h_reachable_inv in R. simpl.
  destruct (objs s i) as [oi|] eqn:Ei; [|congruence].
  destruct (objs s j) as [oj|] eqn:Ej; [|congruence].
  destruct (release_inv s i oi R Ei) as (s1 & E & I1 & O & V & _).
  unfold move_assign. rewrite E. eexists. split; [reflexivity|]. split.
  - intros N. rewrite steal_value by exact N.
    apply Nat.eqb_neq in N as N'. rewrite N', Nat.eqb_refl. apply V. auto.
  - unfold value_of. simpl. now rewrite upd_same.
Qed.

(** SetValue copies the string it is given. *)
Theorem C62_set_string_partial : forall s i c,
  h_reachable s -> objs s i <> None ->
  exists s', h_step s (HSetStr i (SExt c) false) = (s', Ok tt) /\
             value_of s' i = Some (VStr (Some c)).
Proof.
  intros s i c R Hi. apply h_reachable_inv in R. simpl.
  destruct (objs s i) as [oi|] eqn:Ei; [|congruence].
  destruct (set_str_inv s i oi (Some (inr c)) false R Ei) as (s1 & r & E & _ & _ & V & T & _);
    [discriminate|].
  rewrite E. rewrite T in * by reflexivity. exists s1. split; [reflexivity|now apply V].
Qed.

Example C62_ex :
  let l := [HNew 0 None; HSetStr 0 (SExt (codes "abc")) false; HCopyNew 1 0 false;
            HSetStr 0 (SExt (codes "z")) false; HMoveString 0; HMove 0 1; HDestroy 1;
            HFree 1; HDestroy 0] in
  Forall fine l /\
  (exists s, h_run h_init (firstn 4 l) = Some s /\
     value_of s 0 = Some (VStr (Some (codes "z"))) /\
     value_of s 1 = Some (VStr (Some (codes "abc")))) /\
  (exists s, h_run h_init l = Some s /\ objs s 0 = None /\ objs s 1 = None).
Proof.
  simpl. split; [repeat constructor|]. split; eexists; split; reflexivity || (split; reflexivity).
Qed.

(** Setting an object to the string it already holds reads freed memory. *)
Theorem C62_own_string_refuted : exists l,
  (forall o, In o l -> fine o \/ o = HSetStr 0 (SOf 0) false) /\
  h_run h_init l = None.
Proof.
  exists [HNew 0 None; HSetStr 0 (SExt (codes "abc")) false; HSetStr 0 (SOf 0) false].
  split; [|reflexivity].
  intros o [<-|[<-|[<-|[]]]]; [left|left|right]; reflexivity || exact I.
Qed.

(** If there is no memory for a string being copied into an object that holds a
    number, the object is left with the number as its string: destroying it
    deletes a wild pointer. *)
Theorem C62_no_memory_refuted : exists l,
  (forall o, In o l -> fine o \/ o = HCopy 0 1 true) /\
  h_run h_init l = None.
Proof.
  exists [HNew 0 (Some 0%Z); HSetVal 0 5 true; HNew 1 None;
          HSetStr 1 (SExt (codes "abc")) false; HCopy 0 1 true; HDestroy 0].
  split; [|reflexivity].
  intros o [<-|[<-|[<-|[<-|[<-|[<-|[]]]]]]]; auto; left; exact I.
Qed.

Print Assumptions C62_owned_once_partial.
