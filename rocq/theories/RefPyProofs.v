From Coq Require Import ZArith List Bool Lia.
From Verif Require Import Base UuidModel EventModel CollModel CollSpec CollProofs PyModel PyProofs RefPyModel RefPySpec.
Import ListNotations.
Local Open Scope Z_scope.

Lemma without_first c a b : ~ In c a -> without c (a ++ c :: b) = a ++ b.
Proof.
  induction a as [|x a IH]; cbn; intros N; [now rewrite Z.eqb_refl|].
  destruct (Z.eqb_spec x c) as [->|D]; [destruct N; now left|]. rewrite IH; tauto.
Qed.

Lemma i64_range z : in_i64 z = true <-> - 2 ^ 63 <= z < 2 ^ 63.
Proof. unfold in_i64, i64_min, i64_max. rewrite andb_true_iff, !Z.leb_le. lia. Qed.

Lemma spare_ok lo l : in_i64 lo = true -> Z.of_nat (length l) < 2 ^ 63 -> ((Z.of_nat (length l) <=? to_size lo) = false <-> spare lo l).
Proof.
  intros I L. rewrite Z.leb_gt. unfold spare. destruct (Z_lt_le_dec lo 0) as [N|N].
  - rewrite to_size_neg by assumption. apply i64_range in I. lia.
  - rewrite to_size_nonneg by assumption. lia.
Qed.
Lemma room_ok up l : in_i64 up = true -> Z.of_nat (length l) < 2 ^ 63 -> ((to_size up <=? Z.of_nat (length l)) = false <-> room up l).
Proof.
  intros I L. rewrite Z.leb_gt. unfold room. destruct (Z_lt_le_dec up 0) as [N|N].
  - rewrite to_size_neg by assumption. apply i64_range in I. lia.
  - rewrite to_size_nonneg by assumption. lia.
Qed.

Section S.
Variables (nm : Z -> list Z) (typ : Z -> bool) (lo up : Z).
Hypothesis Ilo : in_i64 lo = true.
Hypothesis Iup : in_i64 up = true.

Lemma remove_there l c : typed typ l -> In c l -> Z.of_nat (length l) < 2 ^ 63 ->
  (spare lo l /\ ref_call typ lo up (FRemove c) l = (without c l, RDone)) \/
  (~ spare lo l /\ ref_call typ lo up (FRemove c) l = (l, RSmp FCannotRemove)).
Proof.
  intros T I L. unfold ref_call. cbn [ref_step]. rewrite (T c I), (proj2 (holds_In c l) I). cbn [andb negb].
  destruct (Z.of_nat (length l) <=? to_size lo) eqn:E.
  - right. split; [|reflexivity]. intros X. apply (spare_ok lo l Ilo L) in X. congruence.
  - left. split; [now apply (spare_ok lo l Ilo L)|]. now rewrite erase_without.
Qed.

(** The statement does what the specification says, for every statement but [del r[i]]
    of a component that also occurs before [i]. *)
Lemma exec_does l s : typed typ l -> Z.of_nat (length l) < 2 ^ 63 ->
  (forall a c b, s = RDelAt (Z.of_nat (length a)) -> l = a ++ c :: b -> ~ In c a) ->
  does nm typ lo up l s (fst (ref_exec nm typ lo up l s)) (snd (ref_exec nm typ lo up l s)).
Proof.
  intros T L D. destruct s as [c|c|i|n]; cbn [ref_exec].
  - unfold ref_call. cbn [ref_step]. destruct (to_size up <=? Z.of_nat (length l)) eqn:E.
    + cbn. apply d_full. intros X. apply (room_ok up l Iup L) in X. congruence.
    + apply (room_ok up l Iup L) in E. destruct (typ c) eqn:Q; cbn; now constructor.
  - destruct (in_dec Z.eq_dec c l) as [I|N].
    + destruct (remove_there l c T I L) as [(Sp & ->)|(Sp & ->)]; cbn [fst snd].
      * destruct (without_split c l I) as (a & b & El & -> & Na). rewrite El in *. now apply d_sub.
      * now apply d_sub_lower.
    + unfold ref_call. cbn [ref_step]. destruct (holds c l) eqn:H; [now apply holds_In in H|].
      rewrite andb_false_r. cbn. now apply d_sub_not.
  - destruct (in_i64 i) eqn:I; cbn [negb].
    2:{ apply d_at_type. rewrite <- i64_range. congruence. }
    apply i64_range in I as R. destruct (Z_lt_le_dec i 0) as [Ng|Ps].
    + rewrite py_index_neg by lia. apply d_at_out; [exact R|now left].
    + rewrite py_index_nonneg by lia. destruct (Z.ltb_spec i (Z.of_nat (length l))) as [Lt|Ge].
      2:{ apply d_at_out; [exact R|now right]. }
      unfold coll_at_index. assert (X : (Z.to_nat i < length l)%nat) by lia. apply Nat.ltb_lt in X as X'. rewrite X'.
      destruct (nth_error l (Z.to_nat i)) as [c|] eqn:E; [|apply nth_error_None in E; lia].
      destruct (nth_error_split l (Z.to_nat i) E) as (a & b & El & La).
      assert (I' : In c l) by (rewrite El; apply in_or_app; right; now left).
      assert (Ei : i = Z.of_nat (length a)) by lia.
      destruct (remove_there l c T I' L) as [(Sp & ->)|(Sp & ->)]; cbn [fst snd].
      * assert (Na : ~ In c a) by (apply (D a c b); [now rewrite Ei|exact El]).
        rewrite El in *. rewrite (without_first c a b Na), Ei. now apply d_at.
      * apply d_at_lower; [lia|exact Sp].
  - cbn [coll_at_name]. pose proof (find_name_first nm n l) as F. destruct (find_name nm n l) as [c|]; cbn [first_named] in F.
    2:{ now apply d_name_not. }
    destruct F as (a & b & El & En & Na). assert (I' : In c l) by (rewrite El; apply in_or_app; right; now left).
    subst n. destruct (remove_there l c T I' L) as [(Sp & ->)|(Sp & ->)]; cbn [fst snd].
    + rewrite El in *. rewrite without_first by (intros X; now apply (Na c X)). now apply d_name.
    + now apply d_name_lower.
Qed.

(** The specification leaves no choice. *)
Lemma split_by (P : Z -> Prop) c d a b a' b' : a ++ c :: b = a' ++ d :: b' -> P c -> P d ->
  (forall x, In x a -> ~ P x) -> (forall x, In x a' -> ~ P x) -> a ++ b = a' ++ b'.
Proof.
  revert a'. induction a as [|x a IH]; intros [|y a'] E Pc Pd N N'; cbn in *; injection E; intros; subst.
  - reflexivity.
  - destruct (N' y); auto.
  - destruct (N d); auto.
  - f_equal. apply IH; auto.
Qed.
Lemma split_at (c d : Z) a b a' b' : a ++ c :: b = a' ++ d :: b' -> length a = length a' -> a ++ b = a' ++ b'.
Proof.
  revert a'. induction a as [|x a IH]; intros [|y a'] E L; cbn in *; try discriminate; injection E; intros; subst; [reflexivity|].
  f_equal. apply IH; auto.
Qed.
Lemma in_mid (c : Z) a b : In c (a ++ c :: b).
Proof. apply in_or_app. right. now left. Qed.
Lemma len_mid (c : Z) a b : Z.of_nat (length a) < Z.of_nat (length (a ++ c :: b)).
Proof. rewrite app_length. cbn. lia. Qed.

Lemma does_one l s l1 r1 l2 r2 : Z.of_nat (length l) < 2 ^ 63 ->
  does nm typ lo up l s l1 r1 -> does nm typ lo up l s l2 r2 -> l1 = l2 /\ r1 = r2.
Proof.
  intros L A B.
  inversion A; subst; inversion B; subst; split; try reflexivity; try contradiction; try congruence;
    try (exfalso; match goal with H : ~ In ?c (?a ++ ?c :: ?b) |- _ => apply H, in_mid end);
    try (exfalso; match goal with H : _ ++ _ :: _ = _ |- _ => idtac end;
         match goal with H : ?x = ?y, N : ~ spare lo ?y, S : spare lo ?x |- _ => rewrite H in S; contradiction end).
  all: try (exfalso; rewrite ?app_length in *; cbn [length] in *; lia).
  all: try (exfalso; match goal with H : forall x, In x (?a ++ ?c :: ?b) -> nm x <> _ |- _ => apply (H c (in_mid c a b)); congruence end).
  all: try (exfalso; match goal with H : forall x, In x ?l -> nm x <> _, I : In ?c ?l |- _ => apply (H c I); congruence end).
  - symmetry. match goal with H : _ = _ |- _ => apply (split_by (eq c) c c _ _ _ _ H) end; auto; intros x I <-; contradiction.
  - symmetry. match goal with H : _ ++ _ :: _ = _ |- _ => apply (split_at _ _ _ _ _ _ H) end. lia.
  - symmetry. match goal with H : _ ++ ?d :: _ = _, E : nm ?d = nm c |- _ => apply (split_by (fun x => nm x = nm c) _ _ _ _ _ _ H); auto; intros x I X end.
    match goal with H : forall x, In x ?l -> nm x <> nm ?d, E : nm ?d = nm c, I : In x ?l |- _ => apply (H x I); congruence end.
Qed.


Lemma does_typed l s l1 r : does nm typ lo up l s l1 r -> typed typ l -> typed typ l1.
Proof.
  intros D T. inversion D; subst; try exact T; intros x I; try (apply T; rewrite in_app_iff in *; cbn; tauto).
  apply in_app_or in I. destruct I as [I|[<-|[]]]; auto.
Qed.
Lemma does_length l s l1 r : does nm typ lo up l s l1 r -> (length l1 <= S (length l))%nat.
Proof. intros D. inversion D; subst; rewrite ?app_length; cbn; lia. Qed.
Lemma does_nodup l s l1 r : does nm typ lo up l s l1 r -> NoDup l -> (forall c, s = RAdd c -> ~ In c l) -> NoDup l1.
Proof.
  intros D N A. inversion D; subst; try exact N; try (now apply NoDup_remove in N).
  apply (NoDup_Add (a := c) (l := l)); [|split; [exact N|now apply A]].
  replace l with (l ++ []) at 1 by apply app_nil_r. apply Add_app.
Qed.
Lemma does_in l s l1 r x : does nm typ lo up l s l1 r -> In x l1 -> In x l \/ s = RAdd x.
Proof.
  intros D I. inversion D; subst; try (now left); try (left; rewrite in_app_iff in *; cbn; tauto).
  apply in_app_or in I. destruct I as [I|[<-|[]]]; [now left|now right].
Qed.

Lemma script_does ss : forall l, typed typ l -> countable l ss -> NoDup (l ++ adds ss) ->
  all_do nm typ lo up l ss (fst (ref_script nm typ lo up l ss)) (snd (ref_script nm typ lo up l ss)).
Proof.
  induction ss as [|s ss IH]; intros l T C N; cbn [ref_script]; [constructor|].
  unfold countable in C. cbn [length] in C.
  assert (Nl : NoDup l).
  { clear -N. induction l as [|x l IH]; [constructor|]. cbn in N. inversion N; subst. constructor; [|auto]. intros I. apply H1. apply in_or_app. now left. }
  assert (D := exec_does l s T ltac:(lia)). destruct (ref_exec nm typ lo up l s) as [l1 r] eqn:E. cbn [fst snd] in D.
  destruct (ref_script nm typ lo up l1 ss) as [l2 rs] eqn:E2. cbn [fst snd].
  assert (D1 : does nm typ lo up l s l1 r).
  { apply D. intros a c b _ El I. rewrite El in Nl. apply NoDup_remove_2 in Nl. apply Nl. apply in_or_app. now left. }
  assert (A : forall c, s = RAdd c -> ~ In c l).
  { intros c -> I. cbn [adds flat_map List.app] in N. apply NoDup_remove_2 in N. apply N. apply in_or_app. now left. }
  apply a_cons with l1; [exact D1|].
  specialize (IH l1). rewrite E2 in IH. apply IH.
  - now apply (does_typed l s l1 r).
  - unfold countable. pose proof (does_length l s l1 r D1). lia.
  - assert (Nl1 := does_nodup l s l1 r D1 Nl A).
    assert (Ns : NoDup (adds ss)).
    { clear -N. induction l as [|x l IH]; cbn in N; [|inversion N; auto].
      destruct s; cbn in N; try exact N. now inversion N. }
    assert (Dj : forall x, In x l1 -> ~ In x (adds ss)).
    { intros x I J. destruct (does_in l s l1 r x D1 I) as [I'| ->].
      - clear -N I' J. assert (J' : In x (adds (s :: ss))) by (cbn; apply in_or_app; now right).
        induction l as [|y l IH]; [contradiction|]. cbn in N. inversion N; subst. destruct I' as [->|I'].
        + apply H1. apply in_or_app. now right.
        + auto.
      - clear -N J. cbn [adds flat_map List.app] in N. apply NoDup_remove_2 in N. apply N. apply in_or_app. now right. }
    clear -Nl1 Ns Dj. induction l1 as [|x l1 IH]; [exact Ns|]. cbn. inversion Nl1; subst. constructor.
    + intros I. apply in_app_or in I. destruct I as [I|I]; [contradiction|]. apply (Dj x); [now left|exact I].
    + apply IH; [assumption|]. intros y I. apply Dj. now right.
Qed.
End S.
