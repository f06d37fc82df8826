From Coq Require Import ZArith List Bool Arith Lia.
From Verif Require Import Base Text UuidModel UuidProofs LogKindModel.
Import ListNotations.
Local Open Scope nat_scope.

Lemma index_of_some : forall n l i k,
  index_of n l i = Some k -> exists j, k = i + j /\ nth_error l j = Some n.
Proof.
  intros n l. induction l as [|x l IH]; intros i k H; simpl in H; [discriminate|].
  destruct (list_eqb x n) eqn:E.
  - injection H as <-. apply list_eqb_eq in E. subst x. exists 0. split; [lia|reflexivity].
  - apply IH in H. destruct H as (j & -> & H). exists (S j). split; [lia|exact H].
Qed.

Lemma index_of_none : forall n l i, index_of n l i = None -> ~ In n l.
Proof.
  intros n l. induction l as [|x l IH]; intros i H; simpl in H; [now intros []|].
  destruct (list_eqb x n) eqn:E; [discriminate|]. intros [->|I]; [|now apply IH in H].
  assert (list_eqb n n = true) by now apply list_eqb_eq. congruence.
Qed.

Lemma nth_error_NoDup : forall (l : list name) i j n, NoDup l ->
  nth_error l i = Some n -> nth_error l j = Some n -> i = j.
Proof.
  intros l i j n N A B.
  apply (proj1 (NoDup_nth_error l) N); [|congruence].
  apply nth_error_Some. congruence.
Qed.

(** The answer to a query and the vector afterwards. *)
Lemma query_spec : forall l n, NoDup l ->
  exists ext, fst (query l n) = l ++ ext /\ NoDup (fst (query l n)) /\
    nth_error (fst (query l n)) (snd (query l n)) = Some n.
Proof.
  intros l n N. unfold query. destruct (index_of n l 0) as [k|] eqn:E.
  - apply index_of_some in E. destruct E as (j & -> & E). exists []. simpl.
    rewrite app_nil_r. auto.
  - apply index_of_none in E. exists [n]. cbn [fst snd]. split; [reflexivity|]. split.
    + apply NoDup_rev in N. rewrite <- (rev_involutive (l ++ [n])). apply NoDup_rev.
      rewrite rev_app_distr. simpl. constructor; [now rewrite <- in_rev|exact N].
    + rewrite nth_error_app2 by lia. now rewrite Nat.sub_diag.
Qed.

Lemma query_known : forall l n k, NoDup l -> nth_error l k = Some n -> query l n = (l, k).
Proof.
  intros l n k N H. unfold query. destruct (index_of n l 0) as [j|] eqn:E.
  - apply index_of_some in E. destruct E as (i & -> & E). simpl.
    now rewrite (nth_error_NoDup l i k n N E H).
  - apply index_of_none in E. destruct E. apply nth_error_In with k. exact H.
Qed.

Definition good (l : list name) : Prop := NoDup l /\ exists ext, l = predefined ++ ext.

Definition k_inv (s : kst) : Prop :=
  good (kinds s) /\ (forall l, saved s = Some l -> good l).

Definition not_failing (o : kop) : Prop := match o with KRestoreFails _ => False | _ => True end.
Definition no_restore (o : kop) : Prop :=
  match o with KRestore | KRestoreFails _ => False | _ => True end.

Lemma good_predefined : good predefined.
Proof.
  split; [|exists []; reflexivity].
  repeat constructor; simpl; intuition discriminate.
Qed.

Lemma k_inv_init : k_inv k_init.
Proof. split; [exact good_predefined|intros l H; discriminate H]. Qed.

Lemma good_query : forall l n, good l -> good (fst (query l n)).
Proof.
  intros l n [N (ext & ->)].
  destruct (query_spec (predefined ++ ext) n N) as (e & E & N' & _).
  split; [exact N'|]. exists (ext ++ e). rewrite E. now rewrite app_assoc.
Qed.

Lemma k_step_inv : forall s o, k_inv s -> not_failing o -> k_inv (k_step s o).
Proof.
  intros s [n| | |n] [G S] F; cbn [k_step]; try contradiction.
  - split; [now apply good_query|exact S].
  - split; [exact G|]. cbn. intros l [= <-]. exact G.
  - destruct (saved s) as [l|] eqn:E; [|split; [exact G|congruence]].
    split; [now apply S|]. cbn. intros l' [= <-]. now apply S.
Qed.

Lemma k_run_inv : forall l s, k_inv s -> Forall not_failing l -> k_inv (k_run s l).
Proof.
  induction l as [|o l IH]; intros s I F; [exact I|]. inversion F; subst. simpl.
  apply IH; [now apply k_step_inv|assumption].
Qed.

(** Without restores the vector only grows. *)
Lemma k_run_grows : forall l s, k_inv s -> Forall no_restore l ->
  exists ext, kinds (k_run s l) = kinds s ++ ext.
Proof.
  induction l as [|o l IH]; intros s I F; [exists []; now rewrite app_nil_r|].
  inversion F as [|? ? F1 F2]; subst. simpl.
  assert (I' : k_inv (k_step s o)) by (apply k_step_inv; [exact I|now destruct o]).
  destruct (IH _ I' F2) as (e & ->).
  destruct o as [n| | |n]; cbn [k_step]; try contradiction; cbn [kinds].
  - destruct (query_spec (kinds s) n (proj1 (proj1 I))) as (e' & -> & _).
    exists (e' ++ e). now rewrite app_assoc.
  - now exists e.
Qed.

(** What is saved stays saved. *)
Definition no_store (o : kop) : Prop := match o with KStore => False | _ => True end.

Lemma k_run_saved : forall l s, Forall no_store l -> saved (k_run s l) = saved s.
Proof.
  induction l as [|o l IH]; intros s F; [reflexivity|]. inversion F as [|? ? F1 F2]; subst. simpl.
  rewrite IH by exact F2. destruct o; cbn [k_step]; try contradiction; try reflexivity;
    destruct (saved s) eqn:E; cbn [saved]; congruence.
Qed.
