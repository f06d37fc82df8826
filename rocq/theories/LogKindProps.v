(** C47: the kinds of log messages. *)
From Coq Require Import ZArith List Bool Arith Lia.
From Verif Require Import Base Text UuidModel LogKindModel LogKindProofs.
Import ListNotations.
Local Open Scope nat_scope.

(** The same kind for the same name and different kinds for different names: a
    query for [n], then any queries and stores, then a query for [m]. *)
Theorem C47_stable : forall before between n m,
  Forall not_failing before -> Forall no_restore between ->
  let s1 := k_run k_init before in
  let s2 := k_run (k_step s1 (KQuery n)) between in
  answer s1 n = answer s2 m <-> n = m.
Proof.
  intros before between n m F1 F2 s1 s2.
  assert (I1 : k_inv s1) by (apply k_run_inv; [exact k_inv_init|exact F1]).
  assert (I2 : k_inv (k_step s1 (KQuery n))) by (apply k_step_inv; [exact I1|exact I]).
  destruct (query_spec (kinds s1) n (proj1 (proj1 I1))) as (e1 & E1 & N1 & A1).
  destruct (k_run_grows between _ I2 F2) as (e2 & E2). fold s2 in E2. cbn [k_step kinds] in E2.
  assert (I3 : k_inv s2).
  { apply k_run_inv; [exact I2|]. revert F2. apply Forall_impl. intros []; simpl; auto. }
  destruct (query_spec (kinds s2) m (proj1 (proj1 I3))) as (e3 & E3 & N3 & A3).
  assert (A1' : nth_error (fst (query (kinds s2) m)) (answer s1 n) = Some n).
  { rewrite E3, E2. rewrite <- app_assoc. rewrite nth_error_app1; [exact A1|].
    apply nth_error_Some. unfold answer. congruence. }
  unfold answer at 2. split.
  - intros X. rewrite X in A1'. congruence.
  - intros <-. exact (nth_error_NoDup _ _ _ n N3 A1' A3).
Qed.

(** The predefined kinds keep their values. *)
(** The kinds of ILogger.h and the numbers the standard gives them. *)
Definition standard_kinds : list (name * nat) :=
  [(codes "Information", 0); (codes "Event", 1); (codes "Warning", 2); (codes "Error", 3); (codes "Debug", 4)]%nat.
Theorem C47_predefined : forall l n i,
  Forall not_failing l -> In (n, i) standard_kinds ->
  answer (k_run k_init l) n = i.
Proof.
  intros l n i F I. assert (H : nth_error predefined i = Some n).
  { cbn in I. repeat destruct I as [I|I]; try contradiction; injection I as <- <-; reflexivity. }
  pose proof (k_run_inv l _ k_inv_init F) as [[N (ext & E)] _].
  unfold answer. rewrite (query_known _ n i N); [reflexivity|].
  rewrite E. rewrite nth_error_app1; [exact H|]. apply nth_error_Some. congruence.
Qed.

(** The name given to the appenders for a kind is the one it was queried with. *)
Theorem C47_name_of_kind : forall before between n,
  Forall not_failing before -> Forall no_restore between ->
  let s1 := k_run k_init before in
  kind_name (kinds (k_run (k_step s1 (KQuery n)) between)) (answer s1 n) = Some n.
Proof.
  intros before between n F1 F2 s1.
  assert (I1 : k_inv s1) by (apply k_run_inv; [exact k_inv_init|exact F1]).
  assert (I2 : k_inv (k_step s1 (KQuery n))) by (apply k_step_inv; [exact I1|exact I]).
  destruct (query_spec (kinds s1) n (proj1 (proj1 I1))) as (e1 & E1 & N1 & A1).
  destruct (k_run_grows between _ I2 F2) as (e2 & E2). rewrite E2. unfold kind_name.
  cbn [k_step kinds]. rewrite nth_error_app1; [exact A1|].
  apply nth_error_Some. unfold answer. congruence.
Qed.

(** Store, anything but another Store, Restore: every name has the kind it had (or
    would have got) when storing.  Missing: names first queried after the Store, and a Restore
    that fails. *)
Theorem C47_store_restore_partial : forall before between n,
  Forall not_failing before -> Forall no_store between ->
  let s := k_run k_init before in
  answer (k_step (k_run (k_step s KStore) between) KRestore) n = answer s n.
Proof.
  intros before between n F1 F2 s.
  cbn [k_step]. rewrite k_run_saved by exact F2. cbn [saved]. reflexivity.
Qed.

Example C47_example :
  answer (k_run k_init [KQuery (codes "A"); KStore; KQuery (codes "B"); KRestore]) (codes "A") = 5 /\
  answer (k_run k_init [KQuery (codes "A"); KQuery (codes "Event"); KQuery (codes "B")]) (codes "B") = 6.
Proof. split; reflexivity. Qed.

(** A name first queried after the Store loses its kind to another one. *)
Theorem C47_store_restore_refuted :
  exists l n m, Forall not_failing l /\ n <> m /\
    answer (k_run k_init [KStore]) n = answer (k_run k_init (KStore :: KQuery n :: l)) m.
Proof.
  exists [KRestore], (codes "A"), (codes "B"). split; [repeat constructor|].
  split; [discriminate|reflexivity].
Qed.

(** After a Restore that failed even the predefined kinds are gone. *)
Theorem C47_failed_restore_refuted :
  exists l, answer (k_run k_init l) (codes "Warning") = 0.
Proof. exists [KStore; KRestoreFails 0]. reflexivity. Qed.

Print Assumptions C47_stable.
Print Assumptions C47_predefined.
