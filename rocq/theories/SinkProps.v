(** Event sources: the property C51. *)
From Verif Require Import Base Assoc EventProofs CollProofs SinkModel SinkSpec SinkProofs.

(** Subscribe accepts a sink exactly when the argument types agree and it is not yet
    subscribed (after any history without undefined behaviour), and the type error comes
    first; Unsubscribe accepts exactly the subscribed sinks. *)
Theorem C51_subscribe : forall kind typ par os x,
  let s := fst (srun kind typ par src_init os) in let tr := strace kind typ par os in
  (forall k, ~ In (VUB k) tr) ->
  (snd (sstep kind typ par (SSubscribe x) s) = [VSub x] <-> typ x = kind /\ subscribed par tr x = false) /\
  (snd (sstep kind typ par (SSubscribe x) s) = [VInvalid x] <-> typ x <> kind) /\
  (snd (sstep kind typ par (SUnsubscribe x) s) = [VUnsub x] <-> subscribed par tr x = true).
Proof.
  intros kind typ par os x s tr NU. pose proof (reach_sinv kind typ par os) as V. fold s tr in V.
  assert (D : dead s = false).
  { destruct (dead s) eqn:D; [|reflexivity]. apply (i_dead _ _ _ _ _ V) in D. destruct D as (k & I). now apply NU in I. }
  assert (M : smem x (sinks s) = subscribed par tr x).
  { destruct (smem x (sinks s)) eqn:M; symmetry.
    - apply (i_subs _ _ _ _ _ V). now apply smem_In.
    - destruct (subscribed par tr x) eqn:E; [|reflexivity]. apply (i_subs _ _ _ _ _ V), smem_In in E. congruence. }
  unfold sstep. rewrite D, M. destruct (Z.eqb_spec (typ x) kind) as [T|T], (subscribed par tr x); cbn;
    intuition congruence.
Qed.

(** What is notified, and when: only sinks that are subscribed at that moment, with the
    value given to the call of Emit, and each sink at most once per call. *)
Theorem C51_notify_sound : forall kind typ par os pre k x v post,
  strace kind typ par os = pre ++ VNotify k x v :: post ->
  subscribed par pre x = true /\ typ x = kind /\ In (VEmit k v) pre /\ ~ In x (notified k pre) /\ ~ In x (notified k post).
Proof.
  intros kind typ par os pre k x v post E. pose proof (reach_sinv kind typ par os) as V.
  assert (Hs : subscribed par pre x = true) by exact (i_when _ _ _ _ _ V _ _ _ _ _ E).
  split; [exact Hs|]. split; [|split; [exact (i_value _ _ _ _ _ V _ _ _ _ _ E)|]].
  - (* the sink was accepted by Subscribe *)
    assert (Tp : forall os y, In (VSub y) (strace kind typ par os) -> typ y = kind).
    { clear. intros os y. unfold strace. generalize src_init as s. induction os as [|o os IH]; intros s; cbn; [tauto|].
      destruct (sstep kind typ par o s) as [s1 t1] eqn:E1. destruct (srun kind typ par s1 os) as [s2 t2] eqn:E2. cbn.
      rewrite in_app_iff. intros [I|I]; [|apply (IH s1); now rewrite E2].
      unfold sstep in E1. destruct (dead s); [injection E1 as _ <-; destruct I|].
      destruct o; cbn in E1;
        repeat match type of E1 with
        | context [if negb (?a =? ?b) then _ else _] => destruct (Z.eqb_spec a b); cbn in E1
        | context [if ?b then _ else _] => destruct b; cbn in E1
        | context [match ?b with _ => _ end] => destruct b; cbn in E1
        end; injection E1 as _ <-; cbn in I; repeat destruct I as [I|I]; try discriminate; try contradiction;
        injection I as <-; assumption. }
    apply (Tp os). rewrite E. apply in_app_iff. left.
    clear - Hs. revert Hs. unfold subscribed. assert (G : forall b, fold_left (sub_ev par x) pre b = true -> b = true \/ In (VSub x) pre).
    { induction pre as [|e pre IH]; intros b; cbn; [auto|]. intros H. apply IH in H. destruct H as [H|H]; [|auto].
      destruct e; cbn in H; rewrite ?andb_true_iff, ?orb_true_iff in H; try tauto.
      destruct H as [H|H]; [auto|]. apply Z.eqb_eq in H. subst. auto. }
    intros H. apply G in H. destruct H; [discriminate|assumption].
  - pose proof (i_once _ _ _ _ _ V k) as N. rewrite E, notified_app in N. cbn in N. rewrite Nat.eqb_refl in N.
    apply NoDup_remove_2 in N. rewrite in_app_iff in N. tauto.
Qed.

(** Every sink that is subscribed when Emit starts and stays so until it returns is
    notified, whatever the sinks do meanwhile (nested Emit, Subscribe, Unsubscribe of
    other sinks, RemoveLinks); with C51_notify_sound: exactly once, with the value. *)
Theorem C51_emit_complete : forall kind typ par os pre k v mid post x,
  strace kind typ par os = pre ++ VEmit k v :: mid ++ VEnd k :: post ->
  subscribed par pre x = true -> never_dropped par x mid ->
  count_occ Z.eq_dec (notified k mid) x = 1%nat /\ In (VNotify k x v) mid.
Proof.
  intros kind typ par os pre k v mid post x E Hs Hd. pose proof (reach_sinv kind typ par os) as V.
  pose proof (i_end _ _ _ _ _ V _ _ _ _ _ _ E Hs Hd) as I. split.
  - pose proof (i_once _ _ _ _ _ V k) as N. rewrite E in N.
    replace (pre ++ VEmit k v :: mid ++ VEnd k :: post) with ((pre ++ [VEmit k v]) ++ mid ++ (VEnd k :: post)) in N.
    2: { rewrite <- app_assoc. reflexivity. }
    rewrite !notified_app in N. apply NoDup_app_remove_l, NoDup_app_remove_r in N.
    exact (proj1 (NoDup_count_occ' Z.eq_dec _) N x I).
  - apply notified_In in I. destruct I as (w & I). apply in_split in I. destruct I as (a & b & ->).
    assert (X : In (VEmit k w) (pre ++ VEmit k v :: a)).
    { apply (i_value _ _ _ _ _ V _ k x w (b ++ VEnd k :: post)). rewrite E, <- !app_assoc. cbn. rewrite <- ?app_assoc. reflexivity. }
    apply in_app_iff in X. cbn in X.
    destruct X as [X|[X|X]].
    + exfalso. apply (i_emit _ _ _ _ _ V _ _ _ _ E _ X). reflexivity.
    + injection X as <-. apply in_app_iff. cbn. auto.
    + exfalso. apply in_split in X. destruct X as (a1 & a2 & ->).
      assert (E2 : strace kind typ par os = (pre ++ VEmit k v :: a1) ++ VEmit k w :: (a2 ++ VNotify k x w :: b) ++ VEnd k :: post).
      { rewrite E, <- !app_assoc. cbn. rewrite <- ?app_assoc. cbn. rewrite <- ?app_assoc. reflexivity. }
      apply (i_emit _ _ _ _ _ V _ _ _ _ E2 (VEmit k v)); [apply in_app_iff; cbn; auto|reflexivity].
Qed.

(** After RemoveLinks(t) no sink of t is subscribed, and the others are as before. *)
Theorem C51_remove_links : forall kind typ par os t x,
  let tr := strace kind typ par os in
  (forall k, ~ In (VUB k) tr) ->
  let s' := fst (sstep kind typ par (SRemoveLinks t) (fst (srun kind typ par src_init os))) in
  In x (sinks s') <-> par x <> t /\ subscribed par tr x = true.
Proof.
  intros kind typ par os t x tr NU s'. pose proof (reach_sinv kind typ par os) as V. fold tr in V.
  unfold s'. unfold sstep. destruct (dead _) eqn:D.
  { apply (i_dead _ _ _ _ _ V) in D. destruct D as (k & I). now apply NU in I. }
  cbn. rewrite filter_In, (i_subs _ _ _ _ _ V x). fold tr. destruct (Z.eqb_spec (par x) t); cbn; intuition congruence.
Qed.

(** Undefined behaviour arises only when the sink being notified is itself removed
    before its Notify returns. *)
Theorem C51_ub_only_self_removal : forall kind typ par os pre k post,
  strace kind typ par os = pre ++ VUB k :: post ->
  exists a x v b e, pre = a ++ VNotify k x v :: b /\ notified k b = [] /\ In e b /\ drops par x e = true.
Proof. intros kind typ par os. apply (i_ub _ _ _ _ _ (reach_sinv kind typ par os)). Qed.

(** The full claim ("every behaviour of sinks") does not hold: a sink that unsubscribes
    itself makes Emit use an iterator to an erased element; and a sink that throws ends
    Emit before the remaining sinks are notified. *)
Theorem C51_self_unsubscribe_refuted :
  exists os, strace 0 (fun _ => 0) (fun x => x) os =
    [VSub 5; VSub 7; VEmit 0 42; VNotify 0 5 42; VUnsub 5; VUB 0].
Proof. exists [SSubscribe 5; SSubscribe 7; SEmit 42; SUnsubscribe 5; SReturn 0]. reflexivity. Qed.
Theorem C51_throwing_sink_refuted :
  exists os pre mid, strace 0 (fun _ => 0) (fun x => x) os = pre ++ VEmit 0 42 :: mid ++ [VAbort 0] /\
    subscribed (fun x => x) pre 7 = true /\ never_dropped (fun x => x) 7 mid /\ ~ In 7 (notified 0 mid).
Proof.
  exists [SSubscribe 5; SSubscribe 7; SEmit 42; SThrow 0], [VSub 5; VSub 7], [VNotify 0 5 42].
  split; [reflexivity|]. split; [reflexivity|]. split.
  - intros e [<-|[]]. reflexivity.
  - cbn. intuition discriminate.
Qed.

(** A history with nested Emit, and sinks added and removed during an emission. *)
Example C51_example : strace 0 (fun x => x / 100) (fun x => x mod 10)
    [SSubscribe 52; SSubscribe 71; SSubscribe 71; SSubscribe 171; SEmit 1; SEmit 2; SReturn 1; SReturn 1; SSubscribe 93;
     SRemoveLinks 1; SReturn 0; SReturn 0] =
  [VSub 52; VSub 71; VAlready 71; VInvalid 171; VEmit 0 1; VNotify 0 52 1; VEmit 1 2; VNotify 1 52 2; VNotify 1 71 2; VEnd 1;
   VSub 93; VRemove 1; VNotify 0 93 1; VEnd 0].
Proof. reflexivity. Qed.

Print Assumptions C51_emit_complete.
