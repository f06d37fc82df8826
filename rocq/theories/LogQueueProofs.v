From Coq Require Import ZArith List Bool Arith Lia.
From Verif Require Import Base LogQueueModel.
Import ListNotations.
Local Open Scope nat_scope.

(** What appender [i] has still to be given. *)
Definition pending (s : ls) (i : nat) : list msg :=
  match worker s with
  | WAppend k | WFinalAppend k => if i <? k then tl (queue s) else queue s
  | _ => queue s
  end.

Record l_inv (n : nat) (s : ls) : Prop := {
  li_all : forall i, i < n -> pushed s = delivered s i ++ pending s i;
  li_front : match worker s with
             | WAppend k | WFinalAppend k => queue s <> [] /\ k <= n
             | _ => True end;
  li_final : match worker s with
             | WFinal | WFinalAppend _ => running s = false
             | WDone => running s = false /\ queue s = []
             | _ => True end;
  li_wait : worker s = WWait -> queue s <> [] \/ running s = false -> 0 < notifies s
}.

Lemma l_inv_init : forall n, l_inv n l_init.
Proof. intros n. constructor; simpl; auto; discriminate. Qed.

Lemma is_nil_true : forall A (l : list A), is_nil l = true <-> l = [].
Proof. intros A [|]; simpl; split; congruence. Qed.
Lemma is_nil_false : forall A (l : list A), is_nil l = false <-> l <> [].
Proof. intros A [|]; simpl; split; congruence. Qed.

Ltac inv_case := constructor; cbn [queue running worker notifies pushed delivered pending]; auto; try discriminate.

Lemma give_all : forall n s k q', worker s = WAppend k \/ worker s = WFinalAppend k ->
  queue s <> [] -> (forall i, i < n -> pushed s = delivered s i ++ pending s i) ->
  q' = queue s ->
  forall i, i < n -> pushed s = give (delivered s) k q' i ++ (if i <? S k then tl (queue s) else queue s).
Proof.
  intros n s k q' W N H -> i L. specialize (H i L). unfold pending in H. unfold give.
  assert (H' : pushed s = delivered s i ++ (if i <? k then tl (queue s) else queue s))
    by (destruct W as [W|W]; rewrite W in H; exact H). clear H.
  destruct (Nat.eqb_spec i k) as [->|D].
  - rewrite Nat.ltb_irrefl in H'. replace (k <? S k) with true by (symmetry; apply Nat.ltb_lt; lia).
    rewrite H'. destruct (queue s) as [|x q]; [congruence|]. simpl. now rewrite <- app_assoc.
  - rewrite H'. f_equal.
    destruct (Nat.ltb_spec i k), (Nat.ltb_spec i (S k)); try reflexivity; lia.
Qed.

Lemma worker_step_inv : forall n s s', l_inv n s -> worker_step n s = Some s' -> l_inv n s'.
Proof.
  intros n s s' I H. unfold worker_step in H.
  pose proof (li_all n s I) as A. pose proof (li_front n s I) as F. pose proof (li_final n s I) as L.
  destruct (worker s) as [| | |k| | | | |k|] eqn:W; try discriminate.
  - injection H as <-. unfold pending in A. rewrite W in A. inv_case.
  - injection H as <-. unfold pending in A. rewrite W in A.
    destruct (running s) eqn:R; inv_case.
  - injection H as <-. unfold pending in A. rewrite W in A.
    destruct (is_nil (queue s)) eqn:Q; inv_case.
    split; [now apply is_nil_false|lia].
  - destruct F as [F K]. destruct (Nat.ltb_spec k n) as [X|X]; injection H as <-.
    + inv_case. apply (give_all n s k (queue s)); auto.
    + assert (k = n) by lia. subst k. inv_case. intros i Hi. rewrite (A i Hi). unfold pending.
      rewrite W. apply Nat.ltb_lt in Hi. now rewrite Hi.
  - injection H as <-. unfold pending in A. rewrite W in A.
    destruct (negb (running s) || negb (is_nil (queue s))) eqn:Q; inv_case.
    intros _ X. apply orb_false_iff in Q. destruct Q as [Q1 Q2].
    apply negb_false_iff in Q1, Q2. apply is_nil_true in Q2. destruct X; congruence.
  - injection H as <-. unfold pending in A. rewrite W in A. inv_case.
  - injection H as <-. unfold pending in A. rewrite W in A.
    destruct (is_nil (queue s)) eqn:Q; inv_case.
    + split; [exact L|now apply is_nil_true].
    + split; [now apply is_nil_false|lia].
  - destruct F as [F K]. destruct (Nat.ltb_spec k n) as [X|X]; injection H as <-.
    + inv_case. apply (give_all n s k (queue s)); auto.
    + assert (k = n) by lia. subst k. inv_case. intros i Hi. rewrite (A i Hi). unfold pending.
      rewrite W. apply Nat.ltb_lt in Hi. now rewrite Hi.
Qed.

Lemma tl_snoc : forall (l : list msg) m, l <> [] -> tl (l ++ [m]) = tl l ++ [m].
Proof. intros [|x l] m H; [congruence|reflexivity]. Qed.

Lemma l_step_inv : forall n s e s', l_inv n s -> l_step n s e = Some s' -> l_inv n s'.
Proof.
  intros n s [m| | | |] s' I H; cbn [l_step] in H.
  - destruct (holds_mutex (worker s) || negb (running s)) eqn:E; [discriminate|].
    injection H as <-. apply orb_false_iff in E. destruct E as [E R].
    apply negb_false_iff in R. destruct I as [A F L Wt].
    constructor; cbn [queue running worker notifies pushed delivered].
    + intros i Hi. rewrite (A i Hi), <- app_assoc. f_equal. unfold pending.
      cbn [worker queue]. destruct (worker s); try reflexivity.
      * destruct F as [F _]. destruct (i <? k); [now rewrite tl_snoc|reflexivity].
      * destruct F as [F _]. destruct (i <? k); [now rewrite tl_snoc|reflexivity].
    + destruct (worker s); auto; destruct F as [F F2]; (split; [now destruct (queue s)|exact F2]).
    + destruct (worker s); auto; try congruence. destruct L; congruence.
    + intros; lia.
  - destruct (holds_mutex (worker s) || negb (running s)) eqn:E; [discriminate|].
    injection H as <-. apply orb_false_iff in E. destruct E as [E R].
    apply negb_false_iff in R. destruct I as [A F L Wt].
    constructor; cbn [queue running worker notifies pushed delivered]; auto.
    + destruct (worker s); auto. destruct L. auto.
    + intros; lia.
  - destruct (notifies s) as [|k] eqn:N; [discriminate|]. injection H as <-.
    destruct I as [A F L Wt].
    constructor; cbn [queue running worker notifies pushed delivered].
    + intros i Hi. rewrite (A i Hi). unfold pending. cbn [worker queue]. now destruct (worker s).
    + now destruct (worker s).
    + now destruct (worker s).
    + destruct (worker s); discriminate.
  - destruct (worker s) eqn:W; try discriminate. injection H as <-. destruct I as [A F L Wt].
    constructor; cbn [queue running worker notifies pushed delivered]; auto; try discriminate.
    intros i Hi. rewrite (A i Hi). unfold pending. rewrite W. reflexivity.
  - eapply worker_step_inv; eassumption.
Qed.

Lemma l_run_inv : forall n l s s', l_inv n s -> l_run n s l = Some s' -> l_inv n s'.
Proof.
  intros n. induction l as [|e l IH]; intros s s' I H; simpl in H; [congruence|].
  destruct (l_step n s e) as [s1|] eqn:E; [|discriminate].
  apply (IH s1); [eapply l_step_inv; eassumption|exact H].
Qed.

(** * Termination *)

Definition measure (n : nat) (s : ls) : nat :=
  notifies s +
  match worker s with
  | WDone => 0
  | WFinal => 1 + (n + 2) * length (queue s)
  | WFinalAppend k => (n + 2) * length (queue s) - k
  | WLoop => 2 + (n + 2) * length (queue s)
  | WCheck => 3 + (n + 2) * length (queue s)
  | WStart => 3 + (n + 2) * length (queue s)
  | WInner => 4 + (n + 2) * length (queue s)
  | WAppend k => 3 + (n + 2) * length (queue s) - k
  | WWake => 4 + (n + 2) * length (queue s)
  | WWait => 5 + (n + 2) * length (queue s)
  end.

Lemma l_step_measure : forall n s e s', l_inv n s -> running s = false ->
  l_step n s e = Some s' -> running s' = false /\ measure n s' < measure n s.
Proof.
  intros n s e s' I R H. pose proof (li_front n s I) as F.
  destruct e as [m| | | |]; cbn [l_step] in H.
  - rewrite R, orb_true_r in H. discriminate.
  - rewrite R, orb_true_r in H. discriminate.
  - destruct (notifies s) as [|k] eqn:N; [discriminate|]. injection H as <-.
    split; [exact R|]. unfold measure. cbn [notifies worker queue]. rewrite N.
    destruct (worker s); cbn [wake]; lia.
  - destruct (worker s) eqn:W; try discriminate. injection H as <-. split; [exact R|].
    unfold measure. cbn [notifies worker queue]. rewrite W. lia.
  - unfold worker_step in H. unfold measure.
    destruct (worker s) as [| | |k| | | | |k|] eqn:W; try discriminate.
    + injection H as <-. split; [exact R|]. cbn [notifies worker queue]. lia.
    + injection H as <-. split; [exact R|]. cbn [notifies worker queue]. rewrite R. lia.
    + injection H as <-. split; [exact R|]. cbn [notifies worker queue].
      destruct (queue s); cbn [is_nil]; cbn [length]; lia.
    + destruct F as [F K]. destruct (queue s) as [|x q]; [congruence|].
      destruct (Nat.ltb_spec k n); injection H as <-; (split; [exact R|]);
        cbn [notifies worker queue tl length]; rewrite ?Nat.mul_succ_r; lia.
    + injection H as <-. split; [exact R|]. cbn [notifies worker queue]. rewrite R. cbn [negb orb]. lia.
    + injection H as <-. split; [exact R|]. cbn [notifies worker queue]. lia.
    + injection H as <-. split; [exact R|]. cbn [notifies worker queue].
      destruct (queue s); cbn [is_nil length]; rewrite ?Nat.mul_succ_r; lia.
    + destruct F as [F K]. destruct (queue s) as [|x q]; [congruence|].
      destruct (Nat.ltb_spec k n); injection H as <-; (split; [exact R|]);
        cbn [notifies worker queue tl length]; rewrite ?Nat.mul_succ_r; lia.
Qed.

Lemma worker_enabled : forall n s, worker s <> WWait -> worker s <> WDone ->
  exists s', worker_step n s = Some s'.
Proof.
  intros n s A B. unfold worker_step. destruct (worker s); try congruence; try (eexists; reflexivity).
  - destruct (k <? n); eexists; reflexivity.
  - destruct (k <? n); eexists; reflexivity.
Qed.

Lemma progress : forall n s, l_inv n s -> (queue s <> [] \/ running s = false) ->
  worker s <> WDone ->
  (exists s', l_step n s EWorker = Some s') \/ (exists s', l_step n s ENotify = Some s').
Proof.
  intros n s I Q D. destruct (worker s) eqn:W;
    try (left; apply worker_enabled; rewrite W; discriminate).
  - right. pose proof (li_wait n s I W Q) as P. cbn [l_step].
    destruct (notifies s); [lia|eexists; reflexivity].
  - congruence.
Qed.

(** * Draining while the logger is running *)

Definition drain (n : nat) (s : ls) : nat :=
  (n + 10) * notifies s + (n + 3) * length (queue s) +
  match worker s with
  | WDone | WFinal | WFinalAppend _ => 0
  | WAppend k => n + 2 - k
  | WInner => n + 4
  | WLoop => n + 5
  | WStart => n + 6
  | WCheck => if is_nil (queue s) then 1 else n + 6
  | WWake => if is_nil (queue s) then 2 else n + 7
  | WWait => if is_nil (queue s) then 0 else n + 8
  end.

Lemma l_step_drain : forall n s e s', l_inv n s -> running s = true ->
  e = ENotify \/ e = EWorker -> l_step n s e = Some s' ->
  running s' = true /\ drain n s' < drain n s.
Proof.
  intros n s e s' I R [->| ->] H; cbn [l_step] in H.
  - destruct (notifies s) as [|k] eqn:N; [discriminate|]. injection H as <-.
    split; [exact R|]. unfold drain. cbn [notifies worker queue]. rewrite N.
    destruct (worker s); cbn [wake]; destruct (is_nil (queue s)); lia.
  - pose proof (li_front n s I) as F. pose proof (li_final n s I) as L.
    unfold worker_step in H. unfold drain.
    destruct (worker s) as [| | |k| | | | |k|] eqn:W; try discriminate; try congruence.
    + injection H as <-. split; [exact R|]. cbn [notifies worker queue]. lia.
    + injection H as <-. split; [exact R|]. cbn [notifies worker queue]. rewrite R. lia.
    + injection H as <-. split; [exact R|]. cbn [notifies worker queue].
      destruct (queue s); cbn [is_nil]; lia.
    + destruct F as [F K]. destruct (queue s) as [|x q]; [congruence|].
      destruct (Nat.ltb_spec k n); injection H as <-; (split; [exact R|]);
        cbn [notifies worker queue tl length]; rewrite ?Nat.mul_succ_r; lia.
    + injection H as <-. split; [exact R|]. cbn [notifies worker queue]. rewrite R. cbn [negb orb].
      destruct (queue s); cbn [is_nil negb]; lia.
    + injection H as <-. split; [exact R|]. cbn [notifies worker queue].
      destruct (queue s); cbn [is_nil]; lia.
Qed.
