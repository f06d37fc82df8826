(** Proofs about simple array fields and about the types of the values of fields. *)
From Coq Require Import ZArith List Bool Lia.
From Verif Require Import Base UuidModel AnyModel AnySpec AnyProofs HelperModel FlowModel FlowSpec FlowProofs FArrModel FArrSpec.
Import ListNotations.
Local Open Scope nat_scope.

(** * Conversions *)

Lemma typed_any c k v : kind_of c k -> value_of c v -> any_ok (Any k v).
Proof.
  intros K V. unfold any_ok. destruct c, v; cbn in K, V; try contradiction; cbn [atype aval]; subst; cbn; eauto.
  rewrite K. eauto.
Qed.

Lemma from_any_defined c a : any_ok a -> from_any c a = UB -> c = CF32 \/ c = CF64.
Proof.
  intros H. destruct a as [k p]. unfold any_ok in H. cbn [atype aval] in H.
  destruct c as [t| | | | |n]; cbn [from_any]; intros E; [|exfalso|exfalso|now left|now right|exfalso].
  2-4: revert E; destruct k; cbn in H;
    repeat match goal with H : exists _, _ |- _ => destruct H | H : _ /\ _ |- _ => destruct H end; subst; cbn; try discriminate.
  exfalso. destruct (kind_type k) as [u|] eqn:K.
  - destruct H as (v & -> & U). destruct (of_type_dec t v) as [T|T].
    + rewrite (get_int_ok (Any k (PInt v)) k u t v) in E by (try assumption; now split). discriminate E.
    + rewrite (get_int_throw (Any k (PInt v)) k u t v) in E by (try assumption; now split). discriminate E.
  - rewrite get_int_other in E by assumption. discriminate E.
Qed.

Lemma from_any_same c k a : kind_of c k -> any_ok a -> atype a = k -> from_any c a = Ok (item_of c a).
Proof.
  intros K H <-. destruct a as [k p]. unfold any_ok in H. cbn [atype aval] in *. unfold item_of. cbn [aval].
  destruct c as [t| | | | |n]; cbn in K.
  - rewrite K in H. destruct H as (v & -> & T). now apply (from_any_ok (CInt t) k (PInt v)).
  - subst k. cbn in H. now destruct H as (b & ->).
  - subst k. cbn in H. now destruct H as (b & ->).
  - subst k. cbn in H. now destruct H as (b & ->).
  - subst k. cbn in H. now destruct H as (b & ->).
  - subst k. cbn in H. destruct H as (s & ->). now destruct s.
Qed.

Lemma item_value c k a : kind_of c k -> any_ok a -> atype a = k -> value_of c (item_of c a).
Proof. intros K H E. exact (from_any_value c a _ (from_any_same c k a K H E) H). Qed.

Lemma item_itself c k a : kind_of c k -> value_of c (aval a) -> atype a = k -> item_of c a = aval a.
Proof.
  intros K V E. destruct a as [k' p]. cbn [atype aval] in *. unfold item_of. cbn [aval].
  destruct c as [t| | | | |n]; try reflexivity. destruct p; cbn in V; try contradiction.
  destruct s as [l|]; [|contradiction]. now rewrite firstn_all2.
Qed.

(** * Lists *)

Lemma put_nth_length {A} k (x : A) l : length (put_nth k x l) = length l.
Proof. revert k. induction l as [|y l IH]; intros [|k]; cbn; auto. Qed.

Lemma put_nth_forall {A} (P : A -> Prop) k x l : P x -> Forall P l -> Forall P (put_nth k x l).
Proof.
  intros Hx F. revert k. induction F as [|y l Hy F IH]; intros [|k]; cbn; auto.
Qed.

Lemma put_nth_split {A} k (x : A) l : k < length l -> put_nth k x l = firstn k l ++ x :: skipn (S k) l.
Proof.
  revert k. induction l as [|y l IH]; intros [|k] L; cbn in L |- *; try lia; [reflexivity|].
  f_equal. rewrite IH by lia. reflexivity.
Qed.

Lemma put_nth_mid {A} (a : list A) x y b k : k = length a -> put_nth k x (a ++ y :: b) = a ++ x :: b.
Proof. intros ->. induction a as [|z a IH]; cbn; congruence. Qed.

(** * Types are kept *)

Definition same (w w' : world) : Prop :=
  (forall i, lc (leafs w' i) = lc (leafs w i) /\ lk (leafs w' i) = lk (leafs w i)) /\
  (forall i, ac (arrs w' i) = ac (arrs w i) /\ ak (arrs w' i) = ak (arrs w i) /\
             length (avals (arrs w' i)) = length (avals (arrs w i))).

Definition good (w w' : world) : Prop := same w w' /\ typed w'.

Lemma good_refl w : typed w -> good w w.
Proof. intros T. split; [split; auto|exact T]. Qed.

Lemma good_trans a b c : good a b -> good b c -> good a c.
Proof.
  intros [[A1 A2] _] [[B1 B2] T]. split; [split|exact T]; intros i.
  - destruct (A1 i), (B1 i). split; congruence.
  - destruct (A2 i) as (?&?&?), (B2 i) as (?&?&?). repeat split; congruence.
Qed.

Lemma good_leaf w i l : typed w -> lc l = lc (leafs w i) -> lk l = lk (leafs w i) ->
  value_of (lc (leafs w i)) (lval l) -> good w (set_leaf w i l).
Proof.
  intros T C K V. split; [split|split]; try (intros j; cbn; auto; fail); try (exact (proj2 T)).
  - intros j. cbn. destruct (Nat.eq_dec j i) as [->|N]; [rewrite upd_same; auto|rewrite upd_other; auto].
  - intros j. cbn. destruct (Nat.eq_dec j i) as [->|N]; [rewrite upd_same|rewrite upd_other by auto; apply T].
    rewrite C, K. split; [apply T|exact V].
Qed.

Lemma good_arr w i a : typed w -> ac a = ac (arrs w i) -> ak a = ak (arrs w i) ->
  length (avals a) = length (avals (arrs w i)) ->
  Forall (value_of (ac (arrs w i))) (avals a) -> good w (set_arr w i a).
Proof.
  intros T C K L V. split; [split|split]; try (intros j; cbn; auto; fail); try (exact (proj1 T)).
  - intros j. cbn. destruct (Nat.eq_dec j i) as [->|N]; [rewrite upd_same; auto|rewrite upd_other; auto].
  - intros j. cbn. destruct (Nat.eq_dec j i) as [->|N]; [rewrite upd_same|rewrite upd_other by auto; apply T].
    rewrite C, K. split; [apply T|exact V].
Qed.

Lemma good_nconn w i l : typed w -> good w (set_nconn w i l).
Proof. intros T. split; [split; intros j; cbn; auto|exact T]. Qed.

Lemma leaf_any w i a : typed w -> to_any (lc (leafs w i)) (lk (leafs w i)) (lval (leafs w i)) = Ok a -> any_ok a.
Proof.
  intros T. destruct (proj1 T i) as [K V]. rewrite (to_any_ok _ _ _ K V). intros E. injection E as <-. eapply typed_any; eassumption.
Qed.

Lemma andthen_good w o k : (forall w1 r, o = (w1, r) -> good w w1) ->
  (forall w1 w2 r, good w w1 -> k w1 = (w2, r) -> good w1 w2) ->
  forall w2 r, andthen o k = (w2, r) -> good w w2.
Proof.
  intros H1 H2 w2 r E. apply andthen_inv in E as [(w1 & E1 & E2)|(E1 & _)].
  - eapply good_trans; [eauto|eapply H2; [eauto|exact E2]].
  - eauto.
Qed.

Definition keeps (set : world -> nat -> payload -> out) : Prop :=
  forall w i v w' r, typed w -> value_of (lc (leafs w i)) v -> set w i v = (w', r) -> good w w'.

Lemma set_any_keeps set : keeps set -> forall w i a w' r, typed w -> any_ok a ->
  set_any_with set w i a = (w', r) -> good w w'.
Proof.
  intros KS w i a w' r T A. unfold set_any_with. destruct (from_any (lc (leafs w i)) a) as [v|e|] eqn:E.
  - destruct (literal_ok (leafs w i) v).
    + intros H. eapply KS; [exact T| |exact H]. eapply from_any_value; eassumption.
    + intros H. injection H as <- <-. now apply good_refl.
  - intros H. injection H as <- <-. now apply good_refl.
  - intros H. injection H as <- <-. now apply good_refl.
Qed.

Lemma push_keeps set : keeps set -> forall i ts w w' r, typed w -> push_with set w i ts = (w', r) -> good w w'.
Proof.
  intros KS i. induction ts as [|t ts IH]; intros w w' r T; cbn [push_with]; cbv zeta.
  - intros H. injection H as <- <-. now apply good_refl.
  - destruct (to_any _ _ _) as [a|e|] eqn:E.
    + apply andthen_good.
      * intros w1 r1. apply set_any_keeps; [exact KS|exact T|eapply leaf_any; eassumption].
      * intros w1 w2 r2 G. apply IH, G.
    + intros H. injection H as <- <-. now apply good_refl.
    + intros H. injection H as <- <-. now apply good_refl.
Qed.

Lemma set_val_keeps n : keeps (set_val n).
Proof.
  induction n as [|n IH]; intros w i v w' r T V; cbn [set_val]; cbv zeta.
  - intros H. injection H as <- <-. now apply good_refl.
  - destruct (lforcible (leafs w i) && lforced (leafs w i)).
    { intros H. injection H as <- <-. now apply good_refl. }
    assert (G : good w (set_leaf w i (with_val (leafs w i) v))) by (apply good_leaf; auto).
    destruct (lconn (leafs w i)).
    + intros H. eapply good_trans; [exact G|]. eapply push_keeps; [exact IH|apply G|exact H].
    + intros H. injection H as <- <-. exact G.
Qed.

Lemma set_any_good n w i a w' r : typed w -> any_ok a -> set_any n w i a = (w', r) -> good w w'.
Proof. intros T A. apply set_any_keeps; auto using set_val_keeps. Qed.

Lemma noexc_inv o w r : noexc o = (w, r) -> exists r', o = (w, r').
Proof. destruct o as [w1 [u|e|]]; cbn; intros H; injection H as <- <-; eauto. Qed.

Lemma arr_set_good w i k a w' r : typed w -> any_ok a -> arr_set_any w i k a = (w', r) -> good w w'.
Proof.
  intros T A. unfold arr_set_any. cbv zeta.
  destruct (k <? length (avals (arrs w i))); [|intros H; injection H as <- <-; now apply good_refl].
  destruct (negb (apub (arrs w i)) && negb (kind_eqb (atype a) (ak (arrs w i)))).
  { intros H; injection H as <- <-; now apply good_refl. }
  destruct (from_any (ac (arrs w i)) a) as [p|e|] eqn:E; intros H; injection H as <- <-; try (now apply good_refl).
  apply good_arr; auto; cbn.
  - apply put_nth_length.
  - apply put_nth_forall; [eapply from_any_value; eassumption|apply T].
Qed.

Lemma arr_any w i k p a : typed w -> nth_error (avals (arrs w i)) k = Some p ->
  to_any (ac (arrs w i)) (ak (arrs w i)) p = Ok a -> any_ok a.
Proof.
  intros T N. destruct (proj2 T i) as [K V]. apply nth_error_In in N.
  rewrite Forall_forall in V. rewrite (to_any_ok _ _ _ K (V p N)).
  intros E. injection E as <-. eapply typed_any; eauto.
Qed.

Lemma arr_push_to_good i k ts : forall w w' r, typed w -> arr_push_to w i k ts = (w', r) -> good w w'.
Proof.
  induction ts as [|t ts IH]; intros w w' r T; cbn [arr_push_to]; cbv zeta.
  - intros H. injection H as <- <-. now apply good_refl.
  - destruct (nth_error (avals (arrs w i)) k) as [p|] eqn:N.
    + destruct (to_any _ _ _) as [a|e|] eqn:E.
      * apply andthen_good.
        -- intros w1 r1. apply arr_set_good; [exact T|eapply arr_any; eassumption].
        -- intros w1 w2 r2 G. apply IH, G.
      * intros H. injection H as <- <-. now apply good_refl.
      * intros H. injection H as <- <-. now apply good_refl.
    + intros H. injection H as <- <-. now apply good_refl.
Qed.

Lemma copy_items_good i j ks : forall w w' r, typed w -> copy_items w i j ks = (w', r) -> good w w'.
Proof.
  induction ks as [|k ks IH]; intros w w' r T; cbn [copy_items]; cbv zeta.
  - intros H. injection H as <- <-. now apply good_refl.
  - destruct (nth_error (avals (arrs w i)) k) as [p|] eqn:N.
    + destruct (to_any _ _ _) as [a|e|] eqn:E.
      * apply andthen_good.
        -- intros w1 r1. apply arr_set_good; [exact T|eapply arr_any; eassumption].
        -- intros w1 w2 r2 G. apply IH, G.
      * intros H. injection H as <- <-. now apply good_refl.
      * intros H. injection H as <- <-. now apply good_refl.
    + intros H. injection H as <- <-. now apply good_refl.
Qed.

Lemma arr_push_items_good i ks : forall w w' r, typed w -> arr_push_items w i ks = (w', r) -> good w w'.
Proof.
  induction ks as [|k ks IH]; intros w w' r T; cbn [arr_push_items].
  - intros H. injection H as <- <-. now apply good_refl.
  - apply andthen_good.
    + intros w1 r1. apply arr_push_to_good, T.
    + intros w1 w2 r2 G. apply IH, G.
Qed.

Lemma set_values_good i vs : Forall any_ok vs -> forall k w w' r, typed w ->
  arr_set_values_from w i k vs = (w', r) -> good w w'.
Proof.
  induction 1 as [|v vs Hv F IH]; intros k w w' r T; cbn [arr_set_values_from].
  - intros H. injection H as <- <-. now apply good_refl.
  - destruct (kind_eqb _ _).
    + apply andthen_good.
      * intros w1 r1. apply arr_set_good; auto.
      * intros w1 w2 r2 G. apply IH, G.
    + intros H. injection H as <- <-. now apply good_refl.
Qed.

Lemma leaf_targets_good w i l : typed w -> good w (set_leaf w i (with_targets (leafs w i) l)).
Proof. intros T. apply good_leaf; auto. apply T. Qed.
Lemma arr_targets_good w i l : typed w -> good w (set_arr w i (with_atargets (arrs w i) l)).
Proof. intros T. apply good_arr; auto. apply T. Qed.

(** Induction on trees with their lists of items. *)
Lemma tree_ind2 (P : tree -> Prop) :
  (forall i, P (TSimple i)) -> (forall i, P (TSArr i)) ->
  (forall i a b c l, Forall P l -> P (TArr i a b c l)) ->
  (forall i a b c l, Forall P l -> P (TStr i a b c l)) -> forall t, P t.
Proof.
  intros H1 H2 H3 H4. fix IH 1. intros [i|i|i a b c l|i a b c l]; [apply H1|apply H2|apply H3|apply H4];
  induction l; constructor; auto.
Qed.

Ltac stop := intros HH; injection HH as <- <-; now apply good_refl.

Lemma connect_simple_good n w i j w' r : typed w -> connect_simple n w i j = (w', r) -> good w w'.
Proof.
  intros T. unfold connect_simple. cbv zeta.
  pose proof (leaf_targets_good w i (ltargets (leafs w i) ++ [j]) T) as G.
  set (w1 := set_leaf w i _) in *. destruct (to_any _ _ _) as [a|e|] eqn:E; intros H.
  - eapply good_trans; [exact G|]. eapply set_any_good; [apply G|eapply leaf_any; [apply G|exact E]|exact H].
  - now injection H as <- <-.
  - now injection H as <- <-.
Qed.

Lemma connect_sarr_good w i j w' r : typed w -> connect_sarr w i j = (w', r) -> good w w'.
Proof.
  intros T. unfold connect_sarr. cbv zeta.
  pose proof (arr_targets_good w i (atargets (arrs w i) ++ [j]) T) as G. intros H.
  eapply good_trans; [exact G|]. eapply copy_items_good; [apply G|exact H].
Qed.

Lemma connect_tree_good n s : forall t w w' r, typed w -> connect_tree n w s t = (w', r) -> good w w'.
Proof.
  induction s as [i|i|i df a b l F|i df a b l F] using tree_ind2; intros t w w' r T; cbn [connect_tree].
  - destruct (lconn (leafs w i)); [|stop]. destruct t; try stop. now apply connect_simple_good.
  - destruct (aconn (arrs w i)); [|stop]. destruct t; try stop. now apply connect_sarr_good.
  - destruct t as [|j|j df' a' b' l'|]; try stop. cbv zeta.
    set (w1 := if df then _ else w). assert (G : good w w1) by (subst w1; destruct df; [now apply good_nconn|now apply good_refl]).
    intros H. eapply good_trans; [exact G|]. destruct G as [_ T1]. clearbody w1. clear T.
    revert l' w1 w' r T1 H. induction F as [|x l Hx F IH]; intros [|y l'] w1 w' r T1; try stop.
    apply andthen_good; [intros w2 r2; now apply Hx|intros w2 w3 r3 G; apply IH, G].
  - destruct t as [|j|j|j df' a' b' l']; try stop. cbv zeta.
    set (w1 := if df then _ else w). assert (G : good w w1) by (subst w1; destruct df; [now apply good_nconn|now apply good_refl]).
    intros H. eapply good_trans; [exact G|]. destruct G as [_ T1]. clearbody w1. clear T.
    revert l' w1 w' r T1 H. induction F as [|x l Hx F IH]; intros [|y l'] w1 w' r T1; try stop.
    apply andthen_good; [intros w2 r2; now apply Hx|intros w2 w3 r3 G; apply IH, G].
Qed.

Lemma disconnect_good s : forall t w, typed w -> good w (disconnect w s t).
Proof.
  induction s as [i|i|i df a b l F|i df a b l F] using tree_ind2; intros t w T; cbn [disconnect].
  - destruct t; try now apply good_refl. destruct (lconn _); [now apply leaf_targets_good|now apply good_refl].
  - destruct t; try now apply good_refl. destruct (aconn _); [now apply arr_targets_good|now apply good_refl].
  - destruct t as [|j|j df' a' b' l'|]; try now apply good_refl.
    destruct (df && _); [now apply good_refl|]. cbv zeta.
    set (w1 := if df then _ else w). assert (G : good w w1) by (subst w1; destruct df; [now apply good_nconn|now apply good_refl]).
    eapply good_trans; [exact G|]. destruct G as [_ T1]. clearbody w1. clear T.
    revert l' w1 T1. induction F as [|x l Hx F IH]; intros [|y l'] w1 T1; try now apply good_refl.
    eapply good_trans; [now apply Hx|]. apply IH. now apply Hx.
  - destruct t as [|j|j|j df' a' b' l']; try now apply good_refl.
    destruct (df && _); [now apply good_refl|]. cbv zeta.
    set (w1 := if df then _ else w). assert (G : good w w1) by (subst w1; destruct df; [now apply good_nconn|now apply good_refl]).
    eapply good_trans; [exact G|]. destruct G as [_ T1]. clearbody w1. clear T.
    revert l' w1 T1. induction F as [|x l Hx F IH]; intros [|y l'] w1 T1; try now apply good_refl.
    eapply good_trans; [now apply Hx|]. apply IH. now apply Hx.
Qed.

Lemma push_tree_good n s : forall t w w' r, typed w -> push_tree n w s t = (w', r) -> good w w'.
Proof.
  induction s as [i|i|i df a b l F|i df a b l F] using tree_ind2; intros t w w' r T; cbn [push_tree]; cbv zeta.
  - destruct t; try stop. destruct (to_any _ _ _) as [a|e|] eqn:E; [|stop|stop].
    apply set_any_good; [exact T|eapply leaf_any; eassumption].
  - destruct t; try stop. now apply copy_items_good.
  - destruct t as [|j|j df' a' b' l'|]; try stop.
    revert l' w w' r T. induction F as [|x l Hx F IH]; intros [|y l'] w w' r T; try stop.
    apply andthen_good; [intros w2 r2; now apply Hx|intros w2 w3 r3 G; apply IH, G].
  - destruct t as [|j|j|j df' a' b' l']; try stop.
    revert l' w w' r T. induction F as [|x l Hx F IH]; intros [|y l'] w w' r T; try stop.
    apply andthen_good; [intros w2 r2; now apply Hx|intros w2 w3 r3 G; apply IH, G].
Qed.

Lemma push_all_good n s : forall w w' r, typed w -> push_all n w s = (w', r) -> good w w'.
Proof.
  induction s as [i|i|i df a b l F|i df a b l F] using tree_ind2; intros w w' r T; cbn [push_all].
  - destruct (lconn _); [|stop]. unfold push. now apply push_keeps; [apply set_val_keeps|].
  - destruct (aconn _); [|stop]. unfold arr_push. now apply arr_push_items_good.
  - revert w w' r T. induction F as [|x l Hx F IH]; intros w w' r T; try stop.
    apply andthen_good; [intros w2 r2; now apply Hx|intros w2 w3 r3 G; apply IH, G].
  - revert w w' r T. induction F as [|x l Hx F IH]; intros w w' r T; try stop.
    apply andthen_good; [intros w2 r2; now apply Hx|intros w2 w3 r3 G; apply IH, G].
Qed.

Lemma fstep_good n w o w' r : typed w -> well_called w o -> fstep n w o = (w', r) -> good w w'.
Proof.
  intros T C. destruct o as [i a|i v|i|i a|i|i|i v b|s t|s t|i k a|i k v|i|i vs|s|s t]; cbn [fstep]; cbn [well_called] in C.
  - now apply set_any_good.
  - unfold assign. intros H. apply noexc_inv in H as (r' & H). eapply set_val_keeps; eassumption.
  - unfold push. now apply push_keeps; [apply set_val_keeps|].
  - unfold force. cbv zeta.
    assert (G : good w (set_leaf w i (with_forced (leafs w i) false))) by (apply good_leaf; auto; apply T).
    intros H. eapply good_trans; [exact G|]. revert H. apply andthen_good.
    + intros w1 r1. apply set_any_good; [apply G|exact C].
    + intros w1 w2 r2 G1 H. injection H as <- <-. apply good_leaf; auto; apply G1.
  - intros H. injection H as <- <-. apply good_leaf; auto; apply T.
  - intros H. injection H as <- <-. apply good_leaf; auto; apply T.
  - intros H. injection H as <- <-. unfold restore_leaf. cbv zeta. cbn [lforcible with_val].
    destruct (lforcible (leafs w i)); apply good_leaf; auto.
  - unfold connect. destruct (_ || _); [stop|]. destruct (negb _); [stop|]. now apply connect_tree_good.
  - intros H. injection H as <- <-. now apply disconnect_good.
  - now apply arr_set_good.
  - unfold arr_assign. cbv zeta. destruct (k <? _); [|stop]. intros H. apply noexc_inv in H as (r' & H).
    assert (G : good w (set_arr w i (with_vals (arrs w i) (put_nth k v (avals (arrs w i)))))).
    { apply good_arr; auto; cbn; [apply put_nth_length|apply put_nth_forall; [exact C|apply T]]. }
    destruct (aconn (arrs w i)).
    + eapply good_trans; [exact G|]. eapply arr_push_to_good; [apply G|exact H].
    + injection H as <- <-. exact G.
  - unfold arr_push. now apply arr_push_items_good.
  - unfold arr_set_values. destruct (Nat.eqb _ _); [|stop]. now apply set_values_good.
  - now apply push_all_good.
  - unfold pub_connect. destruct (negb (absent _ _)); [stop|]. destruct (_ || _); [stop|].
    assert (G : good w (pub_add w s (tid t))).
    { destruct s; cbn [pub_add]; [now apply leaf_targets_good|now apply arr_targets_good|now apply good_nconn|now apply good_nconn]. }
    intros H. eapply good_trans; [exact G|]. eapply push_tree_good; [apply G|exact H].
Qed.

Lemma well_called_same w w' o : same w w' -> well_called w o -> well_called w' o.
Proof.
  intros [A B]. destruct o; cbn; auto.
  - now rewrite (proj1 (A i)).
  - now rewrite (proj1 (A i)).
  - now rewrite (proj1 (B i)).
Qed.

Lemma frun_good n os : forall w w', typed w -> Forall (well_called w) os -> frun n w os = Some w' -> good w w'.
Proof.
  induction os as [|o os IH]; intros w w' T F; cbn [frun].
  - intros H. injection H as <-. now apply good_refl.
  - inversion F as [|? ? C F']; subst. destruct (fstep n w o) as [w1 r] eqn:E.
    pose proof (fstep_good n w o w1 r T C E) as G.
    assert (K : frun n w1 os = Some w' -> good w w').
    { intros H. eapply good_trans; [exact G|]. apply IH; [apply G| |exact H].
      eapply Forall_impl; [|exact F']. intros o'. apply well_called_same, G. }
    destruct r as [u|[]|]; auto; discriminate.
Qed.

(** * Items *)

Lemma with_vals_only w i l : only_items w (set_arr w i (with_vals (arrs w i) l)) i.
Proof.
  split; [reflexivity|split; [reflexivity|split]].
  - intros j N. cbn. now rewrite upd_other.
  - cbn. rewrite upd_same. reflexivity.
Qed.

Lemma only_refl w i : only_items w w i.
Proof. repeat split. now destruct (arrs w i). Qed.

Lemma only_trans a b c i : only_items a b i -> only_items b c i -> only_items a c i.
Proof.
  intros (A1 & A2 & A3 & A4) (B1 & B2 & B3 & B4). split; [congruence|split; [congruence|split]].
  - intros j N. rewrite B3, A3; auto.
  - rewrite B4, A4. reflexivity.
Qed.

Lemma kind_eqb_neq a b : kind_eqb a b = false <-> a <> b.
Proof. rewrite <- (kind_eqb_eq a b). destruct (kind_eqb a b); split; congruence. Qed.

Lemma set_item_same w i k a : typed w -> any_ok a -> k < length (avals (arrs w i)) -> atype a = ak (arrs w i) ->
  arr_set_any w i k a = done (set_arr w i (with_vals (arrs w i) (put_nth k (item_of (ac (arrs w i)) a) (avals (arrs w i))))).
Proof.
  intros T A L E. unfold arr_set_any. cbv zeta.
  rewrite (proj2 (Nat.ltb_lt _ _) L), (proj2 (kind_eqb_eq _ _) E), andb_false_r.
  now rewrite (from_any_same _ (ak (arrs w i)) a (proj1 (proj2 T i)) A E).
Qed.

Lemma set_values_from_ok i vs : Forall any_ok vs -> forall w pre post, typed w -> avals (arrs w i) = pre ++ post -> length vs = length post ->
  exists w', only_items w w' i /\
    avals (arrs w' i) = pre ++ map (item_of (ac (arrs w i))) (firstn (leading (ak (arrs w i)) vs) vs) ++ skipn (leading (ak (arrs w i)) vs) post /\
    arr_set_values_from w i (length pre) vs =
      if leading (ak (arrs w i)) vs =? length vs then done w' else throw w' InvalidArrayValue.
Proof.
  induction 1 as [|v vs A F IH]; intros w pre post T E L.
  - exists w. destruct post; [|discriminate]. split; [apply only_refl|]. split; [exact E|reflexivity].
  - destruct post as [|p post]; [discriminate|]. cbn [leading arr_set_values_from].
    destruct (kind_eqb (atype v) (ak (arrs w i))) eqn:K.
    + apply kind_eqb_eq in K.
      assert (LT : length pre < length (avals (arrs w i))) by (rewrite E, app_length; cbn; lia).
      rewrite (set_item_same w i (length pre) v T A LT K). cbn [andthen done].
      set (c := ac (arrs w i)) in *. set (w1 := set_arr w i _).
      assert (E1 : arrs w1 i = with_vals (arrs w i) ((pre ++ [item_of c v]) ++ post)).
      { unfold w1. cbn. rewrite upd_same, E, put_nth_mid by reflexivity. now rewrite <- app_assoc. }
      assert (T1 : typed w1).
      { eapply (arr_set_good w i (length pre) v w1 (Ok tt) T A). now rewrite (set_item_same w i (length pre) v T A LT K). }
      destruct (IH w1 (pre ++ [item_of c v]) post T1) as (w' & O & V & R).
      { now rewrite E1. }
      { cbn in L. lia. }
      exists w'. split; [eapply only_trans; [apply with_vals_only|exact O]|].
      rewrite E1 in V, R. cbn [ak ac with_vals] in V, R. rewrite app_length in R. cbn [length] in R. rewrite Nat.add_1_r in R.
      cbn [Nat.eqb length firstn skipn map]. split; [|exact R].
      rewrite V. rewrite <- app_assoc. reflexivity.
    + exists w. split; [apply only_refl|]. split; [exact E|reflexivity].
Qed.

Lemma get_ok w i k p : typed w -> nth_error (avals (arrs w i)) k = Some p -> arr_get w i k = Ok (Any (ak (arrs w i)) p).
Proof.
  intros T N. unfold arr_get. rewrite N. destruct (proj2 T i) as [K V].
  rewrite Forall_forall in V. now rewrite (to_any_ok _ _ _ K (V p (nth_error_In _ _ N))).
Qed.

Lemma get_from_ok w i : typed w -> forall l pre, avals (arrs w i) = pre ++ l ->
  arr_get_from w i (seq (length pre) (length l)) = Ok (map (Any (ak (arrs w i))) l).
Proof.
  intros T. induction l as [|p l IH]; intros pre E; [reflexivity|]. cbn [length seq arr_get_from map].
  assert (N : nth_error (avals (arrs w i)) (length pre) = Some p).
  { rewrite E, nth_error_app2, Nat.sub_diag by lia. reflexivity. }
  rewrite (get_ok w i _ p T N). cbn [bind].
  specialize (IH (pre ++ [p])). rewrite app_length, Nat.add_1_r, <- app_assoc in IH. rewrite (IH E). reflexivity.
Qed.

Lemma get_values_ok w i : typed w -> arr_get_values w i (length (avals (arrs w i))) = Ok (map (Any (ak (arrs w i))) (avals (arrs w i))).
Proof. intros T. unfold arr_get_values. rewrite Nat.eqb_refl. now apply (get_from_ok w i T _ []). Qed.

Lemma leading_le k vs : leading k vs <= length vs.
Proof. induction vs as [|a vs IH]; cbn; [lia|]. destruct (kind_eqb _ _); cbn; lia. Qed.

Lemma leading_full k vs : leading k vs = length vs -> Forall (fun a => atype a = k) vs.
Proof.
  induction vs as [|a vs IH]; cbn; [constructor|]. destruct (kind_eqb _ _) eqn:E; [|discriminate].
  intros H. injection H as H. constructor; [now apply kind_eqb_eq|auto].
Qed.

(** * Anonymous arrays *)

Lemma anon_set_in w i k a : plain (ac (arrs w i)) -> k < length (avals (arrs w i)) ->
  anon_set w i k a = match from_any (ac (arrs w i)) a with
                     | Ok p => done (set_arr w i (with_vals (arrs w i) (put_nth k p (avals (arrs w i)))))
                     | Throw _ => throw w BadAny
                     | UB => (w, UB)
                     end.
Proof.
  intros P L. unfold anon_set. cbv zeta. rewrite (proj2 (Nat.ltb_lt _ _) L).
  destruct (ac (arrs w i)) eqn:C; try reflexivity. now destruct (P n).
Qed.

Lemma anon_from_ok i vs : forall w pre post, plain (ac (arrs w i)) ->
  avals (arrs w i) = pre ++ post -> length vs = length post ->
  exists w' ps, only_items w w' i /\
    Forall2 (fun a p => from_any (ac (arrs w i)) a = Ok p) (firstn (length ps) vs) ps /\
    avals (arrs w' i) = pre ++ ps ++ skipn (length ps) post /\
    ((length ps = length vs /\ anon_set_from w i (length pre) vs = done w') \/
     (exists a e, nth_error vs (length ps) = Some a /\ from_any (ac (arrs w i)) a = Throw e /\
        anon_set_from w i (length pre) vs = throw w' BadAny) \/
     (exists a, nth_error vs (length ps) = Some a /\ from_any (ac (arrs w i)) a = UB /\
        anon_set_from w i (length pre) vs = (w', UB))).
Proof.
  induction vs as [|v vs IH]; intros w pre post P E L.
  - destruct post; [|discriminate]. exists w, []. split; [apply only_refl|]. split; [constructor|].
    split; [exact E|]. left. split; reflexivity.
  - destruct post as [|p post]; [discriminate|]. cbn [anon_set_from].
    assert (LT : length pre < length (avals (arrs w i))) by (rewrite E, app_length; cbn; lia).
    rewrite (anon_set_in w i (length pre) v P LT).
    destruct (from_any (ac (arrs w i)) v) as [q|e|] eqn:F; cbn [andthen done throw].
    + set (w1 := set_arr w i _).
      assert (E1 : arrs w1 i = with_vals (arrs w i) ((pre ++ [q]) ++ post)).
      { unfold w1. cbn. rewrite upd_same, E, put_nth_mid by reflexivity. now rewrite <- app_assoc. }
      destruct (IH w1 (pre ++ [q]) post) as (w' & ps & O & A & V & R).
      { now rewrite E1. }
      { now rewrite E1. }
      { cbn in L. lia. }
      rewrite E1 in A, R. cbn [ac with_vals] in A, R. rewrite app_length in R. cbn [length] in R. rewrite Nat.add_1_r in R.
      exists w', (q :: ps). split; [eapply only_trans; [apply with_vals_only|exact O]|].
      split; [cbn [length firstn]; now constructor|]. split; [rewrite V, <- app_assoc; reflexivity|].
      cbn [length nth_error]. destruct R as [[R1 R2]|[R|R]]; [left; split; [congruence|exact R2]|right; left; exact R|right; right; exact R].
    + exists w, []. split; [apply only_refl|]. split; [constructor|]. split; [exact E|]. right; left. exists v, e. auto.
    + exists w, []. split; [apply only_refl|]. split; [constructor|]. split; [exact E|]. right; right. exists v. auto.
Qed.

Lemma converted_values c l ps : Forall any_ok l -> Forall2 (fun a p => from_any c a = Ok p) l ps ->
  Forall2 (fun a p => from_any c a = Ok p /\ value_of c p) l ps.
Proof.
  intros F A. induction A as [|a p l ps H A IH]; [constructor|]. inversion F as [|? ? H1 H2]; subst.
  constructor; [|exact (IH H2)]. split; [exact H|]. eapply from_any_value; eassumption.
Qed.

Lemma forall_firstn {A} (P : A -> Prop) n l : Forall P l -> Forall P (firstn n l).
Proof. intros F. revert n. induction F; intros [|n]; cbn; constructor; auto. Qed.
