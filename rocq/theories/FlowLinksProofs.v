(** Proofs: over any history a field is in the list of connected fields at most once. *)
From Coq Require Import ZArith List Bool Lia.
From Verif Require Import Base AnyModel AnySpec AnyProofs HelperModel HelperSpec HelperProofs
  FlowModel FlowSpec FlowProofs FlowTreeProofs.
Import ListNotations.
Local Open Scope nat_scope.

(** * Steps that change values only *)
Lemma qt_set_val : forall n w j v w' r, set_val n w j v = (w', r) -> quiet w w'.
Proof. intros n w j v w' r H. apply qt_meta. eapply set_val_meta; exact H. Qed.
Lemma qt_set_any : forall n w j v w' r, set_any n w j v = (w', r) -> quiet w w'.
Proof. intros n w j v w' r H. apply qt_meta. eapply set_any_meta; exact H. Qed.
Lemma qt_push : forall n w j ts w' r, push_with (set_val n) w j ts = (w', r) -> quiet w w'.
Proof.
  intros n w j ts w' r H.
  refine (push_R (set_val n) quiet (fun _ => True) qt_refl qt_trans _ _ _ _ _ _ (fun _ _ => I) H).
  intros. eapply qt_set_val; eassumption.
Qed.
Lemma qt_andthen : forall o k w w' r, andthen o k = (w', r) ->
  (forall w1 q, o = (w1, q) -> quiet w w1) ->
  (forall w1 w2 q, k w1 = (w2, q) -> quiet w1 w2) -> quiet w w'.
Proof.
  intros o k w w' r H Ho Hk. apply andthen_inv in H as [(w1 & H1 & H2)|(H1 & _)].
  - eapply qt_trans; [eapply Ho; exact H1|eapply Hk; exact H2].
  - eapply Ho; exact H1.
Qed.
Lemma qt_noexc : forall o w w' r, noexc o = (w', r) -> (forall w1 q, o = (w1, q) -> quiet w w1) -> quiet w w'.
Proof.
  intros [w1 q] w w' r H Ho. destruct q as [[]|e|]; simpl in H; injection H as <- _; eapply Ho; reflexivity.
Qed.
Lemma qt_set_leaf : forall w j f, lconn f = lconn (leafs w j) -> ltargets f = ltargets (leafs w j) ->
  quiet w (set_leaf w j f).
Proof.
  intros w j f E F. split; [split; [|reflexivity]|].
  - intros i. simpl. destruct (Nat.eq_dec i j) as [->|N]; [now rewrite upd_same|now rewrite upd_other].
  - intros [c i]. unfold links. simpl. destruct c; try reflexivity.
    destruct (Nat.eq_dec i j) as [->|N]; [now rewrite upd_same|now rewrite upd_other].
Qed.
Lemma qt_set_arr : forall w j f, aconn f = aconn (arrs w j) -> atargets f = atargets (arrs w j) ->
  quiet w (set_arr w j f).
Proof.
  intros w j f E F. split; [split; [reflexivity|]|].
  - intros i. simpl. destruct (Nat.eq_dec i j) as [->|N]; [now rewrite upd_same|now rewrite upd_other].
  - intros [c i]. unfold links. simpl. destruct c; try reflexivity.
    destruct (Nat.eq_dec i j) as [->|N]; [now rewrite upd_same|now rewrite upd_other].
Qed.
Lemma qt_arr_push_to : forall ts w j k w' r, arr_push_to w j k ts = (w', r) -> quiet w w'.
Proof.
  induction ts as [|t ts IH]; intros w j k w' r H; simpl in H.
  - injection H as <- _. apply qt_refl.
  - destruct (nth_error _ _); [|injection H as <- _; apply qt_refl].
    destruct (to_any _ _ _); try (injection H as <- _; apply qt_refl).
    eapply qt_andthen; [exact H|..].
    + intros. eapply qt_arr_set_any; eassumption.
    + intros ? ? ? E. cbn beta in E. eapply IH; eassumption.
Qed.
Lemma qt_arr_push_items : forall ks w j w' r, arr_push_items w j ks = (w', r) -> quiet w w'.
Proof.
  induction ks as [|k ks IH]; intros w j w' r H; simpl in H.
  - injection H as <- _. apply qt_refl.
  - eapply qt_andthen; [exact H|..].
    + intros. eapply qt_arr_push_to; eassumption.
    + intros ? ? ? E. cbn beta in E. eapply IH; eassumption.
Qed.
Lemma qt_values_from : forall vs w j k w' r, arr_set_values_from w j k vs = (w', r) -> quiet w w'.
Proof.
  induction vs as [|v vs IH]; intros w j k w' r H; simpl in H.
  - injection H as <- _. apply qt_refl.
  - destruct (kind_eqb _ _); [|injection H as <- _; apply qt_refl].
    eapply qt_andthen; [exact H|..].
    + intros. eapply qt_arr_set_any; eassumption.
    + intros ? ? ? E. cbn beta in E. eapply IH; eassumption.
Qed.
Lemma qt_push_tree : forall n s w t w' r, push_tree n w s t = (w', r) -> quiet w w'.
Proof.
  intros n s. induction s as [j|j|j df a b l IH|j df a b l IH] using tree_ind2; intros w t w' r H.
  - simpl in H. destruct t; try (injection H as <- _; apply qt_refl).
    destruct (to_any _ _ _); try (injection H as <- _; apply qt_refl). eapply qt_set_any; eassumption.
  - simpl in H. destruct t; try (injection H as <- _; apply qt_refl). eapply qt_copy_items; exact H.
  - destruct t as [| |k df' a' b' l'|]; try (injection H as <- _; apply qt_refl). rewrite pus_arr in H.
    revert w l' w' r H. induction l as [|x l IHl]; intros w [|y l'] w' r H; simpl in H;
      try (injection H as <- _; apply qt_refl).
    inversion IH as [|u v Hx Hl]; subst. eapply qt_andthen; [exact H|..].
    + intros. eapply Hx; eassumption.
    + intros ? ? ? E. cbn beta in E. eapply IHl; eassumption.
  - destruct t as [| | |k df' a' b' l']; try (injection H as <- _; apply qt_refl). rewrite pus_str in H.
    revert w l' w' r H. induction l as [|x l IHl]; intros w [|y l'] w' r H; simpl in H;
      try (injection H as <- _; apply qt_refl).
    inversion IH as [|u v Hx Hl]; subst. eapply qt_andthen; [exact H|..].
    + intros. eapply Hx; eassumption.
    + intros ? ? ? E. cbn beta in E. eapply IHl; eassumption.
Qed.
Lemma qt_push_all : forall n s w w' r, push_all n w s = (w', r) -> quiet w w'.
Proof.
  intros n s. induction s as [j|j|j df a b l IH|j df a b l IH] using tree_ind2; intros w w' r H.
  - simpl in H. destruct (lconn _); [|injection H as <- _; apply qt_refl]. eapply qt_push; exact H.
  - simpl in H. destruct (aconn _); [|injection H as <- _; apply qt_refl]. eapply qt_arr_push_items; exact H.
  - rewrite all_arr in H. revert w w' r H. induction l as [|x l IHl]; intros w w' r H; simpl in H;
      [injection H as <- _; apply qt_refl|].
    inversion IH as [|u v Hx Hl]; subst. eapply qt_andthen; [exact H|..].
    + intros. eapply Hx; eassumption.
    + intros ? ? ? E. cbn beta in E. eapply IHl; eassumption.
  - rewrite all_str in H. revert w w' r H. induction l as [|x l IHl]; intros w w' r H; simpl in H;
      [injection H as <- _; apply qt_refl|].
    inversion IH as [|u v Hx Hl]; subst. eapply qt_andthen; [exact H|..].
    + intros. eapply Hx; eassumption.
    + intros ? ? ? E. cbn beta in E. eapply IHl; eassumption.
Qed.

(** * Connections, also the ones that end with an exception *)
Lemma connect_adds_any : forall n s w t w' r, connect_tree n w s t = (w', r) ->
  exists es rest, edges w s t = es ++ rest /\ adds es w w' /\ (r = Ok tt -> rest = []).
Proof.
  assert (Items : forall n o l, (forall w w' r, o w = (w', r) -> w' = w /\ r <> Ok tt) ->
     Forall (fun s => forall w t w' r, connect_tree n w s t = (w', r) ->
       exists es rest, edges w s t = es ++ rest /\ adds es w w' /\ (r = Ok tt -> rest = [])) l ->
     forall l' w w' r, con_items n o w l l' = (w', r) ->
       exists es rest, edges_l w l l' = es ++ rest /\ adds es w w' /\ (r = Ok tt -> rest = [])).
  { intros n o l Ho H. induction H as [|x l Hx Hl IH]; intros l' w w' r E; simpl in E.
    - destruct l'; injection E as <- <-; exists [], []; (split; [reflexivity|split; [apply ad_nil|reflexivity]]).
    - destruct l' as [|y l'].
      + apply Ho in E as [-> N]. exists [], []. split; [reflexivity|]. split; [apply ad_nil|reflexivity].
      + apply andthen_inv in E as [(w1 & E1 & E2)|(E1 & N)].
        * destruct (Hx _ _ _ _ E1) as (e1 & r1 & Q1 & A1 & K1). destruct (IH _ _ _ _ E2) as (e2 & r2 & Q2 & A2 & K2).
          rewrite (K1 eq_refl), app_nil_r in Q1.
          exists (e1 ++ e2), r2. simpl. rewrite Q1, <- (edges_l_flags w w1) by apply A1. rewrite Q2, app_assoc.
          split; [reflexivity|]. split; [eapply ad_trans; eassumption|exact K2].
        * destruct (Hx _ _ _ _ E1) as (e1 & r1 & Q1 & A1 & K1). exists e1, (r1 ++ edges_l w l l'). simpl.
          rewrite Q1, app_assoc. split; [reflexivity|]. split; [exact A1|]. intros ->. now destruct N. }
  intros n s. induction s as [j|j|j df a b l IH|j df a b l IH] using tree_ind2; intros w t w' r H.
  - simpl in *. destruct (lconn (leafs w j)) eqn:C.
    + destruct t as [k| | |]; try (injection H as <- <-; eexists [], _; split; [reflexivity|split; [apply ad_nil|discriminate]]).
      simpl. exists [((XL, j), k)], []. split; [reflexivity|]. split; [|reflexivity]. unfold connect_simple in H.
      destruct (to_any _ _ _); try (injection H as <- _; apply ad_leaf).
      eapply ad_quiet; [apply ad_leaf|]. eapply qt_set_any; exact H.
    + injection H as <- <-. exists [], []. split; [reflexivity|]. split; [apply ad_nil|reflexivity].
  - simpl in *. destruct (aconn (arrs w j)) eqn:C.
    + destruct t as [|k| |]; try (injection H as <- <-; eexists [], _; split; [reflexivity|split; [apply ad_nil|discriminate]]).
      simpl. exists [((XA, j), k)], []. split; [reflexivity|]. split; [|reflexivity]. unfold connect_sarr in H.
      eapply ad_quiet; [apply ad_sarr|]. eapply qt_copy_items; exact H.
    + injection H as <- <-. exists [], []. split; [reflexivity|]. split; [apply ad_nil|reflexivity].
  - destruct t as [k|k|k df' a' b' l'|k df' a' b' l'];
      try (injection H as <- <-; eexists [], _; split; [reflexivity|split; [apply ad_nil|discriminate]]).
    rewrite con_arr in H. rewrite edges_arr.
    set (w1 := if df then set_nconn w j (nconn w j ++ [k]) else w) in H.
    assert (A1 : adds (if df then [((XN, j), k)] else []) w w1).
    { unfold w1. destruct df; [apply ad_node|apply ad_nil]. }
    apply (Items n noidx l) in H; [|now intros ? ? ? E; injection E as <- <-|exact IH].
    destruct H as (es & rest & Q & A & K). rewrite <- (edges_l_flags w w1) by apply A1. rewrite Q, app_assoc.
    eexists _, rest. split; [reflexivity|]. split; [eapply ad_trans; eassumption|exact K].
  - destruct t as [k|k|k df' a' b' l'|k df' a' b' l'];
      try (injection H as <- <-; eexists [], _; split; [reflexivity|split; [apply ad_nil|discriminate]]).
    rewrite con_str in H. rewrite edges_str.
    set (w1 := if df then set_nconn w j (nconn w j ++ [k]) else w) in H.
    assert (A1 : adds (if df then [((XN, j), k)] else []) w w1).
    { unfold w1. destruct df; [apply ad_node|apply ad_nil]. }
    apply (Items n ub l) in H; [|now intros ? ? ? E; injection E as <- <-|exact IH].
    destruct H as (es & rest & Q & A & K). rewrite <- (edges_l_flags w w1) by apply A1. rewrite Q, app_assoc.
    eexists _, rest. split; [reflexivity|]. split; [eapply ad_trans; eassumption|exact K].
Qed.

(** * Histories *)
Definition once (w : world) : Prop := forall k, NoDup (links w k).

Lemma once_quiet : forall w w', quiet w w' -> once w -> once w'.
Proof. intros w w' (_ & E) H k. rewrite E. apply H. Qed.
Lemma once_adds : forall es w w', adds es w w' -> NoDup (map fst es) ->
  (forall k j, In (k, j) es -> ~ In j (links w k)) -> once w -> once w'.
Proof.
  intros es w w' (_ & E) ND Fr H k. rewrite E. destruct (sel k es) as [|j r] eqn:Es; [rewrite app_nil_r; apply H|].
  assert (Hin : In (k, j) es) by (apply sel_in; rewrite Es; now left).
  rewrite (sel_nodup _ k j ND Hin) in Es. injection Es as <-.
  pose proof (Fr k j Hin) as N. pose proof (H k) as Hk. clear - N Hk.
  induction Hk as [|x l Nx Hl IH]; simpl; [repeat constructor; auto|].
  constructor; [|apply IH; intros G; apply N; now right].
  intros G. apply in_app_or in G as [G|[<-|[]]]; [contradiction|apply N; now left].
Qed.
Lemma once_disconnect : forall s t w, once w -> once (disconnect w s t).
Proof.
  assert (Rm : forall j l, NoDup l -> NoDup (remove_first j l)).
  { assert (Sub : forall j l x, In x (remove_first j l) -> In x l).
    { intros j l. induction l as [|y l IH]; simpl; [auto|]. intros x. destruct (Nat.eqb y j); simpl; [auto|]. intros [|]; auto. }
    intros j l H. induction H as [|y l N H IH]; simpl; [constructor|]. destruct (Nat.eqb y j); [assumption|].
    constructor; [|assumption]. intros G. now apply Sub in G. }
  assert (Cut : forall k j w w', cut [(k, j)] w w' -> once w -> once w').
  { intros k j w w' (_ & _ & E) H q. rewrite E, sel_one. destruct (key_eqb k q); simpl; [apply Rm|]; apply H. }
  assert (Items : forall l, Forall (fun s => forall t w, once w -> once (disconnect w s t)) l ->
    forall l' w, once w -> once (dis_items w l l')).
  { intros l H. induction H as [|x l Hx Hl IH]; intros [|y l'] w O; simpl; auto. }
  intros s. induction s as [i|i|i df a b l IH|i df a b l IH] using tree_ind2; intros t w O.
  - simpl. destruct t; auto. destruct (lconn _); [|exact O]. eapply Cut; [apply cut_leaf|exact O].
  - simpl. destruct t; auto. destruct (aconn _); [|exact O]. eapply Cut; [apply cut_sarr|exact O].
  - destruct t; auto. rewrite dis_arr. destruct (_ && _); [exact O|]. apply Items; [exact IH|].
    destruct df; [|exact O]. eapply Cut; [apply cut_node|exact O].
  - destruct t; auto. rewrite dis_str. destruct (_ && _); [exact O|]. apply Items; [exact IH|].
    destruct df; [|exact O]. eapply Cut; [apply cut_node|exact O].
Qed.

Lemma once_linked : forall w, once w <-> linked_once w.
Proof.
  intros w. split.
  - intros H. split; [|split]; intros i; [apply (H (XL, i))|apply (H (XA, i))|apply (H (XN, i))].
  - intros (H1 & H2 & H3) [c i]. unfold links. simpl. destruct c; auto.
Qed.

Lemma once_step : forall n w o w' r, distinct_parts o -> fstep n w o = (w', r) -> once w -> once w'.
Proof.
  intros n w o w' r Dp H. destruct o; simpl in H, Dp.
  - apply once_quiet. eapply qt_set_any; exact H.
  - apply once_quiet. eapply qt_noexc; [exact H|]. intros. eapply qt_set_val; eassumption.
  - apply once_quiet. eapply qt_push; exact H.
  - apply once_quiet. unfold force in H. eapply qt_trans; [apply (qt_set_leaf w i (with_forced (leafs w i) false)); reflexivity|].
    eapply qt_andthen; [exact H|intros; eapply qt_set_any; eassumption|].
    intros w1 w2 q E. injection E as <- _. apply qt_set_leaf; reflexivity.
  - apply once_quiet. injection H as <- _. apply qt_set_leaf; reflexivity.
  - apply once_quiet. injection H as <- _. apply qt_set_leaf; reflexivity.
  - apply once_quiet. injection H as <- _. apply qt_set_leaf; destruct (lforcible _); reflexivity.
  - unfold connect in H. destruct (_ || _) eqn:E; [injection H as <- _; auto|].
    destruct (can_connect w s t) eqn:C; [|injection H as <- _; auto]. simpl in H.
    destruct (proj2 (acceptable_checks w s t) (conj E C)) as [(_ & _ & _ & _ & Fr) _].
    destruct (connect_adds_any _ _ _ _ _ _ H) as (es & rest & Q & A & _).
    pose proof (edges_nodup w s t Dp) as ND. rewrite Q, map_app in ND. apply NoDup_app_parts in ND as (ND & _).
    apply (once_adds es); [exact A|exact ND|]. intros k j Hin.
    assert (Hin2 : In (k, j) (edges w s t)) by (rewrite Q; apply in_or_app; now left).
    apply edges_parts in Hin2 as (x & y & Px & Kx & -> & ->). rewrite <- linked_links. now apply Fr.
  - injection H as <- _. apply once_disconnect.
  - apply once_quiet. eapply qt_arr_set_any; exact H.
  - apply once_quiet. unfold arr_assign in H. destruct (_ <? _); [|injection H as <- _; apply qt_refl].
    eapply qt_noexc; [exact H|]. intros w1 q E.
    eapply qt_trans; [apply (qt_set_arr w i (with_vals (arrs w i) (put_nth k v (avals (arrs w i))))); reflexivity|].
    destruct (aconn _); [eapply qt_arr_push_to; exact E|injection E as <- _; apply qt_refl].
  - apply once_quiet. eapply qt_arr_push_items; exact H.
  - apply once_quiet. unfold arr_set_values in H. destruct (Nat.eqb _ _); [|injection H as <- _; apply qt_refl].
    eapply qt_values_from; exact H.
  - apply once_quiet. eapply qt_push_all; exact H.
  - unfold pub_connect in H. destruct (absent (pub_targets w s) (tid t)) eqn:Ab; simpl in H; [|injection H as <- _; auto].
    destruct (_ || _); [injection H as <- _; auto|]. apply absent_true in Ab.
    intros O. apply (once_quiet (pub_add w s (tid t))); [eapply qt_push_tree; exact H|].
    assert (A : adds [(tkey s, tid t)] w (pub_add w s (tid t))).
    { destruct s; simpl; [apply ad_leaf|apply ad_sarr|apply ad_node|apply ad_node]. }
    eapply once_adds; [exact A|simpl; repeat constructor; auto| |exact O].
    intros k j [E|[]]. injection E as <- <-. destruct s; exact Ab.
Qed.
Lemma once_run : forall n os w w', Forall distinct_parts os -> frun n w os = Some w' -> once w -> once w'.
Proof.
  intros n os. induction os as [|o os IH]; intros w w' F H O; simpl in H; [now injection H as <-|].
  inversion F as [|u v Fo Fr]; subst.
  destruct (fstep n w o) as [w1 [[]|e|]] eqn:E; [|destruct e; try discriminate H|discriminate H];
    (eapply IH; [exact Fr|exact H|eapply once_step; eassumption]).
Qed.
