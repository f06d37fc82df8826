(** Proofs about connections of fields and about histories. *)
From Coq Require Import ZArith List Bool Lia Relations.
From Verif Require Import Base AnyModel AnySpec AnyProofs HelperModel HelperSpec HelperProofs
  FlowModel FlowSpec FlowProofs.
Import ListNotations.
Local Open Scope nat_scope.

(** * Induction over trees *)
Section TreeInd.
  Variable P : tree -> Prop.
  Hypothesis Hs : forall i, P (TSimple i).
  Hypothesis Ha : forall i, P (TSArr i).
  Hypothesis Hl : forall i df a b l, Forall P l -> P (TArr i df a b l).
  Hypothesis Ht : forall i df a b l, Forall P l -> P (TStr i df a b l).
  Fixpoint tree_ind2 (t : tree) : P t :=
    match t with
    | TSimple i => Hs i
    | TSArr i => Ha i
    | TArr i df a b l =>
        Hl i df a b l ((fix go (l : list tree) : Forall P l :=
          match l with [] => Forall_nil P | x :: r => Forall_cons x (tree_ind2 x) (go r) end) l)
    | TStr i df a b l =>
        Ht i df a b l ((fix go (l : list tree) : Forall P l :=
          match l with [] => Forall_nil P | x :: r => Forall_cons x (tree_ind2 x) (go r) end) l)
    end.
End TreeInd.

(** The loops over items, by name. *)
Section Items.
Variable wc : world.
Fixpoint can_items (l l' : list tree) : bool :=
  match l, l' with
  | x :: r, y :: r' => can_connect wc x y && can_items r r'
  | [], _ => true
  | _, [] => false
  end.
Variable n : nat.
Variable o : world -> out.
Fixpoint con_items (w : world) (l l' : list tree) : out :=
  match l, l' with
  | x :: r, y :: r' => andthen (connect_tree n w x y) (fun w' => con_items w' r r')
  | [], _ => done w
  | _, [] => o w
  end.
Fixpoint dis_items (w : world) (l l' : list tree) : world :=
  match l, l' with
  | x :: r, y :: r' => dis_items (disconnect w x y) r r'
  | _, _ => w
  end.
Fixpoint pus_items (w : world) (l l' : list tree) : out :=
  match l, l' with
  | x :: r, y :: r' => andthen (push_tree n w x y) (fun w' => pus_items w' r r')
  | [], _ => done w
  | _, [] => o w
  end.
Fixpoint all_items (w : world) (l : list tree) : out :=
  match l with
  | [] => done w
  | x :: r => andthen (push_all n w x) (fun w' => all_items w' r)
  end.
End Items.

Definition ub (w : world) : out := (w, UB).
Definition noidx (w : world) : out := throw w InvalidArrayIndex.

Lemma can_arr : forall w i df a b l j df' a' b' l',
  can_connect w (TArr i df a b l) (TArr j df' a' b' l') =
  (if df then absent (nconn w i) j else true) && can_items w l l'.
Proof. reflexivity. Qed.
Lemma can_str : forall w i df a b l j df' a' b' l',
  can_connect w (TStr i df a b l) (TStr j df' a' b' l') =
  (if df then absent (nconn w i) j else true) && Nat.eqb (length l) (length l') && can_items w l l'.
Proof. reflexivity. Qed.
Lemma con_arr : forall n w i df a b l j df' a' b' l',
  connect_tree n w (TArr i df a b l) (TArr j df' a' b' l') =
  con_items n noidx (if df then set_nconn w i (nconn w i ++ [j]) else w) l l'.
Proof. reflexivity. Qed.
Lemma con_str : forall n w i df a b l j df' a' b' l',
  connect_tree n w (TStr i df a b l) (TStr j df' a' b' l') =
  con_items n ub (if df then set_nconn w i (nconn w i ++ [j]) else w) l l'.
Proof. reflexivity. Qed.
Lemma dis_arr : forall w i df a b l j df' a' b' l',
  disconnect w (TArr i df a b l) (TArr j df' a' b' l') =
  if df && absent (nconn w i) j then w
  else dis_items (if df then set_nconn w i (remove_first j (nconn w i)) else w) l l'.
Proof. reflexivity. Qed.
Lemma dis_str : forall w i df a b l j df' a' b' l',
  disconnect w (TStr i df a b l) (TStr j df' a' b' l') =
  if df && absent (nconn w i) j then w
  else dis_items (if df then set_nconn w i (remove_first j (nconn w i)) else w) l l'.
Proof. reflexivity. Qed.
Lemma pus_arr : forall n w i df a b l j df' a' b' l',
  push_tree n w (TArr i df a b l) (TArr j df' a' b' l') = pus_items n noidx w l l'.
Proof. reflexivity. Qed.
Lemma pus_str : forall n w i df a b l j df' a' b' l',
  push_tree n w (TStr i df a b l) (TStr j df' a' b' l') = pus_items n ub w l l'.
Proof. reflexivity. Qed.
Lemma all_arr : forall n w i df a b l, push_all n w (TArr i df a b l) = all_items n w l.
Proof. reflexivity. Qed.
Lemma all_str : forall n w i df a b l, push_all n w (TStr i df a b l) = all_items n w l.
Proof. reflexivity. Qed.

(** * Forced fields in histories *)

Section Hist.
  Variable i : nat.
  (** If [i] is forced it stays so and keeps its value. *)
  Definition stays (w w' : world) : Prop :=
    is_forced w i -> is_forced w' i /\ lval (leafs w' i) = lval (leafs w i).

  Lemma st_refl : forall w, stays w w.
  Proof. now split. Qed.
  Lemma st_trans : forall a b c, stays a b -> stays b c -> stays a c.
  Proof.
    intros a b c H G F. destruct (H F) as (F1 & E1). destruct (G F1) as (F2 & E2).
    split; [exact F2|congruence].
  Qed.

  Lemma st_set_val : forall n w j v w' r, set_val n w j v = (w', r) -> stays w w'.
  Proof.
    intros n w j v w' r H F. destruct (set_val_forced _ _ _ _ _ _ H) as (M & K).
    split; [now apply (sm_forced w w')|now rewrite K].
  Qed.

  Lemma st_set_any : forall n w j a w' r, set_any n w j a = (w', r) -> stays w w'.
  Proof.
    intros n w j a w' r H.
    refine (set_any_R (set_val n) stays (fun _ => True) st_refl _ _ _ _ _ _ I H).
    intros. eapply st_set_val; eassumption.
  Qed.

  Lemma st_push : forall n w j ts w' r, push_with (set_val n) w j ts = (w', r) -> stays w w'.
  Proof.
    intros n w j ts w' r H.
    refine (push_R (set_val n) stays (fun _ => True) st_refl st_trans _ _ _ _ _ _ (fun _ _ => I) H).
    intros. eapply st_set_val; eassumption.
  Qed.

  Lemma st_andthen : forall o k w w' r, andthen o k = (w', r) ->
    (forall w1 q, o = (w1, q) -> stays w w1) ->
    (forall w1 w2 q, k w1 = (w2, q) -> stays w1 w2) -> stays w w'.
  Proof.
    intros o k w w' r H Ho Hk. apply andthen_inv in H as [(w1 & H1 & H2)|(H1 & _)].
    - eapply st_trans; [eapply Ho; exact H1|eapply Hk; exact H2].
    - eapply Ho; exact H1.
  Qed.

  Lemma st_leafs : forall w w', leafs w' = leafs w -> stays w w'.
  Proof. intros w w' E F. unfold is_forced. rewrite E. now split. Qed.

  Lemma st_set_leaf : forall w j f,
    (j = i -> lforcible f = lforcible (leafs w i) /\ lforced f = lforced (leafs w i) /\
              lval f = lval (leafs w i)) -> stays w (set_leaf w j f).
  Proof.
    intros w j f H F. unfold is_forced in *. simpl.
    destruct (Nat.eq_dec i j) as [->|N].
    - rewrite upd_same. destruct (H eq_refl) as (E1 & E2 & E3). rewrite E1, E2, E3. now split.
    - rewrite upd_other by assumption. now split.
  Qed.

  Lemma arr_set_any_leafs : forall w j k a w' r, arr_set_any w j k a = (w', r) -> leafs w' = leafs w.
  Proof.
    intros w j k a w' r H. unfold arr_set_any in H.
    destruct (_ <? _); [|now injection H as <- _].
    destruct (_ && _); [now injection H as <- _|].
    destruct (from_any _ _); now injection H as <- _.
  Qed.
  Lemma st_arr_set_any : forall w j k a w' r, arr_set_any w j k a = (w', r) -> stays w w'.
  Proof. intros. apply st_leafs. eapply arr_set_any_leafs; eassumption. Qed.

  Lemma st_arr_push_to : forall ts w j k w' r, arr_push_to w j k ts = (w', r) -> stays w w'.
  Proof.
    induction ts as [|t ts IH]; intros w j k w' r H; simpl in H.
    - injection H as <- _. apply st_refl.
    - destruct (nth_error _ _); [|injection H as <- _; apply st_refl].
      destruct (to_any _ _ _); try (injection H as <- _; apply st_refl).
      eapply st_andthen; [exact H|..].
      + intros. eapply st_arr_set_any; eassumption.
      + intros ? ? ? E. cbn beta in E. eapply IH; eassumption.
  Qed.

  Lemma st_copy_items : forall ks w j k w' r, copy_items w j k ks = (w', r) -> stays w w'.
  Proof.
    induction ks as [|k0 ks IH]; intros w j k w' r H; simpl in H.
    - injection H as <- _. apply st_refl.
    - destruct (nth_error _ _); [|injection H as <- _; apply st_refl].
      destruct (to_any _ _ _); try (injection H as <- _; apply st_refl).
      eapply st_andthen; [exact H|..].
      + intros. eapply st_arr_set_any; eassumption.
      + intros ? ? ? E. cbn beta in E. eapply IH; eassumption.
  Qed.

  Lemma st_arr_push_items : forall ks w j w' r, arr_push_items w j ks = (w', r) -> stays w w'.
  Proof.
    induction ks as [|k ks IH]; intros w j w' r H; simpl in H.
    - injection H as <- _. apply st_refl.
    - eapply st_andthen; [exact H|..].
      + intros. eapply st_arr_push_to; eassumption.
      + intros ? ? ? E. cbn beta in E. eapply IH; eassumption.
  Qed.

  Lemma st_values_from : forall vs w j k w' r, arr_set_values_from w j k vs = (w', r) -> stays w w'.
  Proof.
    induction vs as [|v vs IH]; intros w j k w' r H; simpl in H.
    - injection H as <- _. apply st_refl.
    - destruct (kind_eqb _ _); [|injection H as <- _; apply st_refl].
      eapply st_andthen; [exact H|..].
      + intros. eapply st_arr_set_any; eassumption.
      + intros ? ? ? E. cbn beta in E. eapply IH; eassumption.
  Qed.

  Lemma st_noexc : forall o w w' r, noexc o = (w', r) ->
    (forall w1 q, o = (w1, q) -> stays w w1) -> stays w w'.
  Proof.
    intros [w1 q] w w' r H Ho. destruct q as [[]|e|]; simpl in H; injection H as <- _; eapply Ho; reflexivity.
  Qed.

  Lemma st_connect_simple : forall n w j k w' r, connect_simple n w j k = (w', r) -> stays w w'.
  Proof.
    intros n w j k w' r H. unfold connect_simple in H.
    set (w1 := set_leaf w j (with_targets (leafs w j) (ltargets (leafs w j) ++ [k]))) in H.
    assert (S1 : stays w w1).
    { apply st_set_leaf. intros ->. repeat split. }
    destruct (to_any _ _ _); try (injection H as <- _; exact S1).
    eapply st_trans; [exact S1|]. eapply st_set_any; eassumption.
  Qed.

  Lemma st_connect_tree : forall n s w t w' r, connect_tree n w s t = (w', r) -> stays w w'.
  Proof.
    intros n s. induction s as [j|j|j df a b l IH|j df a b l IH] using tree_ind2; intros w t w' r H.
    - simpl in H. destruct (lconn _); [|injection H as <- _; apply st_refl].
      destruct t; try (injection H as <- _; apply st_refl). eapply st_connect_simple; eassumption.
    - simpl in H. destruct (aconn _); [|injection H as <- _; apply st_refl].
      destruct t; try (injection H as <- _; apply st_refl). unfold connect_sarr in H.
      eapply st_trans; [|eapply st_copy_items; exact H]. now apply st_leafs.
    - destruct t as [| |k df' a' b' l'|]; try (injection H as <- _; apply st_refl). rewrite con_arr in H.
      eapply st_trans; [apply (st_leafs w (if df then set_nconn w j (nconn w j ++ [k]) else w)); now destruct df|].
      revert H. generalize (if df then set_nconn w j (nconn w j ++ [k]) else w). clear w.
      revert l' w' r. induction l as [|x l IHl]; intros [|y l'] w' r w H; simpl in H;
        try (injection H as <- _; apply st_refl).
      inversion IH as [|u v Hx Hl]; subst. eapply st_andthen; [exact H|..].
      + intros. eapply Hx; eassumption.
      + intros ? ? ? E. cbn beta in E. eapply IHl; eassumption.
    - destruct t as [| | |k df' a' b' l']; try (injection H as <- _; apply st_refl). rewrite con_str in H.
      eapply st_trans; [apply (st_leafs w (if df then set_nconn w j (nconn w j ++ [k]) else w)); now destruct df|].
      revert H. generalize (if df then set_nconn w j (nconn w j ++ [k]) else w). clear w.
      revert l' w' r. induction l as [|x l IHl]; intros [|y l'] w' r w H; simpl in H;
        try (injection H as <- _; apply st_refl).
      inversion IH as [|u v Hx Hl]; subst. eapply st_andthen; [exact H|..].
      + intros. eapply Hx; eassumption.
      + intros ? ? ? E. cbn beta in E. eapply IHl; eassumption.
  Qed.

  Lemma st_push_tree : forall n s w t w' r, push_tree n w s t = (w', r) -> stays w w'.
  Proof.
    intros n s. induction s as [j|j|j df a b l IH|j df a b l IH] using tree_ind2; intros w t w' r H.
    - simpl in H. destruct t; try (injection H as <- _; apply st_refl).
      destruct (to_any _ _ _); try (injection H as <- _; apply st_refl). eapply st_set_any; eassumption.
    - simpl in H. destruct t; try (injection H as <- _; apply st_refl). eapply st_copy_items; exact H.
    - destruct t as [| |k df' a' b' l'|]; try (injection H as <- _; apply st_refl). rewrite pus_arr in H.
      revert w l' w' r H. induction l as [|x l IHl]; intros w [|y l'] w' r H; simpl in H;
        try (injection H as <- _; apply st_refl).
      inversion IH as [|u v Hx Hl]; subst. eapply st_andthen; [exact H|..].
      + intros. eapply Hx; eassumption.
      + intros ? ? ? E. cbn beta in E. eapply IHl; eassumption.
    - destruct t as [| | |k df' a' b' l']; try (injection H as <- _; apply st_refl). rewrite pus_str in H.
      revert w l' w' r H. induction l as [|x l IHl]; intros w [|y l'] w' r H; simpl in H;
        try (injection H as <- _; apply st_refl).
      inversion IH as [|u v Hx Hl]; subst. eapply st_andthen; [exact H|..].
      + intros. eapply Hx; eassumption.
      + intros ? ? ? E. cbn beta in E. eapply IHl; eassumption.
  Qed.

  Lemma st_push_all : forall n s w w' r, push_all n w s = (w', r) -> stays w w'.
  Proof.
    intros n s. induction s as [j|j|j df a b l IH|j df a b l IH] using tree_ind2; intros w w' r H.
    - simpl in H. destruct (lconn _); [|injection H as <- _; apply st_refl]. eapply st_push; exact H.
    - simpl in H. destruct (aconn _); [|injection H as <- _; apply st_refl]. eapply st_arr_push_items; exact H.
    - rewrite all_arr in H. revert w w' r H. induction l as [|x l IHl]; intros w w' r H; simpl in H;
        [injection H as <- _; apply st_refl|].
      inversion IH as [|u v Hx Hl]; subst. eapply st_andthen; [exact H|..].
      + intros. eapply Hx; eassumption.
      + intros ? ? ? E. cbn beta in E. eapply IHl; eassumption.
    - rewrite all_str in H. revert w w' r H. induction l as [|x l IHl]; intros w w' r H; simpl in H;
        [injection H as <- _; apply st_refl|].
      inversion IH as [|u v Hx Hl]; subst. eapply st_andthen; [exact H|..].
      + intros. eapply Hx; eassumption.
      + intros ? ? ? E. cbn beta in E. eapply IHl; eassumption.
  Qed.

  Lemma st_disconnect : forall s w t, stays w (disconnect w s t).
  Proof.
    intros s. induction s as [j|j|j df a b l IH|j df a b l IH] using tree_ind2; intros w t.
    - simpl. destruct t; try apply st_refl. destruct (lconn _); [|apply st_refl].
      apply st_set_leaf. intros ->. repeat split.
    - simpl. destruct t; try apply st_refl. destruct (aconn _); [|apply st_refl]. now apply st_leafs.
    - destruct t as [| |k df' a' b' l'|]; try apply st_refl. rewrite dis_arr.
      destruct (_ && _); [apply st_refl|].
      eapply st_trans; [apply (st_leafs w (if df then set_nconn w j (remove_first k (nconn w j)) else w)); now destruct df|].
      generalize (if df then set_nconn w j (remove_first k (nconn w j)) else w). clear w.
      revert l'. induction l as [|x l IHl]; intros [|y l'] w; simpl; try apply st_refl.
      inversion IH as [|u v Hx Hl]; subst. eapply st_trans; [apply Hx|]. now apply IHl.
    - destruct t as [| | |k df' a' b' l']; try apply st_refl. rewrite dis_str.
      destruct (_ && _); [apply st_refl|].
      eapply st_trans; [apply (st_leafs w (if df then set_nconn w j (remove_first k (nconn w j)) else w)); now destruct df|].
      generalize (if df then set_nconn w j (remove_first k (nconn w j)) else w). clear w.
      revert l'. induction l as [|x l IHl]; intros [|y l'] w; simpl; try apply st_refl.
      inversion IH as [|u v Hx Hl]; subst. eapply st_trans; [apply Hx|]. now apply IHl.
  Qed.

  Lemma st_pub_add : forall w s j, stays w (pub_add w s j).
  Proof.
    intros w s j. destruct s as [k|k|k df a b l|k df a b l]; simpl; try now apply st_leafs.
    apply st_set_leaf. intros ->. repeat split.
  Qed.

  Lemma st_step : forall n w o w' r, fstep n w o = (w', r) -> ~ unforces i o -> stays w w'.
  Proof.
    intros n w o w' r H U. destruct o; simpl in H, U.
    - eapply st_set_any; exact H.
    - eapply st_noexc; [exact H|]. intros. eapply st_set_val; eassumption.
    - eapply st_push; exact H.
    - unfold force in H.
      assert (S0 : stays w (set_leaf w i0 (with_forced (leafs w i0) false))).
      { apply st_set_leaf. intros ->. now destruct U. }
      eapply st_trans; [exact S0|]. eapply st_andthen; [exact H|..].
      + intros. eapply st_set_any; eassumption.
      + intros w1 w2 q E. injection E as <- _. apply st_set_leaf. intros ->. now destruct U.
    - injection H as <- _. unfold unforce. apply st_set_leaf. intros ->. now destruct U.
    - injection H as <- _. unfold freeze. intros F. unfold is_forced in *. simpl.
      destruct (Nat.eq_dec i i0) as [->|N].
      + rewrite upd_same. simpl. destruct F. now repeat split.
      + rewrite upd_other by assumption. now split.
    - injection H as <- _. unfold restore_leaf. apply st_set_leaf. intros ->. now destruct U.
    - unfold connect in H. destruct (_ || _); [injection H as <- _; apply st_refl|].
      destruct (negb _); [injection H as <- _; apply st_refl|]. eapply st_connect_tree; exact H.
    - injection H as <- _. apply st_disconnect.
    - eapply st_arr_set_any; exact H.
    - unfold arr_assign in H. destruct (_ <? _); [|injection H as <- _; apply st_refl].
      eapply st_noexc; [exact H|]. intros w1 q E.
      eapply st_trans; [apply (st_leafs w (set_arr w i0 (with_vals (arrs w i0) (put_nth k v (avals (arrs w i0)))))); reflexivity|].
      destruct (aconn _); [eapply st_arr_push_to; exact E|injection E as <- _; apply st_refl].
    - eapply st_arr_push_items; exact H.
    - unfold arr_set_values in H. destruct (Nat.eqb _ _); [|injection H as <- _; apply st_refl].
      eapply st_values_from; exact H.
    - eapply st_push_all; exact H.
    - unfold pub_connect in H. destruct (negb _); [injection H as <- _; apply st_refl|].
      destruct (_ || _); [injection H as <- _; apply st_refl|].
      eapply st_trans; [apply st_pub_add|]. eapply st_push_tree; exact H.
  Qed.

  Lemma st_run : forall n os w w', frun n w os = Some w' ->
    Forall (fun o => ~ unforces i o) os -> stays w w'.
  Proof.
    intros n os. induction os as [|o os IH]; intros w w' H U; simpl in H.
    - injection H as <-. apply st_refl.
    - inversion U as [|x y Uo Us]; subst.
      destruct (fstep n w o) as [w1 q] eqn:E. pose proof (st_step _ _ _ _ _ E Uo) as S1.
      destruct q as [[]|e|]; [|destruct e|]; try discriminate H;
        (eapply st_trans; [exact S1|]; now apply IH).
  Qed.
End Hist.

(** ** Force *)

Lemma force_ok : forall n w i a w',
  force n w i a = (w', Ok tt) -> lforcible (leafs w i) = true ->
  exists v, from_any (lc (leafs w i)) a = Ok v /\ lval (leafs w' i) = v /\ is_forced w' i.
Proof.
  intros n w i a w' H Hf. unfold force in H.
  set (w0 := set_leaf w i (with_forced (leafs w i) false)) in H.
  assert (L0 : leafs w0 i = with_forced (leafs w i) false) by apply upd_same.
  apply andthen_inv in H as [(w1 & H1 & H2)|(_ & N)]; [|now destruct N].
  injection H2 as <-. unfold set_any, set_any_with in H1. rewrite L0 in H1. simpl in H1.
  destruct (from_any (lc (leafs w i)) a) as [v|e|] eqn:E; try discriminate H1.
  destruct (literal_ok _ _); [|discriminate H1].
  exists v. split; [reflexivity|].
  assert (V : lval (leafs w1 i) = v).
  { eapply set_val_stored; [|exact H1]. intros [_ F]. rewrite L0 in F. discriminate F. }
  destruct (set_val_meta _ _ _ _ _ _ H1) as (M & _).
  assert (F1 : lforcible (leafs w1 i) = true).
  { specialize (M i). rewrite L0 in M. rewrite <- Hf. destruct (leafs w1 i), (leafs w i).
    injection M; intros; subst; reflexivity. }
  unfold is_forced. simpl. rewrite upd_same. simpl. auto.
Qed.

Lemma force_refused : forall n w i a, from_any (lc (leafs w i)) a = Throw InvalidAnyType ->
  exists w', force n w i a = (w', Throw BadAny) /\ lval (leafs w' i) = lval (leafs w i) /\
    lforced (leafs w' i) = false /\ forall j, j <> i -> leafs w' j = leafs w j.
Proof.
  intros n w i a H. exists (set_leaf w i (with_forced (leafs w i) false)).
  unfold force, set_any, set_any_with. simpl. rewrite !upd_same. simpl. rewrite H. simpl.
  repeat split. intros j Hj. now apply upd_other.
Qed.

(** Writes take effect when the field is not forced. *)
Lemma set_any_stored : forall n w i a w',
  ~ is_forced w i -> set_any n w i a = (w', Ok tt) ->
  exists v, from_any (lc (leafs w i)) a = Ok v /\ lval (leafs w' i) = v.
Proof.
  intros n w i a w' U H. unfold set_any, set_any_with in H.
  destruct (from_any _ _) as [v|e|]; try discriminate H.
  destruct (literal_ok _ _); [|discriminate H].
  exists v. split; [reflexivity|]. eapply set_val_stored; eassumption.
Qed.

Lemma unforce_unforced : forall w i, ~ is_forced (unforce w i) i.
Proof. intros w i [_ H]. unfold unforce in H. simpl in H. rewrite upd_same in H. discriminate H. Qed.

(** * Connect and Disconnect *)

(** Keys of the lists of connected fields. *)
Inductive cat := XL | XA | XN.
Definition key := (cat * nat)%type.
Definition links (w : world) (k : key) : list nat :=
  match fst k with
  | XL => ltargets (leafs w (snd k))
  | XA => atargets (arrs w (snd k))
  | XN => nconn w (snd k)
  end.
Definition tkey (t : tree) : key :=
  match t with
  | TSimple i => (XL, i) | TSArr i => (XA, i) | TArr i _ _ _ _ => (XN, i) | TStr i _ _ _ _ => (XN, i)
  end.
Definition keepsb (w : world) (t : tree) : bool :=
  match t with
  | TSimple i => lconn (leafs w i)
  | TSArr i => aconn (arrs w i)
  | TArr _ df _ _ _ => df
  | TStr _ df _ _ _ => df
  end.

Fixpoint edges (w : world) (s t : tree) {struct s} : list (key * nat) :=
  (if keepsb w s then [(tkey s, tid t)] else []) ++
  match s with
  | TSimple _ | TSArr _ => []
  | TArr _ _ _ _ l =>
      match t with
      | TArr _ _ _ _ l' =>
          (fix go (l l' : list tree) : list (key * nat) :=
             match l, l' with x :: r, y :: r' => edges w x y ++ go r r' | _, _ => [] end) l l'
      | _ => []
      end
  | TStr _ _ _ _ l =>
      match t with
      | TStr _ _ _ _ l' =>
          (fix go (l l' : list tree) : list (key * nat) :=
             match l, l' with x :: r, y :: r' => edges w x y ++ go r r' | _, _ => [] end) l l'
      | _ => []
      end
  end.
Section EdgesL.
Variable w : world.
Fixpoint edges_l (l l' : list tree) : list (key * nat) :=
  match l, l' with x :: r, y :: r' => edges w x y ++ edges_l r r' | _, _ => [] end.
End EdgesL.

Lemma edges_arr : forall w i df a b l j df' a' b' l',
  edges w (TArr i df a b l) (TArr j df' a' b' l') =
  (if df then [((XN, i), j)] else []) ++ edges_l w l l'.
Proof. reflexivity. Qed.
Lemma edges_str : forall w i df a b l j df' a' b' l',
  edges w (TStr i df a b l) (TStr j df' a' b' l') =
  (if df then [((XN, i), j)] else []) ++ edges_l w l l'.
Proof. reflexivity. Qed.

Definition cat_eqb (a b : cat) : bool :=
  match a, b with XL, XL | XA, XA | XN, XN => true | _, _ => false end.
Definition key_eqb (a b : key) : bool := cat_eqb (fst a) (fst b) && Nat.eqb (snd a) (snd b).
Lemma key_eqb_eq : forall a b, key_eqb a b = true <-> a = b.
Proof.
  intros [a1 a2] [b1 b2]. unfold key_eqb. simpl. rewrite andb_true_iff, Nat.eqb_eq.
  split; [|injection 1 as -> ->; split; [now destruct b1|reflexivity]].
  intros [H ->]. destruct a1, b1; simpl in H; congruence.
Qed.

(** The new connected fields of a key. *)
Definition sel (k : key) (es : list (key * nat)) : list nat :=
  map snd (filter (fun e => key_eqb (fst e) k) es).

Lemma sel_app : forall k a b, sel k (a ++ b) = sel k a ++ sel k b.
Proof. intros. unfold sel. now rewrite filter_app, map_app. Qed.
Lemma sel_one : forall k k0 j, sel k [(k0, j)] = if key_eqb k0 k then [j] else [].
Proof. intros. unfold sel. simpl. now destruct (key_eqb k0 k). Qed.
Lemma sel_none : forall k es, ~ In k (map fst es) -> sel k es = [].
Proof.
  intros k es. induction es as [|[k0 j] es IH]; intros H; [reflexivity|].
  unfold sel in *. simpl in *. destruct (key_eqb k0 k) eqn:E.
  - apply key_eqb_eq in E. exfalso. apply H. now left.
  - apply IH. intros G. apply H. now right.
Qed.
Lemma sel_in : forall k j es, In j (sel k es) <-> In (k, j) es.
Proof.
  intros k j es. unfold sel. rewrite in_map_iff. split.
  - intros ([k0 j0] & <- & H). apply filter_In in H as (H & E). simpl in E.
    apply key_eqb_eq in E. simpl in *. now subst k0.
  - intros H. exists (k, j). split; [reflexivity|]. apply filter_In. split; [exact H|].
    now apply key_eqb_eq.
Qed.
Lemma sel_nodup : forall es k j, NoDup (map fst es) -> In (k, j) es -> sel k es = [j].
Proof.
  induction es as [|[k0 j0] es IH]; intros k j ND H; [destruct H|].
  inversion ND as [|x y N ND']; subst. simpl in *. change ((k0, j0) :: es) with ([(k0, j0)] ++ es).
  rewrite sel_app, sel_one. destruct H as [E|H].
  - injection E as -> ->. rewrite (proj2 (key_eqb_eq k k) eq_refl), sel_none by assumption. reflexivity.
  - destruct (key_eqb k0 k) eqn:E.
    + apply key_eqb_eq in E. subst k0. exfalso. apply N. change k with (fst (k, j)). now apply in_map.
    + simpl. now apply IH.
Qed.

(** ** The flags never change *)
Definition flags (w w' : world) : Prop :=
  (forall i, lconn (leafs w' i) = lconn (leafs w i)) /\ (forall i, aconn (arrs w' i) = aconn (arrs w i)).

Lemma fl_refl : forall w, flags w w.
Proof. now split. Qed.
Lemma fl_trans : forall a b c, flags a b -> flags b c -> flags a c.
Proof. intros a b c (H1 & H2) (G1 & G2). split; intros; [now rewrite G1|now rewrite G2]. Qed.

Lemma keepsb_flags : forall w w' s, flags w w' -> keepsb w' s = keepsb w s.
Proof. intros w w' s (H1 & H2). destruct s; simpl; auto. Qed.

Lemma edges_flags : forall w w' s t, flags w w' -> edges w' s t = edges w s t.
Proof.
  intros w w' s t H. revert t. induction s as [j|j|j df a b l IH|j df a b l IH] using tree_ind2; intros t.
  - simpl. now rewrite (proj1 H).
  - simpl. now rewrite (proj2 H).
  - destruct t as [| |k df' a' b' l'|]; try reflexivity. rewrite !edges_arr. f_equal.
    revert l'. induction IH as [|x l Hx Hl IHl]; intros [|y l']; try reflexivity. simpl. now rewrite Hx, IHl.
  - destruct t as [| | |k df' a' b' l']; try reflexivity. rewrite !edges_str. f_equal.
    revert l'. induction IH as [|x l Hx Hl IHl]; intros [|y l']; try reflexivity. simpl. now rewrite Hx, IHl.
Qed.

Lemma edges_l_flags : forall w w' l l', flags w w' -> edges_l w' l l' = edges_l w l l'.
Proof.
  intros w w' l. induction l as [|x l IH]; intros [|y l'] H; try reflexivity.
  simpl. rewrite (edges_flags w w') by assumption. now rewrite IH.
Qed.

(** Steps that change values only. *)
Definition quiet (w w' : world) : Prop := flags w w' /\ forall k, links w' k = links w k.
Lemma qt_refl : forall w, quiet w w.
Proof. split; [apply fl_refl|reflexivity]. Qed.
Lemma qt_trans : forall a b c, quiet a b -> quiet b c -> quiet a c.
Proof.
  intros a b c (H1 & H2) (G1 & G2). split; [now apply (fl_trans a b)|]. intros k. now rewrite G2, H2.
Qed.
Lemma qt_meta : forall w w', same_meta w w' -> quiet w w'.
Proof.
  intros w w' (H & Ha & Hn). split.
  - split; intros i; [apply meta_conn; apply H|now rewrite Ha].
  - intros [c i]. unfold links. simpl. rewrite Ha, Hn. destruct c; try reflexivity.
    apply meta_targets. apply H.
Qed.
Lemma set_any_meta : forall n w j a w' r, set_any n w j a = (w', r) -> same_meta w w'.
Proof.
  intros n w j a w' r H.
  refine (set_any_R (set_val n) same_meta (fun _ => True) sm_refl _ _ _ _ _ _ I H).
  intros. eapply set_val_meta; eassumption.
Qed.
Lemma qt_arr_set_any : forall w j k a w' r, arr_set_any w j k a = (w', r) -> quiet w w'.
Proof.
  intros w j k a w' r H. unfold arr_set_any in H.
  destruct (_ <? _); [|injection H as <- _; apply qt_refl].
  destruct (_ && _); [injection H as <- _; apply qt_refl|].
  destruct (from_any _ _) as [p|e|]; injection H as <- _; try apply qt_refl.
  split; [split; [reflexivity|]|].
  - intros i. simpl. destruct (Nat.eq_dec i j) as [->|N]; [now rewrite upd_same|now rewrite upd_other].
  - intros [c i]. unfold links. simpl. destruct c; try reflexivity.
    destruct (Nat.eq_dec i j) as [->|N]; [now rewrite upd_same|now rewrite upd_other].
Qed.
Lemma qt_copy_items : forall ks w j k w' r, copy_items w j k ks = (w', r) -> quiet w w'.
Proof.
  induction ks as [|k0 ks IH]; intros w j k w' r H; simpl in H.
  - injection H as <- _. apply qt_refl.
  - destruct (nth_error _ _); [|injection H as <- _; apply qt_refl].
    destruct (to_any _ _ _); try (injection H as <- _; apply qt_refl).
    apply andthen_inv in H as [(w1 & H1 & H2)|(H1 & _)].
    + eapply qt_trans; [eapply qt_arr_set_any; exact H1|eapply IH; exact H2].
    + eapply qt_arr_set_any; exact H1.
Qed.

(** ** What Connect adds *)
Definition adds (es : list (key * nat)) (w w' : world) : Prop :=
  flags w w' /\ forall k, links w' k = links w k ++ sel k es.

Lemma ad_quiet : forall es w w1 w2, adds es w w1 -> quiet w1 w2 -> adds es w w2.
Proof.
  intros es w w1 w2 (H1 & H2) (G1 & G2). split; [now apply (fl_trans w w1)|]. intros k. now rewrite G2.
Qed.
Lemma ad_trans : forall a b w w1 w2, adds a w w1 -> adds b w1 w2 -> adds (a ++ b) w w2.
Proof.
  intros a b w w1 w2 (H1 & H2) (G1 & G2). split; [now apply (fl_trans w w1)|].
  intros k. now rewrite G2, H2, sel_app, app_assoc.
Qed.
Lemma ad_nil : forall w, adds [] w w.
Proof. split; [apply fl_refl|]. intros k. now rewrite app_nil_r. Qed.

Lemma ad_leaf : forall w i j,
  adds [((XL, i), j)] w (set_leaf w i (with_targets (leafs w i) (ltargets (leafs w i) ++ [j]))).
Proof.
  intros w i j. split; [split; [|reflexivity]|].
  - intros k. simpl. destruct (Nat.eq_dec k i) as [->|N]; [now rewrite upd_same|now rewrite upd_other].
  - intros [c k]. rewrite sel_one. unfold links, key_eqb. simpl. destruct c; simpl; try now rewrite app_nil_r.
    destruct (Nat.eqb_spec i k) as [->|N]; [now rewrite upd_same|rewrite upd_other by auto; now rewrite app_nil_r].
Qed.
Lemma ad_sarr : forall w i j,
  adds [((XA, i), j)] w (set_arr w i (with_atargets (arrs w i) (atargets (arrs w i) ++ [j]))).
Proof.
  intros w i j. split; [split; [reflexivity|]|].
  - intros k. simpl. destruct (Nat.eq_dec k i) as [->|N]; [now rewrite upd_same|now rewrite upd_other].
  - intros [c k]. rewrite sel_one. unfold links, key_eqb. simpl. destruct c; simpl; try now rewrite app_nil_r.
    destruct (Nat.eqb_spec i k) as [->|N]; [now rewrite upd_same|rewrite upd_other by auto; now rewrite app_nil_r].
Qed.
Lemma ad_node : forall w i j, adds [((XN, i), j)] w (set_nconn w i (nconn w i ++ [j])).
Proof.
  intros w i j. split; [split; reflexivity|].
  intros [c k]. rewrite sel_one. unfold links, key_eqb. simpl. destruct c; simpl; try now rewrite app_nil_r.
  destruct (Nat.eqb_spec i k) as [->|N]; [now rewrite upd_same|rewrite upd_other by auto; now rewrite app_nil_r].
Qed.

Lemma connect_adds : forall n s w t w',
  connect_tree n w s t = (w', Ok tt) -> adds (edges w s t) w w'.
Proof.
  intros n s. induction s as [j|j|j df a b l IH|j df a b l IH] using tree_ind2; intros w t w' H.
  - simpl in *. destruct (lconn (leafs w j)) eqn:C.
    + destruct t as [k| | |]; try discriminate H. simpl. unfold connect_simple in H.
      destruct (to_any _ _ _); try discriminate H.
      eapply ad_quiet; [apply ad_leaf|]. apply qt_meta. eapply set_any_meta; exact H.
    + injection H as <-. simpl. apply ad_nil.
  - simpl in *. destruct (aconn (arrs w j)) eqn:C.
    + destruct t as [|k| |]; try discriminate H. simpl. unfold connect_sarr in H.
      eapply ad_quiet; [apply ad_sarr|]. eapply qt_copy_items; exact H.
    + injection H as <-. simpl. apply ad_nil.
  - destruct t as [| |k df' a' b' l'|]; try discriminate H. rewrite con_arr in H. rewrite edges_arr.
    set (w1 := if df then set_nconn w j (nconn w j ++ [k]) else w) in H.
    assert (A1 : adds (if df then [((XN, j), k)] else []) w w1).
    { unfold w1. destruct df; [apply ad_node|apply ad_nil]. }
    rewrite <- (edges_l_flags w w1) by apply A1.
    eapply ad_trans; [exact A1|]. clear A1. clearbody w1. clear w.
    revert l' w1 H. induction IH as [|x l Hx Hl IHl]; intros [|y l'] w1 H; simpl in H.
    + injection H as <-. apply ad_nil.
    + injection H as <-. apply ad_nil.
    + discriminate H.
    + apply andthen_inv in H as [(w2 & H1 & H2)|(_ & N)]; [|now destruct N].
      apply Hx in H1. apply IHl in H2. simpl. eapply ad_trans; [exact H1|].
      rewrite <- (edges_l_flags w1 w2) by apply H1. exact H2.
  - destruct t as [| | |k df' a' b' l']; try discriminate H. rewrite con_str in H. rewrite edges_str.
    set (w1 := if df then set_nconn w j (nconn w j ++ [k]) else w) in H.
    assert (A1 : adds (if df then [((XN, j), k)] else []) w w1).
    { unfold w1. destruct df; [apply ad_node|apply ad_nil]. }
    rewrite <- (edges_l_flags w w1) by apply A1.
    eapply ad_trans; [exact A1|]. clear A1. clearbody w1. clear w.
    revert l' w1 H. induction IH as [|x l Hx Hl IHl]; intros [|y l'] w1 H; simpl in H.
    + injection H as <-. apply ad_nil.
    + injection H as <-. apply ad_nil.
    + discriminate H.
    + apply andthen_inv in H as [(w2 & H1 & H2)|(_ & N)]; [|now destruct N].
      apply Hx in H1. apply IHl in H2. simpl. eapply ad_trans; [exact H1|].
      rewrite <- (edges_l_flags w1 w2) by apply H1. exact H2.
Qed.

(** ** What Disconnect removes *)
Definition cut (es : list (key * nat)) (w w' : world) : Prop :=
  flags w w' /\ same_values w w' /\
  forall k, links w' k = fold_left (fun l j => remove_first j l) (sel k es) (links w k).

Lemma sv_refl : forall w, same_values w w.
Proof. repeat split. Qed.
Lemma sv_trans : forall a b c, same_values a b -> same_values b c -> same_values a c.
Proof.
  intros a b c (H1 & H2 & H3) (G1 & G2 & G3).
  split; [intros; now rewrite G1|]. split; [intros; now rewrite G2|]. intros; now rewrite G3.
Qed.
Lemma cut_nil : forall w, cut [] w w.
Proof. split; [apply fl_refl|]. split; [apply sv_refl|reflexivity]. Qed.
Lemma cut_trans : forall a b w w1 w2, cut a w w1 -> cut b w1 w2 -> cut (a ++ b) w w2.
Proof.
  intros a b w w1 w2 (H1 & H2 & H3) (G1 & G2 & G3).
  split; [now apply (fl_trans w w1)|]. split; [now apply (sv_trans w w1)|].
  intros k. now rewrite G3, H3, sel_app, fold_left_app.
Qed.
Lemma cut_leaf : forall w i j,
  cut [((XL, i), j)] w (set_leaf w i (with_targets (leafs w i) (remove_first j (ltargets (leafs w i))))).
Proof.
  intros w i j. split; [|split].
  - split; [|reflexivity].
    intros k. simpl. destruct (Nat.eq_dec k i) as [->|N]; [now rewrite upd_same|now rewrite upd_other].
  - split; [|split; [|reflexivity]];
      intros k; simpl; (destruct (Nat.eq_dec k i) as [->|N]; [now rewrite upd_same|now rewrite upd_other]).
  - intros [c k]. rewrite sel_one. unfold links, key_eqb. simpl. destruct c; simpl; try reflexivity.
    destruct (Nat.eqb_spec i k) as [->|N]; [now rewrite upd_same|now rewrite upd_other by auto].
Qed.
Lemma cut_sarr : forall w i j,
  cut [((XA, i), j)] w (set_arr w i (with_atargets (arrs w i) (remove_first j (atargets (arrs w i))))).
Proof.
  intros w i j. split; [|split].
  - split; [reflexivity|].
    intros k. simpl. destruct (Nat.eq_dec k i) as [->|N]; [now rewrite upd_same|now rewrite upd_other].
  - split; [reflexivity|split; [reflexivity|]];
      intros k; simpl; (destruct (Nat.eq_dec k i) as [->|N]; [now rewrite upd_same|now rewrite upd_other]).
  - intros [c k]. rewrite sel_one. unfold links, key_eqb. simpl. destruct c; simpl; try reflexivity.
    destruct (Nat.eqb_spec i k) as [->|N]; [now rewrite upd_same|now rewrite upd_other by auto].
Qed.
Lemma cut_node : forall w i j, cut [((XN, i), j)] w (set_nconn w i (remove_first j (nconn w i))).
Proof.
  intros w i j. split; [split; reflexivity|split; [repeat split|]].
  intros [c k]. rewrite sel_one. unfold links, key_eqb. simpl. destruct c; simpl; try reflexivity.
  destruct (Nat.eqb_spec i k) as [->|N]; [now rewrite upd_same|now rewrite upd_other by auto].
Qed.

Lemma absent_false : forall l j, In j l -> absent l j = false.
Proof.
  intros l j H. unfold absent. apply negb_false_iff. apply existsb_exists. exists j. split; [exact H|apply Nat.eqb_refl].
Qed.
Lemma absent_true : forall l j, absent l j = true <-> ~ In j l.
Proof.
  intros l j. split.
  - intros H I. now rewrite absent_false in H.
  - intros H. unfold absent. apply negb_true_iff. destruct (existsb _ _) eqn:E; [|reflexivity].
    apply existsb_exists in E as (x & Hx & E). apply Nat.eqb_eq in E. subst x. contradiction.
Qed.

Lemma NoDup_app_parts : forall A (a b : list A), NoDup (a ++ b) ->
  NoDup a /\ NoDup b /\ forall x, In x a -> ~ In x b.
Proof.
  intros A a b. induction a as [|x a IH]; simpl; intros H; [repeat split; [constructor|exact H|intros x []]|].
  inversion H as [|u v N ND]; subst. destruct (IH ND) as (Ha & Hb & Hd).
  repeat split; [constructor; [intros I; apply N, in_or_app; now left|exact Ha]|exact Hb|].
  intros y [<-|Hy]; [intros I; apply N, in_or_app; now right|now apply Hd].
Qed.

Lemma cut_others : forall es w w' k, cut es w w' -> ~ In k (map fst es) -> links w' k = links w k.
Proof. intros es w w' k (_ & _ & H) N. rewrite H, sel_none by assumption. reflexivity. Qed.

(** The trees have the same structure. *)
Inductive alike : tree -> tree -> Prop :=
| al_simple : forall i j, alike (TSimple i) (TSimple j)
| al_sarr : forall i j, alike (TSArr i) (TSArr j)
| al_arr : forall i df a b l j df' a' b' l', Forall2 alike l l' -> alike (TArr i df a b l) (TArr j df' a' b' l')
| al_str : forall i df a b l j df' a' b' l', Forall2 alike l l' -> alike (TStr i df a b l) (TStr j df' a' b' l').

Lemma shape_alike : forall rk w s t, same_shape rk (shape w s) (shape w t) -> alike s t.
Proof.
  intros rk w s. induction s as [j|j|j df a b l IH|j df a b l IH] using tree_ind2; intros t H;
    destruct t as [k|k|k df' a' b' l'|k df' a' b' l']; simpl in H; inversion H; subst; constructor.
  - match goal with G : Forall2 _ (map _ l) (map _ l') |- _ => revert G end.
    clear H. revert l'. induction IH as [|x l Hx Hl IHl]; intros [|y l'] G; simpl in G; inversion G; subst; constructor; auto.
  - match goal with G : Forall2 _ (map _ l) (map _ l') |- _ => revert G end.
    clear H. revert l'. induction IH as [|x l Hx Hl IHl]; intros [|y l'] G; simpl in G; inversion G; subst; constructor; auto.
Qed.

Lemma disconnect_cuts : forall s t w, alike s t ->
  NoDup (map fst (edges w s t)) -> (forall k j, In (k, j) (edges w s t) -> In j (links w k)) ->
  cut (edges w s t) w (disconnect w s t).
Proof.
  intros s. induction s as [j|j|j df a b l IH|j df a b l IH] using tree_ind2; intros t w Ha ND Hin;
    inversion Ha; subst.
  - simpl. destruct (lconn _); [apply cut_leaf|apply cut_nil].
  - simpl. destruct (aconn _); [apply cut_sarr|apply cut_nil].
  - rewrite edges_arr, dis_arr in *.
    assert (A : df && absent (nconn w j) j0 = false).
    { destruct df; [|reflexivity]. simpl. apply absent_false. apply (Hin (XN, j)). now left. }
    rewrite A. rewrite map_app in ND. apply NoDup_app_parts in ND as (_ & ND & Dis).
    set (w1 := if df then set_nconn w j (remove_first j0 (nconn w j)) else w).
    assert (C1 : cut (if df then [((XN, j), j0)] else []) w w1).
    { unfold w1. destruct df; [apply cut_node|apply cut_nil]. }
    eapply cut_trans; [exact C1|].
    rewrite <- (edges_l_flags w w1) in * by apply C1.
    assert (Hin1 : forall k j, In (k, j) (edges_l w1 l l') -> In j (links w1 k)).
    { intros k x Hx. rewrite (cut_others _ _ _ _ C1).
      - apply Hin, in_or_app. now right.
      - intros G. apply (Dis k G). change k with (fst (k, x)). now apply in_map. }
    clear C1 Dis Hin A Ha. clearbody w1. clear w. rename H5 into F2.
    revert w1 ND Hin1. induction F2 as [|x y l l' Hxy F2 IHF]; intros w ND Hin; simpl; [apply cut_nil|].
    inversion IH as [|u v Hx Hl]; subst. simpl in ND, Hin. rewrite map_app in ND.
    apply NoDup_app_parts in ND as (ND1 & ND2 & Dis).
    assert (C1 : cut (edges w x y) w (disconnect w x y)).
    { apply Hx; [exact Hxy|exact ND1|]. intros k z Hz. apply Hin, in_or_app. now left. }
    eapply cut_trans; [exact C1|]. rewrite <- (edges_l_flags w (disconnect w x y)) by apply C1.
    rewrite <- (edges_l_flags w (disconnect w x y)) in ND2, Dis by apply C1.
    apply IHF; [exact Hl|exact ND2|].
    intros k z Hz. rewrite (cut_others _ _ _ _ C1).
    + apply Hin, in_or_app. right. now rewrite <- (edges_l_flags w (disconnect w x y)) by apply C1.
    + intros G. apply (Dis k G). change k with (fst (k, z)). now apply in_map.
  - rewrite edges_str, dis_str in *.
    assert (A : df && absent (nconn w j) j0 = false).
    { destruct df; [|reflexivity]. simpl. apply absent_false. apply (Hin (XN, j)). now left. }
    rewrite A. rewrite map_app in ND. apply NoDup_app_parts in ND as (_ & ND & Dis).
    set (w1 := if df then set_nconn w j (remove_first j0 (nconn w j)) else w).
    assert (C1 : cut (if df then [((XN, j), j0)] else []) w w1).
    { unfold w1. destruct df; [apply cut_node|apply cut_nil]. }
    eapply cut_trans; [exact C1|].
    rewrite <- (edges_l_flags w w1) in * by apply C1.
    assert (Hin1 : forall k j, In (k, j) (edges_l w1 l l') -> In j (links w1 k)).
    { intros k x Hx. rewrite (cut_others _ _ _ _ C1).
      - apply Hin, in_or_app. now right.
      - intros G. apply (Dis k G). change k with (fst (k, x)). now apply in_map. }
    clear C1 Dis Hin A Ha. clearbody w1. clear w. rename H5 into F2.
    revert w1 ND Hin1. induction F2 as [|x y l l' Hxy F2 IHF]; intros w ND Hin; simpl; [apply cut_nil|].
    inversion IH as [|u v Hx Hl]; subst. simpl in ND, Hin. rewrite map_app in ND.
    apply NoDup_app_parts in ND as (ND1 & ND2 & Dis).
    assert (C1 : cut (edges w x y) w (disconnect w x y)).
    { apply Hx; [exact Hxy|exact ND1|]. intros k z Hz. apply Hin, in_or_app. now left. }
    eapply cut_trans; [exact C1|]. rewrite <- (edges_l_flags w (disconnect w x y)) by apply C1.
    rewrite <- (edges_l_flags w (disconnect w x y)) in ND2, Dis by apply C1.
    apply IHF; [exact Hl|exact ND2|].
    intros k z Hz. rewrite (cut_others _ _ _ _ C1).
    + apply Hin, in_or_app. right. now rewrite <- (edges_l_flags w (disconnect w x y)) by apply C1.
    + intros G. apply (Dis k G). change k with (fst (k, z)). now apply in_map.
Qed.

(** ** Edges and parts *)
Lemma keeps_keepsb : forall w s, keeps_links w s <-> keepsb w s = true.
Proof. intros w s. destruct s; simpl; reflexivity. Qed.
Lemma linked_links : forall w s t, linked w s t <-> In (tid t) (links w (tkey s)).
Proof. intros w s t. destruct s; simpl; reflexivity. Qed.

Lemma edges_l_in : forall w l l' e, In e (edges_l w l l') <->
  exists x y, In (x, y) (combine l l') /\ In e (edges w x y).
Proof.
  intros w l. induction l as [|x l IH]; intros [|y l'] e; simpl;
    try (split; [intros []|intros (a & b & [] & _)]).
  rewrite in_app_iff, IH. split.
  - intros [H|(a & b & H & E)]; [exists x, y; auto|exists a, b; auto].
  - intros (a & b & [E|H] & G); [injection E as <- <-; now left|right; eauto].
Qed.

Lemma edges_parts : forall w s t k j, In (k, j) (edges w s t) <->
  exists x y, parts s t x y /\ keeps_links w x /\ k = tkey x /\ j = tid y.
Proof.
  intros w s. induction s as [i|i|i df a b l IH|i df a b l IH] using tree_ind2; intros t k j.
  - split.
    + simpl. destruct (lconn _) eqn:C; simpl; [|intros []]. intros [E|[]]. injection E as <- <-.
      exists (TSimple i), t. repeat split; [constructor|exact C].
    + intros (x & y & P & K & -> & ->). inversion P; subst. simpl in *. rewrite K. now left.
  - split.
    + simpl. destruct (aconn _) eqn:C; simpl; [|intros []]. intros [E|[]]. injection E as <- <-.
      exists (TSArr i), t. repeat split; [constructor|exact C].
    + intros (x & y & P & K & -> & ->). inversion P; subst. simpl in *. rewrite K. now left.
  - split.
    + intros H. destruct t as [j'|j'|j' df' a' b' l'|j' df' a' b' l'].
      1,2,4: simpl in H; rewrite app_nil_r in H; destruct df; [|destruct H]; destruct H as [E|[]];
             injection E as <- <-; eexists _, _; repeat split; constructor.
      rewrite edges_arr in H. apply in_app_or in H as [H|H].
      * destruct df; [|destruct H]. destruct H as [E|[]]. injection E as <- <-.
        exists (TArr i true a b l), (TArr j' df' a' b' l'). repeat split. constructor.
      * apply edges_l_in in H as (x & y & Hxy & H).
        rewrite Forall_forall in IH. apply IH in H; [|now apply in_combine_l in Hxy].
        destruct H as (x' & y' & P & K & E1 & E2). exists x', y'. repeat split; try assumption.
        econstructor; eassumption.
    + intros (x & y & P & K & -> & ->). inversion P as [|i0 df0 a0 b0 l0 j0 df1 a1 b1 l1 x1 y1 s1 t1 Hxy P1|]; subst.
      * simpl. apply in_or_app. left. simpl in K. rewrite K. now left.
      * rewrite edges_arr. apply in_or_app. right. apply edges_l_in. exists x1, y1. split; [exact Hxy|].
        rewrite Forall_forall in IH. apply IH; [now apply in_combine_l in Hxy|]. eauto 10.
  - split.
    + intros H. destruct t as [j'|j'|j' df' a' b' l'|j' df' a' b' l'].
      1,2,3: simpl in H; rewrite app_nil_r in H; destruct df; [|destruct H]; destruct H as [E|[]];
             injection E as <- <-; eexists _, _; repeat split; constructor.
      rewrite edges_str in H. apply in_app_or in H as [H|H].
      * destruct df; [|destruct H]. destruct H as [E|[]]. injection E as <- <-.
        exists (TStr i true a b l), (TStr j' df' a' b' l'). repeat split. constructor.
      * apply edges_l_in in H as (x & y & Hxy & H).
        rewrite Forall_forall in IH. apply IH in H; [|now apply in_combine_l in Hxy].
        destruct H as (x' & y' & P & K & E1 & E2). exists x', y'. repeat split; try assumption.
        econstructor; eassumption.
    + intros (x & y & P & K & -> & ->). inversion P as [| |i0 df0 a0 b0 l0 j0 df1 a1 b1 l1 x1 y1 s1 t1 Hxy P1]; subst.
      * simpl. apply in_or_app. left. simpl in K. rewrite K. now left.
      * rewrite edges_str. apply in_or_app. right. apply edges_l_in. exists x1, y1. split; [exact Hxy|].
        rewrite Forall_forall in IH. apply IH; [now apply in_combine_l in Hxy|]. eauto 10.
Qed.

Lemma can_connect_iff : forall w s t, alike s t ->
  (can_connect w s t = true <->
   all_connectable w s /\ forall k j, In (k, j) (edges w s t) -> ~ In j (links w k)).
Proof.
  intros w s. induction s as [i|i|i df a b l IH|i df a b l IH] using tree_ind2; intros t Ha; inversion Ha; subst.
  - simpl. rewrite andb_true_iff, absent_true. split.
    + intros [C N]. split; [now constructor|]. intros k x. rewrite C. simpl. intros [E|[]]. injection E as <- <-. exact N.
    + intros [C N]. inversion C as [u E| | |]; subst. split; [exact E|]. apply (N (XL, i)). rewrite E. now left.
  - simpl. rewrite andb_true_iff, absent_true. split.
    + intros [C N]. split; [now constructor|]. intros k x. rewrite C. simpl. intros [E|[]]. injection E as <- <-. exact N.
    + intros [C N]. inversion C as [|u E| |]; subst. split; [exact E|]. apply (N (XA, i)). rewrite E. now left.
  - rename H5 into F2. rewrite can_arr, edges_arr.
    assert (L : can_items w l l' = true <->
      (forall x, In x l -> all_connectable w x) /\
      (forall k j, In (k, j) (edges_l w l l') -> ~ In j (links w k))).
    { clear Ha. induction F2 as [|x y l l' Hxy F2 IHF]; simpl.
      - split; [intros _; split; [intros x []|intros k j0 []]|reflexivity].
      - inversion IH as [|u v Hx Hl]; subst. rewrite andb_true_iff, (Hx y Hxy), (IHF Hl). split.
        + intros [[A1 A2] [B1 B2]]. split; [intros z [<-|Hz]; auto|].
          intros k z Hz. apply in_app_or in Hz as [Hz|Hz]; eauto.
        + intros [A B]. split; split; auto; intros k z Hz; apply B, in_or_app; auto. }
    rewrite andb_true_iff, L. split.
    + intros [D [A B]]. split; [now constructor|]. intros k x Hx. apply in_app_or in Hx as [Hx|Hx]; [|now apply B].
      destruct df; [|destruct Hx]. destruct Hx as [E|[]]. injection E as <- <-. now apply absent_true.
    + intros [A B]. inversion A; subst. split; [|split; [assumption|]].
      * destruct df; [|reflexivity]. apply absent_true. apply (B (XN, i)). now left.
      * intros k x Hx. apply B, in_or_app. now right.
  - rename H5 into F2. rewrite can_str, edges_str.
    assert (Len : Nat.eqb (length l) (length l') = true).
    { apply Nat.eqb_eq. clear -F2. induction F2; simpl; congruence. }
    assert (L : can_items w l l' = true <->
      (forall x, In x l -> all_connectable w x) /\
      (forall k j, In (k, j) (edges_l w l l') -> ~ In j (links w k))).
    { clear Ha Len. induction F2 as [|x y l l' Hxy F2 IHF]; simpl.
      - split; [intros _; split; [intros x []|intros k j0 []]|reflexivity].
      - inversion IH as [|u v Hx Hl]; subst. rewrite andb_true_iff, (Hx y Hxy), (IHF Hl). split.
        + intros [[A1 A2] [B1 B2]]. split; [intros z [<-|Hz]; auto|].
          intros k z Hz. apply in_app_or in Hz as [Hz|Hz]; eauto.
        + intros [A B]. split; split; auto; intros k z Hz; apply B, in_or_app; auto. }
    rewrite Len, andb_true_r, andb_true_iff, L. split.
    + intros [D [A B]]. split; [now constructor|]. intros k x Hx. apply in_app_or in Hx as [Hx|Hx]; [|now apply B].
      destruct df; [|destruct Hx]. destruct Hx as [E|[]]. injection E as <- <-. now apply absent_true.
    + intros [A B]. inversion A; subst. split; [|split; [assumption|]].
      * destruct df; [|reflexivity]. apply absent_true. apply (B (XN, i)). now left.
      * intros k x Hx. apply B, in_or_app. now right.
Qed.

Lemma edges_ids : forall w s t k, In k (map fst (edges w s t)) -> In (snd k) (tids s).
Proof.
  intros w s. induction s as [i|i|i df a b l IH|i df a b l IH] using tree_ind2; intros t k H.
  - simpl in H. destruct (lconn _); [|destruct H]. destruct H as [<-|[]]. now left.
  - simpl in H. destruct (aconn _); [|destruct H]. destruct H as [<-|[]]. now left.
  - apply in_map_iff in H as ([k0 j] & E & H). simpl in E. subst k0.
    apply edges_parts in H as (x & y & P & K & E1 & _).
    inversion P as [|i0 df0 a0 b0 l0 j0 df1 a1 b1 l1 x1 y1 s1 t1 Hxy P1|]; subst; [now left|].
    right. apply in_flat_map. exists x1. assert (Hx : In x1 l) by now apply in_combine_l in Hxy.
    split; [exact Hx|]. rewrite Forall_forall in IH. apply (IH x1 Hx y1).
    apply in_map_iff. exists (tkey x, tid y). split; [reflexivity|]. apply edges_parts. eauto 10.
  - apply in_map_iff in H as ([k0 j] & E & H). simpl in E. subst k0.
    apply edges_parts in H as (x & y & P & K & E1 & _).
    inversion P as [| |i0 df0 a0 b0 l0 j0 df1 a1 b1 l1 x1 y1 s1 t1 Hxy P1]; subst; [now left|].
    right. apply in_flat_map. exists x1. assert (Hx : In x1 l) by now apply in_combine_l in Hxy.
    split; [exact Hx|]. rewrite Forall_forall in IH. apply (IH x1 Hx y1).
    apply in_map_iff. exists (tkey x, tid y). split; [reflexivity|]. apply edges_parts. eauto 10.
Qed.

Lemma NoDup_join : forall A (a b : list A), NoDup a -> NoDup b -> (forall x, In x a -> ~ In x b) -> NoDup (a ++ b).
Proof.
  intros A a b Ha Hb Hd. induction Ha as [|x a N Ha IH]; simpl; [exact Hb|]. constructor.
  - intros I. apply in_app_or in I as [I|I]; [contradiction|]. apply (Hd x); [now left|exact I].
  - apply IH. intros y Hy. apply Hd. now right.
Qed.

Lemma edges_l_ids : forall w l l' k, In k (map fst (edges_l w l l')) -> In (snd k) (flat_map tids l).
Proof.
  intros w l l' k H. apply in_map_iff in H as (e & E & H). subst k.
  apply edges_l_in in H as (x & y & Hxy & H). apply in_flat_map. exists x.
  split; [now apply in_combine_l in Hxy|]. eapply edges_ids. apply in_map. exact H.
Qed.

Lemma edges_nodup : forall w s t, NoDup (tids s) -> NoDup (map fst (edges w s t)).
Proof.
  intros w s. induction s as [i|i|i df a b l IH|i df a b l IH] using tree_ind2; intros t ND.
  - simpl. destruct (lconn _); simpl; repeat constructor; auto.
  - simpl. destruct (aconn _); simpl; repeat constructor; auto.
  - simpl in ND. inversion ND as [|u v N NDl]; subst.
    destruct t as [j'|j'|j' df' a' b' l'|j' df' a' b' l'].
    1,2,4: simpl; rewrite app_nil_r; destruct df; simpl; repeat constructor; auto.
    rewrite edges_arr, map_app. apply NoDup_join.
    + destruct df; simpl; repeat constructor; auto.
    + clear N ND. revert l'. induction IH as [|x l Hx Hl IHl]; intros [|y l']; simpl; try constructor.
      simpl in NDl. apply NoDup_app_parts in NDl as (N1 & N2 & Dis). rewrite map_app. apply NoDup_join; auto.
      intros k Hk G. apply edges_ids in Hk. apply edges_l_ids in G. now apply (Dis (snd k)).
    + intros k Hk G. apply edges_l_ids in G. destruct df; [|destruct Hk]. destruct Hk as [<-|[]]. contradiction.
  - simpl in ND. inversion ND as [|u v N NDl]; subst.
    destruct t as [j'|j'|j' df' a' b' l'|j' df' a' b' l'].
    1,2,3: simpl; rewrite app_nil_r; destruct df; simpl; repeat constructor; auto.
    rewrite edges_str, map_app. apply NoDup_join.
    + destruct df; simpl; repeat constructor; auto.
    + clear N ND. revert l'. induction IH as [|x l Hx Hl IHl]; intros [|y l']; simpl; try constructor.
      simpl in NDl. apply NoDup_app_parts in NDl as (N1 & N2 & Dis). rewrite map_app. apply NoDup_join; auto.
      intros k Hk G. apply edges_ids in Hk. apply edges_l_ids in G. now apply (Dis (snd k)).
    + intros k Hk G. apply edges_l_ids in G. destruct df; [|destruct Hk]. destruct Hk as [<-|[]]. contradiction.
Qed.

(** ** The checks of Connect *)
Lemma acceptable_checks : forall w s t, acceptable w s t /\ all_connectable w s <->
  (negb (tout w s) || negb (tin w t) || Nat.eqb (tid t) (tid s)
   || negb (are_equivalent (shape w s) (shape w t))) = false /\ can_connect w s t = true.
Proof.
  intros w s t. rewrite !orb_false_iff, !negb_false_iff, Nat.eqb_neq.
  change (same_shape (fun _ _ => True)) with (same_shape any_kind).
  split.
  - intros [(H1 & H2 & H3 & H4 & H5) Hc].
    assert (E : are_equivalent (shape w s) (shape w t) = true) by now apply are_equivalent_ok.
    repeat split; auto. apply can_connect_iff; [eapply shape_alike; exact H4|]. split; [exact Hc|].
    intros k j Hin. apply edges_parts in Hin as (x & y & P & K & -> & ->). rewrite <- linked_links. now apply H5.
  - intros [[[[H1 H2] H3] H4] H5]. apply are_equivalent_ok in H4. pose proof (shape_alike _ _ _ _ H4) as Al.
    apply can_connect_iff in H5; [|exact Al]. destruct H5 as [Hc N]. split; [|exact Hc].
    repeat split; auto. intros x y P K. rewrite linked_links. apply N. apply edges_parts. eauto 10.
Qed.

Lemma remove_first_last : forall j l, ~ In j l -> remove_first j (l ++ [j]) = l.
Proof.
  intros j l. induction l as [|x l IH]; intros N; simpl; [now rewrite Nat.eqb_refl|].
  destruct (Nat.eqb_spec x j) as [->|E]; [exfalso; apply N; now left|]. f_equal. apply IH.
  intros G. apply N. now right.
Qed.

Lemma connect_ok : forall n w s t w', connect n w s t = (w', Ok tt) ->
  acceptable w s t /\ all_connectable w s /\ adds (edges w s t) w w'.
Proof.
  intros n w s t w' H. unfold connect in H.
  destruct (_ || _) eqn:E; [discriminate H|]. destruct (can_connect w s t) eqn:C; [|discriminate H].
  simpl in H. destruct (proj2 (acceptable_checks w s t) (conj E C)) as [A B].
  split; [exact A|]. split; [exact B|]. eapply connect_adds; exact H.
Qed.

Lemma disconnect_undoes : forall n w s t w', NoDup (tids s) -> connect n w s t = (w', Ok tt) ->
  same_links w (disconnect w' s t) /\ same_values w' (disconnect w' s t).
Proof.
  intros n w s t w' ND H. destruct (connect_ok _ _ _ _ _ H) as (A & B & Ad).
  destruct A as (_ & _ & _ & Sh & Fr). pose proof (shape_alike _ _ _ _ Sh) as Al.
  destruct Ad as (Fl & Ad).
  assert (NDe : NoDup (map fst (edges w' s t))).
  { rewrite (edges_flags w w') by assumption. now apply edges_nodup. }
  assert (C : cut (edges w' s t) w' (disconnect w' s t)).
  { apply disconnect_cuts; [exact Al|exact NDe|]. intros k j Hin.
    rewrite (edges_flags w w') in Hin by assumption. rewrite Ad.
    rewrite (sel_nodup _ k j) by (try assumption; now apply edges_nodup). apply in_or_app. right. now left. }
  destruct C as (_ & Sv & C). split; [|exact Sv].
  assert (E : forall k, links (disconnect w' s t) k = links w k).
  { intros k. rewrite C, Ad, (edges_flags w w') by assumption.
    rewrite (edges_flags w w') in NDe by assumption.
    destruct (sel k (edges w s t)) as [|j r] eqn:Es; [simpl; now rewrite app_nil_r|].
    assert (Hin : In (k, j) (edges w s t)) by (apply sel_in; rewrite Es; now left).
    rewrite (sel_nodup _ k j NDe Hin) in Es. injection Es as <-. simpl.
    apply remove_first_last. apply edges_parts in Hin as (x & y & P & K & -> & ->).
    rewrite <- linked_links. now apply Fr. }
  split; [|split].
  - intros i. exact (E (XL, i)).
  - intros i. exact (E (XA, i)).
  - intros i. exact (E (XN, i)).
Qed.
