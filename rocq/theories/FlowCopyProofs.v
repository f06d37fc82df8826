(** Proofs about the values copied by Connect. *)
From Coq Require Import ZArith List Bool Lia Relations.
From Verif Require Import Base AnyModel AnySpec AnyProofs HelperModel HelperSpec HelperProofs
  FlowModel FlowSpec FlowProofs FlowTreeProofs.
Import ListNotations.
Local Open Scope nat_scope.

(** All of a field but its value and its connections. *)
Definition core (f : leaf) : leaf := with_targets (meta f) [].
Definition acore (a : sarr) : sarr := with_atargets (with_vals a []) [].

Definition same_core (w w' : world) : Prop :=
  (forall i, core (leafs w' i) = core (leafs w i)) /\ (forall i, acore (arrs w' i) = acore (arrs w i)) /\
  (forall i, length (avals (arrs w' i)) = length (avals (arrs w i))).
Lemma sc_refl : forall w, same_core w w.
Proof. repeat split. Qed.
Lemma sc_trans : forall a b c, same_core a b -> same_core b c -> same_core a c.
Proof.
  intros a b c (H1 & H2 & H3) (G1 & G2 & G3).
  split; [intros; now rewrite G1|]. split; [intros; now rewrite G2|intros; now rewrite G3].
Qed.

Lemma core_takes : forall f g v, core f = core g -> takes f v <-> takes g v.
Proof. intros [] [] v H. injection H; intros; subst. reflexivity. Qed.
Lemma core_conn : forall f g, core f = core g -> lconn f = lconn g.
Proof. intros [] [] H. injection H; intros; subst. reflexivity. Qed.
Lemma core_lk : forall f g, core f = core g -> lk f = lk g.
Proof. intros [] [] H. injection H; intros; subst. reflexivity. Qed.
Lemma core_lc : forall f g, core f = core g -> lc f = lc g.
Proof. intros [] [] H. injection H; intros; subst. reflexivity. Qed.
Lemma core_forced : forall w w' i, same_core w w' -> is_forced w' i <-> is_forced w i.
Proof.
  intros w w' i (H & _). specialize (H i). unfold is_forced.
  destruct (leafs w' i), (leafs w i). injection H; intros; subst. reflexivity.
Qed.
Lemma core_meta : forall f g, meta f = meta g -> core f = core g.
Proof. intros [] [] H. injection H; intros; subst. reflexivity. Qed.
Lemma acore_ak : forall f g, acore f = acore g -> ak f = ak g.
Proof. intros [] [] H. injection H; intros; subst. reflexivity. Qed.
Lemma acore_ac : forall f g, acore f = acore g -> ac f = ac g.
Proof. intros [] [] H. injection H; intros; subst. reflexivity. Qed.
Lemma acore_conn : forall f g, acore f = acore g -> aconn f = aconn g.
Proof. intros [] [] H. injection H; intros; subst. reflexivity. Qed.

Lemma sc_flags : forall w w', same_core w w' -> flags w w'.
Proof. intros w w' (H1 & H2 & _). split; intros i; [apply core_conn, H1|apply acore_conn, H2]. Qed.

Lemma sc_leaf_targets : forall w i l, same_core w (set_leaf w i (with_targets (leafs w i) l)).
Proof.
  intros w i l. split; [|split; reflexivity]. intros j. simpl.
  destruct (Nat.eq_dec j i) as [->|N]; [now rewrite upd_same|now rewrite upd_other].
Qed.
Lemma sc_leaf_val : forall w i v, same_core w (set_leaf w i (with_val (leafs w i) v)).
Proof.
  intros w i l. split; [|split; reflexivity]. intros j. simpl.
  destruct (Nat.eq_dec j i) as [->|N]; [now rewrite upd_same|now rewrite upd_other].
Qed.
Lemma sc_arr_targets : forall w i l, same_core w (set_arr w i (with_atargets (arrs w i) l)).
Proof.
  intros w i l. split; [reflexivity|]. split; intros j; simpl;
    (destruct (Nat.eq_dec j i) as [->|N]; [now rewrite upd_same|now rewrite upd_other]).
Qed.
Lemma sc_arr_vals : forall w i l, length l = length (avals (arrs w i)) ->
  same_core w (set_arr w i (with_vals (arrs w i) l)).
Proof.
  intros w i l E. split; [reflexivity|]. split; intros j; simpl;
    (destruct (Nat.eq_dec j i) as [->|N]; [now rewrite upd_same|now rewrite upd_other]).
Qed.

(** ** One simple field *)
Lemma connect_simple_ok : forall n w i j,
  i <> j -> kind_of (lc (leafs w i)) (lk (leafs w i)) -> value_of (lc (leafs w i)) (lval (leafs w i)) ->
  lk (leafs w i) = lk (leafs w j) ->
  takes (leafs w j) (lval (leafs w i)) -> lconn (leafs w j) = false ->
  exists w', connect_simple (S n) w i j = (w', Ok tt) /\ same_core w w' /\ arrs w' = arrs w /\
    (is_forced w j -> lval (leafs w' j) = lval (leafs w j)) /\
    (~ is_forced w j -> lval (leafs w' j) = lval (leafs w i)) /\
    (forall k, k <> j -> lval (leafs w' k) = lval (leafs w k)).
Proof.
  intros n w i j Nij Ki Vi Ek (Kj & Vj & Dj) Cj. unfold connect_simple.
  set (w1 := set_leaf w i (with_targets (leafs w i) (ltargets (leafs w i) ++ [j]))).
  assert (L1 : leafs w1 i = with_targets (leafs w i) (ltargets (leafs w i) ++ [j])) by apply upd_same.
  assert (L2 : forall k, k <> i -> leafs w1 k = leafs w k) by (intros k N; now apply upd_other).
  assert (V1 : forall k, lval (leafs w1 k) = lval (leafs w k)).
  { intros k. destruct (Nat.eq_dec k i) as [->|N]; [now rewrite L1|now rewrite L2]. }
  rewrite L1. simpl. rewrite to_any_ok by assumption.
  unfold set_any, set_any_with. rewrite (L2 j) by auto. rewrite Ek.
  rewrite from_any_ok by assumption. rewrite (declared_literal _ _ Dj).
  cbn [set_val]. rewrite (L2 j) by auto. rewrite Cj.
  destruct (lforcible (leafs w j) && lforced (leafs w j)) eqn:B.
  - exists w1. split; [reflexivity|]. split; [apply sc_leaf_targets|]. split; [reflexivity|].
    split; [intros _; apply V1|]. split; [|intros; apply V1].
    intros F. exfalso. apply F. now apply blocked_forced.
  - eexists. split; [reflexivity|]. split; [eapply sc_trans; [apply sc_leaf_targets|]|].
    + fold w1. pose proof (sc_leaf_val w1 j (lval (leafs w i))) as S. rewrite (L2 j) in S by auto. exact S.
    + split; [reflexivity|]. split; [|split].
      * intros F. apply blocked_forced in F. unfold blocked in F. congruence.
      * intros _. simpl. now rewrite upd_same.
      * intros k N. simpl. rewrite upd_other by assumption. apply V1.
Qed.

(** ** One simple array *)
Lemma put_nth_length : forall A k (x : A) l, length (put_nth k x l) = length l.
Proof. intros A k x l. revert k. induction l as [|y l IH]; intros [|k]; simpl; auto. Qed.
Lemma put_nth_app : forall A (a : list A) x y b, put_nth (length a) x (a ++ y :: b) = a ++ x :: b.
Proof. intros A a x y b. induction a as [|z a IH]; simpl; [reflexivity|]. now rewrite IH. Qed.

Lemma arr_set_any_ok : forall w j k p,
  k < length (avals (arrs w j)) -> kind_of (ac (arrs w j)) (ak (arrs w j)) -> value_of (ac (arrs w j)) p ->
  arr_set_any w j k (Any (ak (arrs w j)) p) =
  done (set_arr w j (with_vals (arrs w j) (put_nth k p (avals (arrs w j))))).
Proof.
  intros w j k p Hk K V. unfold arr_set_any. apply Nat.ltb_lt in Hk as ->.
  assert (E : kind_eqb (ak (arrs w j)) (ak (arrs w j)) = true) by now apply kind_eqb_eq.
  simpl. rewrite E, andb_false_r. now rewrite from_any_ok.
Qed.

Lemma copy_items_ok : forall b w i j a c d, i <> j ->
  avals (arrs w i) = a ++ b -> avals (arrs w j) = c ++ d -> length c = length a -> length d = length b ->
  ak (arrs w i) = ak (arrs w j) -> kind_of (ac (arrs w i)) (ak (arrs w i)) ->
  kind_of (ac (arrs w j)) (ak (arrs w j)) ->
  (forall v, In v b -> value_of (ac (arrs w i)) v /\ value_of (ac (arrs w j)) v) ->
  exists w', copy_items w i j (seq (length a) (length b)) = (w', Ok tt) /\ same_core w w' /\
    leafs w' = leafs w /\ avals (arrs w' j) = c ++ b /\
    forall k, k <> j -> arrs w' k = arrs w k.
Proof.
  induction b as [|v b IH]; intros w i j a c d Nij Ei Ej Lc Ld Ek Ki Kj Hv.
  - destruct d; [|discriminate Ld]. exists w. simpl. repeat split; auto.
  - destruct d as [|u d]; [discriminate Ld|]. simpl in Ld. injection Ld as Ld.
    cbn [length seq copy_items].
    rewrite Ei. rewrite nth_error_app2 by lia. rewrite Nat.sub_diag. simpl nth_error.
    destruct (Hv v (or_introl eq_refl)) as (V1 & V2).
    rewrite to_any_ok by assumption. cbn iota beta. rewrite Ek, arr_set_any_ok.
    2:{ rewrite Ej, app_length. simpl. lia. }
    2,3: assumption.
    cbn [andthen done]. rewrite Ej, <- Lc, put_nth_app.
    set (w1 := set_arr w j (with_vals (arrs w j) (c ++ v :: d))).
    assert (A1 : arrs w1 j = with_vals (arrs w j) (c ++ v :: d)) by apply upd_same.
    assert (A2 : forall k, k <> j -> arrs w1 k = arrs w k) by (intros k N; now apply upd_other).
    destruct (IH w1 i j (a ++ [v]) (c ++ [v]) d) as (w' & H1 & H2 & H3 & H4 & H5).
    + exact Nij.
    + rewrite A2 by auto. rewrite Ei. now rewrite <- app_assoc.
    + rewrite A1. simpl. now rewrite <- app_assoc.
    + rewrite !app_length. simpl. lia.
    + exact Ld.
    + rewrite A1, A2 by auto. exact Ek.
    + rewrite A2 by auto. exact Ki.
    + rewrite A1. exact Kj.
    + intros x Hx. rewrite A1, A2 by auto. simpl. apply Hv. now right.
    + exists w'. rewrite app_length in H1. simpl in H1. rewrite Nat.add_1_r in H1.
      rewrite Lc. rewrite H1. split; [reflexivity|]. split; [|split; [|split]].
      * eapply sc_trans; [|exact H2]. apply sc_arr_vals. rewrite Ej, !app_length. reflexivity.
      * exact H3.
      * rewrite H4. now rewrite <- app_assoc.
      * intros k N. rewrite H5 by assumption. now apply A2.
Qed.

Lemma connect_sarr_ok : forall w i j, i <> j ->
  length (avals (arrs w i)) = length (avals (arrs w j)) ->
  ak (arrs w i) = ak (arrs w j) -> kind_of (ac (arrs w i)) (ak (arrs w i)) ->
  kind_of (ac (arrs w j)) (ak (arrs w j)) ->
  (forall v, In v (avals (arrs w i)) -> value_of (ac (arrs w i)) v /\ value_of (ac (arrs w j)) v) ->
  exists w', connect_sarr w i j = (w', Ok tt) /\ same_core w w' /\ leafs w' = leafs w /\
    avals (arrs w' j) = avals (arrs w i) /\ forall k, k <> j -> avals (arrs w' k) = avals (arrs w k).
Proof.
  intros w i j Nij Len Ek Ki Kj Hv. unfold connect_sarr.
  set (w1 := set_arr w i (with_atargets (arrs w i) (atargets (arrs w i) ++ [j]))).
  assert (A1 : arrs w1 i = with_atargets (arrs w i) (atargets (arrs w i) ++ [j])) by apply upd_same.
  assert (A2 : forall k, k <> i -> arrs w1 k = arrs w k) by (intros k N; now apply upd_other).
  destruct (copy_items_ok (avals (arrs w i)) w1 i j [] [] (avals (arrs w j))) as (w' & H1 & H2 & H3 & H4 & H5).
  - exact Nij.
  - now rewrite A1.
  - now rewrite A2 by auto.
  - reflexivity.
  - now rewrite Len.
  - rewrite A1, A2 by auto. exact Ek.
  - rewrite A1. exact Ki.
  - rewrite A2 by auto. exact Kj.
  - intros v Hin. rewrite A1, A2 by auto. now apply Hv.
  - exists w'. split; [exact H1|]. split; [eapply sc_trans; [apply sc_arr_targets|exact H2]|].
    split; [exact H3|]. split; [exact H4|]. intros k N. rewrite H5 by assumption.
    destruct (Nat.eq_dec k i) as [->|M]; [now rewrite A1|now rewrite A2].
Qed.

(** ** Trees *)
Lemma parts_tids : forall s t x y, parts s t x y -> In (tid x) (tids s) /\ In (tid y) (tids t).
Proof.
  intros s t x y H. induction H as [s t|i df a b l j df' a' b' l' x y s t Hxy P IH|i df a b l j df' a' b' l' x y s t Hxy P IH].
  - split; [destruct s|destruct t]; now left.
  - destruct IH as [I1 I2]. split; right; apply in_flat_map;
      [exists x; split; [now apply in_combine_l in Hxy|exact I1]|exists y; split; [now apply in_combine_r in Hxy|exact I2]].
  - destruct IH as [I1 I2]. split; right; apply in_flat_map;
      [exists x; split; [now apply in_combine_l in Hxy|exact I1]|exists y; split; [now apply in_combine_r in Hxy|exact I2]].
Qed.

(** Same, for lists of trees. *)
Definition lparts (l l' : list tree) (x y : tree) : Prop :=
  exists a b, In (a, b) (combine l l') /\ parts a b x y.
Definition ltransferable (w : world) (l l' : list tree) : Prop :=
  (forall i j, lparts l l' (TSimple i) (TSimple j) ->
     takes (leafs w i) (lval (leafs w i)) /\ takes (leafs w j) (lval (leafs w i)) /\
     lconn (leafs w j) = false) /\
  (forall i j, lparts l l' (TSArr i) (TSArr j) ->
     ak (arrs w i) = ak (arrs w j) /\ kind_of (ac (arrs w i)) (ak (arrs w i)) /\
     kind_of (ac (arrs w j)) (ak (arrs w j)) /\
     forall v, In v (avals (arrs w i)) -> value_of (ac (arrs w i)) v /\ value_of (ac (arrs w j)) v).
Definition lcopied (w w' : world) (l l' : list tree) : Prop :=
  (forall i j, lparts l l' (TSimple i) (TSimple j) ->
     (is_forced w j -> lval (leafs w' j) = lval (leafs w j)) /\
     (~ is_forced w j -> lval (leafs w' j) = lval (leafs w i))) /\
  (forall i j, lparts l l' (TSArr i) (TSArr j) -> avals (arrs w' j) = avals (arrs w i)) /\
  (forall k, ~ In k (flat_map tids l') ->
     lval (leafs w' k) = lval (leafs w k) /\ avals (arrs w' k) = avals (arrs w k)).

(** The kinds and sizes agree (what AreEquivalent checks). *)
Definition fits_in (w : world) (x y : tree) : Prop :=
  match x, y with
  | TSimple i, TSimple j => lk (leafs w i) = lk (leafs w j)
  | TSArr i, TSArr j => length (avals (arrs w i)) = length (avals (arrs w j))
  | _, _ => True
  end.

Lemma shape_fits : forall w s t, same_shape (fun _ _ => True) (shape w s) (shape w t) ->
  forall x y, parts s t x y -> fits_in w x y.
Proof.
  intros w s t Sh x y P. revert Sh.
  induction P as [s t|i df a b l j df' a' b' l' x y s t Hxy P IH|i df a b l j df' a' b' l' x y s t Hxy P IH]; intros Sh.
  - destruct s, t; simpl in *; try exact I; inversion Sh; subst.
    + now apply kind_code_inj.
    + lia.
  - apply IH. simpl in Sh. inversion Sh as [| |u v F2|]; subst.
    clear -F2 Hxy. revert l' F2 Hxy. induction l as [|z l IHl]; intros [|z' l'] F2 H; simpl in *; try destruct H as [].
    + injection H as <- <-. now inversion F2.
    + inversion F2; subst. eapply IHl; eassumption.
  - apply IH. simpl in Sh. inversion Sh as [| | |u v F2]; subst.
    clear -F2 Hxy. revert l' F2 Hxy. induction l as [|z l IHl]; intros [|z' l'] F2 H; simpl in *; try destruct H as [].
    + injection H as <- <-. now inversion F2.
    + inversion F2; subst. eapply IHl; eassumption.
Qed.

Lemma fits_core : forall w w' x y, same_core w w' -> fits_in w x y -> fits_in w' x y.
Proof.
  intros w w' x y (H1 & H2 & H3) F. destruct x, y; simpl in *; try exact I.
  - now rewrite (core_lk _ _ (H1 i)), (core_lk _ _ (H1 i0)).
  - now rewrite !H3.
Qed.

Section Copy.
  Variable n : nat.
  Definition tree_goal (s : tree) : Prop := forall t w,
    alike s t -> all_connectable w s -> (forall x y, parts s t x y -> fits_in w x y) ->
    separate s t -> transferable w s t ->
    exists w', connect_tree (S n) w s t = (w', Ok tt) /\ same_core w w' /\ copied w w' s t.

  Lemma list_copy : forall o l, Forall tree_goal l -> forall l' w,
    Forall2 alike l l' -> (forall x, In x l -> all_connectable w x) ->
    (forall x y, lparts l l' x y -> fits_in w x y) ->
    NoDup (flat_map tids l) -> NoDup (flat_map tids l') ->
    (forall i, In i (flat_map tids l) -> ~ In i (flat_map tids l')) ->
    ltransferable w l l' ->
    exists w', con_items (S n) o w l l' = (w', Ok tt) /\ same_core w w' /\ lcopied w w' l l'.
  Proof.
    intros o l Hl. induction Hl as [|x l Hx Hl IH]; intros l' w F2 Ac Fi N1 N2 Dis (T1 & T2);
      inversion F2 as [|x0 y l0 r Hxy F2']; subst.
    - exists w. split; [reflexivity|]. split; [apply sc_refl|]. split; [|split].
      + intros i j (a & b & [] & _).
      + intros i j (a & b & [] & _).
      + intros k _. now split.
    - rename r into l'. simpl in N1, N2, Dis.
      apply NoDup_app_parts in N1 as (N1x & N1l & D1). apply NoDup_app_parts in N2 as (N2y & N2l & D2).
      assert (LP : forall u v, parts x y u v -> lparts (x :: l) (y :: l') u v).
      { intros u v P. exists x, y. split; [now left|exact P]. }
      assert (LR : forall u v, lparts l l' u v -> lparts (x :: l) (y :: l') u v).
      { intros u v (a & b & H & P). exists a, b. split; [now right|exact P]. }
      assert (LT : forall u v, lparts l l' u v -> In (tid u) (flat_map tids l) /\ In (tid v) (flat_map tids l')).
      { intros u v (a & b & H & P). apply parts_tids in P as [P1 P2].
        split; apply in_flat_map; [exists a; split; [now apply in_combine_l in H|exact P1]|exists b; split; [now apply in_combine_r in H|exact P2]]. }
      destruct (Hx y w Hxy) as (w1 & C1 & S1 & (V1 & V2 & V3)).
      + apply Ac. now left.
      + intros u v P. apply Fi. now apply LP.
      + split; [exact N1x|]. split; [exact N2y|]. intros i Hi G. apply (Dis i); apply in_or_app; auto.
      + split; [intros i j P; apply T1; now apply LP|intros i j P; apply T2; now apply LP].
      + assert (K1 : forall k, In k (flat_map tids l) \/ In k (flat_map tids l') ->
          lval (leafs w1 k) = lval (leafs w k) /\ avals (arrs w1 k) = avals (arrs w k)).
        { intros k Hk. apply V3. intros G. destruct Hk as [Hk|Hk]; [|now apply (D2 k)].
          apply (Dis k); apply in_or_app; [now right|now left]. }
        destruct (IH l' w1 F2') as (w2 & C2 & S2 & (W1 & W2 & W3)).
        * intros z Hz. assert (A : all_connectable w z) by (apply Ac; now right). clear -A S1.
          destruct S1 as (S1 & S2 & _).
          induction A as [i E|i E|i df a b l H IHa|i df a b l H IHa]; constructor; auto.
          -- now rewrite (core_conn _ _ (S1 i)).
          -- now rewrite (acore_conn _ _ (S2 i)).
        * intros u v P. eapply fits_core; [exact S1|]. apply Fi. now apply LR.
        * exact N1l.
        * exact N2l.
        * intros i Hi G. apply (Dis i); apply in_or_app; auto.
        * split.
          -- intros i j P. destruct (LT _ _ P) as [I1 I2]. simpl in I1, I2.
             destruct (T1 i j (LR _ _ P)) as (A1 & A2 & A3).
             destruct (K1 i (or_introl I1)) as [E _]. rewrite E.
             split; [apply (core_takes _ (leafs w i)); [apply S1|exact A1]|].
             split; [apply (core_takes _ (leafs w j)); [apply S1|exact A2]|].
             rewrite (core_conn _ (leafs w j)); [exact A3|apply S1].
          -- intros i j P. destruct (LT _ _ P) as [I1 I2]. simpl in I1, I2.
             destruct (T2 i j (LR _ _ P)) as (A1 & A2 & A3 & A4).
             destruct (K1 i (or_introl I1)) as [_ E]. rewrite E.
             destruct S1 as (_ & S1 & _).
             rewrite !(acore_ak _ _ (S1 i)), !(acore_ac _ _ (S1 i)), !(acore_ak _ _ (S1 j)), !(acore_ac _ _ (S1 j)). auto.
        * exists w2. simpl. rewrite C1. simpl. split; [exact C2|]. split; [now apply (sc_trans w w1)|].
          assert (K2 : forall k, ~ In k (flat_map tids l') ->
            lval (leafs w2 k) = lval (leafs w1 k) /\ avals (arrs w2 k) = avals (arrs w1 k)) by exact W3.
          split; [|split].
          -- intros i j (a & b & [E|H] & P).
             ++ injection E as <- <-. destruct (parts_tids _ _ _ _ P) as [I1 I2]. simpl in I1, I2.
                destruct (K2 j) as [E _]; [now apply D2|]. rewrite E.
                now apply V1.
             ++ assert (P' : lparts l l' (TSimple i) (TSimple j)) by (exists a, b; auto).
                destruct (LT _ _ P') as [I1 I2]. simpl in I1, I2.
                destruct (W1 i j P') as [G1 G2]. rewrite (core_forced w w1 j S1) in G1, G2.
                destruct (K1 i (or_introl I1)) as [E1 _]. destruct (K1 j (or_intror I2)) as [E2 _].
                rewrite E1 in G2. rewrite E2 in G1. now split.
          -- intros i j (a & b & [E|H] & P).
             ++ injection E as <- <-. destruct (parts_tids _ _ _ _ P) as [I1 I2]. simpl in I1, I2.
                destruct (K2 j) as [_ E]; [now apply D2|]. rewrite E. now apply V2.
             ++ assert (P' : lparts l l' (TSArr i) (TSArr j)) by (exists a, b; auto).
                destruct (LT _ _ P') as [I1 I2]. simpl in I1, I2.
                rewrite (W2 i j P'). apply (K1 i). now left.
          -- intros k Hk. simpl in Hk. destruct (K2 k) as [E1 E2]; [intros G; apply Hk, in_or_app; now right|].
             rewrite E1, E2. apply V3. intros G. apply Hk, in_or_app. now left.
  Qed.

  Lemma tree_copy : forall s, tree_goal s.
  Proof.
    intros s. induction s as [i|i|i df a b l IH|i df a b l IH] using tree_ind2;
      intros t w Al Ac Fi (N1 & N2 & Dis) (T1 & T2); inversion Al; subst.
    - inversion Ac as [u C| | |]; subst. specialize (Fi _ _ (pa_self _ _)). simpl in Fi.
      destruct (T1 i j (pa_self _ _)) as ((K1 & V1 & D1) & A2 & A3).
      assert (Nij : i <> j) by (intros ->; apply (Dis j); now left).
      destruct (connect_simple_ok n w i j Nij K1 V1 Fi A2 A3) as (w' & H1 & H2 & H3 & H4 & H5 & H6).
      exists w'. cbn [connect_tree]. rewrite C. split; [exact H1|]. split; [exact H2|]. split; [|split].
      + intros i0 j0 P. inversion P; subst. now split.
      + intros i0 j0 P. inversion P.
      + intros k Hk. rewrite H3. split; [|reflexivity]. apply H6. intros ->. apply Hk. now left.
    - inversion Ac as [|u C| |]; subst. specialize (Fi _ _ (pa_self _ _)). simpl in Fi.
      destruct (T2 i j (pa_self _ _)) as (A1 & A2 & A3 & A4).
      assert (Nij : i <> j) by (intros ->; apply (Dis j); now left).
      destruct (connect_sarr_ok w i j Nij Fi A1 A2 A3 A4) as (w' & H1 & H2 & H3 & H4 & H5).
      exists w'. cbn [connect_tree]. rewrite C. split; [exact H1|]. split; [exact H2|]. split; [|split].
      + intros i0 j0 P. inversion P.
      + intros i0 j0 P. inversion P; subst. exact H4.
      + intros k Hk. rewrite H3. split; [reflexivity|]. apply H5. intros ->. apply Hk. now left.
    - rewrite con_arr. set (w1 := if df then set_nconn w i (nconn w i ++ [j]) else w).
      assert (L1 : leafs w1 = leafs w) by (unfold w1; now destruct df).
      assert (L2 : arrs w1 = arrs w) by (unfold w1; now destruct df).
      assert (S1 : same_core w w1) by (unfold same_core; rewrite L1, L2; repeat split).
      simpl in N1, N2, Dis. inversion N1; inversion N2; subst.
      assert (LP : forall u v, lparts l l' u v -> parts (TArr i df a b l) (TArr j df' a' b' l') u v).
      { intros u v (x & y & H & P). econstructor; eassumption. }
      assert (AC : forall x, In x l -> all_connectable w1 x).
      { inversion Ac as [| |u v x y z H|]; subst. intros x0 Hx. specialize (H x0 Hx). clear -H L1 L2.
        induction H; constructor; auto; [now rewrite L1|now rewrite L2]. }
      destruct (list_copy noidx l IH l' w1) as (w' & C & S & (V1 & V2 & V3)); try assumption.
      + intros x y P. eapply fits_core; [exact S1|]. now apply Fi, LP.
      + intros k Hk G. apply (Dis k); now right.
      + split; [intros u v P; rewrite L1; now apply T1, LP|intros u v P; rewrite L2; now apply T2, LP].
      + exists w'. split; [exact C|]. split; [now apply (sc_trans w w1)|].
        rewrite L1 in V1, V3. rewrite L2 in V2, V3. split; [|split].
        * intros u v P. inversion P as [|i0 df0 a0 b0 l0 j0 df1 a1 b1 l1 x1 y1 s1 t1 Hxy P1|]; subst.
          destruct (V1 u v) as [G1 G2]; [now exists x1, y1|]. rewrite (core_forced w w1 v S1) in G1, G2. now split.
        * intros u v P. inversion P as [|i0 df0 a0 b0 l0 j0 df1 a1 b1 l1 x1 y1 s1 t1 Hxy P1|]; subst.
          apply V2. now exists x1, y1.
        * intros k Hk. apply V3. intros G. apply Hk. now right.
    - rewrite con_str. set (w1 := if df then set_nconn w i (nconn w i ++ [j]) else w).
      assert (L1 : leafs w1 = leafs w) by (unfold w1; now destruct df).
      assert (L2 : arrs w1 = arrs w) by (unfold w1; now destruct df).
      assert (S1 : same_core w w1) by (unfold same_core; rewrite L1, L2; repeat split).
      simpl in N1, N2, Dis. inversion N1; inversion N2; subst.
      assert (LP : forall u v, lparts l l' u v -> parts (TStr i df a b l) (TStr j df' a' b' l') u v).
      { intros u v (x & y & H & P). econstructor; eassumption. }
      assert (AC : forall x, In x l -> all_connectable w1 x).
      { inversion Ac as [| | |u v x y z H]; subst. intros x0 Hx. specialize (H x0 Hx). clear -H L1 L2.
        induction H; constructor; auto; [now rewrite L1|now rewrite L2]. }
      destruct (list_copy ub l IH l' w1) as (w' & C & S & (V1 & V2 & V3)); try assumption.
      + intros x y P. eapply fits_core; [exact S1|]. now apply Fi, LP.
      + intros k Hk G. apply (Dis k); now right.
      + split; [intros u v P; rewrite L1; now apply T1, LP|intros u v P; rewrite L2; now apply T2, LP].
      + exists w'. split; [exact C|]. split; [now apply (sc_trans w w1)|].
        rewrite L1 in V1, V3. rewrite L2 in V2, V3. split; [|split].
        * intros u v P. inversion P as [| |i0 df0 a0 b0 l0 j0 df1 a1 b1 l1 x1 y1 s1 t1 Hxy P1]; subst.
          destruct (V1 u v) as [G1 G2]; [now exists x1, y1|]. rewrite (core_forced w w1 v S1) in G1, G2. now split.
        * intros u v P. inversion P as [| |i0 df0 a0 b0 l0 j0 df1 a1 b1 l1 x1 y1 s1 t1 Hxy P1]; subst.
          apply V2. now exists x1, y1.
        * intros k Hk. apply V3. intros G. apply Hk. now right.
  Qed.
End Copy.

Lemma connect_accepts : forall n w s t,
  acceptable w s t -> all_connectable w s -> separate s t -> transferable w s t ->
  exists w', connect (S n) w s t = (w', Ok tt) /\ copied w w' s t.
Proof.
  intros n w s t A C Sp Tr. pose proof (proj1 (acceptable_checks w s t) (conj A C)) as [E1 E2].
  unfold connect. rewrite E1, E2. simpl negb. cbv iota.
  destruct A as (_ & _ & _ & Sh & _).
  destruct (tree_copy n s t w) as (w' & H1 & H2 & H3); try assumption.
  - eapply shape_alike; exact Sh.
  - now apply shape_fits.
  - eauto.
Qed.

Lemma connect_refuses : forall n w s t, ~ (acceptable w s t /\ all_connectable w s) ->
  connect n w s t = (w, Throw InvalidTarget) \/ connect n w s t = (w, Throw FieldAlreadyConnected).
Proof.
  intros n w s t H. rewrite acceptable_checks in H. unfold connect.
  destruct (_ || _); [now left|]. destruct (can_connect w s t) eqn:C; [|now right].
  exfalso. apply H. now split.
Qed.
