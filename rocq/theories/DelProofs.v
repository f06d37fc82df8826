(** Proofs about the deletion of components. *)
From Coq Require Import ZArith List Bool Lia Relations.
From Verif Require Import Base DelModel DelSpec.
Import ListNotations.
Local Open Scope Z_scope.

Lemma is_in_iff x l : is_in x l = true <-> In x l.
Proof.
  unfold is_in. rewrite existsb_exists. split.
  - intros (y & I & E). apply Z.eqb_eq in E. now subst.
  - intros I. exists x. split; [exact I|apply Z.eqb_refl].
Qed.
Lemma is_in_false x l : is_in x l = false <-> ~ In x l.
Proof. rewrite <- is_in_iff. destruct (is_in x l); intuition congruence. Qed.
Lemma is_closed_iff k s : is_closed k s = true <-> In k (closed s).
Proof.
  unfold is_closed. rewrite existsb_exists. split.
  - intros (y & I & E). apply Nat.eqb_eq in E. now subst.
  - intros I. exists k. split; [exact I|apply Nat.eqb_refl].
Qed.
Lemma is_closed_false k s : is_closed k s = false <-> ~ In k (closed s).
Proof. rewrite <- is_closed_iff. destruct (is_closed k s); intuition congruence. Qed.

Lemma upd_same {A} (f : nat -> A) k a : upd f k a k = a.
Proof. unfold upd. now rewrite Nat.eqb_refl. Qed.
Lemma upd_other {A} (f : nat -> A) k a x : x <> k -> upd f k a x = f x.
Proof. intros N. unfold upd. destruct (Nat.eqb_spec x k); congruence. Qed.

Lemma del_nth_in {A} (l : list A) i x : In x (del_nth i l) -> In x l.
Proof. revert i. induction l as [|y l IH]; intros [|i]; cbn; intuition eauto. Qed.
Lemma del_nth_nd {A} (l : list A) i : NoDup l -> NoDup (del_nth i l).
Proof.
  revert i. induction l as [|y l IH]; intros [|i] H; cbn; auto; inversion H as [|? ? N D]; subst; auto.
  constructor; [|now apply IH]. intros I. now apply del_nth_in in I.
Qed.
Lemma del_nth_other {A} (l : list A) i x y : nth_error l i = Some y -> In x l -> x <> y -> In x (del_nth i l).
Proof.
  revert i. induction l as [|z l IH]; intros [|i] E I N; cbn in *; try discriminate.
  - injection E as ->. destruct I as [->|I]; [congruence|exact I].
  - destruct I as [->|I]; [now left|]. right. now apply IH.
Qed.
Lemma del_nth_gone {A} (l : list A) i y : NoDup l -> nth_error l i = Some y -> ~ In y (del_nth i l).
Proof.
  revert i. induction l as [|z l IH]; intros [|i] D E I; cbn in *; try discriminate; inversion D as [|? ? N D']; subst.
  - injection E as ->. contradiction.
  - destruct I as [->|I]; [apply N; now apply nth_error_In in E|]. now apply (IH i D' E).
Qed.
Lemma last_nth {A} (l : list A) c r : rev l = c :: r -> nth_error l (pred (length l)) = Some c.
Proof.
  intros E. assert (H : l = rev r ++ [c]) by (rewrite <- (rev_involutive l), E; reflexivity).
  rewrite H, app_length. cbn [length]. rewrite Nat.add_1_r. cbn [pred].
  rewrite nth_error_app2 by lia. now rewrite Nat.sub_diag.
Qed.

Section Deletion.
  Variable owner : nat -> Z.
  Variable conts_of : Z -> list nat.
  Variable lower upper rlower rupper : nat -> Z.
  Variable par : Z -> Z.
  Variable refuses : st -> nat -> Z -> bool.
  Variable moves : nat -> bool.
  Variable disc dest : st -> Z -> prog.
  Hypothesis tree : tree_like owner conts_of par.
  Hypothesis good : disciplined owner disc dest.

  Notation below := (below par).
  Notation exec := (exec owner conts_of upper rlower rupper par refuses moves).
  Notation one := (one owner conts_of upper rlower rupper par refuses moves).
  Notation add := (add owner conts_of upper par refuses moves).
  Notation destroy := (destroy owner conts_of lower upper rlower rupper par refuses moves disc dest).
  Notation delete := (delete owner conts_of lower upper rlower rupper par refuses moves disc dest).

  Let par_lt : forall c, par c < c := proj1 tree.
  Let conts_ok : forall c k, In k (conts_of c) <-> owner k = c := proj1 (proj2 tree).

  Lemma below_le c x : below c x -> c <= x.
  Proof. induction 1 as [|a b c E _ IH]; [lia|]. specialize (par_lt a). subst b. lia. Qed.
  Lemma below_refl c : below c c.
  Proof. constructor. Qed.
  Lemma below_trans a b c : below a b -> below b c -> below a c.
  Proof.
    intros H1 H2. apply clos_rt_rt1n. eapply rt_trans; apply clos_rt1n_rt; eassumption.
  Qed.
  Lemma below_child c x : par x = c -> below c x.
  Proof. intros E. econstructor; [exact E|constructor]. Qed.
  Lemma below_inv c x : below c x -> x = c \/ below c (par x).
  Proof. intros H. inversion H as [|y z E R]; subst; [now left|now right]. Qed.
  Lemma not_below_owner x k : par x = owner k -> ~ below x (owner k).
  Proof. intros E H. apply below_le in H. specialize (par_lt x). lia. Qed.

  Lemma below_dec w x : below w x \/ ~ below w x.
  Proof.
    destruct (Z_lt_le_dec x w) as [L|L]; [right; intros H; apply below_le in H; lia|].
    assert (G : forall n : nat, forall x, x <= w + Z.of_nat n -> below w x \/ ~ below w x).
    { clear - par_lt. induction n as [|n IH]; intros x L.
      - destruct (Z.eq_dec x w) as [->|N]; [left; apply below_refl|].
        right. intros H. apply below_le in H. lia.
      - destruct (Z.eq_dec x w) as [->|N]; [left; apply below_refl|].
        destruct (IH (par x)) as [H|H].
        + specialize (par_lt x). lia.
        + left. eapply below_trans; [exact H|]. now apply below_child.
        + right. intros J. apply below_inv in J as [J|J]; [congruence|contradiction]. }
    apply (G (Z.to_nat (x - w))). lia.
  Qed.

  (** What holds of the part below [u] while the code of [u] runs. *)
  Record ok (u : Z) (s : st) : Prop := {
    ok_in : forall k x, below u (owner k) -> In x (cts s k) -> par x = owner k /\ x < next s /\ ~ In x (gone s);
    ok_nd : forall k, below u (owner k) -> NoDup (cts s k);
    ok_one : forall k k' x, below u (owner k) -> In x (cts s k) -> In x (cts s k') -> k = k';
    ok_gone : forall x, In x (gone s) -> x < next s;
    ok_once : NoDup (gone s);
    ok_void : forall k, below u (owner k) -> owner k <> u -> In (owner k) (gone s) -> cts s k = [];
    ok_open : forall k, below u (owner k) -> owner k <> u -> In k (closed s) -> In (owner k) (gone s);
    ok_it : forall k i, In (Some (k, i)) (iters s) -> ~ below u (owner k);
    ok_all : forall k x, In x (cts s k) -> par x = owner k /\ x < next s;
    ok_next : u < next s }.

  (** What the code of [u] may change. *)
  Record chg (own : bool) (u : Z) (s s' : st) : Prop := {
    ch_cts : forall k, ~ below u (owner k) -> cts s' k = cts s k;
    ch_refs : refs s' = refs s;
    ch_it : iters s' = iters s;
    ch_next : next s <= next s';
    ch_gone : exists l, gone s' = gone s ++ l /\ forall x, In x l -> below u x /\ x <> u;
    ch_closed : exists l, closed s' = l ++ closed s /\
      forall k, In k l -> below u (owner k) /\ (owner k = u -> own = true);
    ch_keep : forall k x, In x (cts s k) -> In x (cts s' k) \/ In x (gone s') }.

  Lemma chg_refl own u s : chg own u s s.
  Proof.
    split; auto; try lia; [exists []|exists []]; split; try (now rewrite app_nil_r); try reflexivity; intros ? [].
  Qed.
  Lemma chg_trans own u a b c : chg own u a b -> chg own u b c -> chg own u a c.
  Proof.
    intros [A1 A2 A3 A4 (l & A5 & A6) (q & A7 & A8) A9] [B1 B2 B3 B4 (m & B5 & B6) (r & B7 & B8) B9]. split.
    - intros k N. rewrite B1, A1 by exact N. reflexivity.
    - congruence.
    - congruence.
    - lia.
    - exists (l ++ m). split; [rewrite B5, A5; now rewrite app_assoc|]. intros x I. apply in_app_iff in I as [I|I]; auto.
    - exists (r ++ q). split; [rewrite B7, A7; now rewrite app_assoc|]. intros x I. apply in_app_iff in I as [I|I]; auto.
    - intros k x I. destruct (A9 k x I) as [J|J]; [now apply B9|]. right. rewrite B5. apply in_app_iff. now left.
  Qed.

  (** From the part below [u] to the part below a component [w] in it. *)
  Lemma ok_sub u w s : ok u s -> below u w -> w < next s -> ok w s.
  Proof.
    intros [O1 O2 O3 O4 O5 O6 O7 O8 O9 O10] B L. split; auto.
    - intros k x H. apply O1. now apply (below_trans u w).
    - intros k H. apply O2. now apply (below_trans u w).
    - intros k k' x H. apply O3. now apply (below_trans u w).
    - intros k H N. apply O6; [now apply (below_trans u w)|]. intros E. apply N. apply below_le in B.
      apply below_le in H. lia.
    - intros k H N. apply O7; [now apply (below_trans u w)|]. intros E. apply N. apply below_le in B.
      apply below_le in H. lia.
    - intros k i I H. apply (O8 k i I). now apply (below_trans u w).
  Qed.

  Lemma chg_sub own o2 u w s s' : below u w -> w <> u -> chg own w s s' -> chg o2 u s s'.
  Proof.
    intros B Nw [A1 A2 A3 A4 (l & A5 & A6) (q & A7 & A8) A9]. split; auto.
    - intros k N. apply A1. intros H. apply N. now apply (below_trans u w).
    - exists l. split; [exact A5|]. intros x I. destruct (A6 x I) as [H N]. split; [now apply (below_trans u w)|].
      apply below_le in H, B. lia.
    - exists q. split; [exact A7|]. intros x I. destruct (A8 x I) as [H _]. split; [now apply (below_trans u w)|].
      intros E. rewrite E in H. apply below_le in H, B. lia.
  Qed.

  (** Iterators into containers the code cannot reach are left alone. *)
  Lemma drop_none u its k p : below u (owner k) -> (forall k' i, In (Some (k', i)) its -> ~ below u (owner k')) ->
    map (drop_from k p) its = its.
  Proof.
    intros B H. induction its as [|it its IH]; [reflexivity|]. cbn. rewrite IH by (intros k' i I; apply (H k' i); now right).
    f_equal. destruct it as [[k' q]|]; [|reflexivity]. cbn. destruct (Nat.eqb_spec k' k) as [->|N]; [|reflexivity].
    exfalso. now apply (H k q (or_introl eq_refl)).
  Qed.

  (** The end of the code of a component [w] below [u], [w] itself destroyed or not: the
      part below [u] is in order again, once [w], if destroyed, is out of its container. *)
  Lemma ok_back u w s s' s'' : ok u s -> below u w -> w <> u -> w < next s ->
    ok w s' ->
    (forall k, ~ below w (owner k) -> cts s' k = cts s k) -> next s <= next s' -> iters s'' = iters s ->
    (exists l, gone s' = gone s ++ l /\ forall x, In x l -> below w x) ->
    (exists l, closed s' = l ++ closed s /\ forall k, In k l -> below w (owner k)) ->
    (In w (gone s') -> forall k, owner k = w -> cts s' k = []) ->
    (forall k, owner k = w -> In k (closed s') -> In w (gone s')) ->
    gone s'' = gone s' -> closed s'' = closed s' -> next s'' = next s' ->
    (forall k x, In x (cts s'' k) -> In x (cts s' k)) -> (forall k, NoDup (cts s' k) -> NoDup (cts s'' k)) ->
    (In w (gone s') -> forall k, ~ below w (owner k) -> ~ In w (cts s'' k)) ->
    ok u s''.
  Proof.
    intros O B Nw Lw W C1 C2 C3 (l & G1 & G2) (q & Q1 & Q2) V1 V2 E1 E2 E3 S1 S2 S3.
    pose proof (below_dec w) as Dec.
    assert (Ga : forall x, In x (gone s') -> In x (gone s) \/ below w x).
    { intros x I. rewrite G1 in I. apply in_app_iff in I as [I|I]; auto. }
    split.
    - intros k x H I. rewrite E1, E3. destruct (Dec (owner k)) as [D|D].
      + apply S1 in I. apply (ok_in _ _ W); assumption.
      + pose proof (S1 _ _ I) as J. rewrite C1 in J by exact D. destruct (ok_in _ _ O k x H J) as (P1 & P2 & P3).
        split; [exact P1|]. split; [lia|]. intros Gx. destruct (Ga x Gx) as [Gx'|Bx]; [contradiction|].
        apply below_inv in Bx as [->|Bx]; [|rewrite P1 in Bx; contradiction].
        now apply (S3 Gx k D).
    - intros k H. apply S2. destruct (Dec (owner k)) as [D|D]; [now apply (ok_nd _ _ W)|].
      rewrite C1 by exact D. now apply (ok_nd _ _ O).
    - intros k k' x H I I'. apply S1 in I, I'. destruct (Dec (owner k)) as [D|D].
      + now apply (ok_one _ _ W k k' x).
      + destruct (Dec (owner k')) as [D'|D'].
        * symmetry. now apply (ok_one _ _ W k' k x).
        * rewrite C1 in I, I' by assumption. now apply (ok_one _ _ O k k' x).
    - rewrite E1, E3. apply (ok_gone _ _ W).
    - rewrite E1. apply (ok_once _ _ W).
    - intros k H N I. rewrite E1 in I.
      assert (Z : cts s' k = [] -> cts s'' k = []).
      { intros Z. destruct (cts s'' k) as [|y r] eqn:Ey; [reflexivity|]. exfalso.
        specialize (S1 k y). rewrite Ey, Z in S1. apply S1. now left. }
      apply Z. destruct (Dec (owner k)) as [D|D].
      + destruct (Z.eq_dec (owner k) w) as [Ew|Ew]; [apply V1; [now rewrite <- Ew|exact Ew]|].
        now apply (ok_void _ _ W).
      + rewrite C1 by exact D. destruct (Ga _ I) as [I'|I']; [|contradiction]. now apply (ok_void _ _ O).
    - intros k H N I. rewrite E1. rewrite E2 in I. destruct (Dec (owner k)) as [D|D].
      + destruct (Z.eq_dec (owner k) w) as [Ew|Ew]; [rewrite Ew; now apply (V2 k)|]. now apply (ok_open _ _ W).
      + rewrite Q1 in I. apply in_app_iff in I as [I|I]; [exfalso; apply D; now apply Q2|].
        rewrite G1. apply in_app_iff. left. now apply (ok_open _ _ O).
    - rewrite C3. apply (ok_it _ _ O).
    - intros k x I. apply S1 in I. rewrite E3. exact (ok_all _ _ W k x I).
    - rewrite E3. pose proof (ok_next _ _ O). lia.
  Qed.

  (** ** AddComponent *)
  Lemma add_ok u s k s' o : ok u s -> owner k = u -> (forall k, owner k = u -> ~ In k (closed s)) ->
    add s k = (s', o) -> o <> Undef /\ o <> Deep /\ ok u s' /\ chg false u s s' /\ closed s' = closed s /\ gone s' = gone s.
  Proof.
    intros O Ek Cl E. unfold DelModel.add in E.
    assert (Oc : ok u (created s)).
    { destruct O as [O1 O2 O3 O4 O5 O6 O7 O8 O9 O10]. split; cbn; auto; try lia.
      - intros k' x H I. destruct (O1 k' x H I) as (P1 & P2 & P3). split; [exact P1|]. split; [lia|exact P3].
      - intros x I. specialize (O4 x I). lia.
      - intros k' x I. destruct (O9 k' x I). split; [assumption|lia]. }
    assert (Cc : chg false u s (created s)).
    { split; cbn; auto; try lia; [exists []|exists []]; split; try (now rewrite app_nil_r); try reflexivity; intros ? []. }
    destruct (_ <=? _); [injection E as <- <-; split; [discriminate|]; split; [discriminate|]; split; [exact Oc|]; split; [exact Cc|]; now split|].
    match type of E with (if ?b then _ else _) = _ => destruct b eqn:Ex end.
    { exfalso. apply existsb_exists in Ex as (k' & I & Ex). apply existsb_exists in Ex as (x & Ix & Ex).
      apply is_in_iff in Ex. apply conts_ok in I. destruct (ok_in _ _ Oc k' x) as (_ & _ & N); auto.
      rewrite I, Ek. apply below_refl. }
    destruct (refuses _ _ _); [injection E as <- <-; split; [discriminate|]; split; [discriminate|]; split; [exact Oc|]; split; [exact Cc|]; now split|].
    destruct (par (next s) =? owner k) eqn:Ep; cbn [negb] in E;
      [|injection E as <- <-; split; [discriminate|]; split; [discriminate|]; split; [exact Oc|]; split; [exact Cc|]; now split].
    apply Z.eqb_eq in Ep.
    assert (Eit : (if moves (length (cts (created s) k)) then map (drop_from k 0) (iters (created s)) else iters (created s)) = iters s).
    { destruct (moves _); [|reflexivity]. cbn. apply (drop_none u); [rewrite Ek; apply below_refl|apply (ok_it _ _ O)]. }
    rewrite Eit in E. injection E as <- <-. split; [discriminate|]. split; [discriminate|].
    destruct O as [O1 O2 O3 O4 O5 O6 O7 O8 O9 O10].
    assert (Fr : forall k', ~ In (next s) (cts s k')) by (intros k' I; destruct (O9 k' _ I); lia).
    split; [|split; [|split; reflexivity]].
    - split; cbn; auto; try lia.
      + intros k' x H I. destruct (Nat.eq_dec k' k) as [->|N].
        * rewrite upd_same in I. apply in_app_iff in I as [I|[<-|[]]].
          -- destruct (O1 k x H I) as (P1 & P2 & P3). split; [exact P1|]. split; [lia|exact P3].
          -- split; [exact Ep|]. split; [lia|]. intros G. specialize (O4 _ G). lia.
        * rewrite upd_other in I by exact N. destruct (O1 k' x H I) as (P1 & P2 & P3). split; [exact P1|]. split; [lia|exact P3].
      + intros k' H. destruct (Nat.eq_dec k' k) as [->|N]; [|rewrite upd_other by exact N; now apply O2].
        rewrite upd_same. specialize (O2 k H). specialize (Fr k). clear - O2 Fr.
        induction (cts s k) as [|y l IH]; cbn; [constructor; [now intros []|constructor]|].
        inversion O2 as [|? ? Ny D]; subst. constructor.
        * intros I. apply in_app_iff in I as [I|[I|[]]]; [contradiction|]. apply Fr. left. congruence.
        * apply IH; [exact D|]. intros I. apply Fr. now right.
      + intros k1 k2 x H I1 I2.
        assert (G : forall k', In x (upd (cts s) k (cts s k ++ [next s]) k') -> In x (cts s k') \/ (k' = k /\ x = next s)).
        { intros k' I. destruct (Nat.eq_dec k' k) as [->|N].
          - rewrite upd_same in I. apply in_app_iff in I as [I|[<-|[]]]; auto.
          - rewrite upd_other in I by exact N. now left. }
        destruct (G _ I1) as [J1|[-> ->]], (G _ I2) as [J2|[E2 E3]]; subst; auto.
        * now apply (O3 k1 k2 x).
        * exfalso. now apply (Fr k1).
        * exfalso. now apply (Fr k2).
      + intros x I. specialize (O4 x I). lia.
      + intros k' H N I. rewrite upd_other; [now apply O6|]. intros ->. apply N. exact Ek.
      + intros k' x I. destruct (Nat.eq_dec k' k) as [->|N].
        * rewrite upd_same in I. apply in_app_iff in I as [I|[<-|[]]]; [destruct (O9 k x I); split; [assumption|lia]|].
          split; [exact Ep|lia].
        * rewrite upd_other in I by exact N. destruct (O9 k' x I). split; [assumption|lia].
    - split; cbn; auto; try lia.
      + intros k' N. apply upd_other. intros ->. apply N. rewrite Ek. apply below_refl.
      + exists []. split; [now rewrite app_nil_r|intros ? []].
      + exists []. split; [reflexivity|intros ? []].
      + intros k' x I. left. destruct (Nat.eq_dec k' k) as [->|N]; [|now rewrite upd_other].
        rewrite upd_same. apply in_app_iff. now left.
  Qed.

  Lemma set_iters_same s : set_iters s (iters s) = s.
  Proof. now destruct s. Qed.

  (** ** The end of a component *)
  Record died (c : Z) (s s' : st) : Prop := {
    di_ok : ok c s';
    di_cts : forall k, ~ below c (owner k) -> cts s' k = cts s k;
    di_refs : refs s' = refs s;
    di_next : next s <= next s';
    di_gone : exists l, gone s' = gone s ++ l /\ In c l /\ forall x, In x l -> below c x;
    di_closed : exists l, closed s' = l ++ closed s /\ forall k, In k l -> below c (owner k);
    di_keep : forall k x, In x (cts s k) -> In x (cts s' k) \/ In x (gone s');
    di_void : forall k, owner k = c -> cts s' k = [] }.

  Lemma chg_died c a b d : chg false c a b -> died c b d -> died c a d.
  Proof.
    intros [A1 A2 A3 A4 (l & A5 & A6) (q & A7 & A8) A9] [B0 B1 B2 B4 (m & B5 & B6 & B6') (r & B7 & B8) B9 B10]. split; auto.
    - intros k N. rewrite B1, A1 by exact N. reflexivity.
    - congruence.
    - lia.
    - exists (l ++ m). split; [rewrite B5, A5; now rewrite app_assoc|]. split; [apply in_app_iff; now right|].
      intros x I. apply in_app_iff in I as [I|I]; [now apply A6|auto].
    - exists (r ++ q). split; [rewrite B7, A7; now rewrite app_assoc|]. intros x I.
      apply in_app_iff in I as [I|I]; [auto|now apply A8].
    - intros k x I. destruct (A9 k x I) as [J|J]; [now apply B9|]. right. rewrite B5. apply in_app_iff. now left.
  Qed.

  (** Taking a destroyed component out of its container. *)
  Lemma erase_ok u s x k i s1 : ok u s -> owner k = u -> nth_error (cts s k) i = Some x -> died x s s1 ->
    let s2 := erase_at (set_iters s1 (iters s)) k i in
    ok u s2 /\ chg false u s s2 /\ cts s2 k = del_nth i (cts s k) /\
    (forall k', k' <> k -> ~ below x (owner k') -> cts s2 k' = cts s k') /\
    gone s2 = gone s1 /\ closed s2 = closed s1 /\ refs s2 = refs s1.
  Proof.
    intros O Ek Ex Dx s2. pose proof (nth_error_In _ _ Ex) as Ix.
    assert (Bk : below u (owner k)) by (rewrite Ek; apply below_refl).
    destruct (ok_in _ _ O k x Bk Ix) as (P1 & P2 & P3).
    assert (Bx : below u x) by (apply below_child; congruence).
    assert (Nx : x <> u) by (intros ->; specialize (par_lt u); lia).
    assert (Nk : ~ below x (owner k)) by now apply not_below_owner.
    destruct Dx as [D0 D1 D2 D3 (l & D4 & D5 & D6) (q & D7 & D8) D9 D10].
    assert (Ck : cts s1 k = cts s k) by now apply D1.
    assert (Si : iters s2 = iters s).
    { unfold s2, erase_at. cbn. apply (drop_none u); [exact Bk|apply (ok_it _ _ O)]. }
    assert (Sk : cts s2 k = del_nth i (cts s k)) by (unfold s2, erase_at; cbn; rewrite upd_same; now rewrite Ck).
    assert (So : forall k', k' <> k -> cts s2 k' = cts s1 k') by (intros k' N; unfold s2, erase_at; cbn; now apply upd_other).
    assert (Gx : In x (gone s1)) by (rewrite D4; apply in_app_iff; now right).
    split; [|split; [|split; [exact Sk|split; [|split; [reflexivity|split; reflexivity]]]]].
    - apply (ok_back u x s s1 s2); auto.
      + exists l. auto.
      + exists q. auto.
      + intros k' x' I. destruct (Nat.eq_dec k' k) as [->|N]; [|now rewrite So in I].
        rewrite Sk in I. rewrite Ck. now apply del_nth_in in I.
      + intros k' Hn. destruct (Nat.eq_dec k' k) as [->|N]; [|now rewrite So].
        rewrite Sk. apply del_nth_nd. now rewrite <- Ck.
      + intros _ k' Nb I. destruct (Nat.eq_dec k' k) as [->|N].
        * rewrite Sk in I. revert I. apply del_nth_gone; [now apply (ok_nd _ _ O)|exact Ex].
        * rewrite So, D1 in I by assumption. apply N. symmetry. now apply (ok_one _ _ O k k' x).
    - split.
      + intros k' N. rewrite So by (intros ->; contradiction). apply D1. intros H. apply N. now apply (below_trans u x).
      + exact D2.
      + exact Si.
      + exact D3.
      + exists l. split; [exact D4|]. intros y I. specialize (D6 y I). split; [now apply (below_trans u x)|].
        intros ->. apply below_le in D6, Bx. lia.
      + exists q. split; [exact D7|]. intros k' I. specialize (D8 k' I). split; [now apply (below_trans u x)|].
        intros E. rewrite E in D8. apply below_le in D8, Bx. lia.
      + intros k' y I. destruct (Nat.eq_dec k' k) as [->|N].
        * destruct (Z.eq_dec y x) as [->|Ny]; [right; exact Gx|]. left. rewrite Sk. now apply (del_nth_other _ _ _ x).
        * rewrite So by exact N. now apply D9.
    - intros k' N H. rewrite So by exact N. now apply D1.
  Qed.

  Definition open (u : Z) (s : st) : Prop := forall k, owner k = u -> ~ In k (closed s).
  Lemma chg_open u s s' : chg false u s s' -> open u s -> open u s'.
  Proof.
    intros C H k E I. destruct (ch_closed _ _ _ _ C) as (l & Q & R). rewrite Q in I.
    apply in_app_iff in I as [I|I]; [|now apply (H k)]. destruct (R k I) as [_ X]. now specialize (X E).
  Qed.
  Lemma child_open u s x k : ok u s -> owner k = u -> In x (cts s k) -> open x s.
  Proof.
    intros O Ek I k' E C. assert (Bk : below u (owner k)) by (rewrite Ek; apply below_refl).
    destruct (ok_in _ _ O k x Bk I) as (P1 & _ & P3). apply P3. rewrite <- E. apply (ok_open _ _ O); auto.
    - rewrite E. apply below_child. congruence.
    - rewrite E. intros ->. specialize (par_lt u). lia.
  Qed.

  Definition destroys (dst : st -> Z -> st * outcome) : Prop :=
    forall s c s' o, ok c s -> ~ In c (gone s) -> open c s -> dst s c = (s', o) ->
      o <> Undef /\ (forall e, o <> Thrown e) /\ (o = Fin -> died c s s' /\ iters s' = iters s).
  Definition deletes (del : st -> nat -> nat -> st * outcome) : Prop :=
    forall u s k i s' o, ok u s -> owner k = u -> open u s -> del s k i = (s', o) ->
      o <> Undef /\ (o <> Deep -> ok u s' /\ chg false u s s').

  Lemma exec_ok del : deletes del -> forall p u s s' o, ok u s -> open u s -> minds_own owner u p ->
    exec del s p = (s', o) ->
    o <> Undef /\ (o <> Deep -> ok u s' /\ chg false u s s') /\ (quiet p -> forall e, o <> Thrown e).
  Proof.
    intros Hd p. induction p as [| |c f IH]; intros u s s' o O Op M E; cbn [DelModel.exec] in E.
    - injection E as <- <-. split; [discriminate|]. split; [intros _; split; [exact O|apply chg_refl]|discriminate].
    - injection E as <- <-. split; [discriminate|]. split; [intros _; split; [exact O|apply chg_refl]|intros []].
    - destruct M as [Mc Mf]. destruct (one del s c) as [s1 o1] eqn:E1.
      assert (S1 : o1 <> Undef /\ (o1 <> Deep -> ok u s1 /\ chg false u s s1)).
      { destruct c as [k|k i| | |]; try contradiction; cbn [DelModel.one] in E1.
        - destruct (is_closed k s) eqn:C; [apply is_closed_iff in C; exfalso; now apply (Op k)|].
          destruct (add_ok u s k s1 o1 O Mc Op E1) as (A1 & A2 & A3 & A4 & _). auto.
        - destruct (is_closed k s) eqn:C; [apply is_closed_iff in C; exfalso; now apply (Op k)|].
          exact (Hd u s k i s1 o1 O Mc Op E1). }
      destruct S1 as [N1 S1].
      assert (Go : forall r, exec del s1 (f r) = (s', o) -> o1 <> Deep ->
        o <> Undef /\ (o <> Deep -> ok u s' /\ chg false u s s') /\ (quiet (Do c f) -> forall e, o <> Thrown e)).
      { intros r Er Nd. destruct (S1 Nd) as [O1 C1]. destruct (IH r u s1 s' o O1 (chg_open _ _ _ C1 Op) (Mf r) Er) as (R1 & R2 & R3).
        split; [exact R1|]. split; [|intros Q; apply R3; exact (Q r)].
        intros Nd'. destruct (R2 Nd') as [O2 C2]. split; [exact O2|]. now apply (chg_trans false u s s1). }
      destruct o1 as [|e| |].
      + apply (Go None E). discriminate.
      + apply (Go (Some e) E). discriminate.
      + now elim N1.
      + injection E as <- <-. split; [discriminate|]. split; [intros N; now elim N|intros _; discriminate].
  Qed.

  Lemma empty_out_ok dst c : destroys dst -> forall m s k s' o, ok c s -> owner k = c ->
    empty_out dst m s k = (s', o) ->
    o <> Undef /\ (forall e, o <> Thrown e) /\
    (o = Fin -> ok c s' /\ chg true c s s' /\ cts s' k = [] /\ forall k', owner k' = c -> k' <> k -> cts s' k' = cts s k').
  Proof.
    intros Hd m. induction m as [|m IH]; intros s k s' o O Ek E; cbn [empty_out] in E.
    { injection E as <- <-. split; [discriminate|]. split; discriminate. }
    destruct (rev (cts s k)) as [|x r] eqn:Er.
    - injection E as <- <-. split; [discriminate|]. split; [discriminate|]. intros _.
      assert (Z : cts s k = []) by (rewrite <- (rev_involutive (cts s k)), Er; reflexivity).
      split; [|split; [|split; [exact Z|reflexivity]]].
      + destruct O as [O1 O2 O3 O4 O5 O6 O7 O8 O9 O10]. split; cbn; auto.
        intros k' H N [<-|I]; [congruence|now apply O7].
      + split; cbn; auto; try lia.
        * exists []. split; [now rewrite app_nil_r|intros ? []].
        * exists [k]. split; [reflexivity|]. intros k' [<-|[]]. split; [rewrite Ek; apply below_refl|reflexivity].
    - pose proof (last_nth _ _ _ Er) as Ex. pose proof (nth_error_In _ _ Ex) as Ix.
      assert (Bk : below c (owner k)) by (rewrite Ek; apply below_refl).
      destruct (ok_in _ _ O k x Bk Ix) as (P1 & P2 & P3).
      destruct (is_in x (gone s)) eqn:G; [apply is_in_iff in G; contradiction|].
      destruct (dst s x) as [s1 o1] eqn:Ed.
      assert (Bx : below c x) by (apply below_child; congruence).
      destruct (Hd s x s1 o1 (ok_sub c x s O Bx P2) P3 (child_open c s x k O Ek Ix) Ed) as (N1 & N2 & Fn).
      destruct o1 as [|e| |]; [|now elim (N2 e)|now elim N1|].
      2: { injection E as <- <-. split; [discriminate|]. split; discriminate. }
      destruct (Fn eq_refl) as [Dx Ei].
      assert (Nk : ~ below x (owner k)) by now apply not_below_owner.
      pose proof (di_cts _ _ _ Dx k Nk) as Ck.
      destruct (erase_ok c s x k (pred (length (cts s k))) s1 O Ek Ex Dx) as (O2 & C2 & K2 & F2 & _).
      rewrite <- Ei, set_iters_same in O2, C2, K2, F2.
      assert (E' : empty_out dst m (erase_at s1 k (pred (length (cts s k)))) k = (s', o)).
      { rewrite Ck in E. destruct (cts s k); [destruct Ix|exact E]. }
      destruct (IH _ k s' o O2 Ek E') as (R1 & R2 & R3). split; [exact R1|]. split; [exact R2|].
      intros F. destruct (R3 F) as (Q1 & Q2 & Q3 & Q4). split; [exact Q1|]. split; [|split; [exact Q3|]].
      + eapply chg_trans; [|exact Q2]. clear - C2. destruct C2 as [C1 C2 C3 C4 C5 (l & C6 & C7) C8]. split; auto.
        exists l. split; [exact C6|]. intros k' I. destruct (C7 k' I). auto.
      + intros k' E1 N. rewrite Q4 by assumption. apply F2; [exact N|]. rewrite E1, <- Ek. exact Nk.
  Qed.

  Lemma empty_all_ok dst c : destroys dst -> forall ks m s s' o, ok c s -> (forall k, In k ks -> owner k = c) ->
    empty_all dst m s ks = (s', o) ->
    o <> Undef /\ (forall e, o <> Thrown e) /\
    (o = Fin -> ok c s' /\ chg true c s s' /\ (forall k, In k ks -> cts s' k = []) /\
       forall k', owner k' = c -> cts s k' = [] -> cts s' k' = []).
  Proof.
    intros Hd ks. induction ks as [|k ks IH]; intros m s s' o O H E; cbn [empty_all] in E.
    { injection E as <- <-. split; [discriminate|]. split; [discriminate|]. intros _. split; [exact O|].
      split; [apply chg_refl|]. split; [intros ? []|auto]. }
    destruct (empty_out dst m s k) as [s1 o1] eqn:E1.
    destruct (empty_out_ok dst c Hd m s k s1 o1 O (H k (or_introl eq_refl)) E1) as (N1 & N2 & F).
    destruct o1 as [|e| |]; [|now elim (N2 e)|now elim N1|].
    2: { injection E as <- <-. split; [discriminate|]. split; discriminate. }
    destruct (F eq_refl) as (O1 & C1 & K1 & X1).
    destruct (IH m s1 s' o O1 (fun k' I => H k' (or_intror I)) E) as (R1 & R2 & R3).
    split; [exact R1|]. split; [exact R2|]. intros Fo. destruct (R3 Fo) as (Q1 & Q2 & Q3 & Q4).
    split; [exact Q1|]. split; [now apply (chg_trans true c s s1)|]. split.
    - intros k' [<-|I]; [|now apply Q3]. apply Q4; [apply H; now left|exact K1].
    - intros k' E' Z. apply Q4; [exact E'|]. destruct (Nat.eq_dec k' k) as [->|N]; [exact K1|]. now rewrite X1.
  Qed.

  Lemma bury_ok c s : ok c s -> ~ In c (gone s) -> ok c (bury s c).
  Proof.
    intros [O1 O2 O3 O4 O5 O6 O7 O8 O9 O10] N. split; cbn; auto.
    - intros k x H I. destruct (O1 k x H I) as (P1 & P2 & P3). split; [exact P1|]. split; [exact P2|].
      intros G. apply in_app_iff in G as [G|[G|[]]]; [contradiction|]. subst. apply below_le in H.
      specialize (par_lt x). lia.
    - intros x I. apply in_app_iff in I as [I|[<-|[]]]; [now apply O4|exact O10].
    - clear - O5 N. induction (gone s) as [|y l IH]; cbn; [constructor; [now intros []|constructor]|].
      inversion O5 as [|? ? Ny D]; subst. constructor.
      + intros I. apply in_app_iff in I as [I|[I|[]]]; [contradiction|]. apply N. now left.
      + apply IH; [exact D|]. intros I. apply N. now right.
    - intros k H Nk I. apply in_app_iff in I as [I|[I|[]]]; [now apply O6|congruence].
    - intros k H Nk I. apply in_app_iff. left. now apply O7.
  Qed.

  Lemma off_ok c x s : ok c s -> ok c (off s x).
  Proof. intros [O1 O2 O3 O4 O5 O6 O7 O8 O9 O10]. split; cbn; auto. Qed.
  Lemma push_ok c s k i : ok c s -> ~ below c (owner k) -> ok c (set_iters s (Some (k, i) :: iters s)).
  Proof.
    intros [O1 O2 O3 O4 O5 O6 O7 O8 O9 O10] N. split; cbn; auto.
    intros k' i' [E|I]; [injection E as <- <-; exact N|now apply (O8 k' i')].
  Qed.

  (** What a DeleteComponent that returns, or throws, has done. *)
  Definition deleted (s : st) (k i : nat) (x : Z) (s' : st) : Prop :=
    cts s' k = del_nth i (cts s k) /\
    (forall k', k' <> k -> ~ below x (owner k') -> cts s' k' = cts s k') /\
    (exists l, gone s' = gone s ++ l /\ In x l /\ forall y, In y l -> below x y) /\
    (forall k', owner k' = x -> cts s' k' = []).

  Lemma destroy_S n s c : destroy (S n) s c =
    match exec (delete n) (bury s c) (dest (bury s c) c) with
    | (s2, Fin) => empty_all (destroy n) n s2 (rev (conts_of c))
    | (s2, Thrown _) => (s2, Undef)
    | o => o
    end.
  Proof. reflexivity. Qed.
  Lemma delete_S n s k i : delete (S n) s k i =
    match nth_error (cts s k) i with
    | None => (s, Thrown NotContained)
    | Some c =>
        if is_in c (gone s) then (s, Undef)
        else if Z.of_nat (length (cts s k)) <=? to_size (lower k) then (s, Thrown CannotDelete)
        else
          let s1 := set_iters s (Some (k, i) :: iters s) in
          let '(s2, o) := if conn s1 c then exec (delete n) s1 (disc s1 c) else (s1, Fin) in
          match o with
          | Fin =>
              if is_in c (gone s2) then (s2, Undef)
              else match destroy n (off s2 c) c with
                   | (s3, Fin) =>
                       match iters s3 with
                       | Some (k', p) :: its' =>
                           if is_closed k' s3 then (s3, Undef) else (erase_at (set_iters s3 its') k' p, Fin)
                       | _ => (s3, Undef)
                       end
                   | o => o
                   end
          | Thrown e => (set_iters s2 (tl (iters s2)), Thrown e)
          | o => (s2, o)
          end
    end.
  Proof. reflexivity. Qed.

  Lemma main n : destroys (destroy n) /\ deletes (delete n) /\
    (forall u s k i s' o, ok u s -> owner k = u -> open u s -> delete n s k i = (s', o) ->
       (o = Fin -> exists x, nth_error (cts s k) i = Some x /\ deleted s k i x s') /\
       (forall e, o = Thrown e -> cts s' k = cts s k /\ forall x, nth_error (cts s k) i = Some x -> ~ In x (gone s'))).
  Proof.
    induction n as [|n (IHd & IHx & _)].
    { split; [|split].
      - intros s c s' o _ _ _ E. injection E as <- <-. split; [discriminate|]. split; discriminate.
      - intros u s k i s' o _ _ _ E. injection E as <- <-. split; [discriminate|]. intros N. now elim N.
      - intros u s k i s' o _ _ _ E. injection E as <- <-. split; discriminate. }
    split.
    { intros s c s' o O N Op E. rewrite destroy_S in E.
      pose proof (bury_ok c s O N) as O1. destruct (good (bury s c) c) as (_ & G1 & G2).
      destruct (exec (delete n) (bury s c) (dest (bury s c) c)) as [s2 o2] eqn:E2.
      destruct (exec_ok (delete n) IHx _ c (bury s c) s2 o2 O1 Op G1 E2) as (N2 & F2 & Q2).
      destruct o2 as [|e| |]; [|now elim (Q2 G2 e)|now elim N2|].
      2: { injection E as <- <-. split; [discriminate|]. split; discriminate. }
      destruct F2 as [O2 C2]; [discriminate|].
      destruct (empty_all_ok (destroy n) c IHd (rev (conts_of c)) n s2 s' o O2) as (R1 & R2 & R3); [|exact E|].
      { intros k I. apply in_rev in I. now apply conts_ok. }
      split; [exact R1|]. split; [exact R2|]. intros Fo. destruct (R3 Fo) as (Q1 & Q3 & Q4 & _).
      destruct C2 as [A1 A2 A3 A4 (l & A5 & A6) (q & A7 & A8) A9].
      destruct Q3 as [B1 B2 B3 B4 (m & B5 & B6) (r & B7 & B8) B9]. cbn in *.
      split; [|congruence]. split; auto.
      - intros k Nk. rewrite B1, A1 by exact Nk. reflexivity.
      - congruence.
      - lia.
      - exists (c :: l ++ m). split; [rewrite B5, A5; rewrite <- !app_assoc; reflexivity|]. split; [now left|].
        intros x [<-|I]; [apply below_refl|]. apply in_app_iff in I as [I|I]; [now apply A6|now apply B6].
      - exists (r ++ q). split; [rewrite B7, A7; now rewrite app_assoc|]. intros x I.
        apply in_app_iff in I as [I|I]; [now apply B8|now apply A8].
      - intros k x I. destruct (A9 k x I) as [J|J]; [now apply B9|]. right. rewrite B5. apply in_app_iff. now left.
      - intros k Ek. apply Q4. apply in_rev. rewrite rev_involutive. now apply conts_ok. }
    assert (All : forall u s k i s' o, ok u s -> owner k = u -> open u s -> delete (S n) s k i = (s', o) ->
       (o <> Undef /\ (o <> Deep -> ok u s' /\ chg false u s s')) /\
       (o = Fin -> exists x, nth_error (cts s k) i = Some x /\ deleted s k i x s') /\
       (forall e, o = Thrown e -> cts s' k = cts s k /\ forall x, nth_error (cts s k) i = Some x -> ~ In x (gone s'))).
    { intros u s k i s' o O Ek Op E. rewrite delete_S in E. cbv zeta in E.
      assert (Bk : below u (owner k)) by (rewrite Ek; apply below_refl).
      assert (Same : forall e, (forall x, nth_error (cts s k) i = Some x -> ~ In x (gone s)) -> (s, Thrown e) = (s', o) ->
        (o <> Undef /\ (o <> Deep -> ok u s' /\ chg false u s s')) /\
        (o = Fin -> exists x, nth_error (cts s k) i = Some x /\ deleted s k i x s') /\
        (forall e, o = Thrown e -> cts s' k = cts s k /\ forall x, nth_error (cts s k) i = Some x -> ~ In x (gone s'))).
      { intros e Hx Es. injection Es as <- <-. split; [split; [discriminate|]|split; [discriminate|]].
        - intros _. split; [exact O|apply chg_refl].
        - intros e' _. split; [reflexivity|exact Hx]. }
      destruct (nth_error (cts s k) i) as [x|] eqn:Ex; [|apply (Same NotContained); [discriminate|exact E]].
      pose proof (nth_error_In _ _ Ex) as Ix. destruct (ok_in _ _ O k x Bk Ix) as (P1 & P2 & P3).
      destruct (is_in x (gone s)) eqn:G; [apply is_in_iff in G; contradiction|].
      destruct (_ <=? _); [apply (Same CannotDelete); [intros y Ey; injection Ey as <-; exact P3|exact E]|].
      assert (Bx : below u x) by (apply below_child; congruence).
      assert (Nx : x <> u) by (intros ->; specialize (par_lt u); lia).
      assert (Nk : ~ below x (owner k)) by now apply not_below_owner.
      set (s1 := set_iters s (Some (k, i) :: iters s)) in *.
      assert (O1 : ok x s1) by (apply push_ok; [now apply (ok_sub u)|exact Nk]).
      assert (Op1 : open x s1) by (intros k' E' C'; now apply (child_open u s x k O Ek Ix k' E')).
      destruct (good s1 x) as (G1 & _).
      match type of E with (let '(_, _) := ?b in _) = _ => destruct b as [s2 o2] eqn:E2 end.
      assert (S2 : o2 <> Undef /\ (o2 <> Deep -> ok x s2 /\ chg false x s1 s2)).
      { destruct (conn s1 x); [|injection E2 as <- <-; split; [discriminate|]; intros _; split; [exact O1|apply chg_refl]].
        destruct (exec_ok (delete n) IHx _ x s1 s2 o2 O1 Op1 G1 E2) as (A & B & _). now split. }
      destruct S2 as [N2 S2]. destruct o2 as [|e| |]; [| |now elim N2|].
      3: { injection E as <- <-. split; [split; [discriminate|intros N; now elim N]|split; discriminate]. }
      - destruct S2 as [O2 C2]; [discriminate|].
        assert (Gx : ~ In x (gone s2)).
        { destruct (ch_gone _ _ _ _ C2) as (l & L1 & L2). rewrite L1. cbn. intros I. apply in_app_iff in I as [I|I]; [contradiction|].
          destruct (L2 x I) as [_ X]. now elim X. }
        destruct (is_in x (gone s2)) eqn:G2; [apply is_in_iff in G2; contradiction|].
        destruct (destroy n (off s2 x) x) as [s3 o3] eqn:E3.
        destruct (IHd (off s2 x) x s3 o3 (off_ok x x s2 O2) Gx) as (N3 & T3 & F3); [|exact E3|].
        { intros k' E' C'. exact (chg_open _ _ _ C2 Op1 k' E' C'). }
        destruct o3 as [|e| |]; [|now elim (T3 e)|now elim N3|].
        2: { injection E as <- <-. split; [split; [discriminate|intros N; now elim N]|split; discriminate]. }
        destruct (F3 eq_refl) as [D3 I3].
        assert (Off : chg false x s2 (off s2 x)).
        { split; cbn; auto; try lia; [exists []|exists []]; split; try (now rewrite app_nil_r); try reflexivity; intros ? []. }
        assert (D1 : died x s1 s3) by (apply (chg_died x s1 (off s2 x) s3); [now apply (chg_trans false x s1 s2)|exact D3]).
        assert (D : died x s s3) by (destruct D1 as [Y1 Y2 Y3 Y4 Y5 Y6 Y7 Y8]; split; assumption).
        assert (Is : iters s3 = Some (k, i) :: iters s).
        { rewrite I3. cbn. now rewrite (ch_it _ _ _ _ C2). }
        rewrite Is in E.
        assert (Kc : ~ In k (closed s3)).
        { destruct (di_closed _ _ _ D) as (q & Q1 & Q2). rewrite Q1. intros I. apply in_app_iff in I as [I|I].
          - now apply Nk, Q2.
          - now apply (Op k). }
        destruct (is_closed k s3) eqn:Kc'; [apply is_closed_iff in Kc'; contradiction|].
        destruct (erase_ok u s x k i s3 O Ek Ex D) as (O4 & C4 & K4 & F4 & G4 & _).
        injection E as <- <-. split; [split; [discriminate|intros _; now split]|]. split; [|discriminate].
        intros _. exists x. split; [reflexivity|]. split; [exact K4|]. split; [exact F4|]. split.
        + rewrite G4. exact (di_gone _ _ _ D).
        + intros k' E'. assert (N' : k' <> k) by (intros ->; apply Nk; rewrite E'; apply below_refl).
          unfold erase_at. cbn. rewrite upd_other by exact N'. now apply (di_void _ _ _ D).
      - destruct S2 as [O2 C2]; [discriminate|].
        assert (I2 : iters s2 = Some (k, i) :: iters s) by (rewrite (ch_it _ _ _ _ C2); reflexivity).
        rewrite I2 in E. cbn [tl] in E. injection E as <- <-.
        assert (Gx : ~ In x (gone s2)).
        { destruct (ch_gone _ _ _ _ C2) as (l & L1 & L2). rewrite L1. cbn. intros I. apply in_app_iff in I as [I|I]; [contradiction|].
          destruct (L2 x I) as [_ X]. now elim X. }
        split; [split; [discriminate|]|split; [discriminate|]].
        + intros _. destruct C2 as [A1 A2 A3 A4 (l & A5 & A6) (q & A7 & A8) A9]. cbn in *. split.
          * apply (ok_back u x s s2); auto.
            -- exists l. split; [exact A5|]. intros y I. now apply A6.
            -- exists q. split; [exact A7|]. intros y I. now apply A8.
            -- intros Gx'. contradiction.
            -- intros k' E' C'. exfalso. rewrite A7 in C'. apply in_app_iff in C' as [C'|C'].
               ++ destruct (A8 k' C') as [_ X]. now specialize (X E').
               ++ now apply (Op1 k').
          * split; cbn; auto.
            -- intros k' N. apply A1. intros H. apply N. now apply (below_trans u x).
            -- exists l. split; [exact A5|]. intros y I. destruct (A6 y I) as [H N]. split; [now apply (below_trans u x)|].
               intros ->. apply below_le in H, Bx. lia.
            -- exists q. split; [exact A7|]. intros y I. destruct (A8 y I) as [H N]. split; [now apply (below_trans u x)|].
               intros E'. rewrite E' in H. apply below_le in H, Bx. lia.
        + intros e' _. cbn. split; [now apply (ch_cts _ _ _ _ C2)|]. intros y Ey. injection Ey as <-. exact Gx. }
    split.
    - intros u s k i s' o O Ek Op E. now apply (All u s k i s' o).
    - intros u s k i s' o O Ek Op E. now apply (All u s k i s' o).
  Qed.

  (** ** Between calls *)
  Lemma sound_ok u s : sound owner par s -> u < next s -> ok u s.
  Proof.
    intros (S1 & S2 & S3 & S4 & S5 & S6 & S7 & S8) L. split; auto.
    - intros k k' x _. apply S6.
    - rewrite S1. intros k i [].
    - intros k x I. destruct (S5 k x I) as (A & B & _). now split.
  Qed.

  Lemma sound_open u s : sound owner par s -> ~ In u (gone s) -> open u s.
  Proof. intros (_ & _ & _ & _ & _ & _ & _ & S8) N k E C. apply N. rewrite <- E. now apply S8. Qed.

  Lemma ok_sound u s s' : sound owner par s -> ~ In u (gone s) -> ok u s' -> chg false u s s' -> sound owner par s'.
  Proof.
    intros (S1 & S2 & S3 & S4 & S5 & S6 & S7 & S8) N O C.
    destruct C as [C1 C2 C3 C4 (l & C5 & C6) (q & C7 & C8) C9].
    assert (Nu : ~ In u (gone s')).
    { rewrite C5. intros I. apply in_app_iff in I as [I|I]; [contradiction|]. destruct (C6 u I) as [_ X]. now elim X. }
    split; [congruence|]. split; [apply (ok_once _ _ O)|]. split; [apply (ok_gone _ _ O)|]. split; [|split; [|split; [|split]]].
    - intros k. destruct (below_dec u (owner k)) as [B|B]; [now apply (ok_nd _ _ O)|]. now rewrite C1.
    - intros k x I. destruct (below_dec u (owner k)) as [B|B]; [now apply (ok_in _ _ O)|]. rewrite C1 in I by exact B.
      destruct (S5 k x I) as (P1 & P2 & P3). split; [exact P1|]. split; [lia|]. rewrite C5. intros G.
      apply in_app_iff in G as [G|G]; [contradiction|]. destruct (C6 x G) as [Bx Nx].
      apply below_inv in Bx as [E|Bx]; [contradiction|]. rewrite P1 in Bx. contradiction.
    - intros k k' x I I'. destruct (below_dec u (owner k)) as [B|B]; [now apply (ok_one _ _ O k k' x)|].
      destruct (below_dec u (owner k')) as [B'|B']; [symmetry; now apply (ok_one _ _ O k' k x)|].
      rewrite C1 in I, I' by assumption. now apply (S6 k k' x).
    - intros k I. destruct (below_dec u (owner k)) as [B|B].
      + destruct (Z.eq_dec (owner k) u) as [E|E]; [rewrite E in I; contradiction|]. now apply (ok_void _ _ O).
      + rewrite C1 by exact B. apply S7. rewrite C5 in I. apply in_app_iff in I as [I|I]; [exact I|].
        destruct (C6 _ I) as [X _]. contradiction.
    - intros k I. rewrite C7 in I. rewrite C5. destruct (below_dec u (owner k)) as [B|B].
      + destruct (Z.eq_dec (owner k) u) as [E|E].
        * apply in_app_iff in I as [I|I]; [destruct (C8 k I) as [_ X]; now specialize (X E)|].
          apply in_app_iff. left. now apply S8.
        * rewrite <- C5. apply (ok_open _ _ O); auto. now rewrite C7.
      + apply in_app_iff in I as [I|I]; [destruct (C8 k I) as [X _]; contradiction|]. apply in_app_iff. left. now apply S8.
  Qed.

  Lemma delete_sound n s k i s' o : sound owner par s -> ~ In (owner k) (gone s) -> owner k < next s ->
    delete n s k i = (s', o) -> o <> Undef /\ (o <> Deep -> sound owner par s' /\ chg false (owner k) s s').
  Proof.
    intros S N L E. destruct (main n) as (_ & Hd & _).
    destruct (Hd (owner k) s k i s' o (sound_ok _ s S L) eq_refl (sound_open _ s S N) E) as [A B].
    split; [exact A|]. intros Nd. destruct (B Nd) as [O C]. split; [|exact C]. now apply (ok_sound (owner k) s).
  Qed.

  Lemma del_nth_app (a b : list Z) x : del_nth (length a) (a ++ x :: b) = a ++ b.
  Proof. induction a as [|y a IH]; cbn; [reflexivity|]. now rewrite IH. Qed.

  Lemma delete_full n s k a x b s' o : sound owner par s -> ~ In (owner k) (gone s) -> owner k < next s ->
    cts s k = a ++ x :: b -> delete n s k (length a) = (s', o) ->
    o <> Undef /\
    (o = Fin -> sound owner par s' /\ cts s' k = a ++ b /\
       (forall k', k' <> k -> ~ below x (owner k') -> cts s' k' = cts s k') /\ refs s' = refs s /\
       (exists l, gone s' = gone s ++ l /\ In x l /\ forall y, In y l -> below x y) /\
       (forall y, inside owner s x y -> In y (gone s'))) /\
    (forall e, o = Thrown e -> sound owner par s' /\ cts s' k = cts s k /\ ~ In x (gone s')).
  Proof.
    intros S N L Ec E.
    destruct (delete_sound n s k (length a) s' o S N L E) as [A B]. split; [exact A|].
    assert (Ex : nth_error (cts s k) (length a) = Some x) by (rewrite Ec, nth_error_app2, Nat.sub_diag by lia; reflexivity).
    destruct (main n) as (_ & _ & Hs).
    destruct (Hs (owner k) s k (length a) s' o (sound_ok _ s S L) eq_refl (sound_open _ s S N) E) as [F T].
    split.
    - intros Eo. destruct (F Eo) as (x' & Ex' & D1 & D2 & D3 & D4). rewrite Ex in Ex'. injection Ex' as <-.
      destruct B as [S' C]; [rewrite Eo; discriminate|]. split; [exact S'|].
      split; [rewrite D1, Ec; apply del_nth_app|]. split; [exact D2|]. split; [apply (ch_refs _ _ _ _ C)|]. split; [exact D3|].
      assert (Gone : forall k' y, In y (cts s k') -> cts s' k' = [] -> In y (gone s')).
      { intros k' y I Z. destruct (ch_keep _ _ _ _ C k' y I) as [J|J]; [rewrite Z in J; destruct J|exact J]. }
      intros y H. induction H as [k' y E' I|k' y z H IH E' I].
      + apply (Gone k'); [exact I|]. now apply D4.
      + apply (Gone k'); [exact I|]. destruct S' as (_ & _ & _ & _ & _ & _ & S7 & _). apply S7. now rewrite E'.
    - intros e Eo. destruct (T e Eo) as [T1 T2]. destruct B as [S' _]; [rewrite Eo; discriminate|].
      split; [exact S'|]. split; [exact T1|]. now apply T2.
  Qed.

  Lemma top_sound n s c s' o : sound owner par s -> on_living owner s c ->
    top owner conts_of lower upper rlower rupper par refuses moves disc dest n s c = (s', o) ->
    o <> Undef /\ (o <> Deep -> sound owner par s').
  Proof.
    intros S H E. unfold top in E. destruct c as [k|k i| | |]; try destruct H as [N L]; try contradiction; cbn [DelModel.one] in E.
    - pose proof (sound_open _ s S N) as Op.
      destruct (is_closed k s) eqn:C; [apply is_closed_iff in C; exfalso; now apply (Op k)|].
      destruct (add_ok (owner k) s k s' o (sound_ok _ s S L) eq_refl Op E) as (A1 & A2 & A3 & A4 & _).
      split; [exact A1|]. intros _. now apply (ok_sound (owner k) s).
    - pose proof (sound_open _ s S N) as Op.
      destruct (is_closed k s) eqn:C; [apply is_closed_iff in C; exfalso; now apply (Op k)|].
      destruct (delete_sound n s k i s' o S N L E) as [A B]. split; [exact A|]. intros Nd. now apply B.
  Qed.

  Lemma fresh_sound s : fresh s -> sound owner par s.
  Proof.
    intros (F1 & F2 & F3 & F4). split; [exact F1|]. rewrite F2, F3. split; [constructor|]. split; [intros ? []|].
    split; [intros k; rewrite F4; constructor|]. split; [intros k x; rewrite F4; intros []|].
    split; [intros k k' x; rewrite F4; intros []|]. split; [intros k []|intros k []].
  Qed.

  (** ** The order of destruction *)
  Lemma below_chain x y z : below x z -> below y z -> below x y \/ below y x.
  Proof.
    intros H. revert y. induction H as [x|a b x E H IH]; intros y J; [now right|].
    apply below_inv in J as [->|J].
    - left. econstructor; eassumption.
    - apply IH. now rewrite <- E.
  Qed.
  Lemma siblings x y z : par x = par y -> x <> y -> below x z -> ~ below y z.
  Proof.
    intros E N Hx Hy. destruct (below_chain x y z Hx Hy) as [B|B]; apply below_inv in B as [B|B]; try congruence;
      apply below_le in B; pose proof (par_lt x); pose proof (par_lt y); lia.
  Qed.

  Definition agree (s s0 : st) (x : Z) : Prop := forall k, below x (owner k) -> cts s k = cts s0 k.
  Definition ordered (s0 : st) (dst : st -> Z -> st * outcome) : Prop :=
    forall s c s', ok c s -> ~ In c (gone s) -> open c s -> agree s s0 c -> dst s c = (s', Fin) ->
      exists l, gone s' = gone s ++ l /\ ends conts_of s0 c l.

  Lemma empty_out_order s0 dst c : destroys dst -> ordered s0 dst -> forall m s k s', ok c s -> owner k = c ->
    (forall k' x, owner k' = c -> In x (cts s k') -> agree s s0 x) -> empty_out dst m s k = (s', Fin) ->
    (exists ls, gone s' = gone s ++ concat ls /\ Forall2 (ends conts_of s0) (rev (cts s k)) ls) /\
    (forall k' x, owner k' = c -> k' <> k -> In x (cts s k') -> agree s' s0 x).
  Proof.
    intros Hd Ho m. induction m as [|m IH]; intros s k s' O Ek Ag E; cbn [empty_out] in E; [discriminate|].
    destruct (rev (cts s k)) as [|x r] eqn:Er.
    - injection E as <-. split; [exists []; split; [now rewrite app_nil_r|constructor]|].
      intros k' x E' _ I. exact (Ag k' x E' I).
    - pose proof (last_nth _ _ _ Er) as Ex. pose proof (nth_error_In _ _ Ex) as Ix.
      assert (Bk : below c (owner k)) by (rewrite Ek; apply below_refl).
      destruct (ok_in _ _ O k x Bk Ix) as (P1 & P2 & P3).
      destruct (is_in x (gone s)) eqn:G; [discriminate E|].
      destruct (dst s x) as [s1 o1] eqn:Ed.
      assert (Bx : below c x) by (apply below_child; congruence).
      assert (Nx : ~ below x c) by (rewrite <- Ek; now apply not_below_owner).
      pose proof (ok_sub c x s O Bx P2) as Ox. pose proof (child_open c s x k O Ek Ix) as Opx.
      destruct (Hd s x s1 o1 Ox P3 Opx Ed) as (N1 & N2 & Fn).
      destruct o1 as [|e| |]; try discriminate E.
      destruct (Fn eq_refl) as [Dx Ei].
      destruct (Ho s x s1 Ox P3 Opx (Ag k x Ek Ix) Ed) as (l & L1 & L2).
      assert (Nk : ~ below x (owner k)) by now apply not_below_owner.
      pose proof (di_cts _ _ _ Dx k Nk) as Ck.
      destruct (erase_ok c s x k (pred (length (cts s k))) s1 O Ek Ex Dx) as (O2 & C2 & K2 & F2 & G2 & _).
      rewrite <- Ei, set_iters_same in O2, C2, K2, F2, G2.
      assert (E' : empty_out dst m (erase_at s1 k (pred (length (cts s k)))) k = (s', Fin)).
      { rewrite Ck in E. destruct (cts s k); [destruct Ix|exact E]. }
      set (s2 := erase_at s1 k (pred (length (cts s k)))) in *.
      assert (Hr : del_nth (pred (length (cts s k))) (cts s k) = rev r).
      { assert (Hc : cts s k = rev r ++ [x]) by (rewrite <- (rev_involutive (cts s k)), Er; reflexivity).
        rewrite Hc, app_length. cbn [length]. rewrite Nat.add_1_r. cbn [pred]. rewrite (del_nth_app (rev r) [] x). apply app_nil_r. }
      (** the part below another child is not touched *)
      assert (Oth : forall k' y, owner k' = c -> In y (cts s k') -> y <> x -> agree s2 s0 y).
      { intros k' y E1 I Ny k1 B1. rewrite <- (Ag k' y E1 I k1 B1).
        assert (Bk' : below c (owner k')) by (rewrite E1; apply below_refl).
        destruct (ok_in _ _ O k' y Bk' I) as (Py & _). apply F2.
        - intros ->. apply below_le in B1. specialize (par_lt y). lia.
        - apply (siblings y x); auto. congruence. }
      assert (Ag2 : forall k' y, owner k' = c -> In y (cts s2 k') -> agree s2 s0 y).
      { intros k' y E1 I. destruct (Nat.eq_dec k' k) as [->|N].
        - apply (Oth k); auto.
          + rewrite K2 in I. now apply del_nth_in in I.
          + intros ->. rewrite K2 in I. revert I. apply del_nth_gone; [now apply (ok_nd _ _ O)|exact Ex].
        - rewrite F2 in I by (auto; now rewrite E1). apply (Oth k'); auto.
          intros ->. apply N. symmetry. now apply (ok_one _ _ O k k' x). }
      destruct (IH s2 k s' O2 Ek Ag2 E') as ((ls & Q1 & Q2) & Q3). split.
      + exists (l :: ls). split; [rewrite Q1, G2, L1; cbn; now rewrite app_assoc|]. constructor; [exact L2|].
        rewrite K2, Hr, rev_involutive in Q2. exact Q2.
      + intros k' y E1 N I. apply (Q3 k' y E1 N). rewrite F2; [exact I|exact N|now rewrite E1].
  Qed.

  Lemma empty_all_order s0 dst c : destroys dst -> ordered s0 dst -> forall ks m s s', NoDup ks -> ok c s ->
    (forall k, In k ks -> owner k = c) ->
    (forall k x, owner k = c -> In x (cts s k) -> agree s s0 x) -> (forall k, In k ks -> cts s k = cts s0 k) ->
    empty_all dst m s ks = (s', Fin) ->
    exists ls, gone s' = gone s ++ concat ls /\ Forall2 (ends conts_of s0) (flat_map (fun k => rev (cts s0 k)) ks) ls.
  Proof.
    intros Hd Ho ks. induction ks as [|k ks IH]; intros m s s' Nd O H Ag Same E; cbn [empty_all] in E.
    { injection E as <-. exists []. split; [now rewrite app_nil_r|constructor]. }
    destruct (empty_out dst m s k) as [s1 o1] eqn:E1. destruct o1; try discriminate E.
    assert (Ek : owner k = c) by (apply H; now left).
    destruct (empty_out_ok dst c Hd m s k s1 Fin O Ek E1) as (_ & _ & F).
    destruct (F eq_refl) as (O1 & C1 & K1 & X1).
    destruct (empty_out_order s0 dst c Hd Ho m s k s1 O Ek Ag E1) as ((ls & Q1 & Q2) & Q3).
    inversion Nd as [|? ? Nk Nd']; subst.
    destruct (IH m s1 s' Nd' O1) as (ls2 & R1 & R2).
    - intros k' I. apply H. now right.
    - intros k' x E' I. destruct (Nat.eq_dec k' k) as [->|N]; [rewrite K1 in I; destruct I|].
      apply (Q3 k' x E' N). now rewrite <- X1.
    - intros k' I. rewrite X1; [apply Same; now right|apply H; now right|intros ->; contradiction].
    - exact E.
    - exists (ls ++ ls2). split; [rewrite R1, Q1, concat_app; now rewrite app_assoc|].
      cbn. apply Forall2_app; [|exact R2]. rewrite <- (Same k (or_introl eq_refl)). exact Q2.
  Qed.

  Lemma destroy_order s0 n : (forall s c, dest s c = Ret) -> ordered s0 (destroy n).
  Proof.
    intros Idle. induction n as [|n IH]; intros s c s' O N Op Ag E; [discriminate E|].
    rewrite destroy_S, Idle in E. cbn [DelModel.exec] in E.
    destruct (main n) as (Hd & _). pose proof (proj2 (proj2 tree)) as Nd.
    pose proof (bury_ok c s O N) as O1.
    destruct (empty_all_order s0 (destroy n) c Hd IH (rev (conts_of c)) n (bury s c) s') as (ls & Q1 & Q2); auto.
    - apply NoDup_rev, Nd.
    - intros k I. apply in_rev in I. now apply conts_ok.
    - intros k x E' I k' B. apply Ag. eapply below_trans; [|exact B]. apply below_child.
      destruct (ok_in _ _ O k x) as (P & _); [rewrite E'; apply below_refl|exact I|congruence].
    - intros k I. apply in_rev in I. apply conts_ok in I. apply Ag. rewrite I. apply below_refl.
    - exists (c :: concat ls). split; [rewrite Q1; cbn; now rewrite <- app_assoc|]. now constructor.
  Qed.

  Lemma delete_order n s k a x b s' : (forall s c, dest s c = Ret) -> sound owner par s -> ~ In (owner k) (gone s) ->
    owner k < next s -> cts s k = a ++ x :: b -> (conn s x = true -> forall s, disc s x = Ret) ->
    delete n s k (length a) = (s', Fin) -> exists l, gone s' = gone s ++ l /\ ends conts_of s x l.
  Proof.
    intros Idle S N L Ec Di E. destruct n as [|n]; [discriminate E|]. rewrite delete_S in E. cbv zeta in E.
    assert (Ex : nth_error (cts s k) (length a) = Some x) by (rewrite Ec, nth_error_app2, Nat.sub_diag by lia; reflexivity).
    rewrite Ex in E. pose proof (nth_error_In _ _ Ex) as Ix. pose proof (sound_ok _ s S L) as O.
    destruct (ok_in _ _ O k x (below_refl _) Ix) as (P1 & P2 & P3).
    destruct (is_in x (gone s)) eqn:G; [discriminate E|]. destruct (_ <=? _); [discriminate E|].
    assert (Nk : ~ below x (owner k)) by now apply not_below_owner.
    assert (Bx : below (owner k) x) by now apply below_child.
    set (s1 := set_iters s (Some (k, length a) :: iters s)) in *.
    assert (E2 : (if conn s1 x then exec (delete n) s1 (disc s1 x) else (s1, Fin)) = (s1, Fin)).
    { destruct (conn s1 x) eqn:C; [|reflexivity]. rewrite (Di C). reflexivity. }
    rewrite E2 in E. change (gone s1) with (gone s) in E. rewrite G in E.
    destruct (destroy n (off s1 x) x) as [s3 o3] eqn:E3. destruct o3; try discriminate E.
    assert (O1 : ok x (off s1 x)) by (apply off_ok, push_ok; [now apply (ok_sub (owner k))|exact Nk]).
    destruct (destroy_order s n Idle (off s1 x) x s3 O1 P3) as (l & L1 & L2); auto.
    - intros k' E' C'. exact (child_open (owner k) s x k O eq_refl Ix k' E' C').
    - intros k' _. reflexivity.
    - destruct (iters s3) as [|[[k' p]|] its]; try discriminate E. destruct (is_closed k' s3); [discriminate E|].
      injection E as <-. exists l. split; [exact L1|exact L2].
  Qed.

  (** ** Termination *)
  Lemma crowd (l : list Z) a b : NoDup l -> (forall x, In x l -> a < x < b) -> a < b -> Z.of_nat (length l) <= b - a - 1.
  Proof.
    intros N H L.
    assert (I : incl l (map (fun i => a + 1 + Z.of_nat i) (seq 0 (Z.to_nat (b - a - 1))))).
    { intros x Ix. specialize (H x Ix). apply in_map_iff. exists (Z.to_nat (x - a - 1)). split; [lia|]. apply in_seq. lia. }
    apply NoDup_incl_length in I; [|exact N]. rewrite map_length, seq_length in I. lia.
  Qed.

  Section Ends.
    Hypothesis few : forall s c, creates_none (disc s c) /\ creates_none (dest s c).

    Definition ends_d (n : nat) (dst : st -> Z -> st * outcome) : Prop :=
      forall s c s' o, ok c s -> ~ In c (gone s) -> open c s -> dst s c = (s', o) ->
        next s' = next s /\ (2 * (next s - c) + 3 <= Z.of_nat n -> o <> Deep).
    Definition ends_x (n : nat) (del : st -> nat -> nat -> st * outcome) : Prop :=
      forall u s k i s' o, ok u s -> owner k = u -> open u s -> del s k i = (s', o) ->
        next s' = next s /\ (2 * (next s - u) + 2 <= Z.of_nat n -> o <> Deep).

    Lemma exec_ends n del : deletes del -> ends_x n del -> forall p u s s' o, ok u s -> open u s -> minds_own owner u p ->
      creates_none p -> exec del s p = (s', o) ->
      next s' = next s /\ (2 * (next s - u) + 2 <= Z.of_nat n -> o <> Deep).
    Proof.
      intros Hd He p. induction p as [| |c f IH]; intros u s s' o O Op M F E; cbn [DelModel.exec] in E.
      - injection E as <- <-. split; [reflexivity|discriminate].
      - injection E as <- <-. split; [reflexivity|discriminate].
      - destruct M as [Mc Mf], F as [Fc Ff]. destruct (one del s c) as [s1 o1] eqn:E1.
        destruct c as [k|k i| | |]; try contradiction. cbn [DelModel.one] in E1.
        destruct (is_closed k s) eqn:C; [apply is_closed_iff in C; exfalso; now apply (Op k)|].
        destruct (Hd u s k i s1 o1 O Mc Op E1) as [N1 S1]. destruct (He u s k i s1 o1 O Mc Op E1) as [X1 T1].
        assert (Go : forall r, exec del s1 (f r) = (s', o) -> o1 <> Deep ->
          next s' = next s /\ (2 * (next s - u) + 2 <= Z.of_nat n -> o <> Deep)).
        { intros r Er Nd. destruct (S1 Nd) as [O1 C1].
          destruct (IH r u s1 s' o O1 (chg_open _ _ _ C1 Op) (Mf r) (Ff r) Er) as [R1 R2].
          split; [congruence|]. rewrite <- X1. exact R2. }
        destruct o1 as [|e| |].
        + apply (Go None E). discriminate.
        + apply (Go (Some e) E). discriminate.
        + now elim N1.
        + injection E as <- <-. split; [exact X1|]. intros L. now elim (T1 L).
    Qed.

    Lemma empty_out_ends n dst c : destroys dst -> ends_d n dst -> forall m s k s' o, ok c s -> owner k = c ->
      empty_out dst m s k = (s', o) ->
      next s' = next s /\
      (2 * (next s - c) + 1 <= Z.of_nat n -> Z.of_nat (length (cts s k)) < Z.of_nat m -> o <> Deep).
    Proof.
      intros Hd He m. induction m as [|m IH]; intros s k s' o O Ek E; cbn [empty_out] in E.
      { injection E as <- <-. split; [reflexivity|]. intros _ L. lia. }
      destruct (rev (cts s k)) as [|x r] eqn:Er; [injection E as <- <-; split; [reflexivity|discriminate]|].
      pose proof (last_nth _ _ _ Er) as Ex. pose proof (nth_error_In _ _ Ex) as Ix.
      assert (Bk : below c (owner k)) by (rewrite Ek; apply below_refl).
      destruct (ok_in _ _ O k x Bk Ix) as (P1 & P2 & P3).
      destruct (is_in x (gone s)) eqn:G; [apply is_in_iff in G; contradiction|].
      destruct (dst s x) as [s1 o1] eqn:Ed.
      assert (Bx : below c x) by (apply below_child; congruence).
      pose proof (ok_sub c x s O Bx P2) as Ox. pose proof (child_open c s x k O Ek Ix) as Opx.
      destruct (Hd s x s1 o1 Ox P3 Opx Ed) as (N1 & N2 & Fn). destruct (He s x s1 o1 Ox P3 Opx Ed) as [X1 T1].
      destruct o1 as [|e| |]; [|now elim (N2 e)|now elim N1|].
      2: { injection E as <- <-. split; [exact X1|]. intros L _. elim T1; [|reflexivity]. specialize (par_lt x). lia. }
      destruct (Fn eq_refl) as [Dx Ei].
      assert (Nk : ~ below x (owner k)) by now apply not_below_owner.
      pose proof (di_cts _ _ _ Dx k Nk) as Ck.
      destruct (erase_ok c s x k (pred (length (cts s k))) s1 O Ek Ex Dx) as (O2 & C2 & K2 & F2 & _).
      rewrite <- Ei, set_iters_same in O2, C2, K2, F2.
      assert (E' : empty_out dst m (erase_at s1 k (pred (length (cts s k)))) k = (s', o)).
      { rewrite Ck in E. destruct (cts s k); [destruct Ix|exact E]. }
      destruct (IH _ k s' o O2 Ek E') as [R1 R2]. cbn [next erase_at set_iters set_cts] in R1, R2.
      split; [congruence|]. intros L M. apply R2; [rewrite X1; exact L|]. rewrite K2.
      assert (Len : forall (l : list Z) i y, nth_error l i = Some y -> length l = S (length (del_nth i l))).
      { induction l as [|z l IHl]; intros [|i] y Hy; cbn in *; try discriminate; [reflexivity|]. f_equal. now apply (IHl i y). }
      rewrite (Len _ _ _ Ex) in M at 1. lia.
    Qed.

    Lemma empty_all_ends n dst c : destroys dst -> ends_d n dst -> forall ks m s s' o, ok c s ->
      (forall k, In k ks -> owner k = c) -> empty_all dst m s ks = (s', o) ->
      next s' = next s /\ (2 * (next s - c) + 1 <= Z.of_nat n -> next s - c <= Z.of_nat m -> o <> Deep).
    Proof.
      intros Hd He ks. induction ks as [|k ks IH]; intros m s s' o O H E; cbn [empty_all] in E.
      { injection E as <- <-. split; [reflexivity|discriminate]. }
      assert (Ek : owner k = c) by (apply H; now left).
      destruct (empty_out dst m s k) as [s1 o1] eqn:E1.
      destruct (empty_out_ok dst c Hd m s k s1 o1 O Ek E1) as (N1 & N2 & F).
      destruct (empty_out_ends n dst c Hd He m s k s1 o1 O Ek E1) as [X1 T1].
      assert (Bk : below c (owner k)) by (rewrite Ek; apply below_refl).
      assert (Len : Z.of_nat (length (cts s k)) <= next s - c - 1).
      { apply crowd; [now apply (ok_nd _ _ O)| |apply (ok_next _ _ O)]. intros x I.
        destruct (ok_in _ _ O k x Bk I) as (P1 & P2 & _). specialize (par_lt x). lia. }
      destruct o1 as [|e| |]; [|now elim (N2 e)|now elim N1|].
      2: { injection E as <- <-. split; [exact X1|]. intros L M. elim T1; [exact L| |reflexivity]. lia. }
      destruct (F eq_refl) as (O1 & _).
      destruct (IH m s1 s' o O1 (fun k' I => H k' (or_intror I)) E) as [R1 R2].
      split; [congruence|]. rewrite <- X1. exact R2.
    Qed.

    Lemma main_ends n : ends_d n (destroy n) /\ ends_x n (delete n).
    Proof.
      induction n as [|n (IHd & IHx)].
      { split.
        - intros s c s' o O _ _ E. injection E as <- <-. split; [reflexivity|]. pose proof (ok_next _ _ O). intros L. lia.
        - intros u s k i s' o O _ _ E. injection E as <- <-. split; [reflexivity|]. pose proof (ok_next _ _ O). intros L. lia. }
      destruct (main n) as (Md & Mx & _). split.
      - intros s c s' o O N Op E. rewrite destroy_S in E.
        pose proof (bury_ok c s O N) as O1. destruct (good (bury s c) c) as (_ & G1 & G2).
        destruct (few (bury s c) c) as [_ Fw].
        destruct (exec (delete n) (bury s c) (dest (bury s c) c)) as [s2 o2] eqn:E2.
        destruct (exec_ok (delete n) Mx _ c (bury s c) s2 o2 O1 Op G1 E2) as (N2 & F2 & Q2).
        destruct (exec_ends n (delete n) Mx IHx _ c (bury s c) s2 o2 O1 Op G1 Fw E2) as [X2 T2]. cbn [next bury] in X2, T2.
        destruct o2 as [|e| |]; [|now elim (Q2 G2 e)|now elim N2|].
        2: { injection E as <- <-. split; [exact X2|]. intros L. elim T2; [lia|reflexivity]. }
        destruct F2 as [O2 C2]; [discriminate|].
        destruct (empty_all_ends n (destroy n) c Md IHd (rev (conts_of c)) n s2 s' o O2) as [R1 R2]; [|exact E|].
        { intros k I. apply in_rev in I. now apply conts_ok. }
        split; [congruence|]. intros L. pose proof (ok_next _ _ O). apply R2; lia.
      - intros u s k i s' o O Ek Op E. rewrite delete_S in E. cbv zeta in E.
        assert (Bk : below u (owner k)) by (rewrite Ek; apply below_refl).
        destruct (nth_error (cts s k) i) as [x|] eqn:Ex; [|injection E as <- <-; split; [reflexivity|discriminate]].
        pose proof (nth_error_In _ _ Ex) as Ix. destruct (ok_in _ _ O k x Bk Ix) as (P1 & P2 & P3).
        destruct (is_in x (gone s)) eqn:G; [injection E as <- <-; split; [reflexivity|discriminate]|].
        destruct (_ <=? _); [injection E as <- <-; split; [reflexivity|discriminate]|].
        assert (Bx : below u x) by (apply below_child; congruence).
        assert (Lx : u < x) by (specialize (par_lt x); lia).
        assert (Nk : ~ below x (owner k)) by now apply not_below_owner.
        set (s1 := set_iters s (Some (k, i) :: iters s)) in *.
        assert (O1 : ok x s1) by (apply push_ok; [now apply (ok_sub u)|exact Nk]).
        assert (Op1 : open x s1) by (intros k' E' C'; now apply (child_open u s x k O Ek Ix k' E')).
        destruct (good s1 x) as (G1 & _). destruct (few s1 x) as [Fw _].
        match type of E with (let '(_, _) := ?b in _) = _ => destruct b as [s2 o2] eqn:E2 end.
        assert (S2 : o2 <> Undef /\ (o2 <> Deep -> ok x s2 /\ chg false x s1 s2) /\
          next s2 = next s /\ (2 * (next s - x) + 2 <= Z.of_nat n -> o2 <> Deep)).
        { destruct (conn s1 x); [|injection E2 as <- <-; split; [discriminate|]; split; [intros _; split; [exact O1|apply chg_refl]|];
            split; [reflexivity|discriminate]].
          destruct (exec_ok (delete n) Mx _ x s1 s2 o2 O1 Op1 G1 E2) as (A & B & _).
          destruct (exec_ends n (delete n) Mx IHx _ x s1 s2 o2 O1 Op1 G1 Fw E2) as (A' & B'). auto. }
        destruct S2 as (N2 & S2 & X2 & T2). destruct o2 as [|e| |]; [| |now elim N2|].
        3: { injection E as <- <-. split; [exact X2|]. intros L. elim T2; [lia|reflexivity]. }
        2: { injection E as <- <-. split; [exact X2|discriminate]. }
        destruct S2 as [O2 C2]; [discriminate|].
        assert (Gx : ~ In x (gone s2)).
        { destruct (ch_gone _ _ _ _ C2) as (l & L1 & L2). rewrite L1. cbn. intros I. apply in_app_iff in I as [I|I]; [contradiction|].
          destruct (L2 x I) as [_ X]. now elim X. }
        destruct (is_in x (gone s2)) eqn:G2; [apply is_in_iff in G2; contradiction|].
        assert (Op2 : open x (off s2 x)) by (intros k' E' C'; exact (chg_open _ _ _ C2 Op1 k' E' C')).
        destruct (destroy n (off s2 x) x) as [s3 o3] eqn:E3.
        destruct (IHd (off s2 x) x s3 o3 (off_ok x x s2 O2) Gx Op2 E3) as [X3 T3]. cbn [next off] in X3, T3.
        destruct (Md (off s2 x) x s3 o3 (off_ok x x s2 O2) Gx Op2 E3) as (N3 & Th3 & _).
        destruct o3 as [|e| |]; [|now elim (Th3 e)|now elim N3|].
        + assert (X : next s3 = next s) by congruence.
          destruct (iters s3) as [|[[k' p]|] its]; [injection E as <- <-; split; [exact X|discriminate]| |injection E as <- <-; split; [exact X|discriminate]].
          destruct (is_closed k' s3); injection E as <- <-; (split; [exact X|discriminate]).
        + injection E as <- <-. split; [congruence|]. intros L. elim T3; [lia|reflexivity].
    Qed.

    Lemma delete_ends n s k i : sound owner par s -> ~ In (owner k) (gone s) -> owner k < next s ->
      2 * (next s - owner k) + 2 <= Z.of_nat n -> snd (delete n s k i) <> Deep.
    Proof.
      intros S N L H. destruct (delete n s k i) as [s' o] eqn:E.
      destruct (main_ends n) as [_ M].
      exact (proj2 (M (owner k) s k i s' o (sound_ok _ s S L) eq_refl (sound_open _ s S N) E) H).
    Qed.
  End Ends.
  (** ** Who has been disconnected *)

  (** Whatever happens, a component that is disconnected stays so. *)
  Definition stays (s s' : st) : Prop := forall y, conn s y = false -> conn s' y = false.
  Lemma stays_trans a b c : stays a b -> stays b c -> stays a c.
  Proof. unfold stays. auto. Qed.
  Lemma same_stays a b : conn b = conn a -> stays a b.
  Proof. intros E y. now rewrite E. Qed.
  Lemma add_conn s k : conn (fst (add s k)) = conn s.
  Proof. unfold DelModel.add. cbv zeta. do 4 (destruct (_ : bool); [reflexivity|]). reflexivity. Qed.
  Lemma one_conn del s c s' o : (forall s k i s' o, del s k i = (s', o) -> stays s s') ->
    one del s c = (s', o) -> stays s s'.
  Proof.
    intros H E. destruct c as [k|k i|r k i|r i|r i]; cbn [DelModel.one] in E.
    - destruct (is_closed k s); [injection E as <- _; now intros y|].
      apply same_stays. rewrite <- (add_conn s k). now rewrite E.
    - destruct (is_closed k s); [injection E as <- _; now intros y|]. eapply H; eassumption.
    - destruct (is_closed k s); [injection E as <- _; now intros y|]. unfold DelModel.ref_add in E.
      destruct (nth_error _ _) as [c|]; destruct (_ <=? _); try (injection E as <- _; now intros y).
      destruct (is_in _ _); injection E as <- _; now intros y.
    - unfold ref_look in E. destruct (nth_error _ _); [destruct (is_in _ _)|]; injection E as <- _; now intros y.
    - unfold DelModel.ref_remove in E. destruct (nth_error _ _); [|injection E as <- _; now intros y].
      destruct (is_in _ _); [injection E as <- _; now intros y|].
      destruct (first_of _ _); [destruct (_ <=? _)|]; injection E as <- _; now intros y.
  Qed.
  Lemma exec_conn del : (forall s k i s' o, del s k i = (s', o) -> stays s s') ->
    forall p s s' o, exec del s p = (s', o) -> stays s s'.
  Proof.
    intros H p. induction p as [| |c f IH]; intros s s' o E; cbn [DelModel.exec] in E; try (injection E as <- _; now intros y).
    destruct (one del s c) as [s1 o1] eqn:E1. pose proof (one_conn del s c s1 o1 H E1) as S1.
    destruct o1; try (injection E as <- _; exact S1); eapply stays_trans; try exact S1; eapply IH; exact E.
  Qed.
  Lemma empty_conn dst m : (forall s c s' o, dst s c = (s', o) -> stays s s') ->
    forall s k s' o, empty_out dst m s k = (s', o) -> stays s s'.
  Proof.
    intros H. induction m as [|m IH]; intros s k s' o E; cbn [empty_out] in E; [injection E as <- _; now intros y|].
    destruct (rev (cts s k)) as [|c r]; [injection E as <- _; now intros y|].
    destruct (is_in _ _); [injection E as <- _; now intros y|]. destruct (dst s c) as [s1 o1] eqn:E1.
    pose proof (H _ _ _ _ E1) as S1. destruct o1; try (injection E as <- _; exact S1).
    destruct (cts s1 k); [injection E as <- _; exact S1|]. apply IH in E. exact (stays_trans _ _ _ S1 E).
  Qed.
  Lemma empty_all_conn dst m : (forall s c s' o, dst s c = (s', o) -> stays s s') ->
    forall ks s s' o, empty_all dst m s ks = (s', o) -> stays s s'.
  Proof.
    intros H ks. induction ks as [|k r IH]; intros s s' o E; cbn [empty_all] in E; [injection E as <- _; now intros y|].
    destruct (empty_out dst m s k) as [s1 o1] eqn:E1. pose proof (empty_conn _ _ H _ _ _ _ E1) as S1.
    destruct o1; try (injection E as <- _; exact S1). apply IH in E. exact (stays_trans _ _ _ S1 E).
  Qed.
  Lemma off_stays s c : stays s (off s c).
  Proof. intros y Hy. cbn. now destruct (y =? c). Qed.

  Lemma conn_stays n :
    (forall s c s' o, destroy n s c = (s', o) -> stays s s') /\
    (forall s k i s' o, delete n s k i = (s', o) -> stays s s' /\
       (o = Fin -> forall x, nth_error (cts s k) i = Some x -> conn s' x = false)).
  Proof.
    induction n as [|n [IHd IHx]].
    { split; intros; cbn in *; match goal with H : (_, _) = (_, _) |- _ => injection H as <- <- end;
        [now intros y|split; [now intros y|discriminate]]. }
    assert (IHx' : forall s k i s' o, delete n s k i = (s', o) -> stays s s') by (intros; eapply IHx; eassumption).
    split.
    - intros s c s' o E. rewrite destroy_S in E.
      destruct (exec _ _ _) as [s2 o2] eqn:E2. pose proof (exec_conn _ IHx' _ _ _ _ E2) as S2.
      destruct o2; try (injection E as <- _; exact S2). apply (empty_all_conn _ _ IHd) in E. exact (stays_trans s s2 s' S2 E).
    - intros s k i s' o E. rewrite delete_S in E.
      destruct (nth_error (cts s k) i) as [c|] eqn:Ec; [|injection E as <- <-; split; [now intros y|discriminate]].
      destruct (is_in c (gone s)); [injection E as <- <-; split; [now intros y|discriminate]|].
      destruct (_ <=? _); [injection E as <- <-; split; [now intros y|discriminate]|].
      cbv zeta in E. set (s1 := set_iters s _) in E.
      destruct (if conn s1 c then _ else _) as [s2 o2] eqn:E2.
      assert (S2 : stays s s2).
      { destruct (conn s1 c); [exact (exec_conn _ IHx' _ _ _ _ E2)|injection E2 as <- _; now intros y]. }
      destruct o2; try (injection E as <- <-; split; [exact S2|discriminate]).
      destruct (is_in c (gone s2)); [injection E as <- <-; split; [exact S2|discriminate]|].
      destruct (destroy n (off s2 c) c) as [s3 o3] eqn:E3. pose proof (IHd _ _ _ _ E3) as S3.
      assert (S : stays s s3) by (eapply stays_trans; [exact S2|]; eapply stays_trans; [apply off_stays|exact S3]).
      destruct o3; try (injection E as <- <-; split; [exact S|discriminate]).
      destruct (iters s3) as [|[[k' p]|] its']; try (injection E as <- <-; split; [exact S|discriminate]).
      destruct (is_closed k' s3); injection E as <- <-; (split; [exact S|]); [discriminate|].
      intros _ x Ex. injection Ex as <-. apply S3. cbn. now rewrite Z.eqb_refl.
  Qed.

  (** Without user code only the deleted component itself is. *)
  Lemma destroy_conn n : (forall s c, dest s c = Ret) -> forall s c s' o, destroy n s c = (s', o) -> conn s' = conn s.
  Proof.
    intros I. induction n as [|n IH]; intros s c s' o E; [now injection E as <- _|rewrite destroy_S in E].
    rewrite I in E. cbn [DelModel.exec] in E.
    assert (A : forall m s k s' o, empty_out (destroy n) m s k = (s', o) -> conn s' = conn s).
    { clear E. induction m as [|m IHm]; intros t k t' o' E; cbn [empty_out] in E; [now injection E as <- _|].
      destruct (rev (cts t k)) as [|x r]; [now injection E as <- _|]. destruct (is_in _ _); [now injection E as <- _|].
      destruct (destroy n t x) as [t1 o1] eqn:E1. pose proof (IH _ _ _ _ E1) as S1.
      destruct o1; try (injection E as <- _; exact S1). destruct (cts t1 k); [injection E as <- _; exact S1|].
      apply IHm in E. rewrite E. exact S1. }
    assert (B : forall m ks s s' o, empty_all (destroy n) m s ks = (s', o) -> conn s' = conn s).
    { clear E. intros m ks. induction ks as [|k r IHr]; intros t t' o' E; cbn [empty_all] in E; [now injection E as <- _|].
      destruct (empty_out _ m t k) as [t1 o1] eqn:E1. pose proof (A _ _ _ _ _ E1) as S1.
      destruct o1; try (injection E as <- _; exact S1). apply IHr in E. now rewrite E. }
    apply B in E. exact E.
  Qed.
  Lemma delete_conn n s k i s' x : (forall s c, disc s c = Ret /\ dest s c = Ret) ->
    nth_error (cts s k) i = Some x -> delete n s k i = (s', Fin) -> forall y, y <> x -> conn s' y = conn s y.
  Proof.
    intros I Ec E y Hy. destruct n as [|n]; [discriminate E|]. rewrite delete_S in E. rewrite Ec in E.
    destruct (is_in x (gone s)); [discriminate E|]. destruct (_ <=? _); [discriminate E|].
    cbv zeta in E. set (s1 := set_iters s _) in E. destruct (if conn s1 x then _ else _) as [s2 o2] eqn:E2.
    assert (S2 : s2 = s1).
    { destruct (conn s1 x); [|now injection E2 as <- _]. rewrite (proj1 (I s1 x)) in E2. now injection E2 as <- _. }
    destruct o2; try discriminate E. destruct (is_in x (gone s2)); [discriminate E|].
    destruct (destroy n (off s2 x) x) as [s3 o3] eqn:E3. destruct o3; try discriminate E.
    apply destroy_conn in E3; [|intros; apply I].
    destruct (iters s3) as [|[[k' p]|] its']; try discriminate E. destruct (is_closed k' s3); [discriminate E|].
    injection E as <-. cbn. rewrite E3. cbn. rewrite (proj2 (Z.eqb_neq y x) Hy). now rewrite S2.
  Qed.
End Deletion.
