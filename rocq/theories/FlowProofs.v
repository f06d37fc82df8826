(** Proofs about fields: writes, forcing and propagation. *)
From Coq Require Import ZArith List Bool Lia Relations.
From Verif Require Import Base AnyModel AnySpec AnyProofs HelperModel HelperSpec HelperProofs
  FlowModel FlowSpec.
Import ListNotations.
Local Open Scope nat_scope.

(** * Conversions *)

Lemma kind_eqb_eq : forall a b, kind_eqb a b = true <-> a = b.
Proof. intros a b. split; [destruct a, b; (reflexivity || (intros H; discriminate H))|intros ->; destruct b; reflexivity]. Qed.

Lemma kind_code_inj : forall a b, kind_code a = kind_code b -> a = b.
Proof. intros a b. destruct a, b; (reflexivity || (intros H; discriminate H)). Qed.

Lemma to_any_ok : forall c k v, kind_of c k -> value_of c v -> to_any c k v = Ok (Any k v).
Proof.
  intros c k v Hk Hv. unfold to_any.
  destruct c, v; simpl in Hk, Hv; try contradiction; simpl; subst; try reflexivity.
  now rewrite (set_int_ok t k t z Hv Hk Hv).
Qed.

Lemma from_any_ok : forall c k v, kind_of c k -> value_of c v -> from_any c (Any k v) = Ok v.
Proof.
  intros c k v Hk Hv.
  destruct c, v; simpl in Hk, Hv; try contradiction; simpl; subst; try reflexivity.
  - rewrite (get_int_ok (Any k (PInt z)) k t t z); [reflexivity|split; reflexivity|assumption..].
  - destruct s as [l|]; [|contradiction]. unfold get_str. simpl. now rewrite firstn_all2.
Qed.

Lemma ity_dec : forall a b : ity, {a = b} + {a <> b}.
Proof. decide equality. Qed.

Lemma set_payload_char : forall k c p, set_payload k (GChar c) = Ok p -> k = KChar8 /\ p = PChar c.
Proof. intros k c p. destruct k; simpl; unfold no; intros H; try discriminate H. injection H as <-. now split. Qed.

(** What a successful conversion yields is a value of the type. *)
Lemma from_any_value : forall c a v, from_any c a = Ok v -> any_ok a -> value_of c v.
Proof.
  intros c a v H Ha.
  destruct c; simpl in H.
  - destruct (get_int t a) as [z|e|] eqn:E; simpl in H; try discriminate H. injection H as <-. simpl.
    destruct (kind_type (atype a)) as [u|] eqn:K.
    + unfold any_ok in Ha. rewrite K in Ha. destruct Ha as (z0 & Hz & Hu).
      destruct (of_type_dec t z0) as [Ht|Ht].
      * rewrite (get_int_ok a (atype a) u t z0) in E by (try assumption; now split).
        now injection E as <-.
      * rewrite (get_int_throw a (atype a) u t z0) in E by (try assumption; now split). discriminate E.
    + now rewrite get_int_other in E by assumption.
  - destruct (get_bool a); simpl in H; try discriminate H. now injection H as <-.
  - destruct (get_char a); simpl in H; try discriminate H. now injection H as <-.
  - destruct (get_f32 a); simpl in H; try discriminate H. now injection H as <-.
  - destruct (get_f64 a); simpl in H; try discriminate H. now injection H as <-.
  - destruct (get_str a) as [s|e|]; simpl in H; try discriminate H. injection H as <-. simpl.
    destruct s as [l|]; [rewrite firstn_length; lia|simpl; lia].
Qed.

(** * Worlds *)

Lemma upd_same : forall A (f : nat -> A) i x, upd f i x i = x.
Proof. intros. unfold upd. now rewrite Nat.eqb_refl. Qed.
Lemma upd_other : forall A (f : nat -> A) i j x, j <> i -> upd f i x j = f j.
Proof. intros. unfold upd. now apply Nat.eqb_neq in H as ->. Qed.

Definition blocked (f : leaf) : bool := lforcible f && lforced f.

Lemma blocked_forced : forall w i, blocked (leafs w i) = true <-> is_forced w i.
Proof. intros. unfold blocked, is_forced. now rewrite andb_true_iff. Qed.

(** All of a field but its value. *)
Definition meta (f : leaf) : leaf := with_val f PNothing.

Lemma meta_blocked : forall f g, meta f = meta g -> blocked f = blocked g.
Proof. intros [] [] H. injection H; intros; subst. reflexivity. Qed.
Lemma meta_conn : forall f g, meta f = meta g -> lconn f = lconn g.
Proof. intros [] [] H. injection H; intros; subst. reflexivity. Qed.
Lemma meta_targets : forall f g, meta f = meta g -> ltargets f = ltargets g.
Proof. intros [] [] H. injection H; intros; subst. reflexivity. Qed.
Lemma meta_lc : forall f g, meta f = meta g -> lc f = lc g.
Proof. intros [] [] H. injection H; intros; subst. reflexivity. Qed.
Lemma meta_lk : forall f g, meta f = meta g -> lk f = lk g.
Proof. intros [] [] H. injection H; intros; subst. reflexivity. Qed.
Lemma meta_val : forall f g, meta f = meta g -> lval f = lval g -> f = g.
Proof. intros [] [] H. injection H; simpl; intros; subst. reflexivity. Qed.
Lemma meta_with_val : forall f v, meta (with_val f v) = meta f.
Proof. intros [] v. reflexivity. Qed.
Lemma literal_meta : forall f g v, meta f = meta g -> literal_ok f v = literal_ok g v.
Proof. intros [] [] v H. injection H; intros; subst. reflexivity. Qed.
Lemma takes_meta : forall f g v, meta f = meta g -> takes f v <-> takes g v.
Proof. intros [] [] v H. injection H; intros; subst. reflexivity. Qed.

(** Only values of simple fields differ. *)
Definition same_meta (w w' : world) : Prop :=
  (forall j, meta (leafs w' j) = meta (leafs w j)) /\ arrs w' = arrs w /\ nconn w' = nconn w.

Lemma sm_refl : forall w, same_meta w w.
Proof. repeat split. Qed.
Lemma sm_trans : forall a b c, same_meta a b -> same_meta b c -> same_meta a c.
Proof.
  intros a b c (H1 & H2 & H3) (G1 & G2 & G3). split; [|split; congruence].
  intros j. now rewrite G1.
Qed.
Lemma sm_sym : forall a b, same_meta a b -> same_meta b a.
Proof. intros a b (H1 & H2 & H3). split; [|split; congruence]. intros j. now rewrite H1. Qed.

Lemma sm_set : forall w i v, same_meta w (set_leaf w i (with_val (leafs w i) v)).
Proof.
  intros w i v. split; [|split; reflexivity]. intros j. simpl.
  destruct (Nat.eq_dec j i) as [->|N]; [now rewrite upd_same, meta_with_val|now rewrite upd_other].
Qed.

Lemma sm_forced : forall w w' i, same_meta w w' -> is_forced w' i <-> is_forced w i.
Proof. intros w w' i (H & _). rewrite <- !blocked_forced. now rewrite (meta_blocked _ _ (H i)). Qed.

Lemma sm_feeds : forall w w' x y, same_meta w w' -> feeds w' x y <-> feeds w x y.
Proof.
  intros w w' x y H. unfold feeds. rewrite (sm_forced w w' x H).
  destruct H as (H & _). now rewrite (meta_conn _ _ (H x)), (meta_targets _ _ (H x)).
Qed.

Lemma sm_chain : forall w w' n x y, same_meta w w' -> chain w n x y -> chain w' n x y.
Proof.
  intros w w' n x y H. induction 1; [constructor|].
  econstructor; [|eassumption]. now apply (sm_feeds w w').
Qed.

(** * Writes *)

Lemma andthen_inv : forall o k w r, andthen o k = (w, r) ->
  (exists w1, o = (w1, Ok tt) /\ k w1 = (w, r)) \/
  (o = (w, r) /\ r <> Ok tt).
Proof.
  intros [w1 [[]|e|]] k w r H; simpl in H.
  - left. now exists w1.
  - right. injection H as -> <-. split; [reflexivity|discriminate].
  - right. injection H as -> <-. split; [reflexivity|discriminate].
Qed.

(** Any property of one write that composes is a property of a push. *)
Section Push.
  Variable set : world -> nat -> payload -> out.
  Variable R : world -> world -> Prop.
  Variable T : nat -> Prop.
  Variable refl : forall w, R w w.
  Variable trans : forall a b c, R a b -> R b c -> R a c.
  Variable one : forall w t v w' r, T t -> set w t v = (w', r) -> R w w'.

  Lemma set_any_R : forall w t a w' r, T t -> set_any_with set w t a = (w', r) -> R w w'.
  Proof.
    intros w t a w' r Ht. unfold set_any_with.
    destruct (from_any (lc (leafs w t)) a) as [v|e|]; intros H.
    - destruct (literal_ok (leafs w t) v); [now apply one in H|now injection H as <- _].
    - now injection H as <- _.
    - now injection H as <- _.
  Qed.

  Lemma push_R : forall ts w i w' r, (forall t, In t ts -> T t) ->
    push_with set w i ts = (w', r) -> R w w'.
  Proof.
    induction ts as [|t ts IH]; intros w i w' r Ht H; simpl in H.
    - now injection H as <- _.
    - destruct (to_any _ _ _) as [a|e|].
      + apply andthen_inv in H as [(w1 & H1 & H2)|(H1 & _)].
        * eapply trans; [eapply set_any_R; [|exact H1]; apply Ht; now left|].
          eapply IH; [|exact H2]. intros u Hu. apply Ht. now right.
        * eapply set_any_R; [|exact H1]. apply Ht. now left.
      + now injection H as <- _.
      + now injection H as <- _.
  Qed.
End Push.

Lemma set_val_meta : forall n w i v w' r, set_val n w i v = (w', r) -> same_meta w w'.
Proof.
  induction n as [|n IH]; intros w i v w' r H; simpl in H.
  - injection H as <- _. apply sm_refl.
  - destruct (lforcible _ && lforced _); [injection H as <- _; apply sm_refl|].
    destruct (lconn _).
    + eapply sm_trans; [apply sm_set|].
      refine (push_R (set_val n) same_meta (fun _ => True) sm_refl sm_trans _ _ _ _ _ _ (fun _ _ => I) H).
      intros. eapply IH; eassumption.
    + injection H as <- _. apply sm_set.
Qed.

(** Forced fields keep their values. *)
Definition keeps_forced (w w' : world) : Prop :=
  same_meta w w' /\ forall j, is_forced w j -> leafs w' j = leafs w j.

Lemma kf_refl : forall w, keeps_forced w w.
Proof. split; [apply sm_refl|reflexivity]. Qed.
Lemma kf_trans : forall a b c, keeps_forced a b -> keeps_forced b c -> keeps_forced a c.
Proof.
  intros a b c (H1 & H2) (G1 & G2). split; [now apply (sm_trans a b)|].
  intros j Hj. rewrite G2 by (now apply (sm_forced a b)). now apply H2.
Qed.

Lemma set_val_forced : forall n w i v w' r, set_val n w i v = (w', r) -> keeps_forced w w'.
Proof.
  induction n as [|n IH]; intros w i v w' r H; simpl in H.
  - injection H as <- _. apply kf_refl.
  - destruct (lforcible _ && lforced _) eqn:B; [injection H as <- _; apply kf_refl|].
    assert (K : keeps_forced w (set_leaf w i (with_val (leafs w i) v))).
    { split; [apply sm_set|]. intros j Hj. simpl. apply upd_other. intros ->.
      apply blocked_forced in Hj. unfold blocked in Hj. congruence. }
    destruct (lconn _).
    + eapply kf_trans; [exact K|].
      refine (push_R (set_val n) keeps_forced (fun _ => True) kf_refl kf_trans _ _ _ _ _ _ (fun _ _ => I) H).
      intros. eapply IH; eassumption.
    + injection H as <- _. exact K.
Qed.

(** Nothing changes outside what the field feeds. *)
Definition within (P : nat -> Prop) (w w' : world) : Prop :=
  same_meta w w' /\ forall j, ~ P j -> leafs w' j = leafs w j.

Lemma wi_refl : forall P w, within P w w.
Proof. split; [apply sm_refl|reflexivity]. Qed.
Lemma wi_trans : forall P a b c, within P a b -> within P b c -> within P a c.
Proof.
  intros P a b c (H1 & H2) (G1 & G2). split; [now apply (sm_trans a b)|].
  intros j Hj. rewrite G2 by assumption. now apply H2.
Qed.

(** [P] is closed under [feeds]; stated with a reference world, whose links are the
    ones of all worlds met. *)
Lemma set_val_within : forall n w0 (P : nat -> Prop) w i v w' r,
  (forall x y, P x -> feeds w0 x y -> P y) -> same_meta w0 w ->
  P i -> set_val n w i v = (w', r) -> within P w w'.
Proof.
  induction n as [|n IH]; intros w0 P w i v w' r Hc Hm Hi H; simpl in H.
  - injection H as <- _. apply wi_refl.
  - destruct (lforcible _ && lforced _) eqn:B; [injection H as <- _; apply wi_refl|].
    assert (K : within P w (set_leaf w i (with_val (leafs w i) v))).
    { split; [apply sm_set|]. intros j Hj. simpl. apply upd_other. intros ->. contradiction. }
    destruct (lconn (leafs w i)) eqn:C.
    + eapply wi_trans; [exact K|].
      set (R := fun a b => same_meta w0 a -> within P a b).
      assert (HR : R (set_leaf w i (with_val (leafs w i) v)) w').
      { eapply (push_R (set_val n) R P) with (ts := ltargets (leafs w i)); [..|exact H].
        - intros a _. apply wi_refl.
        - intros a b c H1 H2 Ha. eapply wi_trans; [now apply H1|]. apply H2.
          eapply sm_trans; [exact Ha|]. now apply H1.
        - intros a t u b q Ht Hs Ha. eapply IH; eassumption.
        - intros t Ht. apply (Hc i); [assumption|]. apply (sm_feeds w0 w i t Hm).
          split; [|split; assumption]. intros F. apply blocked_forced in F. unfold blocked in F. congruence. }
      apply HR. eapply sm_trans; [exact Hm|apply sm_set].
    + injection H as <- _. exact K.
Qed.

(** ** Depth *)

Lemma push_each : forall set ts w i w',
  (forall w t v w' r, set w t v = (w', r) -> same_meta w w') ->
  push_with set w i ts = (w', Ok tt) ->
  forall t, In t ts -> exists w1 v w2, same_meta w w1 /\ set w1 t v = (w2, Ok tt).
Proof.
  intros set ts. induction ts as [|u ts IH]; intros w i w' Hm H t Ht; [destruct Ht|].
  simpl in H. destruct (to_any _ _ _) as [a|e|]; try discriminate H.
  apply andthen_inv in H as [(w1 & H1 & H2)|(_ & N)]; [|now destruct N].
  destruct Ht as [->|Ht].
  - unfold set_any_with in H1. destruct (from_any _ a) as [v|e|]; try discriminate H1.
    destruct (literal_ok _ v); [|discriminate H1]. exists w, v, w1. split; [apply sm_refl|exact H1].
  - destruct (IH w1 i w' Hm H2 t Ht) as (a1 & v & a2 & S1 & S2).
    exists a1, v, a2. split; [|exact S2]. eapply sm_trans; [|exact S1].
    refine (set_any_R set same_meta (fun _ => True) sm_refl _ _ _ _ _ _ I H1).
    intros. eapply Hm; eassumption.
Qed.

(** A write that returns went no deeper than the stack allows. *)
Lemma set_val_depth : forall n w i v w' m j,
  set_val n w i v = (w', Ok tt) -> chain w m i j -> m < n.
Proof.
  induction n as [|n IH]; intros w i v w' m j H Hc; simpl in H; [discriminate H|].
  inversion Hc as [|m' a b c Hf Hr]; subst; [lia|].
  destruct Hf as (Hu & Hl & Hin).
  destruct (lforcible _ && lforced _) eqn:B.
  - exfalso. apply Hu. now apply blocked_forced.
  - rewrite Hl in H.
    destruct (push_each (set_val n) _ _ _ _ (set_val_meta n) H b Hin) as (w1 & v1 & w2 & S1 & S2).
    assert (m' < n); [|lia]. eapply IH; [exact S2|].
    eapply sm_chain; [|exact Hr]. eapply sm_trans; [apply sm_set|exact S1].
Qed.

Lemma chain_app : forall w n m i j k, chain w n i j -> chain w m j k -> chain w (n + m) i k.
Proof. intros w n m i j k H. induction H; intros G; [exact G|]. simpl. econstructor; [eassumption|auto]. Qed.

Lemma chain_reaches : forall w n i j, chain w n i j -> reaches w i j.
Proof. intros w n i j. induction 1; [constructor|]. econstructor 2; eassumption. Qed.
Lemma reaches_chain : forall w i j, reaches w i j -> exists n, chain w n i j.
Proof.
  intros w i j. induction 1 as [|x y z H _ (n & IH)]; [exists 0; constructor|].
  exists (S n). econstructor; eassumption.
Qed.

Lemma reaches_inv : forall w i j, reaches w i j -> i = j \/ exists y, feeds w i y /\ reaches w y j.
Proof. intros w i j []; [now left|]. right. eauto. Qed.

Lemma chain_repeat : forall w n i, chain w (S n) i i -> forall k, exists m, k <= m /\ chain w m i i.
Proof.
  intros w n i H. induction k as [|k (m & Hk & IH)]; [exists 0; split; [lia|constructor]|].
  exists (S n + m). split; [lia|]. eapply chain_app; eassumption.
Qed.

(** A write that returns meets no loop. *)
Lemma set_val_loop_free : forall n w i v w',
  set_val n w i v = (w', Ok tt) -> loop_free w i.
Proof.
  intros n w i v w' H j m Hr Hc. destruct m as [|m]; [reflexivity|exfalso].
  apply reaches_chain in Hr as (p & Hp).
  destruct (chain_repeat w m j Hc n) as (q & Hq & Hq').
  assert (p + q < n); [|lia]. eapply set_val_depth; [exact H|]. eapply chain_app; eassumption.
Qed.

(** A write that returns has stored its value. *)
Lemma set_val_stored : forall n w i v w',
  ~ is_forced w i -> set_val n w i v = (w', Ok tt) -> lval (leafs w' i) = v.
Proof.
  intros n w i v w' Hu H.
  assert (L := set_val_loop_free _ _ _ _ _ H).
  destruct n as [|n]; [discriminate H|]. simpl in H.
  destruct (lforcible _ && lforced _) eqn:B; [exfalso; apply Hu; now apply blocked_forced|].
  set (w1 := set_leaf w i (with_val (leafs w i) v)) in *.
  assert (V1 : leafs w1 i = with_val (leafs w i) v) by apply upd_same.
  destruct (lconn (leafs w i)) eqn:C.
  - set (P := fun j => exists t, feeds w i t /\ reaches w t j).
    assert (Hc : forall x y, P x -> feeds w x y -> P y).
    { intros x y (t & Ht & Hx) Hf. exists t. split; [exact Ht|].
      apply clos_rt_rt1n. eapply rt_trans; [apply clos_rt1n_rt; exact Hx|now apply rt_step]. }
    set (R := fun a b => same_meta w a -> within P a b).
    assert (HR : R w1 w').
    { eapply (push_R (set_val n) R P) with (ts := ltargets (leafs w i)); [..|exact H].
      - intros a _. apply wi_refl.
      - intros a b c H1 H2 Ha. eapply wi_trans; [now apply H1|]. apply H2.
        eapply sm_trans; [exact Ha|]. now apply H1.
      - intros a t u b q Ht Hs Ha. eapply set_val_within; eassumption.
      - intros t Ht. exists t. split; [|constructor]. split; [exact Hu|]. now split. }
    destruct HR as (_ & HR); [apply sm_set|]. rewrite HR.
    + now rewrite V1.
    + intros (t & Ht & Hr). apply reaches_chain in Hr as (m & Hm).
      assert (S m = 0); [|discriminate]. apply (L i (S m)); [constructor|].
      econstructor; eassumption.
  - injection H as <-. now rewrite V1.
Qed.

(** ** Propagation *)

Lemma declared_literal : forall f v, declared f v -> literal_ok f v = true.
Proof.
  intros f v H. unfold literal_ok. destruct (lpub f) eqn:P; [|reflexivity].
  destruct (lk f) eqn:K; try reflexivity. destruct (lenum f) as [ls|] eqn:E; [|reflexivity].
  destruct v as [|z|b|z|x|s]; try reflexivity.
  apply existsb_exists. exists z. split; [|apply Z.eqb_refl]. eapply H; eauto.
Qed.

(** What a field hands on is what the next one stores. *)
Lemma handed : forall set w i t v,
  lval (leafs w i) = v -> takes (leafs w i) v -> takes (leafs w t) v ->
  lk (leafs w i) = lk (leafs w t) ->
  exists a, to_any (lc (leafs w i)) (lk (leafs w i)) (lval (leafs w i)) = Ok a /\
            set_any_with set w t a = set w t v.
Proof.
  intros set w i t v Hv (Ki & Vi & Di) (Kt & Vt & Dt) Hk.
  exists (Any (lk (leafs w i)) v). rewrite Hv. split; [now apply to_any_ok|].
  unfold set_any_with. rewrite from_any_ok by (try rewrite Hk; assumption).
  now rewrite (declared_literal _ _ Dt).
Qed.

(** Every write of the propagation writes [v]. *)
Definition only_v (v : payload) (w w' : world) : Prop :=
  same_meta w w' /\ forall j, leafs w' j = leafs w j \/ lval (leafs w' j) = v.

Lemma ov_refl : forall v w, only_v v w w.
Proof. split; [apply sm_refl|]. now left. Qed.
Lemma ov_trans : forall v a b c, only_v v a b -> only_v v b c -> only_v v a c.
Proof.
  intros v a b c (H1 & H2) (G1 & G2). split; [now apply (sm_trans a b)|].
  intros j. destruct (G2 j) as [E|E]; [|now right]. rewrite E. apply H2.
Qed.
Lemma ov_set : forall v w i, only_v v w (set_leaf w i (with_val (leafs w i) v)).
Proof.
  intros v w i. split; [apply sm_set|]. intros j. simpl.
  destruct (Nat.eq_dec j i) as [->|N]; [right; now rewrite upd_same|left; now apply upd_other].
Qed.
Lemma ov_val : forall v w w' j, only_v v w w' -> lval (leafs w j) = v -> lval (leafs w' j) = v.
Proof. intros v w w' j (_ & H) E. destruct (H j) as [F|F]; [now rewrite F|exact F]. Qed.

Section Propagation.
  (** The links and flags, with [v] acceptable to everything [i0] feeds. *)
  Variable w0 : world.
  Variable v : payload.
  Variable i0 : nat.
  Hypothesis kinds : kinds_agree w0.
  Hypothesis accept : forall j, reaches w0 i0 j -> takes (leafs w0 j) v.

  Lemma reaches_step : forall x y, reaches w0 i0 x -> feeds w0 x y -> reaches w0 i0 y.
  Proof.
    intros x y H F. apply clos_rt_rt1n. eapply rt_trans; [apply clos_rt1n_rt; exact H|now apply rt_step].
  Qed.

  (** With stack enough for the longest chain the write returns, and everything fed
      that is not forced holds [v]. *)
  Lemma push_all_v : forall (set : world -> nat -> payload -> out) i ts w,
    same_meta w0 w -> reaches w0 i0 i -> ~ is_forced w0 i -> lconn (leafs w0 i) = true ->
    (forall t, In t ts -> In t (ltargets (leafs w0 i))) ->
    lval (leafs w i) = v ->
    (forall t a, In t ts -> same_meta w0 a -> exists b, set a t v = (b, Ok tt) /\ only_v v a b /\
        forall j, reaches w0 t j -> ~ is_forced w0 j -> lval (leafs b j) = v) ->
    exists w', push_with set w i ts = (w', Ok tt) /\ only_v v w w' /\
      forall t j, In t ts -> reaches w0 t j -> ~ is_forced w0 j -> lval (leafs w' j) = v.
  Proof.
    intros set i ts. induction ts as [|t ts IH]; intros w Hm Hr Hu Hl Hts Hv Hset; simpl.
    - exists w. split; [reflexivity|]. split; [apply ov_refl|]. intros t j [].
    - assert (Ht : In t (ltargets (leafs w0 i))) by (apply Hts; now left).
      assert (Ai : takes (leafs w i) v).
      { apply (takes_meta (leafs w i) (leafs w0 i)); [apply Hm|now apply accept]. }
      assert (At : takes (leafs w t) v).
      { apply (takes_meta (leafs w t) (leafs w0 t)); [apply Hm|]. apply accept.
        eapply reaches_step; [exact Hr|]. now split. }
      assert (K : lk (leafs w i) = lk (leafs w t)).
      { rewrite (meta_lk (leafs w i) (leafs w0 i)), (meta_lk (leafs w t) (leafs w0 t)) by apply Hm.
        now apply kinds. }
      destruct (handed set w i t v Hv Ai At K) as (a & E1 & E2). rewrite E1, E2.
      destruct (Hset t w (or_introl eq_refl) Hm) as (b & Sb & Ob & Vb). rewrite Sb. simpl.
      destruct (IH b) as (w' & P1 & P2 & P3); try assumption.
      + eapply sm_trans; [exact Hm|apply Ob].
      + intros u Hin. apply Hts. now right.
      + eapply ov_val; eassumption.
      + intros u c Hin Hc. apply Hset; [now right|exact Hc].
      + exists w'. split; [exact P1|]. split; [now apply (ov_trans v w b)|].
        intros u j [<-|Hin] Hj Hf; [|eapply P3; eassumption].
        eapply ov_val; [exact P2|]. now apply Vb.
  Qed.

  Lemma set_val_all : forall n i w,
    same_meta w0 w -> reaches w0 i0 i ->
    (forall j, ~ chain w0 n i j) ->
    exists w', set_val n w i v = (w', Ok tt) /\ only_v v w w' /\
      forall j, reaches w0 i j -> ~ is_forced w0 j -> lval (leafs w' j) = v.
  Proof.
    induction n as [|n IH]; intros i w Hm Hr Hn.
    - exfalso. apply (Hn i). constructor.
    - simpl. destruct (lforcible (leafs w i) && lforced (leafs w i)) eqn:B.
      + exists w. split; [reflexivity|]. split; [apply ov_refl|].
        assert (F : is_forced w0 i).
        { apply (sm_forced w0 w i Hm). now apply blocked_forced. }
        intros j Hj Hu. apply reaches_inv in Hj as [<-|(y & G & Hyz)]; [contradiction|].
        destruct G as (G & _). contradiction.
      + assert (Hu : ~ is_forced w0 i).
        { intros F. apply (sm_forced w0 w i Hm) in F. apply blocked_forced in F.
          unfold blocked in F. congruence. }
        set (w1 := set_leaf w i (with_val (leafs w i) v)).
        assert (Hm1 : same_meta w0 w1) by (eapply sm_trans; [exact Hm|apply sm_set]).
        assert (V1 : lval (leafs w1 i) = v) by (unfold w1; simpl; now rewrite upd_same).
        destruct (lconn (leafs w i)) eqn:C.
        * assert (C0 : lconn (leafs w0 i) = true).
          { rewrite <- C. symmetry. apply meta_conn. apply Hm. }
          assert (T0 : ltargets (leafs w i) = ltargets (leafs w0 i)) by (apply meta_targets; apply Hm).
          rewrite T0.
          destruct (push_all_v (set_val n) i (ltargets (leafs w0 i)) w1) as (w' & P1 & P2 & P3);
            try assumption; [auto| |].
          { intros t a Ht Ha.
            assert (F : feeds w0 i t) by now split.
            destruct (IH t a Ha) as (b & B1 & B2 & B3).
            - eapply reaches_step; eassumption.
            - intros j Hj. apply (Hn j). econstructor; eassumption.
            - exists b. auto. }
          exists w'. split; [exact P1|]. split; [eapply ov_trans; [apply ov_set|exact P2]|].
          intros j Hj Hf. apply reaches_inv in Hj as [<-|(y & G & Hyz)]; [eapply ov_val; eassumption|].
          eapply P3; try eassumption. now destruct G as (_ & _ & G).
        * exists w1. split; [reflexivity|]. split; [apply ov_set|].
          intros j Hj Hf. apply reaches_inv in Hj as [<-|(y & G & Hyz)]; [exact V1|].
          destruct G as (_ & G & _).
          rewrite <- (meta_conn (leafs w i) (leafs w0 i)) in G by apply Hm. congruence.
  Qed.
End Propagation.

(** Loops never return. *)
Lemma set_val_loop : forall n w i v w' r j k,
  reaches w i j -> chain w (S k) j j -> set_val n w i v = (w', r) -> r <> Ok tt.
Proof.
  intros n w i v w' r j k Hr Hc H E. subst r.
  apply set_val_loop_free in H. specialize (H j (S k) Hr Hc). discriminate H.
Qed.

(** ** Loop-free dataflow over finitely many fields terminates. *)
Lemma chain_split : forall w n i k, chain w n i k -> forall m, m <= n ->
  exists j, chain w m i j /\ chain w (n - m) j k.
Proof.
  intros w n i k H. induction H as [i|n i j k F H IH]; intros m Hm.
  - exists i. replace m with 0 by lia. split; constructor.
  - destruct m as [|m]; [exists i; split; [constructor|]; simpl; econstructor; eassumption|].
    destruct (IH m) as (x & H1 & H2); [lia|]. exists x. split; [econstructor; eassumption|exact H2].
Qed.

Lemma chain_nodes : forall w n i k, chain w n i k ->
  exists f : nat -> nat, f 0 = i /\ f n = k /\ forall a b, a <= b -> b <= n -> chain w (b - a) (f a) (f b).
Proof.
  intros w n i k H. induction H as [i|n i j k F H (f & F0 & Fn & IH)].
  - exists (fun _ => i). repeat split. intros a b Ha Hb. replace (b - a) with 0 by lia. constructor.
  - exists (fun a => match a with 0 => i | S a => f a end). repeat split; [exact Fn|].
    intros [|a] [|b] Ha Hb; try lia.
    + constructor.
    + simpl. econstructor; [exact F|]. rewrite <- F0.
      replace b with (b - 0) at 1 by lia. apply IH; lia.
    + simpl. apply IH; lia.
Qed.

Lemma no_long_chain : forall w i ids,
  loop_free w i -> (forall j, reaches w i j -> In j ids) ->
  forall j, ~ chain w (length ids) i j.
Proof.
  intros w i ids Hl Hin j Hc.
  destruct (chain_nodes _ _ _ _ Hc) as (f & F0 & Fn & Hf).
  assert (Hr : forall a, a <= length ids -> reaches w i (f a)).
  { intros a Ha. rewrite <- F0. apply (chain_reaches w a). replace a with (a - 0) at 1 by lia. apply Hf; lia. }
  assert (ND : NoDup (map f (seq 0 (S (length ids))))).
  { assert (G : forall m n, m + n <= S (length ids) -> NoDup (map f (seq m n))); [|apply G; lia].
    intros m n. revert m. induction n as [|n IH]; intros m Hmn; simpl; [constructor|]. constructor; [|apply IH; lia].
    intros Hx. apply in_map_iff in Hx as (b & Eb & Hb). apply in_seq in Hb.
    assert (Z : b - m = 0); [|lia]. apply (Hl (f m)); [apply Hr; lia|].
    rewrite <- Eb at 2. apply Hf; lia. }
  assert (I : incl (map f (seq 0 (S (length ids)))) ids).
  { intros x Hx. apply in_map_iff in Hx as (b & <- & Hb). apply in_seq in Hb. apply Hin, Hr. lia. }
  pose proof (NoDup_incl_length ND I) as L. rewrite map_length, seq_length in L. lia.
Qed.

Lemma no_longer_chain : forall w n m i, n <= m -> (forall j, ~ chain w n i j) -> forall j, ~ chain w m i j.
Proof.
  intros w n m i H Hn j Hc. destruct (chain_split _ _ _ _ Hc n H) as (x & Hx & _). now apply (Hn x).
Qed.
