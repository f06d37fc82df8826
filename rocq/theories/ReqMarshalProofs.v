(** Proofs about writing arguments into requests and reading them back. *)
From Coq Require Import ZArith List Bool Lia.
From Verif Require Import Base UuidModel UuidProofs Assoc HelperModel HelperSpec HelperProofs PathModel PathProofs.
From Verif Require Import AnyModel AnySpec AnyProofs FlowModel FlowSpec FlowProofs TypeModel TypeSpec TypeProofs ReqModel ReqSpec ReqProofs.
Import ListNotations.
Local Open Scope Z_scope.

(** * Names *)

Definition tail (s : list Z) : Prop := s = [] \/ exists c r, s = c :: r /\ (c = 46 \/ c = 91).

Lemma item_digits : forall i, exists d, item_name i = 91 :: d ++ [93] /\ Forall digit d /\ d <> [].
Proof.
  intros i. destruct (decimal_spec i) as (d & E & F & D & _). exists d. unfold item_name. rewrite E. split; [reflexivity|].
  split; [|assumption]. apply Forall_forall. intros c I. rewrite Forall_forall in F. apply F in I.
  unfold isdigit in I. unfold digit. apply andb_true_iff in I as [A B]. apply Z.leb_le in A, B. lia.
Qed.

Lemma item_inj : forall i j, item_name i = item_name j -> i = j.
Proof.
  intros i j E. unfold item_name in E. injection E as E. apply app_inj_tail in E as [E _].
  destruct (decimal_spec i) as (d & A & _ & _ & V), (decimal_spec j) as (d' & B & _ & _ & V'). rewrite A, B in E. subst d'.
  rewrite V in V'. lia.
Qed.

Lemma split_digits : forall a b s t, Forall digit a -> Forall digit b -> a ++ 93 :: s = b ++ 93 :: t -> a = b /\ s = t.
Proof.
  induction a as [|x a IH]; intros [|y b] s t A B E; cbn in E.
  - injection E as ->. auto.
  - injection E as <- _. inversion B as [|? ? D _]; subst. unfold digit in D. lia.
  - injection E as -> _. inversion A as [|? ? D _]; subst. unfold digit in D. lia.
  - injection E as -> E. inversion A; inversion B; subst. apply IH in E as [-> ->]; auto.
Qed.

Lemma item_split : forall i j s t, item_name i ++ s = item_name j ++ t -> i = j /\ s = t.
Proof.
  intros i j s t E. destruct (item_digits i) as (d & A & F & _), (item_digits j) as (d' & B & F' & _).
  pose proof E as E'. rewrite A, B in E'. cbn in E'. injection E' as E'. rewrite <- !app_assoc in E'. cbn in E'.
  apply split_digits in E' as [-> ->]; auto. split; [|reflexivity]. apply item_inj. congruence.
Qed.

Definition idc (x : Z) : Prop := letter x \/ digit x \/ x = 95.
Lemma split_ident : forall a b s t, Forall idc a -> Forall idc b -> tail s -> tail t -> a ++ s = b ++ t -> a = b /\ s = t.
Proof.
  assert (N : forall x, idc x -> x <> 46 /\ x <> 91).
  { intros x [H|[H|H]]; unfold letter, digit in H; lia. }
  induction a as [|x a IH]; intros [|y b] s t A B S T E; cbn in E.
  - auto.
  - subst s. inversion B as [|? ? D _]; subst. apply N in D. destruct S as [S|(c & r & S & C)]; [discriminate|].
    injection S as -> _. lia.
  - subst t. inversion A as [|? ? D _]; subst. apply N in D. destruct T as [T|(c & r & T & C)]; [discriminate|].
    injection T as -> _. lia.
  - injection E as -> E. inversion A; inversion B; subst. apply IH in E as [-> ->]; auto.
Qed.

Lemma split_name : forall a b s t, valid_name a -> valid_name b -> tail s -> tail t -> a ++ s = b ++ t -> a = b /\ s = t.
Proof.
  intros a b s t A B S T E. destruct A as [c a L F|a NE F], B as [c' b L' F'|b NE' F'].
  - apply (split_ident (c :: a) (c' :: b)) in E; auto; constructor; unfold idc; auto.
  - cbn in E. injection E as -> _. unfold letter in L. lia.
  - cbn in E. injection E as <- _. unfold letter in L'. lia.
  - cbn in E. injection E as E. rewrite <- !app_assoc in E. cbn in E. apply split_digits in E as [-> ->]; auto.
Qed.

Lemma tail_app : forall s t, tail s -> tail t -> tail (s ++ t).
Proof. intros s t [->|(c & r & -> & C)] T; [exact T|]. right. exists c, (r ++ t). auto. Qed.
Lemma tail_item : forall i, tail (item_name i).
Proof. intros i. right. exists 91, (decimal i ++ [93]). auto. Qed.

Lemma carries_tail : forall f nm s c k v, carries f nm s c k v -> exists t, s = nm ++ t /\ tail t.
Proof.
  induction 1 as [c k v nm|c k vs nm i v E|l nm i x s c k v E H IH|l nm n x s c k v I H IH].
  - exists []. rewrite app_nil_r. split; [reflexivity|now left].
  - exists (item_name i). split; [reflexivity|apply tail_item].
  - destruct IH as (t & -> & T). exists (item_name i ++ t). rewrite app_assoc. split; [reflexivity|].
    apply tail_app; [apply tail_item|assumption].
  - destruct IH as (t & -> & T). exists (46 :: n ++ t). rewrite <- app_assoc. split; [reflexivity|].
    right. exists 46, (n ++ t). auto.
Qed.

(** One parameter carries one value. *)
Lemma carries_once : forall f nm s c k v, named f -> carries f nm s c k v ->
  forall c' k' v', carries f nm s c' k' v' -> c' = c /\ k' = k /\ v' = v.
Proof.
  intros f nm s c k v N H. revert N.
  induction H as [c k v nm|c k vs nm i v E|l nm i x s c k v E H IH|l nm n x s c k v I H IH]; intros N c' k' v' H'.
  - inversion H'; subst; auto.
  - inversion H'; subst. match goal with D : _ ++ _ = _ ++ _ |- _ => apply app_inv_head in D; apply item_inj in D; subst end.
    match goal with D : nth_error vs i = Some v' |- _ => rewrite E in D; injection D as -> end. auto.
  - inversion H' as [| |? ? j y ? ? ? ? E' H2|]; subst.
    destruct (carries_tail _ _ _ _ _ _ H) as (t & Et & _), (carries_tail _ _ _ _ _ _ H2) as (t' & Et' & _).
    rewrite Et in Et'. rewrite <- !app_assoc in Et'. apply app_inv_head in Et'. apply item_split in Et' as [<- _].
    rewrite E in E'. injection E' as <-. inversion N as [| |? Nx|]; subst. apply IH; [|assumption].
    apply Nx. eapply nth_error_In; eauto.
  - inversion H' as [| | |? ? m y ? ? ? ? I' H2]; subst.
    destruct (carries_tail _ _ _ _ _ _ H) as (t & Et & T), (carries_tail _ _ _ _ _ _ H2) as (t' & Et' & T').
    rewrite Et in Et'. rewrite <- !app_assoc in Et'. apply app_inv_head in Et'. cbn in Et'. injection Et' as Et'.
    inversion N as [| | |? ND Nx]; subst. destruct (Nx _ _ I) as [V NX], (Nx _ _ I') as [V' _].
    apply split_name in Et' as [<- _]; auto.
    assert (x = y) as <-.
    { clear - ND I I'. induction l as [|[a b] l IHl]; [destruct I|]. cbn in ND. inversion ND as [|? ? NI ND']; subst.
      destruct I as [I|I], I' as [I'|I'].
      - congruence.
      - injection I as -> ->. exfalso. apply NI. apply (in_map fst) in I'. exact I'.
      - injection I' as -> ->. exfalso. apply NI. apply (in_map fst) in I. exact I.
      - auto. }
    apply IH; assumption.
Qed.

(** * Writing *)

Fixpoint leaves (f : fld) (nm : list Z) : list (list Z * (cty * kind * payload)) :=
  match f with
  | FSim c k v => [(nm, (c, k, v))]
  | FSArr c k vs =>
      (fix go (vs : list payload) (i : nat) :=
         match vs with [] => [] | v :: vs => (nm ++ item_name i, (c, k, v)) :: go vs (S i) end) vs O
  | FArr l =>
      (fix go (l : list fld) (i : nat) :=
         match l with [] => [] | x :: l => leaves x (nm ++ item_name i) ++ go l (S i) end) l O
  | FStr l =>
      (fix go (l : list (list Z * fld)) :=
         match l with [] => [] | (n, x) :: l => leaves x (nm ++ 46 :: n) ++ go l end) l
  end.

Fixpoint puts (r : reg) (l : list (list Z * (cty * kind * payload))) (q : request) : request * res rexn unit :=
  match l with
  | [] => (q, Ok tt)
  | (s, (c, k, v)) :: l => seqq (put_field r c k s v q) (puts r l)
  end.

Section FldInd.
  Variable P : fld -> Prop.
  Hypothesis Hsim : forall c k v, P (FSim c k v).
  Hypothesis Hsarr : forall c k vs, P (FSArr c k vs).
  Hypothesis Harr : forall l, (forall x, In x l -> P x) -> P (FArr l).
  Hypothesis Hstr : forall l, (forall n x, In (n, x) l -> P x) -> P (FStr l).
  Fixpoint fld_rect' (f : fld) : P f.
  Proof.
    destruct f as [c k v|c k vs|l|l].
    - apply Hsim.
    - apply Hsarr.
    - apply Harr. induction l as [|y l IH]; intros x I; [destruct I|]. destruct I as [<-|I]; [apply fld_rect'|now apply IH].
    - apply Hstr. induction l as [|[m y] l IH]; intros n x I; [destruct I|]. destruct I as [E|I]; [|now apply (IH n)].
      injection E as _ <-. apply fld_rect'.
  Defined.
End FldInd.

Lemma puts_app : forall r a b q, puts r (a ++ b) q = seqq (puts r a q) (puts r b).
Proof.
  intros r. induction a as [|[s [[c k] v]] a IH]; intros b q; [reflexivity|]. cbn.
  destruct (put_field r c k s v q) as [q1 [[]|e|]]; cbn; auto.
Qed.

Lemma seqq_ext : forall x f g, (forall q, f q = g q) -> seqq x f = seqq x g.
Proof. intros [q [u|e|]] f g H; cbn; auto. Qed.

Lemma seqq_ret : forall x, seqq x (fun q => (q, Ok tt)) = x.
Proof. intros [q [[]|e|]]; reflexivity. Qed.

Lemma inject_puts : forall r f nm q, inject r f nm q = puts r (leaves f nm) q.
Proof.
  intros r f. induction f as [c k v|c k vs|l IH|l IH] using fld_rect'; intros nm q.
  - cbn. change (fun q0 => (q0, Ok tt)) with (puts r []). symmetry. apply seqq_ret.
  - cbn. generalize O. revert q. induction vs as [|v vs IHv]; intros q i; [reflexivity|]. cbn. apply seqq_ext. intros q'. apply IHv.
  - cbn. generalize O. revert q. induction l as [|x l IHl]; intros q i; [reflexivity|].
    rewrite puts_app, <- IH by now left. apply seqq_ext. intros q'. apply IHl. intros y Y. apply IH. now right.
  - cbn. revert q. induction l as [|[n x] l IHl]; intros q; [reflexivity|].
    rewrite puts_app, <- (IH n) by now left. apply seqq_ext. intros q'. apply IHl. intros m y Y. apply (IH m). now right.
Qed.

Lemma leaves_carries : forall f nm s c k v, In (s, (c, k, v)) (leaves f nm) <-> carries f nm s c k v.
Proof.
  intros f. induction f as [c0 k0 v0|c0 k0 vs|l IH|l IH] using fld_rect'; intros nm s c k v.
  - cbn. split.
    + intros [E|[]]. injection E as <- <- <- <-. constructor.
    + intros H. inversion H; subst. now left.
  - cbn. transitivity (exists j, nth_error vs j = Some v /\ s = nm ++ item_name j /\ c = c0 /\ k = k0).
    + change (exists j, nth_error vs j = Some v /\ s = nm ++ item_name j /\ c = c0 /\ k = k0)
        with (exists j, nth_error vs j = Some v /\ s = nm ++ item_name (O + j) /\ c = c0 /\ k = k0).
      generalize O. induction vs as [|x vs IHv]; intros i.
      * split; [intros []|]. intros ([|j] & E & _); discriminate E.
      * split.
        -- intros [E|I]; [injection E as <- <- <- <-; exists O; rewrite Nat.add_0_r; auto|].
           apply IHv in I as (j & E & -> & R). exists (S j). rewrite <- Nat.add_succ_comm. auto.
        -- intros ([|j] & E & -> & -> & ->); cbn in E.
           ++ injection E as ->. left. now rewrite Nat.add_0_r.
           ++ right. apply IHv. exists j. rewrite Nat.add_succ_comm. auto.
    + split.
      * intros (j & E & -> & -> & ->). now constructor.
      * intros H. inversion H; subst. eexists. eauto.
  - cbn. transitivity (exists j x, nth_error l j = Some x /\ carries x (nm ++ item_name j) s c k v).
    + change (exists j x, nth_error l j = Some x /\ carries x (nm ++ item_name j) s c k v)
        with (exists j x, nth_error l j = Some x /\ carries x (nm ++ item_name (O + j)) s c k v).
      generalize O. induction l as [|x l IHl]; intros i.
      * split; [intros []|]. intros ([|j] & y & E & _); discriminate E.
      * rewrite in_app_iff, (IH x) by now left. rewrite IHl by (intros y Y; apply IH; now right). split.
        -- intros [H|(j & y & E & H)]; [exists O, x; rewrite Nat.add_0_r; auto|].
           exists (S j), y. rewrite <- Nat.add_succ_comm. auto.
        -- intros ([|j] & y & E & H); cbn in E; [left; injection E as ->; now rewrite Nat.add_0_r in H|].
           right. exists j, y. rewrite Nat.add_succ_comm. auto.
    + split.
      * intros (j & x & E & H). econstructor; eauto.
      * intros H. inversion H; subst. eauto.
  - cbn. transitivity (exists n x, In (n, x) l /\ carries x (nm ++ 46 :: n) s c k v).
    + induction l as [|[n x] l IHl].
      * split; [intros []|]. intros (n & x & [] & _).
      * rewrite in_app_iff, (IH n x) by now left. rewrite IHl by (intros m y Y; apply (IH m); now right). split.
        -- intros [H|(m & y & I & H)]; [exists n, x; split; [now left|assumption]|]. exists m, y. split; [now right|assumption].
        -- intros (m & y & [E|I] & H); [injection E as -> ->; now left|]. right. eauto.
    + split.
      * intros (n & x & I & H). econstructor; eauto.
      * intros H. inversion H; subst. eauto.
Qed.

(** [fits r q l]: every value of the list has its parameter. *)
Definition fits_all (r : reg) (q : request) (l : list (list Z * (cty * kind * payload))) : Prop :=
  forall s c k v, In (s, (c, k, v)) l -> takes_value r q s k v /\ kind_of c k /\ value_of c v.

Definition frame (q q' : request) : Prop := ridx q' = ridx q /\ map snd (rvals q') = map snd (rvals q) /\ rret q' = rret q.

Lemma frame_index : forall q q' s, frame q q' -> get_index q' s = get_index q s.
Proof. intros q q' [s|] [E _]; cbn; [now rewrite E|reflexivity]. Qed.

Lemma frame_type : forall q q' i v u, frame q q' -> nth_error (rvals q) i = Some (v, u) -> exists w, nth_error (rvals q') i = Some (w, u).
Proof.
  intros q q' i v u [_ [E _]] N. apply (map_nth_error snd) in N. rewrite <- E in N. cbn in N.
  destruct (nth_error (rvals q') i) as [[w u']|] eqn:X.
  - apply (map_nth_error snd) in X. cbn in X. rewrite N in X. injection X as ->. eauto.
  - apply nth_error_None in X.
    assert (Y : nth_error (map snd (rvals q')) i = None) by (apply nth_error_None; now rewrite map_length). congruence.
Qed.

Lemma takes_frame : forall r q q' s k v, frame q q' -> takes_value r q s k v -> takes_value r q' s k v.
Proof.
  intros r q q' s k v F (i & old & u & t & I & N & G & V). destruct (frame_type _ _ _ _ _ F N) as [w N'].
  exists i, w, u, t. rewrite (frame_index _ _ _ F). auto.
Qed.

Lemma put_field_ok : forall r c k s v q, takes_value r q s k v -> kind_of c k -> value_of c v ->
  exists i u q', get_index q (Some s) = Z.of_nat i /\ put_field r c k s v q = (q', Ok tt) /\ frame q q' /\
  nth_error (rvals q') i = Some (Any k v, u) /\ forall j, j <> i -> nth_error (rvals q') j = nth_error (rvals q) j.
Proof.
  intros r c k s v q (i & old & u & t & I & N & G & V) K W. unfold put_field. rewrite I.
  destruct (Z.eqb_spec (Z.of_nat i) (-1)); [lia|]. rewrite (to_any_ok c k v K W). cbn [of_any].
  assert (L : (i < length (rvals q))%nat) by (apply nth_error_Some; congruence).
  unfold set_param. destruct (Z.ltb_spec (Z.of_nat i) 0); [lia|]. destruct (Z.leb_spec (Z.of_nat (length (rvals q))) (Z.of_nat i)); [lia|].
  cbn [orb]. rewrite Nat2Z.id, N, G, V. eexists i, u, _. split; [reflexivity|]. split; [reflexivity|]. split; [|split].
  - split; [reflexivity|]. split; [apply put_nth_snd|reflexivity].
  - cbn [rvals]. now rewrite (put_nth_same _ _ _ _ _ N).
  - intros j J. cbn [rvals]. now apply put_nth_other.
Qed.

Definition writes (q : request) (l : list (list Z * (cty * kind * payload))) (i : nat) : Prop :=
  exists s x, In (s, x) l /\ get_index q (Some s) = Z.of_nat i.

Lemma puts_ok : forall r l q, fits_all r q l -> distinct q ->
  (forall s x y, In (s, x) l -> In (s, y) l -> x = y) ->
  exists q', puts r l q = (q', Ok tt) /\ frame q q' /\
  (forall i, ~ writes q l i -> nth_error (rvals q') i = nth_error (rvals q) i) /\
  (forall s c k v, In (s, (c, k, v)) l -> exists i u, get_index q (Some s) = Z.of_nat i /\ nth_error (rvals q') i = Some (Any k v, u)).
Proof.
  intros r. induction l as [|[s [[c k] v]] l IH]; intros q F D U.
  - exists q. split; [reflexivity|]. split; [split; auto|]. split; [auto|intros ? ? ? ? []].
  - destruct (F s c k v (or_introl eq_refl)) as (T & K & W).
    destruct (put_field_ok r c k s v q T K W) as (i & u & q1 & I & E & Fr & N & O). cbn [puts]. rewrite E. cbn [seqq].
    destruct (IH q1) as (q2 & E2 & F2 & O2 & N2).
    + intros s' c' k' v' X. destruct (F s' c' k' v' (or_intror X)) as (T' & K' & W'). split; [|auto]. eapply takes_frame; eauto.
    + intros a b. rewrite !(frame_index _ _ _ Fr). apply D.
    + intros s' x y X Y. eapply U; right; eauto.
    + exists q2. split; [exact E2|]. split.
      { destruct Fr as (A1 & A2 & A3), F2 as (B1 & B2 & B3). split; [congruence|split; congruence]. }
      split.
      * intros j J. rewrite O2.
        -- apply O. intros ->. apply J. exists s, (c, k, v). split; [now left|assumption].
        -- intros (s' & x & X & Y). apply J. exists s', x. split; [now right|]. now rewrite <- (frame_index _ _ _ Fr).
      * intros s' c' k' v' [X|X].
        -- injection X as <- <- <- <-.
           destruct (in_dec (list_eq_dec Z.eq_dec) s (map fst l)) as [J|J].
           ++ apply in_map_iff in J as ([s'' x] & Es & J). cbn in Es. subst s''.
              assert ((c, k, v) = x) as <- by (apply (U s); [now left|now right]).
              destruct (N2 _ _ _ _ J) as (i' & u' & I' & X'). exists i', u'.
   now rewrite <- (frame_index _ _ _ Fr).
           ++ exists i, u. split; [assumption|]. rewrite O2; [assumption|]. intros (s' & x & X & Y). apply J.
              rewrite (frame_index _ _ _ Fr) in Y. assert (s' = s) as ->.
              { apply D; [congruence|]. rewrite Y. lia. }
              apply (in_map fst) in X. exact X.
        -- destruct (N2 _ _ _ _ X) as (i' & u' & I' & X'). exists i', u'. now rewrite <- (frame_index _ _ _ Fr).
Qed.

(** * Reading *)

Lemma get_param_nth : forall q i v u, nth_error (rvals q) i = Some (v, u) -> get_param q (Z.of_nat i) = Ok v.
Proof.
  intros q i v u N. assert (L : (i < length (rvals q))%nat) by (apply nth_error_Some; congruence).
  unfold get_param. destruct (Z.ltb_spec (Z.of_nat i) 0); [lia|]. destruct (Z.leb_spec (Z.of_nat (length (rvals q))) (Z.of_nat i)); [lia|].
  cbn. now rewrite Nat2Z.id, N.
Qed.

Definition holds_value (q : request) (s : list Z) (k : kind) (v : payload) : Prop :=
  exists i u, get_index q (Some s) = Z.of_nat i /\ nth_error (rvals q) i = Some (Any k v, u).

Lemma take_field_ok : forall ign sk c k s v w q, holds_value q s k v -> kind_of c k -> value_of c v ->
  take_field ign sk c k s w q = Ok v.
Proof.
  intros ign sk c k s v w q (i & u & I & N) K W. unfold take_field. rewrite I.
  destruct (Z.eqb_spec (Z.of_nat i) (-1)); [lia|]. rewrite (get_param_nth _ _ _ _ N). cbn [bind atype].
  rewrite (proj2 (kind_eqb_eq k k) eq_refl). rewrite andb_false_r. now rewrite (from_any_ok c k v K W).
Qed.

Lemma extract_ok : forall ign q f g nm, same_fields f g ->
  (forall s c k v, carries g nm s c k v -> holds_value q s k v /\ kind_of c k /\ value_of c v) ->
  extract ign f nm q = Ok g.
Proof.
  intros ign q f. induction f as [c k w|c k ws|l IH|l IH] using fld_rect'; intros g nm SF H.
  - inversion SF; subst. destruct (H _ _ _ _ (lf_simple _ _ _ _)) as (A & B & C). cbn.
    now rewrite (take_field_ok _ _ _ _ _ _ _ _ A B C).
  - inversion SF as [|? ? ? vs L| |]; subst. cbn.
    assert (X : forall ws vs i, length ws = length vs ->
      (forall j v, nth_error vs j = Some v -> holds_value q (nm ++ item_name (i + j)) k v /\ kind_of c k /\ value_of c v) ->
      (fix go (vs : list payload) (i : nat) : res rexn (list payload) :=
               match vs with
               | [] => Ok []
               | v :: vs => bind (take_field ign true c k (nm ++ item_name i) v q) (fun v' =>
                              bind (go vs (S i)) (fun l => Ok (v' :: l)))
               end) ws i = Ok vs).
    { clear. induction ws as [|w ws IH]; intros [|v vs] i L H; try discriminate L; [reflexivity|].
      destruct (H O v eq_refl) as (A & B & C). rewrite Nat.add_0_r in A.
      rewrite (take_field_ok _ _ _ _ _ _ w _ A B C). cbn [bind].
      rewrite (IH vs (S i)); [reflexivity|now injection L|]. intros j x E. rewrite Nat.add_succ_comm. apply (H (S j)). exact E. }
    rewrite (X ws vs O); [reflexivity|assumption|]. intros j v E. apply (H (nm ++ item_name j) c k v). now constructor.
  - inversion SF as [| |? m F|]; subst. cbn.
    assert (X : forall m i, Forall2 same_fields l m ->
      (forall j x s c k v, nth_error m j = Some x -> carries x (nm ++ item_name (i + j)) s c k v -> holds_value q s k v /\ kind_of c k /\ value_of c v) ->
      (fix go (l : list fld) (i : nat) : res rexn (list fld) :=
               match l with
               | [] => Ok []
               | x :: l => bind (extract ign x (nm ++ item_name i) q) (fun x' =>
                             bind (go l (S i)) (fun l' => Ok (x' :: l')))
               end) l i = Ok m).
    { clear H F SF m. induction l as [|x l IHl]; intros m i F H; inversion F as [|? y ? m' F1 F2]; subst; [reflexivity|].
      rewrite (IH x (or_introl eq_refl) y); [|assumption|]. 2: { intros s c k v C. apply (H O y s c k v eq_refl). now rewrite Nat.add_0_r. }
      cbn [bind]. rewrite (IHl (fun z Z => IH z (or_intror Z)) m' (S i)); [reflexivity|assumption|].
      intros j z s c k v E C. apply (H (S j) z s c k v E). now rewrite <- Nat.add_succ_comm. }
    rewrite (X m O F); [reflexivity|]. intros j x s c k v E C. apply H. econstructor; eauto.
  - inversion SF as [| | |? m F]; subst. cbn.
    assert (X : forall m, Forall2 (fun a b => fst a = fst b /\ same_fields (snd a) (snd b)) l m ->
      (forall n x s c k v, In (n, x) m -> carries x (nm ++ 46 :: n) s c k v -> holds_value q s k v /\ kind_of c k /\ value_of c v) ->
      (fix go (l : list (list Z * fld)) : res rexn (list (list Z * fld)) :=
               match l with
               | [] => Ok []
               | (n, x) :: l => bind (extract ign x (nm ++ 46 :: n) q) (fun x' =>
                                  bind (go l) (fun l' => Ok ((n, x') :: l')))
               end) l = Ok m).
    { clear H F SF m. induction l as [|[n x] l IHl]; intros m F H; inversion F as [|? [n' y] ? m' [F0 F1] F2]; subst; [reflexivity|].
      cbn in F0, F1. subst n'. rewrite (IH n x (or_introl eq_refl) y); [|assumption|]. 2: { intros s c k v C. apply (H n y s c k v); [now left|assumption]. }
      cbn [bind]. rewrite (IHl (fun a z Z => IH a z (or_intror Z)) m'); [reflexivity|assumption|].
      intros a z s c k v I C. apply (H a z s c k v); [now right|assumption]. }
    rewrite (X m F); [reflexivity|]. intros n x s c k v I C. apply H. econstructor; eauto.
Qed.

(** ** What extract gives *)
Lemma bind_ok {E A B} (x : res E A) (f : A -> res E B) b : bind x f = Ok b <-> exists a, x = Ok a /\ f a = Ok b.
Proof.
  destruct x; cbn; split; try (intros H; discriminate H); try (intros (a' & H & _); discriminate H).
  - eauto.
  - intros (a' & H & G). injection H as ->. exact G.
Qed.

Lemma of_any_ok {A} x (a : A) : of_any x = Ok a <-> x = Ok a.
Proof. destruct x; cbn; split; intros H; congruence. Qed.

Lemma take_field_read ign sk c k s v q w :
  take_field ign sk c k s v q = Ok w <-> value_read ign q s c (fun k' => if sk then k = k' else True) v w.
Proof.
  unfold take_field, value_read. destruct (Z.eqb_spec (get_index q (Some s)) (-1)) as [E|E].
  - destruct ign.
    + split; [intros H; injection H as <-; left; auto|]. intros [(_ & _ & ->)|[N _]]; [reflexivity|contradiction].
    + split; [discriminate|]. intros [(_ & H & _)|[N _]]; [discriminate|contradiction].
  - rewrite bind_ok. split.
    + intros (a & G & H). right. split; [exact E|]. exists a. split; [exact G|].
      destruct sk; cbn [andb] in H.
      * destruct (kind_eqb (atype a) k) eqn:K; cbn [negb] in H; [|discriminate]. apply kind_eqb_eq in K. apply of_any_ok in H. auto.
      * apply of_any_ok in H. auto.
    + intros [(N & _)|(_ & a & G & K & H)]; [contradiction|]. exists a. split; [exact G|].
      destruct sk; cbn [andb]; [|now apply of_any_ok]. rewrite (proj2 (kind_eqb_eq (atype a) k) (eq_sym K)). now apply of_any_ok.
Qed.

Lemma extract_read : forall ign q g nm f, extract ign g nm q = Ok f <-> read ign q nm g f.
Proof.
  intros ign q g. induction g as [c k v|c k vs|l IH|l IH] using fld_rect'; intros nm f; cbn [extract]; rewrite bind_ok.
  - split.
    + intros (w & H & E). injection E as <-. constructor. now apply take_field_read in H.
    + intros R. inversion R; subst. exists w. split; [|reflexivity]. now apply take_field_read.
  - set (go := fix go (vs : list payload) (i : nat) : res rexn (list payload) := _).
    assert (X : forall vs i ws, go vs i = Ok ws <-> length vs = length ws /\
      forall j v w, nth_error vs j = Some v -> nth_error ws j = Some w -> value_read ign q (nm ++ item_name (i + j)) c (eq k) v w).
    { clear. induction vs as [|v vs IH]; intros i ws; cbn [go].
      - split; [intros E; injection E as <-; split; [reflexivity|]; intros [|j] ? ? H; discriminate H|].
        intros [L _]. destruct ws; [reflexivity|discriminate L].
      - fold go. rewrite bind_ok. split.
        + intros (w & H & E). apply bind_ok in E as (ws' & H' & E). injection E as <-. apply IH in H' as [L R].
          apply take_field_read in H. split; [cbn; now rewrite L|]. intros [|j] a b Ea Eb; cbn in Ea, Eb.
          * injection Ea as <-. injection Eb as <-. now rewrite Nat.add_0_r.
          * rewrite <- Nat.add_succ_comm. eauto.
        + intros [L R]. destruct ws as [|w ws]; [discriminate L|]. exists w. split.
          * apply take_field_read. specialize (R O v w eq_refl eq_refl). now rewrite Nat.add_0_r in R.
          * apply bind_ok. exists ws. split; [|reflexivity]. apply IH. split; [now injection L|].
            intros j a b Ea Eb. rewrite Nat.add_succ_comm. now apply (R (S j)). }
    split.
    + intros (ws & H & E). injection E as <-. apply X in H as [L R]. constructor; [exact L|]. exact R.
    + intros R. inversion R as [|? ? ? ? ws L H| |]; subst. exists ws. split; [|reflexivity]. apply X. split; [exact L|exact H].
  - set (go := fix go (l : list fld) (i : nat) : res rexn (list fld) := _).
    assert (X : forall i ms, go l i = Ok ms <-> length l = length ms /\
      forall j v w, nth_error l j = Some v -> nth_error ms j = Some w -> read ign q (nm ++ item_name (i + j)) v w).
    { induction l as [|v l IHl]; intros i ws; cbn [go].
      - split; [intros E; injection E as <-; split; [reflexivity|]; intros [|j] ? ? H; discriminate H|].
        intros [L _]. destruct ws; [reflexivity|discriminate L].
      - fold go. assert (IH' : forall x, In x l -> forall nm f, extract ign x nm q = Ok f <-> read ign q nm x f) by (intros; apply IH; now right).
        specialize (IHl IH'). rewrite bind_ok. split.
        + intros (w & H & E). apply bind_ok in E as (ws' & H' & E). injection E as <-. apply IHl in H' as [L R].
          apply IH in H; [|now left]. split; [cbn; now rewrite L|]. intros [|j] a b Ea Eb; cbn in Ea, Eb.
          * injection Ea as <-. injection Eb as <-. now rewrite Nat.add_0_r.
          * rewrite <- Nat.add_succ_comm. eauto.
        + intros [L R]. destruct ws as [|w ws]; [discriminate L|]. exists w. split.
          * apply IH; [now left|]. specialize (R O v w eq_refl eq_refl). now rewrite Nat.add_0_r in R.
          * apply bind_ok. exists ws. split; [|reflexivity]. apply IHl. split; [now injection L|].
            intros j a b Ea Eb. rewrite Nat.add_succ_comm. now apply (R (S j)). }
    split.
    + intros (ws & H & E). injection E as <-. apply X in H as [L R]. constructor; [exact L|]. exact R.
    + intros R. inversion R as [| |? ? ms L H|]; subst. exists ms. split; [|reflexivity]. apply X. split; [exact L|exact H].
  - set (go := fix go (l : list (list Z * fld)) : res rexn (list (list Z * fld)) := _).
    assert (X : forall ms, go l = Ok ms <-> length l = length ms /\
      forall j n v n' w, nth_error l j = Some (n, v) -> nth_error ms j = Some (n', w) -> n' = n /\ read ign q (nm ++ 46 :: n) v w).
    { induction l as [|[n v] l IHl]; intros ws; cbn [go].
      - split; [intros E; injection E as <-; split; [reflexivity|]; intros [|j] ? ? ? ? H; discriminate H|].
        intros [L _]. destruct ws; [reflexivity|discriminate L].
      - fold go. assert (IH' : forall n x, In (n, x) l -> forall nm f, extract ign x nm q = Ok f <-> read ign q nm x f) by (intros n0 x0 I0; apply (IH n0); now right).
        specialize (IHl IH'). rewrite bind_ok. split.
        + intros (w & H & E). apply bind_ok in E as (ws' & H' & E). injection E as <-. apply IHl in H' as [L R].
          apply (IH n) in H; [|now left]. split; [cbn; now rewrite L|]. intros [|j] n1 a n2 b Ea Eb; cbn in Ea, Eb.
          * injection Ea as <- <-. injection Eb as <- <-. auto.
          * eauto.
        + intros [L R]. destruct ws as [|[n' w] ws]; [discriminate L|]. destruct (R O n v n' w eq_refl eq_refl) as [-> R0]. exists w. split.
          * apply (IH n); [now left|exact R0].
          * apply bind_ok. exists ws. split; [|reflexivity]. apply IHl. split; [now injection L|].
            intros j n1 a n2 b Ea Eb. now apply (R (S j)). }
    split.
    + intros (ws & H & E). injection E as <-. apply X in H as [L R]. constructor; [exact L|]. exact R.
    + intros R. inversion R as [| | |? ? ms L H]; subst. exists ms. split; [|reflexivity]. apply X. split; [exact L|exact H].
Qed.
