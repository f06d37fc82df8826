(** Proofs about storing and restoring fields. *)
From Coq Require Import ZArith List Bool Lia.
From Verif Require Import Base AnyModel FieldStoreModel FieldStoreSpec.
Import ListNotations.
Local Open Scope nat_scope.

Local Opaque restore_bytes check.

(** ** Memory *)
Lemma read_mem_length : forall m n a, length (read_mem m a n) = n.
Proof. intros m n. induction n as [|n IH]; intros a; simpl; auto. Qed.

Lemma write_mem_out : forall bs m a x, x < a \/ a + length bs <= x -> write_mem m a bs x = m x.
Proof.
  induction bs as [|b bs IH]; intros m a x H; simpl in *; [reflexivity|].
  destruct (Nat.eqb_spec x a) as [->|N]; [lia|]. apply IH. lia.
Qed.
Lemma write_read : forall n m now a x, in_range a n x -> write_mem now a (read_mem m a n) x = m x.
Proof.
  induction n as [|n IH]; intros m now a x H; unfold in_range in *; simpl; [lia|].
  destruct (Nat.eqb_spec x a) as [->|N]; [reflexivity|]. apply IH. unfold in_range. lia.
Qed.
Lemma range_dec : forall a n x, in_range a n x \/ (x < a \/ a + n <= x).
Proof. intros. unfold in_range. lia. Qed.

Lemma bb_range : forall m now a n, brought_back (in_range a n) m now (write_mem now a (read_mem m a n)).
Proof.
  intros m now a n x. assert (O : x < a \/ a + n <= x -> write_mem now a (read_mem m a n) x = now x).
  { intros H. apply write_mem_out. now rewrite read_mem_length. }
  split; [apply write_read|]. split.
  - intros H. apply O. destruct (range_dec a n x); [contradiction|assumption].
  - destruct (range_dec a n x) as [H|H]; [left; now apply write_read|right; now apply O].
Qed.

Lemma bb_refl : forall (P : nat -> Prop) m now, (forall x, ~ P x) -> brought_back P m now now.
Proof. intros P m now H x. split; [intros G; now apply H in G|]. split; [reflexivity|now right]. Qed.
Lemma bb_trans : forall (P Q R : nat -> Prop) m a b c,
  brought_back P m a b -> brought_back Q m b c -> (forall x, R x <-> P x \/ Q x) -> brought_back R m a c.
Proof.
  intros P Q R m a b c H G E x. destruct (H x) as (H1 & H2 & H3), (G x) as (G1 & G2 & G3).
  split; [|split].
  - intros Hr. apply E in Hr as [Hp|Hq]; [|now apply G1]. specialize (H1 Hp).
    destruct G3 as [G3|G3]; [exact G3|]. now rewrite G3.
  - intros N. rewrite G2 by (intros K; apply N, E; now right). apply H2. intros K. apply N, E. now left.
  - destruct G3 as [G3|G3]; [now left|]. rewrite G3. exact H3.
Qed.
Lemma bb_iff : forall (P Q : nat -> Prop) m a b, (forall x, P x <-> Q x) -> brought_back P m a b -> brought_back Q m a b.
Proof.
  intros P Q m a b E H x. destruct (H x) as (H1 & H2 & H3).
  split; [intros G; now apply H1, E|]. split; [intros G; apply H2; now rewrite E|exact H3].
Qed.

(** ** Segments *)
Definition seg := (nat * nat)%type.
Definition size_or_0 (o : option nat) : nat := match o with Some n => n | None => 0 end.
Definition flag_seg (f : option nat) : list seg := match f with None => [] | Some a => [(a, 1)] end.

Fixpoint segs (t : ftree) : list seg :=
  match t with
  | TySimple st a n fo fa => if st then (a, n) :: flag_seg fo ++ flag_seg fa else []
  | TySArr st a n fa => if st then (a, n) :: flag_seg fa else []
  | TyArr st l fa | TyStr st l fa => if st then flat_map segs l ++ flag_seg fa else []
  | PbSimple st a k len => if st then [(a, size_or_0 (simple_size k len))] else []
  | PbSArr st a i n => if st then [(a, i * n)] else []
  | PbArr st l | PbStr st l | AnArr st l | AnStr st l => if st then flat_map segs l else []
  | AnSArr st a k n => if st then [(a, size_or_0 (kind_size k) * n)] else []
  end.

Definition seg_bytes (m : mem) (s : seg) : list Z := read_mem m (fst s) (snd s).
Fixpoint run_segs (l : list seg) (m : mem) (s : list Z) : rout :=
  match l with
  | [] => (m, Ok s)
  | g :: r => rthen (restore_bytes m (fst g) (snd g) s) (run_segs r)
  end.

Lemma run_segs_app : forall l r m s, run_segs (l ++ r) m s = rthen (run_segs l m s) (run_segs r).
Proof.
  induction l as [|g l IH]; intros r m s; simpl; [reflexivity|].
  destruct (restore_bytes m (fst g) (snd g) s) as [m1 [s1|e|]]; simpl; [apply IH|reflexivity..].
Qed.

Section FTreeInd.
  Variable P : ftree -> Prop.
  Hypothesis H1 : forall st a n fo fa, P (TySimple st a n fo fa).
  Hypothesis H2 : forall st a n fa, P (TySArr st a n fa).
  Hypothesis H3 : forall st l fa, Forall P l -> P (TyArr st l fa).
  Hypothesis H4 : forall st l fa, Forall P l -> P (TyStr st l fa).
  Hypothesis H5 : forall st a k len, P (PbSimple st a k len).
  Hypothesis H6 : forall st a i n, P (PbSArr st a i n).
  Hypothesis H7 : forall st l, Forall P l -> P (PbArr st l).
  Hypothesis H8 : forall st l, Forall P l -> P (PbStr st l).
  Hypothesis H9 : forall st l, Forall P l -> P (AnArr st l).
  Hypothesis H10 : forall st l, Forall P l -> P (AnStr st l).
  Hypothesis H11 : forall st a k n, P (AnSArr st a k n).
  Fixpoint ftree_ind2 (t : ftree) : P t :=
    let all := fix all (l : list ftree) : Forall P l :=
      match l with [] => Forall_nil P | x :: r => Forall_cons x (ftree_ind2 x) (all r) end in
    match t with
    | TySimple st a n fo fa => H1 st a n fo fa
    | TySArr st a n fa => H2 st a n fa
    | TyArr st l fa => H3 st l fa (all l)
    | TyStr st l fa => H4 st l fa (all l)
    | PbSimple st a k len => H5 st a k len
    | PbSArr st a i n => H6 st a i n
    | PbArr st l => H7 st l (all l)
    | PbStr st l => H8 st l (all l)
    | AnArr st l => H9 st l (all l)
    | AnStr st l => H10 st l (all l)
    | AnSArr st a k n => H11 st a k n
    end.
End FTreeInd.

(** The inner loops. *)
Section StoreAll.
Variable m : mem.
Fixpoint store_all (l : list ftree) : res sexn (list Z) :=
  match l with
  | [] => Ok []
  | x :: r => bind (store m x) (fun a => bind (store_all r) (fun b => Ok (a ++ b)))
  end.
End StoreAll.
Fixpoint restore_all (l : list ftree) (m : mem) (s : list Z) : rout :=
  match l with
  | [] => (m, Ok s)
  | x :: r => rthen (restore m x s) (fun m' s' => restore_all r m' s')
  end.

Lemma kind_size_ok : forall k n, bytes_of k n <-> kind_size k = Some n.
Proof. intros k n. destruct k; simpl; split; try contradiction; try congruence; intros E; discriminate E. Qed.
Lemma simple_size_ok : forall k len n, bytes_of k n -> simple_size k len = Some n.
Proof. intros k len n H. destruct k; simpl in *; try contradiction; now subst. Qed.

Lemma store_flag_segs : forall m f, store_flag m f = flat_map (seg_bytes m) (flag_seg f).
Proof. intros m [a|]; reflexivity. Qed.
Lemma restore_flag_segs : forall m f s, restore_flag m f s = run_segs (flag_seg f) m s.
Proof.
  intros m [a|] s; simpl; [|reflexivity]. destruct (restore_bytes m a 1 s) as [m1 [s1|e|]]; reflexivity.
Qed.

Definition as_segs (t : ftree) : Prop := creatable t ->
  (forall m, store m t = Ok (flat_map (seg_bytes m) (segs t))) /\
  (forall m s, restore m t s = run_segs (segs t) m s).

Lemma all_segs : forall l, Forall as_segs l -> (forall t, In t l -> creatable t) ->
  (forall m, store_all m l = Ok (flat_map (seg_bytes m) (flat_map segs l))) /\
  (forall m s, restore_all l m s = run_segs (flat_map segs l) m s).
Proof.
  intros l F C. induction F as [|x l Hx F IH]; [split; reflexivity|].
  destruct (Hx (C x (or_introl eq_refl))) as [X1 X2].
  destruct IH as [I1 I2]; [intros t H; apply C; now right|]. split.
  - intros m. simpl. rewrite X1. simpl. rewrite I1. simpl. now rewrite flat_map_app.
  - intros m s. simpl. rewrite X2, run_segs_app.
    destruct (run_segs (segs x) m s) as [m1 [s1|e|]]; simpl; [apply I2|reflexivity..].
Qed.

Lemma one_seg : forall m a n s, restore_bytes m a n s = run_segs [(a, n)] m s.
Proof. intros. simpl. destruct (restore_bytes m a n s) as [m1 [s1|e|]]; reflexivity. Qed.

Lemma tree_segs : forall t, as_segs t.
Proof.
  intros t. induction t as [st a n fo fa|st a n fa|st l fa IH|st l fa IH|st a k len|st a i n|st l IH|st l IH|st l IH|st l IH|st a k n]
    using ftree_ind2; intros C; destruct st; try (split; reflexivity).
  - split; intros m; simpl.
    + now rewrite flat_map_app, <- !store_flag_segs.
    + intros s. destruct (restore_bytes m a n s) as [m1 [s1|e|]]; simpl; try reflexivity.
      rewrite run_segs_app, restore_flag_segs.
      destruct (run_segs (flag_seg fo) m1 s1) as [m2 [s2|e|]]; simpl; [apply restore_flag_segs|reflexivity..].
  - split; intros m; simpl.
    + now rewrite <- store_flag_segs.
    + intros s. destruct (restore_bytes m a n s) as [m1 [s1|e|]]; simpl; [apply restore_flag_segs|reflexivity..].
  - inversion C as [| |st0 l0 fa0 H| | | | | | | | |]; subst. destruct (all_segs l IH H) as [I1 I2]. split.
    + intros m. change (store m (TyArr true l fa)) with (bind (store_all m l) (fun b => Ok (b ++ store_flag m fa))).
      rewrite I1. simpl. now rewrite flat_map_app, <- store_flag_segs.
    + intros m s. change (restore m (TyArr true l fa) s) with (rthen (restore_all l m s) (fun m1 s1 => restore_flag m1 fa s1)).
      rewrite I2. cbn [segs]. rewrite run_segs_app.
      destruct (run_segs (flat_map segs l) m s) as [m1 [s1|e|]]; simpl; [apply restore_flag_segs|reflexivity..].
  - inversion C as [| | |st0 l0 fa0 H| | | | | | | |]; subst. destruct (all_segs l IH H) as [I1 I2]. split.
    + intros m. change (store m (TyStr true l fa)) with (bind (store_all m l) (fun b => Ok (b ++ store_flag m fa))).
      rewrite I1. simpl. now rewrite flat_map_app, <- store_flag_segs.
    + intros m s. change (restore m (TyStr true l fa) s) with (rthen (restore_all l m s) (fun m1 s1 => restore_flag m1 fa s1)).
      rewrite I2. cbn [segs]. rewrite run_segs_app.
      destruct (run_segs (flat_map segs l) m s) as [m1 [s1|e|]]; simpl; [apply restore_flag_segs|reflexivity..].
  - assert (E : exists n, simple_size k len = Some n).
    { inversion C as [| | | |st0 a0 k0 len0 n H|st0 a0 n| | | | | |]; subst; [|now exists (n + 1)].
      exists n. now apply simple_size_ok. }
    destruct E as (n & E). split.
    + intros m. cbn [store segs]. rewrite E. simpl. unfold seg_bytes. simpl. now rewrite app_nil_r.
    + intros m s. cbn [restore segs]. rewrite E. apply one_seg.
  - split.
    + intros m. simpl. unfold seg_bytes. simpl. now rewrite app_nil_r.
    + intros m s. apply one_seg.
  - inversion C as [| | | | | | |st0 l0 H| | | |]; subst. destruct (all_segs l IH H) as [I1 I2].
    split; [intros m; apply I1|intros m s; apply I2].
  - inversion C as [| | | | | | | |st0 l0 H| | |]; subst. destruct (all_segs l IH H) as [I1 I2].
    split; [intros m; apply I1|intros m s; apply I2].
  - inversion C as [| | | | | | | | |st0 l0 H| |]; subst. destruct (all_segs l IH H) as [I1 I2].
    split; [intros m; apply I1|intros m s; apply I2].
  - inversion C as [| | | | | | | | | |st0 l0 H|]; subst. destruct (all_segs l IH H) as [I1 I2].
    split; [intros m; apply I1|intros m s; apply I2].
  - inversion C as [| | | | | | | | | | |st0 a0 k0 n0 i H]; subst. apply kind_size_ok in H. split.
    + intros m. cbn [store segs]. rewrite H. simpl. unfold seg_bytes. simpl. now rewrite app_nil_r.
    + intros m s. cbn [restore segs]. rewrite H. apply one_seg.
Qed.

(** ** State bytes are the segments *)
Definition in_segs (l : list seg) (x : nat) : Prop := exists g, In g l /\ in_range (fst g) (snd g) x.

Lemma in_segs_app : forall l r x, in_segs (l ++ r) x <-> in_segs l x \/ in_segs r x.
Proof.
  intros l r x. unfold in_segs. split.
  - intros (g & H & R). apply in_app_or in H as [H|H]; [left|right]; eauto.
  - intros [(g & H & R)|(g & H & R)]; exists g; (split; [apply in_or_app; auto|exact R]).
Qed.
Lemma in_segs_cons : forall g r x, in_segs (g :: r) x <-> in_range (fst g) (snd g) x \/ in_segs r x.
Proof.
  intros g r x. unfold in_segs. split.
  - intros (h & [<-|H] & R); eauto.
  - intros [R|(h & H & R)]; [exists g|exists h]; (split; [simpl; auto|exact R]).
Qed.
Lemma in_segs_nil : forall x, ~ in_segs [] x.
Proof. intros x (g & [] & _). Qed.
Lemma in_segs_flag : forall f x, in_segs (flag_seg f) x <-> f = Some x.
Proof.
  intros [a|] x; simpl; [|split; [intros H; now apply in_segs_nil in H|discriminate]].
  rewrite in_segs_cons. unfold in_range. simpl. split.
  - intros [H|H]; [f_equal; lia|now apply in_segs_nil in H].
  - intros H. injection H as ->. left. lia.
Qed.
Lemma in_segs_flat : forall l x, in_segs (flat_map segs l) x <-> exists t, In t l /\ in_segs (segs t) x.
Proof.
  intros l x. induction l as [|y l IH]; simpl.
  - split; [intros H; now apply in_segs_nil in H|intros (t & [] & _)].
  - rewrite in_segs_app, IH. split.
    + intros [H|(t & H & G)]; eauto.
    + intros (t & [<-|H] & G); eauto.
Qed.

Lemma state_byte_segs : forall t, creatable t -> forall x, state_byte t x <-> in_segs (segs t) x.
Proof.
  intros t. induction t as [st a n fo fa|st a n fa|st l fa IH|st l fa IH|st a k len|st a i n|st l IH|st l IH|st l IH|st l IH|st a k n]
    using ftree_ind2; intros C x; destruct st;
    try (split; [intros H; inversion H|intros H; now apply in_segs_nil in H]); cbn [segs].
  - rewrite in_segs_cons, in_segs_app, !in_segs_flag. simpl. split.
    + intros H. inversion H; subst; auto.
    + intros [H|[->| ->]]; now constructor.
  - rewrite in_segs_cons, in_segs_flag. simpl. split.
    + intros H. inversion H; subst; auto.
    + intros [H| ->]; now constructor.
  - inversion C as [| |st0 l0 fa0 H| | | | | | | | |]; subst. rewrite in_segs_app, in_segs_flat, in_segs_flag.
    rewrite Forall_forall in IH. split.
    + intros G. inversion G; subst; [left|now right]. exists t. split; [assumption|]. apply IH; auto.
    + intros [(t & I & G)| ->]; [|constructor]. econstructor; [exact I|]. apply IH; auto.
  - inversion C as [| | |st0 l0 fa0 H| | | | | | | |]; subst. rewrite in_segs_app, in_segs_flat, in_segs_flag.
    rewrite Forall_forall in IH. split.
    + intros G. inversion G; subst; [left|now right]. exists t. split; [assumption|]. apply IH; auto.
    + intros [(t & I & G)| ->]; [|constructor]. econstructor; [exact I|]. apply IH; auto.
  - rewrite in_segs_cons. simpl. split.
    + intros H. left. inversion H; subst.
      * now rewrite (simple_size_ok k len n).
      * assumption.
    + intros [H|H]; [|now apply in_segs_nil in H].
      inversion C as [| | | |st0 a0 k0 len0 n G|st0 a0 n| | | | | |]; subst.
      * rewrite (simple_size_ok k len n G) in H. simpl in H. now apply (sb_pub_value a k len n).
      * simpl in H. now constructor.
  - rewrite in_segs_cons. simpl. split.
    + intros H. left. now inversion H; subst.
    + intros [H|H]; [now constructor|now apply in_segs_nil in H].
  - inversion C as [| | | | | | |st0 l0 H| | | |]; subst. rewrite in_segs_flat. rewrite Forall_forall in IH. split.
    + intros G. inversion G; subst. exists t. split; [assumption|]. apply IH; auto.
    + intros (t & I & G). econstructor; [exact I|]. apply IH; auto.
  - inversion C as [| | | | | | | |st0 l0 H| | |]; subst. rewrite in_segs_flat. rewrite Forall_forall in IH. split.
    + intros G. inversion G; subst. exists t. split; [assumption|]. apply IH; auto.
    + intros (t & I & G). econstructor; [exact I|]. apply IH; auto.
  - inversion C as [| | | | | | | | |st0 l0 H| |]; subst. rewrite in_segs_flat. rewrite Forall_forall in IH. split.
    + intros G. inversion G; subst. exists t. split; [assumption|]. apply IH; auto.
    + intros (t & I & G). econstructor; [exact I|]. apply IH; auto.
  - inversion C as [| | | | | | | | | |st0 l0 H|]; subst. rewrite in_segs_flat. rewrite Forall_forall in IH. split.
    + intros G. inversion G; subst. exists t. split; [assumption|]. apply IH; auto.
    + intros (t & I & G). econstructor; [exact I|]. apply IH; auto.
  - rewrite in_segs_cons. simpl. inversion C as [| | | | | | | | | | |st0 a0 k0 n0 i H]; subst. split.
    + intros G. left. inversion G as [| | | | | | | | | | | | | | | |a1 k1 i1 n1 x1 B R]; subst.
      apply kind_size_ok in B. now rewrite B.
    + intros [G|G]; [|now apply in_segs_nil in G]. apply kind_size_ok in H as E. rewrite E in G. simpl in G.
      now apply (sb_an_items a k i n).
Qed.

Local Transparent restore_bytes.

(** ** Sequences of segments *)
Lemma restore_bytes_ok : forall m now a n s,
  restore_bytes now a n (read_mem m a n ++ s) = (write_mem now a (read_mem m a n), Ok s).
Proof.
  intros m now a n s. unfold restore_bytes. rewrite app_length, read_mem_length.
  destruct (Nat.ltb_spec (n + length s) n) as [L|L]; [lia|].
  rewrite firstn_app, firstn_all2 by (rewrite read_mem_length; lia).
  rewrite skipn_app, skipn_all2 by (rewrite read_mem_length; lia).
  rewrite read_mem_length, Nat.sub_diag. simpl. now rewrite app_nil_r.
Qed.

Lemma run_segs_back : forall l m now rest, exists m',
  run_segs l now (flat_map (seg_bytes m) l ++ rest) = (m', Ok rest) /\ brought_back (in_segs l) m now m'.
Proof.
  induction l as [|[a n] l IH]; intros m now rest.
  - exists now. split; [reflexivity|]. apply bb_refl. apply in_segs_nil.
  - cbn [run_segs flat_map]. change (seg_bytes m (a, n)) with (read_mem m a n). cbn [fst snd]. rewrite <- app_assoc.
    rewrite restore_bytes_ok. cbn [rthen].
    destruct (IH m (write_mem now a (read_mem m a n)) rest) as (m' & E & B).
    exists m'. split; [exact E|]. eapply bb_trans; [apply bb_range|exact B|]. intros x. apply in_segs_cons.
Qed.

Definition total (l : list seg) : nat := fold_right (fun g n => snd g + n) 0 l.
Lemma seg_bytes_length : forall m l, length (flat_map (seg_bytes m) l) = total l.
Proof.
  intros m l. induction l as [|g l IH]; simpl; [reflexivity|]. unfold seg_bytes at 1.
  now rewrite app_length, read_mem_length, IH.
Qed.

Lemma run_segs_any : forall l m s, exists m',
  run_segs l m s = (m', if length s <? total l then Throw CannotRestore else Ok (skipn (total l) s)) /\
  forall x, ~ in_segs l x -> m' x = m x.
Proof.
  induction l as [|[a n] l IH]; intros m s.
  - exists m. simpl. split; reflexivity.
  - cbn [run_segs total fold_right fst snd]. fold (total l). unfold restore_bytes.
    assert (O : forall x, ~ in_segs ((a, n) :: l) x -> write_mem m a (firstn n s) x = m x).
    { intros x N. apply write_mem_out. rewrite firstn_length. rewrite in_segs_cons in N. unfold in_range in N. simpl in N.
      assert (~ (a <= x < a + n)) by tauto. lia. }
    destruct (Nat.ltb_spec (length s) n) as [L|L].
    + exists (write_mem m a (firstn n s)). simpl.
      destruct (Nat.ltb_spec (length s) (n + total l)) as [_|G]; [|lia]. now split.
    + simpl rthen. destruct (IH (write_mem m a (firstn n s)) (skipn n s)) as (m' & E & B). exists m'. rewrite E.
      rewrite skipn_length. split.
      * destruct (Nat.ltb_spec (length s - n) (total l)) as [G|G], (Nat.ltb_spec (length s) (n + total l)) as [K|K]; try lia; [reflexivity|].
        do 2 f_equal. clear. revert s. induction n as [|n IHn]; intros s; [reflexivity|].
        destruct s as [|y s]; simpl; [now rewrite skipn_nil|]. apply IHn.
      * intros x N. rewrite B; [now apply O|]. intros G. apply N. rewrite in_segs_cons. now right.
Qed.

Local Opaque restore_bytes.

(** ** Fields *)
Lemma field_round_trip : forall t, creatable t -> forall m, exists b, store m t = Ok b /\
  forall now rest, exists m', restore now t (b ++ rest) = (m', Ok rest) /\ brought_back (state_byte t) m now m'.
Proof.
  intros t C m. destruct (tree_segs t C) as [E1 E2]. exists (flat_map (seg_bytes m) (segs t)). split; [apply E1|].
  intros now rest. destruct (run_segs_back (segs t) m now rest) as (m' & E & B). exists m'. rewrite E2. split; [exact E|].
  eapply bb_iff; [|exact B]. intros x. symmetry. now apply state_byte_segs.
Qed.

Lemma field_truncated : forall t, creatable t -> forall m b now s r, store m t = Ok b -> b = s ++ r -> r <> [] ->
  exists m', restore now t s = (m', Throw CannotRestore) /\ forall x, ~ state_byte t x -> m' x = now x.
Proof.
  intros t C m b now s r Es Eb Nr. destruct (tree_segs t C) as [E1 E2]. rewrite E1 in Es. injection Es as Es.
  destruct (run_segs_any (segs t) now s) as (m' & E & O). exists m'. rewrite E2, E. split.
  - assert (L := seg_bytes_length m (segs t)). rewrite Es, Eb, app_length in L.
    destruct r; [contradiction|]. simpl in L. destruct (Nat.ltb_spec (length s) (total (segs t))); [reflexivity|lia].
  - intros x N. apply O. intros G. apply N. now apply state_byte_segs.
Qed.

Lemma store_same : forall t, creatable t -> forall m m', (forall x, state_byte t x -> m x = m' x) -> store m t = store m' t.
Proof.
  intros t C m m' H. destruct (tree_segs t C) as [E1 _]. rewrite !E1. f_equal.
  assert (G : forall x, in_segs (segs t) x -> m x = m' x) by (intros x Hx; apply H; now apply state_byte_segs).
  clear -G. induction (segs t) as [|[a n] l IH]; [reflexivity|]. simpl. f_equal.
  - unfold seg_bytes. simpl. assert (R : forall x, in_range a n x -> m x = m' x) by (intros x Hx; apply G, in_segs_cons; now left).
    clear -R. revert a R. induction n as [|n IH]; intros a R; simpl; [reflexivity|].
    f_equal; [apply R; unfold in_range; lia|]. apply IH. intros x Hx. apply R. unfold in_range in *. lia.
  - apply IH. intros x Hx. apply G, in_segs_cons. now right.
Qed.

(** ** The component tree *)
Section ObjInd.
  Variable P : obj -> Prop.
  Hypothesis H : forall p fs cs, (forall l, cs = Some l -> Forall P l) -> P (Obj p fs cs).
  Fixpoint obj_ind2 (o : obj) : P o :=
    let all := fix all (l : list obj) : Forall P l :=
      match l with [] => Forall_nil P | x :: r => Forall_cons x (obj_ind2 x) (all r) end in
    match o with
    | Obj p fs cs =>
        H p fs cs
          (match cs as c return (forall l, c = Some l -> Forall P l) with
           | None => fun l E => match E in (_ = o) return match o with None => True | Some l => Forall P l end with eq_refl => I end
           | Some l0 => fun l E => match E in (_ = o) return match o with None => True | Some l => Forall P l end with eq_refl => all l0 end
           end)
    end.
End ObjInd.

Section StoreObjs.
Variable m : mem.
Fixpoint store_objs (l : list obj) : res sexn (list Z) :=
  match l with
  | [] => Ok []
  | x :: r => bind (store_obj m x) (fun a => bind (store_objs r) (fun b => Ok (kCONTAINER ++ a ++ b)))
  end.
End StoreObjs.
Fixpoint restore_objs (l : list obj) (m : mem) (s : list Z) : rout :=
  match l with
  | [] => (m, Ok s)
  | x :: r =>
      rthen (check m kCONTAINER s) (fun m1 s1 =>
      rthen (restore_obj m1 x s1) (fun m2 s2 => restore_objs r m2 s2))
  end.
Definition store_own (m : mem) (p : option persist) : list Z :=
  match p with None => [] | Some p => kPERSIST ++ p_store p m end.
Definition store_fs (m : mem) (fs : option (list ftree)) : res sexn (list Z) :=
  match fs with None => Ok [] | Some l => bind (store_fields m l) (fun b => Ok (kCOMPONENT ++ b)) end.
Definition store_cs (m : mem) (cs : option (list obj)) : res sexn (list Z) :=
  match cs with None => Ok [] | Some l => bind (store_objs m l) (fun b => Ok (kCOMPOSITE ++ b)) end.
Lemma store_obj_eq : forall m p fs cs, store_obj m (Obj p fs cs) =
  bind (store_fs m fs) (fun b2 => bind (store_cs m cs) (fun b3 => Ok (store_own m p ++ b2 ++ b3))).
Proof. intros. destruct p, fs, cs; reflexivity. Qed.
Definition restore_own (p : option persist) (m : mem) (s : list Z) : rout :=
  match p with None => (m, Ok s) | Some p => rthen (check m kPERSIST s) (fun m s => p_restore p m s) end.
Definition restore_fs (fs : option (list ftree)) (m : mem) (s : list Z) : rout :=
  match fs with None => (m, Ok s) | Some l => rthen (check m kCOMPONENT s) (fun m s => restore_fields m l s) end.
Definition restore_cs (cs : option (list obj)) (m : mem) (s : list Z) : rout :=
  match cs with None => (m, Ok s) | Some l => rthen (check m kCOMPOSITE s) (fun m s => restore_objs l m s) end.
Lemma restore_obj_eq : forall m p fs cs s, restore_obj m (Obj p fs cs) s =
  rthen (restore_own p m s) (fun m s => rthen (restore_fs fs m s) (fun m s => restore_cs cs m s)).
Proof. intros. destruct p, fs, cs; reflexivity. Qed.

Local Transparent check.
Lemma check_ok : forall m k s, length k = 4 -> check m k (k ++ s) = (m, Ok s).
Proof.
  intros m k s L. unfold check.
  assert (E : firstn 4 (k ++ s) = k).
  { rewrite <- L, firstn_app, firstn_all, Nat.sub_diag. simpl. apply app_nil_r. }
  assert (F : skipn 4 (k ++ s) = s) by (rewrite <- L, skipn_app, skipn_all, Nat.sub_diag; reflexivity).
  rewrite E, F, app_length, L. destruct (Nat.ltb_spec (4 + length s) 4) as [G|_]; [lia|].
  destruct (list_eq_dec Z.eq_dec k k); [reflexivity|contradiction].
Qed.

Local Opaque check.

(** What a round trip through storage means for any store and restore. *)
Definition back (P : nat -> Prop) (st : mem -> res sexn (list Z)) (re : mem -> list Z -> rout) : Prop :=
  forall m, exists b, st m = Ok b /\
    forall now rest, exists m', re now (b ++ rest) = (m', Ok rest) /\ brought_back P m now m'.

Lemma back_nothing : forall P : nat -> Prop, (forall x, ~ P x) -> back P (fun _ => Ok []) (fun m s => (m, Ok s)).
Proof. intros P N m. exists []. split; [reflexivity|]. intros now rest. exists now. split; [reflexivity|now apply bb_refl]. Qed.
Lemma back_marked : forall k P st re, length k = 4 -> back P st re ->
  back P (fun m => bind (st m) (fun b => Ok (k ++ b))) (fun m s => rthen (check m k s) re).
Proof.
  intros k P st re L H m. destruct (H m) as (b & E & G). exists (k ++ b). rewrite E. split; [reflexivity|].
  intros now rest. rewrite <- app_assoc, check_ok by exact L. simpl. apply G.
Qed.
Lemma back_seq : forall (P Q R : nat -> Prop) s1 r1 s2 r2, back P s1 r1 -> back Q s2 r2 ->
  (forall x, R x <-> P x \/ Q x) ->
  back R (fun m => bind (s1 m) (fun a => bind (s2 m) (fun b => Ok (a ++ b))))
         (fun m s => rthen (r1 m s) r2).
Proof.
  intros P Q R s1 r1 s2 r2 H1 H2 E m. destruct (H1 m) as (a & E1 & G1), (H2 m) as (b & E2 & G2).
  exists (a ++ b). rewrite E1. simpl. rewrite E2. split; [reflexivity|]. intros now rest.
  rewrite <- app_assoc. destruct (G1 now (b ++ rest)) as (m1 & R1 & B1). rewrite R1. simpl.
  destruct (G2 m1 rest) as (m2 & R2 & B2). exists m2. split; [exact R2|]. now apply (bb_trans P Q R m now m1 m2).
Qed.
Lemma back_ext : forall P st st' re re', (forall m, st m = st' m) -> (forall m s, re m s = re' m s) ->
  back P st re -> back P st' re'.
Proof.
  intros P st st' re re' E1 E2 H m. destruct (H m) as (b & E & G). exists b. rewrite <- E1. split; [exact E|].
  intros now rest. rewrite <- E2. apply G.
Qed.

Lemma fields_back : forall l, (forall t, In t l -> creatable t) ->
  back (fun x => exists t, In t l /\ state_byte t x) (fun m => store_fields m l) (fun m s => restore_fields m l s).
Proof.
  induction l as [|t l IH]; intros C.
  - apply back_nothing. intros x (t & [] & _).
  - assert (Ht : back (state_byte t) (fun m => store m t) (fun m s => restore m t s)).
    { intros m. apply field_round_trip. apply C. now left. }
    specialize (IH (fun t H => C t (or_intror H))).
    assert (H := back_marked kFIELD _ _ _ eq_refl (back_seq _ _ (fun x => exists u, In u (t :: l) /\ state_byte u x) _ _ _ _ Ht IH
      ltac:(intros x; split; [intros (u & [<-|I] & B); eauto|intros [B|(u & I & B)]; [exists t|exists u]; simpl; auto]))).
    refine (back_ext _ _ _ _ _ _ _ H).
    + intros m. simpl. destruct (store m t); simpl; [|reflexivity..]. destruct (store_fields m l); reflexivity.
    + intros m s. simpl. destruct (check m kFIELD s) as [m1 [s1|e|]]; reflexivity.
Qed.

Lemma bind_assoc_ok : forall (r : res sexn (list Z)) k,
  bind (bind r (fun b => Ok (k ++ b))) (fun x => Ok x) = bind r (fun b => Ok (k ++ b)).
Proof. intros [b|e|] k; reflexivity. Qed.

Lemma obj_back : forall own o, sound_tree own o ->
  back (tree_byte own o) (fun m => store_obj m o) (fun m s => restore_obj m o s).
Proof.
  intros own o. induction o as [p fs cs IH] using obj_ind2. intros S. inversion S as [p0 fs0 cs0 Hp Hf Hc]; subst.
  set (P1 := fun x => exists q, p = Some q /\ own q x).
  set (P2 := fun x => exists l t, fs = Some l /\ In t l /\ state_byte t x).
  set (P3 := fun x => exists l o, cs = Some l /\ In o l /\ tree_byte own o x).
  assert (B1 : back P1 (fun m => Ok (store_own m p)) (fun m s => restore_own p m s)).
  { destruct p as [q|].
    - assert (H : back (own q) (fun m => Ok (p_store q m)) (fun m s => p_restore q m s)).
      { intros m. exists (p_store q m). split; [reflexivity|]. intros now rest. now apply Hp. }
      intros m. destruct (back_marked kPERSIST _ _ _ eq_refl H m) as (b & E & G). exists b. split; [exact E|].
      intros now rest. destruct (G now rest) as (m' & R & B). exists m'. split; [exact R|].
      eapply bb_iff; [|exact B]. intros x. unfold P1. split; [eauto|]. intros (q' & E' & O). now injection E' as ->.
    - apply back_nothing. intros x (q & E & _). discriminate E. }
  assert (B2 : back P2 (fun m => store_fs m fs) (fun m s => restore_fs fs m s)).
  { destruct fs as [l|].
    - intros m. destruct (back_marked kCOMPONENT _ _ _ eq_refl (fields_back l (fun t => Hf l t eq_refl)) m) as (b & E & G).
      exists b. split; [exact E|]. intros now rest. destruct (G now rest) as (m' & R & B). exists m'. split; [exact R|].
      eapply bb_iff; [|exact B]. intros x. unfold P2. split; [intros (t & I & T); eauto|].
      intros (l' & t & E' & I & T). injection E' as ->. eauto.
    - apply back_nothing. intros x (l & t & E & _). discriminate E. }
  assert (B3 : back P3 (fun m => store_cs m cs) (fun m s => restore_cs cs m s)).
  { destruct cs as [l|].
    - assert (H : back (fun x => exists o, In o l /\ tree_byte own o x) (fun m => store_objs m l) (fun m s => restore_objs l m s)).
      { specialize (IH l eq_refl). assert (Hl : forall o, In o l -> sound_tree own o) by (intros o I; now apply (Hc l o)).
        clear -IH Hl. induction IH as [|o l Ho Fl IH].
        - apply back_nothing. intros x (o & [] & _).
        - specialize (Ho (Hl o (or_introl eq_refl))). specialize (IH (fun t H => Hl t (or_intror H))).
          assert (H := back_marked kCONTAINER _ _ _ eq_refl (back_seq _ _ (fun x => exists u, In u (o :: l) /\ tree_byte own u x) _ _ _ _ Ho IH
            ltac:(intros x; split; [intros (u & [<-|I] & B); eauto|intros [B|(u & I & B)]; [exists o|exists u]; simpl; auto]))).
          refine (back_ext _ _ _ _ _ _ _ H).
          + intros m. simpl. destruct (store_obj m o); simpl; [|reflexivity..]. destruct (store_objs m l); reflexivity.
          + intros m s. simpl. destruct (check m kCONTAINER s) as [m1 [s1|e|]]; reflexivity. }
      intros m. destruct (back_marked kCOMPOSITE _ _ _ eq_refl H m) as (b & E & G).
      exists b. split; [exact E|]. intros now rest. destruct (G now rest) as (m' & R & B). exists m'. split; [exact R|].
      eapply bb_iff; [|exact B]. intros x. unfold P3. split; [intros (t & I & T); eauto|].
      intros (l' & t & E' & I & T). injection E' as ->. eauto.
    - apply back_nothing. intros x (l & t & E & _). discriminate E. }
  assert (H := back_seq P1 (fun x => P2 x \/ P3 x) (tree_byte own (Obj p fs cs)) _ _ _ _ B1
    (back_seq P2 P3 _ _ _ _ _ B2 B3 (fun x => iff_refl _))).
  refine (back_ext _ _ _ _ _ _ _ (H _)).
  - intros m. rewrite store_obj_eq. simpl. destruct (store_fs m fs); simpl; [|reflexivity..].
    destruct (store_cs m cs); simpl; reflexivity.
  - intros m s. rewrite restore_obj_eq. reflexivity.
  - intros x. unfold P1, P2, P3. split.
    + intros T. inversion T; subst; [left|right; left|right; right]; eauto 6.
    + intros [(q & -> & O)|[(l & t & -> & I & B)|(l & o & -> & I & B)]]; [now constructor|econstructor; eassumption..].
Qed.

(** ** Truncated files *)
Definition short (st : mem -> res sexn (list Z)) (re : mem -> list Z -> rout) : Prop :=
  forall m b now s r, st m = Ok b -> b = s ++ r -> r <> [] -> exists m', re now s = (m', Throw CannotRestore).

Lemma app_split : forall A (a b s r : list A), a ++ b = s ++ r ->
  (exists r', a = s ++ r' /\ r' <> []) \/ (exists s', s = a ++ s' /\ b = s' ++ r).
Proof.
  induction a as [|x a IH]; intros b s r E; simpl in E; [right; now exists s|].
  destruct s as [|y s]; simpl in E.
  - left. exists (x :: a). split; [reflexivity|discriminate].
  - injection E as -> E. apply IH in E as [(r' & -> & N)|(s' & -> & ->)];
      [left; exists r'|right; exists s']; split; auto.
Qed.

Lemma short_nothing : short (fun _ => Ok []) (fun m s => (m, Ok s)).
Proof. intros m b now s r E F N. injection E as <-. symmetry in F. apply app_eq_nil in F as [_ F]. contradiction. Qed.

Local Transparent check.
Lemma check_short : forall m k s r, length k = 4 -> k = s ++ r -> r <> [] -> check m k s = (m, Throw CannotRestore).
Proof.
  intros m k s r L E N. unfold check. rewrite E, app_length in L.
  destruct (Nat.ltb_spec (length s) 4) as [_|G]; [reflexivity|]. destruct r; [contradiction|simpl in L; lia].
Qed.
Local Opaque check.

Lemma short_marked : forall k st re, length k = 4 -> short st re ->
  short (fun m => bind (st m) (fun b => Ok (k ++ b))) (fun m s => rthen (check m k s) re).
Proof.
  intros k st re L H m b now s r E F N. destruct (st m) as [c|e|] eqn:Es; simpl in E; try discriminate E.
  injection E as <-. apply app_split in F as [(r' & F & N')|(s' & -> & F)].
  - rewrite (check_short _ _ _ _ L F N'). simpl. eauto.
  - rewrite check_ok by exact L. simpl. now apply (H m c now s' r).
Qed.
Lemma short_seq : forall P s1 r1 s2 r2, back P s1 r1 -> short s1 r1 -> short s2 r2 ->
  short (fun m => bind (s1 m) (fun a => bind (s2 m) (fun b => Ok (a ++ b)))) (fun m s => rthen (r1 m s) r2).
Proof.
  intros P s1 r1 s2 r2 B H1 H2 m b now s r E F N.
  destruct (s1 m) as [a|e|] eqn:E1; simpl in E; try discriminate E.
  destruct (s2 m) as [c|e|] eqn:E2; simpl in E; try discriminate E. injection E as <-.
  apply app_split in F as [(r' & F & N')|(s' & -> & F)].
  - destruct (H1 m a now s r' E1 F N') as (m' & ->). simpl. eauto.
  - destruct (B m) as (a' & Ea & G). rewrite E1 in Ea. injection Ea as <-.
    destruct (G now s') as (m' & -> & _). simpl. now apply (H2 m c m' s' r).
Qed.
Lemma short_ext : forall st st' re re', (forall m, st m = st' m) -> (forall m s, re m s = re' m s) ->
  short st re -> short st' re'.
Proof. intros st st' re re' E1 E2 H m b now s r E F N. rewrite <- E2. rewrite <- E1 in E. eauto. Qed.

Lemma fields_short : forall l, (forall t, In t l -> creatable t) ->
  short (fun m => store_fields m l) (fun m s => restore_fields m l s).
Proof.
  induction l as [|t l IH]; intros C; [apply short_nothing|].
  assert (Ct : creatable t) by (apply C; now left).
  assert (Ht : back (state_byte t) (fun m => store m t) (fun m s => restore m t s)) by (intros m; now apply field_round_trip).
  assert (St : short (fun m => store m t) (fun m s => restore m t s)).
  { intros m b now s r E F N. destruct (field_truncated t Ct m b now s r E F N) as (m' & R & _). eauto. }
  specialize (IH (fun t H => C t (or_intror H))).
  refine (short_ext _ _ _ _ _ _ (short_marked kFIELD _ _ eq_refl (short_seq _ _ _ _ _ Ht St IH))).
  - intros m. simpl. destruct (store m t); simpl; [|reflexivity..]. destruct (store_fields m l); reflexivity.
  - intros m s. simpl. destruct (check m kFIELD s) as [m1 [s1|e|]]; reflexivity.
Qed.

Lemma obj_short : forall own o, sound_tree own o -> alert o ->
  short (fun m => store_obj m o) (fun m s => restore_obj m o s).
Proof.
  intros own o. induction o as [p fs cs IH] using obj_ind2. intros S A.
  inversion S as [p0 fs0 cs0 Hp Hf Hc]; subst. inversion A as [p0 fs0 cs0 Ap Ac]; subst.
  assert (B1 : back (fun x => exists q, p = Some q /\ own q x) (fun m => Ok (store_own m p)) (fun m s => restore_own p m s)).
  { destruct p as [q|].
    - assert (H : back (own q) (fun m => Ok (p_store q m)) (fun m s => p_restore q m s)).
      { intros m. exists (p_store q m). split; [reflexivity|]. intros now rest. now apply Hp. }
      intros m. destruct (back_marked kPERSIST _ _ _ eq_refl H m) as (b & E & G). exists b. split; [exact E|].
      intros now rest. destruct (G now rest) as (m' & R & B). exists m'. split; [exact R|].
      eapply bb_iff; [|exact B]. intros x. split; [eauto|]. intros (q' & E' & O). now injection E' as ->.
    - apply back_nothing. intros x (q & E & _). discriminate E. }
  assert (S1 : short (fun m => Ok (store_own m p)) (fun m s => restore_own p m s)).
  { destruct p as [q|]; [|apply short_nothing].
    refine (short_ext (fun m => bind (Ok (p_store q m)) (fun b => Ok (kPERSIST ++ b))) _ _ _ _ _ (short_marked kPERSIST (fun m => Ok (p_store q m)) (p_restore q) eq_refl _)).
    - reflexivity.
    - intros m s. reflexivity.
    - intros m b now s r E F N. injection E as <-. apply (Ap q eq_refl m now s); [|eauto].
      rewrite F, app_length. destruct r; [contradiction|simpl; lia]. }
  assert (B2 : back (fun x => exists l t, fs = Some l /\ In t l /\ state_byte t x) (fun m => store_fs m fs) (fun m s => restore_fs fs m s)).
  { destruct fs as [l|].
    - intros m. destruct (back_marked kCOMPONENT _ _ _ eq_refl (fields_back l (fun t => Hf l t eq_refl)) m) as (b & E & G).
      exists b. split; [exact E|]. intros now rest. destruct (G now rest) as (m' & R & B). exists m'. split; [exact R|].
      eapply bb_iff; [|exact B]. intros x. split; [intros (t & I & T); eauto|].
      intros (l' & t & E' & I & T). injection E' as ->. eauto.
    - apply back_nothing. intros x (l & t & E & _). discriminate E. }
  assert (S2 : short (fun m => store_fs m fs) (fun m s => restore_fs fs m s)).
  { destruct fs as [l|]; [|apply short_nothing].
    exact (short_marked kCOMPONENT _ _ eq_refl (fields_short l (fun t => Hf l t eq_refl))). }
  assert (S3 : short (fun m => store_cs m cs) (fun m s => restore_cs cs m s)).
  { destruct cs as [l|]; [|apply short_nothing]. apply (short_marked kCOMPOSITE (fun m => store_objs m l) (restore_objs l) eq_refl).
    specialize (IH l eq_refl). assert (Hl : forall o, In o l -> sound_tree own o) by (intros o I; now apply (Hc l o)).
    assert (Al : forall o, In o l -> alert o) by (intros o I; now apply (Ac l o)).
    clear -IH Hl Al. induction IH as [|o l Ho Fl IH]; [apply short_nothing|].
    assert (So := Ho (Hl o (or_introl eq_refl)) (Al o (or_introl eq_refl))).
    specialize (IH (fun t H => Hl t (or_intror H)) (fun t H => Al t (or_intror H))).
    refine (short_ext _ _ _ _ _ _ (short_marked kCONTAINER _ _ eq_refl (short_seq _ _ _ _ _ (obj_back own o (Hl o (or_introl eq_refl))) So IH))).
    - intros m. simpl. destruct (store_obj m o); simpl; [|reflexivity..]. destruct (store_objs m l); reflexivity.
    - intros m s. simpl. destruct (check m kCONTAINER s) as [m1 [s1|e|]]; reflexivity. }
  refine (short_ext _ _ _ _ _ _ (short_seq _ _ _ _ _ B1 S1 (short_seq _ _ _ _ _ B2 S2 S3))).
  - intros m. rewrite store_obj_eq. simpl. destruct (store_fs m fs); simpl; [|reflexivity..].
    destruct (store_cs m cs); simpl; reflexivity.
  - intros m s. rewrite restore_obj_eq. reflexivity.
Qed.
