(** C39, C40, C41, C46: forcing, dataflow, connections and enumerations of fields. *)
From Coq Require Import ZArith List Bool Lia Relations.
From Verif Require Import Base AnyModel AnySpec AnyProofs HelperModel HelperSpec HelperProofs
  FlowModel FlowSpec FlowProofs FlowTreeProofs FlowCopyProofs FlowPubProofs
  FlowLinksProofs.
Import ListNotations.
Local Open Scope nat_scope.

(** Fields for the examples: an Int32 field with these flags and targets. *)
Definition ex_leaf (v : Z) (forcible conn : bool) (ts : list nat) : leaf :=
  Leaf (CInt TI32) KI32 (PInt v) forcible false conn ts false None true true.
Definition ex_arr (k : kind) (t : ity) (vs : list Z) (conn : bool) (ts : list nat) : sarr :=
  SArr (CInt t) k (map PInt vs) conn ts false None true true.
Definition ex_world (l : list leaf) (a : list sarr) : world :=
  World (fun i => nth i l (ex_leaf 0 false false [])) (fun i => nth i a (ex_arr KI32 TI32 [] false []))
        (fun _ => []).
Definition i32 (z : Z) : any := Any KI32 (PInt z).

(** * C39: forcing *)

(** Whatever is done to any field, a forced field keeps its value and stays forced,
    as long as nobody calls Force, Unforce or Restore on it. *)
Theorem C39_forced_value_kept : forall n w os w' i,
  is_forced w i -> frun n w os = Some w' -> Forall (fun o => ~ unforces i o) os ->
  is_forced w' i /\ lval (leafs w' i) = lval (leafs w i).
Proof. intros n w os w' i F R U. exact (st_run i n os w w' R U F). Qed.

(** Force sets the converted value and forces the field; Freeze forces it with the
    value it has. *)
Theorem C39_force : forall n w i a w',
  lforcible (leafs w i) = true -> force n w i a = (w', Ok tt) ->
  is_forced w' i /\ from_any (lc (leafs w i)) a = Ok (lval (leafs w' i)).
Proof. intros n w i a w' F H. destruct (force_ok _ _ _ _ _ H F) as (v & E & <- & I). now split. Qed.

Theorem C39_freeze : forall w i,
  lforcible (leafs w i) = true ->
  is_forced (freeze w i) i /\ lval (leafs (freeze w i) i) = lval (leafs w i) /\
  forall j, j <> i -> leafs (freeze w i) j = leafs w j.
Proof.
  intros w i F. unfold freeze, is_forced. simpl. rewrite !upd_same. simpl. repeat split; auto.
  intros j N. now apply upd_other.
Qed.

(** After Unforce a write takes effect again. *)
Theorem C39_unforce : forall n w i a w',
  set_any n (unforce w i) i a = (w', Ok tt) ->
  from_any (lc (leafs w i)) a = Ok (lval (leafs w' i)).
Proof.
  intros n w i a w' H. destruct (set_any_stored _ _ _ _ _ (unforce_unforced w i) H) as (v & E & <-).
  unfold unforce in E. simpl in E. rewrite upd_same in E. exact E.
Qed.

Theorem C39_unforce_keeps_value : forall w i,
  ~ is_forced (unforce w i) i /\ lval (leafs (unforce w i) i) = lval (leafs w i) /\
  forall j, j <> i -> leafs (unforce w i) j = leafs w j.
Proof.
  intros w i. split; [apply unforce_unforced|]. unfold unforce. simpl. rewrite upd_same. split; [reflexivity|].
  intros j N. now apply upd_other.
Qed.

(** Restore gives the field the stored value and, if it is forcible, the stored forcing,
    and concerns no other field. *)
Theorem C39_restore : forall w i v b,
  lval (leafs (restore_leaf w i v b) i) = v /\
  (is_forced (restore_leaf w i v b) i <-> lforcible (leafs w i) = true /\ b = true) /\
  ltargets (leafs (restore_leaf w i v b) i) = ltargets (leafs w i) /\
  forall j, j <> i -> leafs (restore_leaf w i v b) j = leafs w j.
Proof.
  intros w i v b. unfold restore_leaf, is_forced. simpl. rewrite !upd_same. simpl.
  destruct (lforcible (leafs w i)) eqn:F; simpl; rewrite ?F.
  - split; [reflexivity|]. split; [tauto|]. split; [reflexivity|]. intros j N. now apply upd_other.
  - split; [reflexivity|]. split; [intuition discriminate|]. split; [reflexivity|]. intros j N. now apply upd_other.
Qed.

(** A Force whose value cannot be converted leaves the value, and all other fields.
    Missing: the field is no longer forced. *)
Theorem C39_failed_force_partial : forall n w i a,
  from_any (lc (leafs w i)) a = Throw InvalidAnyType ->
  exists w', force n w i a = (w', Throw BadAny) /\ lval (leafs w' i) = lval (leafs w i) /\
    forall j, j <> i -> leafs w' j = leafs w j.
Proof.
  intros n w i a H. destruct (force_refused n w i a H) as (w' & E & V & _ & O). eauto.
Qed.

Example C39_example :
  let w := ex_world [ex_leaf 1 true true [1]; ex_leaf 2 true false []] [] in
  exists w', frun 5 w [WForce 1 (i32 7); WSetAny 0 (i32 5); WAssign 1 (PInt 9); WPush 0] = Some w' /\
    lval (leafs w' 0) = PInt 5 /\ lval (leafs w' 1) = PInt 7 /\ is_forced w' 1 /\
    exists w2, frun 5 w' [WUnforce 1; WPush 0] = Some w2 /\ lval (leafs w2 1) = PInt 5.
Proof. eexists. repeat split. eexists. repeat split. Qed.

Theorem C39_failed_force_refuted : exists n w i a w' e,
  is_forced w i /\ force n w i a = (w', Throw e) /\ ~ is_forced w' i.
Proof.
  exists 5, (freeze (ex_world [ex_leaf 1 true false []] []) 0), 0, (Any KString8 (PStr (Some []))).
  eexists. eexists. split; [split; reflexivity|]. split; [reflexivity|].
  intros [_ H]. discriminate H.
Qed.

(** * C40: dataflow *)

(** An assignment to a field that is not forced terminates and reaches every field
    it feeds, directly or transitively, when the links join fields of one kind, the
    fields can hold the value and there is no loop (the call stack being at least
    as deep as there are fields).  No other field changes.
    Missing: see the refutations. *)
Theorem C40_assignment_propagates_partial : forall n w i v ids,
  kinds_agree w -> loop_free w i ->
  (forall j, reaches w i j -> In j ids /\ takes (leafs w j) v) -> length ids <= n ->
  exists w', assign n w i v = (w', Ok tt) /\
    (forall j, reaches w i j -> ~ is_forced w j -> lval (leafs w' j) = v) /\
    (forall j, is_forced w j -> leafs w' j = leafs w j) /\
    (forall j, ~ reaches w i j -> leafs w' j = leafs w j).
Proof.
  intros n w i v ids K L A Hn.
  assert (C : forall j, ~ chain w n i j).
  { apply (no_longer_chain w (length ids) n i Hn). apply no_long_chain; [exact L|]. intros j R. now apply A. }
  destruct (set_val_all w v i K (fun j R => proj2 (A j R)) n i w (sm_refl w) (rt1n_refl _ _ _) C)
    as (w' & E & _ & V).
  exists w'. unfold assign. rewrite E. split; [reflexivity|]. split; [exact V|]. split.
  - intros j F. now apply (set_val_forced _ _ _ _ _ _ E).
  - intros j R. refine (proj2 (set_val_within n w (reaches w i) w i v w' _ _ (sm_refl w) (rt1n_refl _ _ _) E) j R).
    intros x y Hx F. apply clos_rt_rt1n. eapply rt_trans; [apply clos_rt1n_rt; exact Hx|now apply rt_step].
Qed.

(** The same through SetValue(AnySimple). *)
Theorem C40_set_value_propagates_partial : forall n w i v ids,
  kinds_agree w -> loop_free w i ->
  (forall j, reaches w i j -> In j ids /\ takes (leafs w j) v) -> length ids <= n ->
  exists w', set_any n w i (Any (lk (leafs w i)) v) = (w', Ok tt) /\
    (forall j, reaches w i j -> ~ is_forced w j -> lval (leafs w' j) = v) /\
    (forall j, is_forced w j -> leafs w' j = leafs w j) /\
    (forall j, ~ reaches w i j -> leafs w' j = leafs w j).
Proof.
  intros n w i v ids K L A Hn.
  destruct (C40_assignment_propagates_partial n w i v ids K L A Hn) as (w' & E & R).
  exists w'. split; [|exact R].
  destruct (A i (rt1n_refl _ _ _)) as (_ & Hk & Hv & Hd).
  unfold set_any, set_any_with. rewrite from_any_ok by assumption. rewrite (declared_literal _ _ Hd).
  unfold assign in E. destruct (set_val n w i v) as [u [[]|e|]]; simpl in E; try discriminate E. exact E.
Qed.

(** Push of a field hands its value on in the same way. *)
Theorem C40_push_partial : forall n w i v ids,
  lval (leafs w i) = v -> lconn (leafs w i) = true -> ~ is_forced w i ->
  kinds_agree w -> loop_free w i ->
  (forall j, reaches w i j -> In j ids /\ takes (leafs w j) v) -> length ids <= n ->
  exists w', push n w i = (w', Ok tt) /\
    (forall j, reaches w i j -> ~ is_forced w j -> lval (leafs w' j) = v).
Proof.
  intros n w i v ids V0 Cn Nf K L A Hn.
  assert (C : forall j, ~ chain w n i j).
  { apply (no_longer_chain w (length ids) n i Hn). apply no_long_chain; [exact L|]. intros j R. now apply A. }
  assert (G : exists u, push n w i = (u, Ok tt) /\ only_v v w u /\
    forall t j, In t (ltargets (leafs w i)) -> reaches w t j -> ~ is_forced w j -> lval (leafs u j) = v).
  { refine (push_all_v w v i K (fun j R => proj2 (A j R)) (set_val n) i (ltargets (leafs w i)) w (sm_refl w)
      (rt1n_refl _ _ _) Nf Cn (fun t H => H) V0 _).
    intros t a Ht Ma. assert (Fd : feeds w i t) by (split; [exact Nf|split; assumption]).
    refine (set_val_all w v i K (fun j R => proj2 (A j R)) n t a Ma _ _).
    - eapply Relation_Operators.rt1n_trans; [exact Fd|constructor].
    - intros j Hc. apply (no_longer_chain w n (S n) i (Nat.le_succ_diag_r n) C j). econstructor; eassumption. }
  destruct G as (u & Eu & Ou & Hu). exists u. split; [exact Eu|].
  intros j R F. apply reaches_inv in R as [<-|(y & Fy & Ry)].
  - now apply (ov_val v w u).
  - destruct Fy as (_ & _ & Iy). now apply (Hu y j Iy).
Qed.

(** Whatever the depth of the stack, an assignment to a field on or before a loop
    does not succeed. *)
Theorem C40_loop_never_returns : forall n w i v j k,
  reaches w i j -> chain w (S k) j j -> snd (set_val n w i v) <> Ok tt.
Proof.
  intros n w i v j k R C. destruct (set_val n w i v) as [w' r] eqn:E.
  exact (set_val_loop _ _ _ _ _ _ _ _ R C E).
Qed.

(** An item assigned to a typed simple array reaches the directly connected arrays
    of the same kind. *)
Lemma arr_push_to_ok : forall ts w i k p,
  ~ In i ts -> nth_error (avals (arrs w i)) k = Some p ->
  kind_of (ac (arrs w i)) (ak (arrs w i)) -> value_of (ac (arrs w i)) p ->
  (forall t, In t ts -> k < length (avals (arrs w t)) /\ ak (arrs w t) = ak (arrs w i) /\
     kind_of (ac (arrs w t)) (ak (arrs w t)) /\ value_of (ac (arrs w t)) p) ->
  exists w', arr_push_to w i k ts = (w', Ok tt) /\ leafs w' = leafs w /\
    (forall t, In t ts -> arrs w' t = with_vals (arrs w t) (put_nth k p (avals (arrs w t)))) /\
    (forall j, ~ In j ts -> arrs w' j = arrs w j).
Proof.
  induction ts as [|t ts IH]; intros w i k p Ni Hp Ki Vi Ht.
  - exists w. simpl. repeat split. intros t [].
  - destruct (Ht t (or_introl eq_refl)) as (Hk & Ek & Kt & Vt).
    cbn [arr_push_to]. rewrite Hp. rewrite to_any_ok by assumption. rewrite <- Ek.
    rewrite arr_set_any_ok by assumption. cbn [andthen done].
    set (w1 := set_arr w t (with_vals (arrs w t) (put_nth k p (avals (arrs w t))))).
    assert (A1 : arrs w1 t = with_vals (arrs w t) (put_nth k p (avals (arrs w t)))) by apply upd_same.
    assert (A2 : forall j, j <> t -> arrs w1 j = arrs w j) by (intros j N; now apply upd_other).
    assert (Nit : i <> t) by (intros ->; apply Ni; now left).
    destruct (IH w1 i k p) as (w' & E & L & V & O).
    + intros G. apply Ni. now right.
    + rewrite A2 by assumption. exact Hp.
    + rewrite A2 by assumption. exact Ki.
    + rewrite A2 by assumption. exact Vi.
    + intros u Hu. rewrite (A2 i) by assumption. destruct (Ht u (or_intror Hu)) as (B1 & B2 & B3 & B4).
      destruct (Nat.eq_dec u t) as [->|N].
      * rewrite A1. simpl. rewrite put_nth_length. auto.
      * rewrite A2 by assumption. auto.
    + exists w'. split; [exact E|]. split; [exact L|]. split.
      * intros u Hu. destruct (in_dec Nat.eq_dec u ts) as [I|I].
        -- rewrite V by assumption. destruct (Nat.eq_dec u t) as [->|N]; [|now rewrite A2].
           rewrite A1. unfold with_vals. simpl. f_equal. clear. generalize (avals (arrs w t)) as l. intros l. revert k.
           induction l as [|x l IHl]; intros [|k]; simpl; congruence.
        -- rewrite O by assumption. destruct Hu as [<-|Hu]; [now rewrite A1|contradiction].
      * intros j Hj. rewrite O by (intros G; apply Hj; now right). apply A2. intros ->. apply Hj. now left.
Qed.

Lemma nth_put_nth : forall A k (x : A) l, k < length l -> nth_error (put_nth k x l) k = Some x.
Proof. intros A k x l. revert k. induction l as [|y l IH]; intros [|k] H; simpl in *; try lia; auto. apply IH. lia. Qed.

Theorem C40_array_item_partial : forall w i k p,
  k < length (avals (arrs w i)) -> aconn (arrs w i) = true -> ~ In i (atargets (arrs w i)) ->
  kind_of (ac (arrs w i)) (ak (arrs w i)) -> value_of (ac (arrs w i)) p ->
  (forall t, In t (atargets (arrs w i)) ->
     length (avals (arrs w t)) = length (avals (arrs w i)) /\ ak (arrs w t) = ak (arrs w i) /\
     kind_of (ac (arrs w t)) (ak (arrs w t)) /\ value_of (ac (arrs w t)) p) ->
  exists w', arr_assign w i k p = (w', Ok tt) /\ nth_error (avals (arrs w' i)) k = Some p /\
    (forall t, In t (atargets (arrs w i)) -> nth_error (avals (arrs w' t)) k = Some p) /\
    (forall j, j <> i -> ~ In j (atargets (arrs w i)) -> arrs w' j = arrs w j).
Proof.
  intros w i k p Hk Cn Ni Ki Vi Ht. unfold arr_assign.
  pose proof (proj2 (Nat.ltb_lt _ _) Hk) as ->. rewrite Cn.
  set (w1 := set_arr w i (with_vals (arrs w i) (put_nth k p (avals (arrs w i))))).
  assert (A1 : arrs w1 i = with_vals (arrs w i) (put_nth k p (avals (arrs w i)))) by apply upd_same.
  assert (A2 : forall j, j <> i -> arrs w1 j = arrs w j) by (intros j N; now apply upd_other).
  destruct (arr_push_to_ok (atargets (arrs w i)) w1 i k p) as (w' & E & L & V & O); try assumption.
  - rewrite A1. simpl. now apply nth_put_nth.
  - rewrite A1. exact Ki.
  - rewrite A1. exact Vi.
  - intros t It. assert (N : t <> i) by (intros ->; contradiction). rewrite A1, (A2 t N). simpl.
    destruct (Ht t It) as (B1 & B2 & B3 & B4). rewrite B1. auto.
  - exists w'. rewrite E. split; [reflexivity|]. split.
    + rewrite O by assumption. rewrite A1. simpl. now apply nth_put_nth.
    + split.
      * intros t It. rewrite V by assumption. assert (N : t <> i) by (intros ->; contradiction).
        rewrite (A2 t N). simpl. apply nth_put_nth. destruct (Ht t It) as (B1 & _). now rewrite B1.
      * intros j N Nt. rewrite O by assumption. now apply A2.
Qed.

Lemma nth_put_other : forall A k j (x : A) l, j <> k -> nth_error (put_nth k x l) j = nth_error l j.
Proof. intros A k j x l. revert k j. induction l as [|y l IH]; intros [|k] [|j] H; simpl; try reflexivity; try lia. apply IH. lia. Qed.

Lemma nth_error_same : forall A (a b : list A), (forall k, nth_error a k = nth_error b k) -> a = b.
Proof.
  induction a as [|x a IH]; intros [|y b] H; [reflexivity|discriminate (H 0)..|].
  f_equal; [now injection (H 0)|]. apply IH. intros k. exact (H (S k)).
Qed.

Lemma arr_push_items_ok : forall d m w i,
  m + d = length (avals (arrs w i)) -> ~ In i (atargets (arrs w i)) ->
  kind_of (ac (arrs w i)) (ak (arrs w i)) -> (forall p, In p (avals (arrs w i)) -> value_of (ac (arrs w i)) p) ->
  (forall t, In t (atargets (arrs w i)) ->
     length (avals (arrs w t)) = length (avals (arrs w i)) /\ ak (arrs w t) = ak (arrs w i) /\
     kind_of (ac (arrs w t)) (ak (arrs w t)) /\
     (forall p, In p (avals (arrs w i)) -> value_of (ac (arrs w t)) p) /\
     forall k, k < m -> nth_error (avals (arrs w t)) k = nth_error (avals (arrs w i)) k) ->
  exists w', arr_push_items w i (seq m d) = (w', Ok tt) /\ leafs w' = leafs w /\
    (forall t, In t (atargets (arrs w i)) -> arrs w' t = with_vals (arrs w t) (avals (arrs w i))) /\
    (forall j, ~ In j (atargets (arrs w i)) -> arrs w' j = arrs w j).
Proof.
  induction d as [|d IH]; intros m w i L Ni Ki Vi Ht.
  - exists w. simpl. split; [reflexivity|]. split; [reflexivity|]. split; [|reflexivity].
    intros t It. destruct (Ht t It) as (A & _ & _ & _ & B).
    assert (E : avals (arrs w t) = avals (arrs w i)).
    { apply nth_error_same. intros k. destruct (Nat.lt_ge_cases k m) as [Q|Q]; [now apply B|].
      rewrite (proj2 (nth_error_None _ _)), (proj2 (nth_error_None _ _)); [reflexivity|lia|lia]. }
    rewrite <- E. now destruct (arrs w t).
  - cbn [seq arr_push_items].
    destruct (nth_error (avals (arrs w i)) m) as [p|] eqn:P; [|apply nth_error_None in P; lia].
    assert (Ip := nth_error_In _ _ P).
    destruct (arr_push_to_ok (atargets (arrs w i)) w i m p) as (w1 & E & Lf & V & O); auto.
    { intros t It. destruct (Ht t It) as (A & B & C & D & _). repeat split; auto. lia. }
    rewrite E. cbn [andthen].
    assert (S1 : arrs w1 i = arrs w i) by (now apply O).
    destruct (IH (S m) w1 i) as (w' & E' & Lf' & V' & O'); rewrite ?S1; auto; [lia| |].
    + intros t It. destruct (Ht t It) as (A & B & C & D & F). rewrite (V t It). simpl. rewrite put_nth_length.
      do 4 (split; [assumption|]). intros k K. destruct (Nat.eq_dec k m) as [->|N].
      * rewrite nth_put_nth by lia. now symmetry.
      * rewrite nth_put_other by assumption. apply F. lia.
    + rewrite S1 in V', O'. exists w'. split; [exact E'|]. split; [congruence|]. split.
      * intros t It. rewrite V', (V t It) by assumption. reflexivity.
      * intros j Nj. rewrite O', O by assumption. reflexivity.
Qed.

(** Push of a simple array copies all its items to the directly connected arrays of the
    same kind and length, and changes no other field.
    Missing: the arrays connected to these, arrays of other kinds. *)
Theorem C40_array_push_partial : forall w i,
  ~ In i (atargets (arrs w i)) -> kind_of (ac (arrs w i)) (ak (arrs w i)) ->
  (forall t, In t (atargets (arrs w i)) ->
     length (avals (arrs w t)) = length (avals (arrs w i)) /\ ak (arrs w t) = ak (arrs w i) /\
     kind_of (ac (arrs w t)) (ak (arrs w t))) ->
  (forall p t, In p (avals (arrs w i)) -> t = i \/ In t (atargets (arrs w i)) -> value_of (ac (arrs w t)) p) ->
  exists w', arr_push w i = (w', Ok tt) /\
    (forall t, In t (atargets (arrs w i)) -> avals (arrs w' t) = avals (arrs w i)) /\
    (forall j, ~ In j (atargets (arrs w i)) -> arrs w' j = arrs w j) /\ leafs w' = leafs w.
Proof.
  intros w i Ni Ki Ht Hv.
  destruct (arr_push_items_ok (length (avals (arrs w i))) 0 w i) as (w' & E & L & V & O); auto.
  - intros t It. destruct (Ht t It) as (A & B & C). repeat split; auto. intros k K. lia.
  - exists w'. split; [exact E|]. split; [|split; assumption]. intros t It. now rewrite V.
Qed.

Example C40_array_push_example :
  let w := ex_world [] [ex_arr KI32 TI32 [1; 2; 5]%Z true [1; 2]; ex_arr KI32 TI32 [0; 0; 0]%Z false [];
                        ex_arr KI32 TI32 [7; 7; 7]%Z false []] in
  exists w', arr_push w 0 = (w', Ok tt) /\ avals (arrs w' 1) = map PInt [1; 2; 5]%Z /\ avals (arrs w' 2) = map PInt [1; 2; 5]%Z.
Proof. eexists. repeat split; reflexivity. Qed.

Example C40_example :
  let w := ex_world [ex_leaf 1 false true [1; 2]; ex_leaf 2 false true [3]; ex_leaf 3 true false []; ex_leaf 4 false false []] [] in
  exists w', assign 4 (freeze w 2) 0 (PInt 9) = (w', Ok tt) /\
    map (fun i => lval (leafs w' i)) [0; 1; 2; 3] = map PInt [9; 9; 3; 9]%Z.
Proof. eexists. split; reflexivity. Qed.

Example C40_array_example :
  let w := ex_world [] [ex_arr KI32 TI32 [1; 2]%Z true [1]; ex_arr KI32 TI32 [0; 0]%Z false []] in
  exists w', arr_assign w 0 1 (PInt 9) = (w', Ok tt) /\ avals (arrs w' 1) = map PInt [0; 9]%Z.
Proof. eexists. split; reflexivity. Qed.

(** A loop made with Connect alone: the second Connect never ends. *)
Theorem C40_loop_refuted : exists w a b,
  (exists w1, connect 3 w a b = (w1, Ok tt) /\
     forall n, snd (connect n w1 b a) <> Ok tt).
Proof.
  set (w0 := ex_world [ex_leaf 1 false true []; ex_leaf 2 false true []] []).
  set (w1 := set_leaf (set_leaf w0 0 (ex_leaf 1 false true [1])) 1 (ex_leaf 1 false true [])).
  set (w2 := set_leaf w1 1 (ex_leaf 1 false true [0])).
  exists w0, (TSimple 0), (TSimple 1), w1. split; [reflexivity|]. intros n.
  assert (E : connect n w1 (TSimple 1) (TSimple 0) = set_val n w2 0 (PInt 1)) by reflexivity.
  rewrite E. apply (C40_loop_never_returns n w2 0 (PInt 1) 0 1); [constructor|].
  econstructor; [|econstructor; [|constructor]].
  - split; [intros [H _]; discriminate H|]. split; [reflexivity|now left].
  - split; [intros [H _]; discriminate H|]. split; [reflexivity|now left].
Qed.

(** A string longer than a connected input is cut. *)
Theorem C40_string_refuted : exists n w s t w' v,
  connect n w s t = (w', Ok tt) /\
  exists w2, assign n w' (tid s) v = (w2, Ok tt) /\ lval (leafs w2 (tid s)) = v /\
             lval (leafs w2 (tid t)) <> v.
Proof.
  exists 3, (ex_world [Leaf (CStr 3) KString8 (PStr (Some [])) false false true [] false None true true;
                       Leaf (CStr 1) KString8 (PStr (Some [])) false false false [] false None true true] []),
    (TSimple 0), (TSimple 1).
  eexists. exists (PStr (Some [65; 66]%Z)). split; [reflexivity|]. eexists. split; [reflexivity|].
  split; [reflexivity|]. intros H. vm_compute in H. discriminate H.
Qed.

(** A value that is not a literal of a connected published enumeration ends the
    program. *)
Theorem C40_enumeration_refuted : exists n w s t w',
  connect n w s t = (w', Ok tt) /\
  exists v w2, assign n w' (tid s) v = (w2, Throw Terminated).
Proof.
  exists 3, (ex_world [ex_leaf 1 false true [];
     Leaf (CInt TI32) KI32 (PInt 1) false false false [] true (Some [1; 2]%Z) true true] []),
    (TSimple 0), (TSimple 1).
  eexists. split; [reflexivity|]. exists (PInt 3). eexists. reflexivity.
Qed.

(** SetValue, SetValues and fill of a connected simple array hand nothing on, and
    an item handed to a connected array stops there. *)
Theorem C40_array_interfaces_refuted : exists w s t u w1 w2,
  connect 3 w s t = (w1, Ok tt) /\ connect 3 w1 t u = (w2, Ok tt) /\
  (exists w3, arr_set_any w2 (tid s) 0 (i32 9) = (w3, Ok tt) /\
     avals (arrs w3 (tid s)) = [PInt 9] /\ avals (arrs w3 (tid t)) = [PInt 1]) /\
  (exists w3, arr_set_values w2 (tid s) [i32 9] = (w3, Ok tt) /\
     avals (arrs w3 (tid s)) = [PInt 9] /\ avals (arrs w3 (tid t)) = [PInt 1]) /\
  (avals (arrs (arr_fill w2 (tid s) (PInt 9)) (tid s)) = [PInt 9] /\
   avals (arrs (arr_fill w2 (tid s) (PInt 9)) (tid t)) = [PInt 1]) /\
  (exists w3, arr_assign w2 (tid s) 0 (PInt 9) = (w3, Ok tt) /\
     avals (arrs w3 (tid t)) = [PInt 9] /\ avals (arrs w3 (tid u)) = [PInt 1]).
Proof.
  exists (ex_world [] [ex_arr KI32 TI32 [1]%Z true []; ex_arr KI32 TI32 [2]%Z true []; ex_arr KI32 TI32 [3]%Z false []]),
    (TSArr 0), (TSArr 1), (TSArr 2).
  eexists. eexists. split; [reflexivity|]. split; [reflexivity|].
  split; [eexists; repeat split|]. split; [eexists; repeat split|]. split; [repeat split|].
  eexists. repeat split.
Qed.

(** * C41: connections *)

(** A Connect that is not acceptable, or whose source has a part that is not
    connectable, throws and changes nothing. *)
Theorem C41_rejected_unchanged : forall n w s t, ~ (acceptable w s t /\ all_connectable w s) ->
  connect n w s t = (w, Throw InvalidTarget) \/ connect n w s t = (w, Throw FieldAlreadyConnected).
Proof. exact connect_refuses. Qed.

(** An acceptable Connect between separate fields, with all parts of the source
    connectable and the target able to hold the values, succeeds and copies the
    values into the target and nowhere else. *)
Theorem C41_accepted_partial : forall n w s t,
  acceptable w s t -> all_connectable w s -> separate s t -> transferable w s t ->
  exists w', connect (S n) w s t = (w', Ok tt) /\ copied w w' s t.
Proof. exact connect_accepts. Qed.

(** The links of a field [j] that does not feed [i] are the same once [i] feeds [j]. *)
Lemma hand_on_links w i j : kinds_agree w -> lk (leafs w i) = lk (leafs w j) -> loop_free w j -> ~ reaches w j i ->
  let w1 := set_leaf w i (with_targets (leafs w i) (ltargets (leafs w i) ++ [j])) in
  kinds_agree w1 /\ loop_free w1 j /\ forall k, reaches w1 j k <-> reaches w j k.
Proof.
  intros K E L N w1.
  assert (S1 : leafs w1 i = with_targets (leafs w i) (ltargets (leafs w i) ++ [j])) by apply upd_same.
  assert (S2 : forall k, k <> i -> leafs w1 k = leafs w k) by (intros k M; now apply upd_other).
  assert (Sk : forall k, lk (leafs w1 k) = lk (leafs w k)).
  { intros k. destruct (Nat.eq_dec k i) as [->|M]; [now rewrite S1|now rewrite S2]. }
  assert (F : forall x y, x <> i -> feeds w1 x y <-> feeds w x y).
  { intros x y M. unfold feeds, is_forced. now rewrite S2. }
  assert (T : forall x y z, reaches w x y -> feeds w y z -> reaches w x z).
  { intros x y z A B. apply clos_rt_rt1n. eapply rt_trans; [apply clos_rt1n_rt; exact A|now apply rt_step]. }
  assert (R1 : forall x k, reaches w1 x k -> reaches w j x -> reaches w x k /\ reaches w j k).
  { intros x k H. induction H as [x|x y z Fx H IH]; intros J; [split; [constructor|exact J]|].
    assert (M : x <> i) by (intros ->; contradiction). apply F in Fx; [|exact M].
    destruct (IH (T _ _ _ J Fx)) as [P Q]. split; [econstructor; eassumption|exact Q]. }
  assert (R2 : forall x k, reaches w x k -> reaches w j x -> reaches w1 x k).
  { intros x k H. induction H as [x|x y z Fx H IH]; intros J; [constructor|].
    assert (M : x <> i) by (intros ->; contradiction).
    econstructor; [apply F; [exact M|exact Fx]|]. apply IH. eapply T; eassumption. }
  assert (Cn : forall m x y, chain w1 m x y -> reaches w j x -> chain w m x y).
  { intros m x y H. induction H as [x|m x y z Fx H IH]; intros J; [constructor|].
    assert (M : x <> i) by (intros ->; contradiction). apply F in Fx; [|exact M].
    econstructor; [exact Fx|]. apply IH. eapply T; eassumption. }
  split; [|split].
  - intros x y I. rewrite !Sk. destruct (Nat.eq_dec x i) as [->|M].
    + rewrite S1 in I. cbn in I. apply in_app_iff in I as [I|[<-|[]]]; [now apply K|exact E].
    + rewrite S2 in I by exact M. now apply K.
  - intros k m Rk Ck. destruct (R1 j k Rk (rt1n_refl _ _ _)) as [P _]. apply (L k m P). now apply Cn.
  - intros k. split; [intros H; now apply (R1 j k H (rt1n_refl _ _ _))|intros H; apply R2; [exact H|constructor]].
Qed.

(** A simple target may be an output itself.  If the connection closes no loop and the
    fields fed by the target can hold the value, Connect succeeds and the value of the
    source arrives in the target and in everything it feeds; forced fields and all the
    other fields keep their values.  (A connection that closes a loop never returns:
    C40_loop_never_returns.) *)
Theorem C41_hands_on_partial : forall n w i j ids,
  acceptable w (TSimple i) (TSimple j) -> all_connectable w (TSimple i) ->
  kinds_agree w -> loop_free w j -> ~ reaches w j i -> takes (leafs w i) (lval (leafs w i)) ->
  (forall k, reaches w j k -> In k ids /\ takes (leafs w k) (lval (leafs w i))) -> length ids <= n ->
  exists w', connect n w (TSimple i) (TSimple j) = (w', Ok tt) /\
    (forall k, reaches w j k -> ~ is_forced w k -> lval (leafs w' k) = lval (leafs w i)) /\
    (forall k, is_forced w k -> lval (leafs w' k) = lval (leafs w k)) /\
    (forall k, ~ reaches w j k -> lval (leafs w' k) = lval (leafs w k)).
Proof.
  intros n w i j ids A C K L N (Ti & Tv & Td) R Hn.
  pose proof (proj1 (acceptable_checks w _ _) (conj A C)) as [E1 E2].
  unfold connect. rewrite E1, E2. simpl negb. cbv iota. cbn [connect_tree].
  inversion C as [u Cu| | |]; subst. rewrite Cu. unfold connect_simple.
  destruct A as (_ & _ & Ne & Sh & _). pose proof (shape_fits _ _ _ Sh _ _ (pa_self _ _)) as Ek. simpl in Ek, Ne.
  destruct (hand_on_links w i j K Ek L N) as (K1 & L1 & R1).
  set (w1 := set_leaf w i (with_targets (leafs w i) (ltargets (leafs w i) ++ [j]))) in *.
  assert (S1 : leafs w1 i = with_targets (leafs w i) (ltargets (leafs w i) ++ [j])) by apply upd_same.
  assert (S2 : forall k, k <> i -> leafs w1 k = leafs w k) by (intros k M; now apply upd_other).
  assert (S3 : forall k, lval (leafs w1 k) = lval (leafs w k)).
  { intros k. destruct (Nat.eq_dec k i) as [->|M]; [now rewrite S1|now rewrite S2]. }
  assert (S4 : forall k, is_forced w1 k <-> is_forced w k).
  { intros k. unfold is_forced. destruct (Nat.eq_dec k i) as [->|M]; [now rewrite S1|now rewrite S2]. }
  rewrite S1. cbv zeta. cbn [lc lk lval with_targets]. rewrite to_any_ok by assumption.
  destruct (C40_set_value_propagates_partial n w1 j (lval (leafs w i)) ids K1 L1) as (w' & W1 & W2 & W3 & W4); [|exact Hn|].
  { intros k Hk. apply R1 in Hk. destruct (R k Hk) as [I T]. split; [exact I|].
    rewrite S2; [exact T|]. intros ->. contradiction. }
  rewrite (S2 j) in W1 by exact Ne. rewrite Ek. exists w'. split; [exact W1|]. split; [|split].
  - intros k Hk Hf. apply W2; [now apply R1|now rewrite S4].
  - intros k Hf. rewrite W3 by (now rewrite S4). apply S3.
  - intros k Hk. rewrite W4 by (now rewrite R1). apply S3.
Qed.

Example C41_hands_on_example :
  let w := ex_world [ex_leaf 5 false true []; ex_leaf 1 false true [2; 3]; ex_leaf 2 false false []; ex_leaf 3 true false []] [] in
  let w := freeze w 3 in
  acceptable w (TSimple 0) (TSimple 1) /\ reaches w 1 2 /\ reaches w 1 3 /\
  exists w', connect 4 w (TSimple 0) (TSimple 1) = (w', Ok tt) /\
    lval (leafs w' 1) = PInt 5 /\ lval (leafs w' 2) = PInt 5 /\ lval (leafs w' 3) = PInt 3.
Proof.
  cbv zeta. set (w := freeze _ _).
  assert (F : forall y, In y [2; 3] -> feeds w 1 y).
  { intros y I. split; [intros [G _]; discriminate G|]. split; [reflexivity|exact I]. }
  split; [|split; [|split]].
  - split; [reflexivity|]. split; [reflexivity|]. split; [discriminate|]. split; [now constructor|].
    intros x y P _. inversion P; subst. intros [].
  - econstructor; [apply F; now left|constructor].
  - econstructor; [apply F; right; now left|constructor].
  - eexists. repeat split.
Qed.

(** The same list of connected fields. *)
Definition same_list (x y : tree) : Prop :=
  match x, y with
  | TSimple i, TSimple j => i = j
  | TSArr i, TSArr j => i = j
  | (TArr i _ _ _ _ | TStr i _ _ _ _), (TArr j _ _ _ _ | TStr j _ _ _ _) => i = j
  | _, _ => False
  end.
Lemma same_list_key : forall x y, same_list x y <-> tkey x = tkey y.
Proof.
  intros x y. split.
  - destruct x, y; simpl; intros H; try contradiction; now subst.
  - destruct x, y; simpl; intros H; try discriminate H; now injection H.
Qed.

(** A Connect that succeeds was acceptable, and links exactly the corresponding
    parts. *)
Theorem C41_links : forall n w s t w', connect n w s t = (w', Ok tt) ->
  acceptable w s t /\ all_connectable w s /\
  forall x y, linked w' x y <->
    linked w x y \/
    exists x' y', parts s t x' y' /\ keeps_links w x' /\ same_list x' x /\ tid y' = tid y.
Proof.
  intros n w s t w' H. destruct (connect_ok _ _ _ _ _ H) as (A & B & (_ & L)).
  split; [exact A|]. split; [exact B|]. intros x y.
  rewrite !linked_links, L, in_app_iff, sel_in, edges_parts.
  split; (intros [I|(x' & y' & P & K & E1 & E2)]; [now left|right; exists x', y']).
  - split; [exact P|]. split; [exact K|]. split; [now apply same_list_key|now symmetry].
  - apply same_list_key in E1. auto.
Qed.

(** Disconnect removes the links of the Connect and touches no value. *)
Theorem C41_disconnect : forall n w s t w', NoDup (tids s) -> connect n w s t = (w', Ok tt) ->
  same_links w (disconnect w' s t) /\ same_values w' (disconnect w' s t).
Proof. exact disconnect_undoes. Qed.

(** After any history, also one with failed connections, no field is twice among the
    connected fields of another: a push reaches it once. *)
Theorem C41_linked_once : forall n os w w', Forall distinct_parts os -> frun n w os = Some w' ->
  linked_once w -> linked_once w'.
Proof. intros n os w w' F H O. apply once_linked. eapply once_run; [exact F|exact H|now apply once_linked]. Qed.
Example C41_linked_once_example :
  let w := ex_world [ex_leaf 1 false true []; ex_leaf 2 false true []; ex_leaf 5 false false []; ex_leaf 6 true false []] [] in
  let os := [WConnect (TSimple 0) (TSimple 2); WConnect (TSimple 0) (TSimple 2); WConnect (TSimple 0) (TSimple 3);
             WDisconnect (TSimple 0) (TSimple 2); WConnect (TSimple 0) (TSimple 2); WAssign 0 (PInt 8)] in
  Forall distinct_parts os /\ (exists w', frun 3 w os = Some w' /\ ltargets (leafs w' 0) = [3; 2]).
Proof.
  cbv zeta. split; [repeat constructor; cbn; intuition discriminate|].
  set (w := ex_world _ _). set (os := [_; _; _; _; _; _]). destruct (frun 3 w os) as [w'|] eqn:E.
  - exists w'. split; [reflexivity|].
    assert (G : option_map (fun w' => ltargets (leafs w' 0)) (frun 3 w os) = Some [3; 2]) by (vm_compute; reflexivity).
    rewrite E in G. now injection G.
  - assert (G : match frun 3 w os with None => false | Some _ => true end = true) by (vm_compute; reflexivity).
    rewrite E in G. discriminate G.
Qed.

(** A published dataflow field: rejected Connects change nothing. *)
Theorem C41_published_rejected : forall n w s t,
  In (tid t) (pub_targets w s) \/ tout w s = false \/ tin w t = false \/ tid t = tid s \/
  ~ same_shape (fun _ _ => True) (shape w s) (shape w t) ->

  exists e, pub_connect n w s t = (w, Throw e) /\ (e = InvalidTarget \/ e = FieldAlreadyConnected).
Proof.
  intros n w s t H. unfold pub_connect, absent. rewrite negb_involutive.
  destruct (existsb (Nat.eqb (tid t)) (pub_targets w s)) eqn:E.
  { exists FieldAlreadyConnected. split; [reflexivity|now right]. }
  assert (G : (negb (tout w s) || negb (tin w t) || Nat.eqb (tid t) (tid s)
          || negb (are_equivalent (shape w s) (shape w t))) = true).
  { destruct H as [H|[H|[H|[H|H]]]].
    - assert (X : existsb (Nat.eqb (tid t)) (pub_targets w s) = true).
      { apply existsb_exists. exists (tid t). split; [exact H|apply Nat.eqb_refl]. }
      rewrite X in E. discriminate E.
    - now rewrite H.
    - now rewrite H, orb_true_r.
    - rewrite H, Nat.eqb_refl. now rewrite orb_true_r.
    - destruct (are_equivalent (shape w s) (shape w t)) eqn:Q; [|apply orb_true_r].
      apply are_equivalent_ok in Q. contradiction. }
  rewrite G. exists InvalidTarget. split; [reflexivity|now left].
Qed.

(** An acceptable Connect of a published dataflow field whose target can hold the values
    succeeds and copies the values into the target and nowhere else. *)
Theorem C41_published_accepted_partial : forall n w s t,
  tout w s = true -> tin w t = true -> same_shape (fun _ _ => True) (shape w s) (shape w t) -> ~ linked w s t ->
  separate s t -> transferable w s t ->
  exists w', pub_connect (S n) w s t = (w', Ok tt) /\ copied w w' s t.
Proof. exact pub_accepts. Qed.

(** A Connect that succeeds was acceptable, and adds the target to those of the source and
    nothing else. *)
Theorem C41_published_links : forall n w s t w', pub_connect n w s t = (w', Ok tt) ->
  (tout w s = true /\ tin w t = true /\ tid t <> tid s /\
   same_shape (fun _ _ => True) (shape w s) (shape w t) /\ ~ linked w s t) /\
  forall x y, linked w' x y <-> linked w x y \/ (same_list s x /\ tid t = tid y).
Proof.
  intros n w s t w' E. destruct (pub_links _ _ _ _ _ E) as (A & B & C & D & F & L). split; [tauto|]. intros x y.
  rewrite !linked_links, L, in_app_iff, same_list_key. destruct (key_eqb (tkey s) (tkey x)) eqn:K.
  - apply key_eqb_eq in K. cbn. intuition congruence.
  - assert (N : tkey s <> tkey x) by (intros X; apply key_eqb_eq in X; congruence). cbn. intuition congruence.
Qed.

(** Push of a published dataflow field gives its values to every connected field. *)
Theorem C40_published_push_partial : forall n s ts w, NoDup (flat_map tids ts) ->
  (forall t, In t ts -> same_shape (fun _ _ => True) (shape w s) (shape w t) /\ separate s t /\ transferable w s t) ->
  exists w', pub_push (S n) w s ts = (w', Ok tt) /\
    (forall t, In t ts ->
       (forall i j, parts s t (TSimple i) (TSimple j) ->
          (is_forced w j -> lval (leafs w' j) = lval (leafs w j)) /\ (~ is_forced w j -> lval (leafs w' j) = lval (leafs w i))) /\
       (forall i j, parts s t (TSArr i) (TSArr j) -> avals (arrs w' j) = avals (arrs w i))) /\
    (forall k, ~ In k (flat_map tids ts) -> lval (leafs w' k) = lval (leafs w k) /\ avals (arrs w' k) = avals (arrs w k)).
Proof.
  intros n s ts w N H. destruct (pub_push_ok n s ts w N) as (w' & E & _ & R).
  - intros t I. destruct (H t I) as (Sh & Se & Tr). split; [eapply shape_alike; exact Sh|]. split; [now apply shape_fits|]. now split.
  - now exists w'.
Qed.

Example C41_published_example :
  let w := ex_world [ex_leaf 1 false true []; ex_leaf 2 false true []; ex_leaf 5 false false []; ex_leaf 6 true false []]
             (repeat (ex_arr KI32 TI32 [] false []) 4 ++ [ex_arr KI32 TI32 [1; 2]%Z true []; ex_arr KI32 TI32 [3; 4]%Z false []]) in
  let s := TStr 10 true false true [TSimple 0; TSArr 4; TSimple 1] in
  let t := TStr 20 false true false [TSimple 2; TSArr 5; TSimple 3] in
  let c := pub_connect 2 w s t in
  snd c = Ok tt /\ lval (leafs (fst c) 2) = PInt 1 /\ lval (leafs (fst c) 3) = PInt 2 /\ avals (arrs (fst c) 5) = map PInt [1; 2]%Z /\
  lval (leafs (fst c) 0) = PInt 1 /\ linked (fst c) s t /\
  (let p := pub_push 2 (set_leaf (fst c) 1 (ex_leaf 9 false true [])) s [t] in
   snd p = Ok tt /\ lval (leafs (fst p) 3) = PInt 9).
Proof. vm_compute. repeat split; auto. Qed.

Example C41_example :
  let w := ex_world [ex_leaf 1 false true []; ex_leaf 2 false true []; ex_leaf 5 false false []; ex_leaf 6 true false []]
             (repeat (ex_arr KI32 TI32 [] false []) 4 ++ [ex_arr KI32 TI32 [1; 2]%Z true []; ex_arr KI32 TI32 [3; 4]%Z false []]) in
  let s := TStr 10 true false true [TSimple 0; TSArr 4; TSimple 1] in
  let t := TStr 20 false true false [TSimple 2; TSArr 5; TSimple 3] in
  exists w', connect 2 (freeze w 3) s t = (w', Ok tt) /\
    lval (leafs w' 2) = PInt 1 /\ lval (leafs w' 3) = PInt 6 /\ avals (arrs w' 5) = map PInt [1; 2]%Z /\
    linked w' s t /\
    connect 2 w' s t = (w', Throw FieldAlreadyConnected) /\
    connect 2 w' s (TSimple 2) = (w', Throw InvalidTarget) /\
    same_links w (disconnect w' s t).
Proof.
  cbv zeta.
  set (w := ex_world _ _). set (s := TStr 10 _ _ _ _). set (t := TStr 20 _ _ _ _).
  pose (c := connect 2 (freeze w 3) s t). exists (fst c).
  assert (C : connect 2 (freeze w 3) s t = (fst c, Ok tt)).
  { change (c = (fst c, Ok tt)). assert (R : snd c = Ok tt) by (vm_compute; reflexivity). rewrite <- R. now destruct c. }
  assert (L : linked (fst c) s t) by (vm_compute; auto).
  split; [exact C|]. split; [vm_compute; reflexivity|]. split; [vm_compute; reflexivity|]. split; [vm_compute; reflexivity|]. split; [exact L|].
  assert (R1 : snd (connect 2 (fst c) s t) = Throw FieldAlreadyConnected) by (vm_compute; reflexivity).
  assert (R2 : snd (connect 2 (fst c) s (TSimple 2)) = Throw InvalidTarget) by (vm_compute; reflexivity).
  split; [|split].
  - destruct (C41_rejected_unchanged 2 (fst c) s t) as [E|E]; [intros [(_ & _ & _ & _ & N) _]; exact (N s t (pa_self s t) eq_refl L)|rewrite E in R1; discriminate R1|exact E].
  - destruct (C41_rejected_unchanged 2 (fst c) s (TSimple 2)) as [E|E]; [|exact E|rewrite E in R2; discriminate R2].
    intros [(_ & _ & _ & N & _) _]. apply are_equivalent_ok in N. vm_compute in N. discriminate N.
  - assert (N : NoDup (tids s)) by (vm_compute; repeat (apply NoDup_cons; [cbn; intuition discriminate|]); apply NoDup_nil).
    destruct (C41_disconnect 2 (freeze w 3) s t (fst c) N C) as ((A & B & D) & _). split; [|split]; intros i.
    + rewrite A. unfold freeze, set_leaf. cbn [leafs]. do 4 (destruct i as [|i]; [reflexivity|]). reflexivity.
    + rewrite B. reflexivity.
    + rewrite D. reflexivity.
Qed.

(** The hypotheses of C41_accepted_partial hold in it. *)
Example C41_example_accepted :
  let w := ex_world [ex_leaf 1 false true []; ex_leaf 2 false true []; ex_leaf 5 false false []; ex_leaf 6 true false []] [] in
  let s := TStr 10 true false true [TSimple 0; TSimple 1] in
  let t := TStr 20 false true false [TSimple 2; TSimple 3] in
  acceptable w s t /\ all_connectable w s /\ separate s t /\ transferable w s t.
Proof.
  assert (Hp : forall x y, parts (TStr 10 true false true [TSimple 0; TSimple 1]) (TStr 20 false true false [TSimple 2; TSimple 3]) x y ->
    (x = TStr 10 true false true [TSimple 0; TSimple 1] /\ y = TStr 20 false true false [TSimple 2; TSimple 3]) \/
    (x = TSimple 0 /\ y = TSimple 2) \/ (x = TSimple 1 /\ y = TSimple 3)).
  { intros x y P. inversion P as [| |i0 df0 a0 b0 l0 j0 df1 a1 b1 l1 x1 y1 s1 t1 Hxy P1]; subst; [now left|].
    right. destruct Hxy as [E|[E|[]]]; injection E as <- <-; inversion P1; subst; auto. }
  split; [|split; [|split]].
  - split; [reflexivity|]. split; [reflexivity|]. split; [discriminate|]. split.
    + apply are_equivalent_ok. reflexivity.
    + intros x y P K L. apply Hp in P as [[-> ->]|[[-> ->]|[-> ->]]]; exact L.
  - constructor. intros x [<-|[<-|[]]]; now constructor.
  - split; [|split].
    + apply (NoDup_nodup Nat.eq_dec [10; 0; 1]).
    + apply (NoDup_nodup Nat.eq_dec [20; 2; 3]).
    + intros i [<-|[<-|[<-|[]]]] [H|[H|[H|[]]]]; discriminate H.
  - split; intros i j P; apply Hp in P as [[E F]|[[E F]|[E F]]]; try discriminate E;
      injection E as ->; injection F as ->; (split; [|split; [|reflexivity]]);
      (split; [reflexivity|split; [vm_compute; split; discriminate|intros H; discriminate H]]).
Qed.

(** A structure inside an output structure is not connectable, although it is an
    output of a type equivalent to that of the input. *)
Theorem C41_nested_structure_refuted : exists w s t,
  acceptable w s t /\ forall n, connect n w s t = (w, Throw FieldAlreadyConnected).
Proof.
  exists (ex_world [ex_leaf 1 false false []; ex_leaf 2 false false []] []),
    (TStr 10 true false true [TStr 11 false false false [TSimple 0]]),
    (TStr 20 false true false [TStr 21 false false false [TSimple 1]]).
  split; [|intros; reflexivity].
  split; [reflexivity|]. split; [reflexivity|]. split; [discriminate|]. split.
  - apply are_equivalent_ok. reflexivity.
  - intros x y P K L. inversion P as [| |i0 df0 a0 b0 l0 j0 df1 a1 b1 l1 x1 y1 s1 t1 Hxy P1]; subst; [destruct L|].
    destruct Hxy as [E|[]]. injection E as <- <-. inversion P1 as [| |i0 df0 a0 b0 l0 j0 df1 a1 b1 l1 x1 y1 s1 t1 Hxy P2]; subst; [discriminate K|].
    destruct Hxy as [E|[]]. injection E as <- <-. inversion P2; subst. discriminate K.
Qed.

(** Connect between simple arrays of different kinds of items throws, but the link
    stays. *)
Theorem C41_failed_connect_refuted : exists n w s t w' e,
  acceptable w s t /\ all_connectable w s /\
  connect n w s t = (w', Throw e) /\ ~ linked w s t /\ linked w' s t.
Proof.
  exists 3, (ex_world [] [ex_arr KI32 TI32 [1]%Z true []; ex_arr KI16 TI16 [2]%Z false []]), (TSArr 0), (TSArr 1).
  eexists. eexists. split; [|split; [now constructor|split; [reflexivity|split; [intros []|now left]]]].
  split; [reflexivity|]. split; [reflexivity|]. split; [discriminate|]. split.
  - apply are_equivalent_ok. reflexivity.
  - intros x y P K L. inversion P; subst. destruct L.
Qed.

(** * C46: enumerations *)

(** SetValue on a published simple field of an enumeration of four bytes accepts
    exactly the declared literals; a refused call changes nothing.
    Missing: the other sizes, items of arrays and typed fields. *)
Theorem C46_published_literals_partial : forall n w i ls z,
  let f := leafs w i in
  lpub f = true -> lk f = KI32 -> lc f = CInt TI32 -> lenum f = Some ls ->
  lforcible f = false -> lconn f = false -> of_type TI32 z ->
  (In z ls -> set_any (S n) w i (i32 z) = done (set_leaf w i (with_val f (PInt z)))) /\
  (~ In z ls -> set_any (S n) w i (i32 z) = throw w InvalidFieldValue).
Proof.
  intros n w i ls z f P K C E F Cn Z. unfold set_any, set_any_with. fold f. rewrite C.
  unfold i32. rewrite from_any_ok by (try reflexivity; exact Z).
  unfold literal_ok. rewrite P, K, E. cbn [set_val]. fold f. rewrite F, Cn. simpl.
  split; intros H.
  - assert (X : existsb (Z.eqb z) ls = true) by (apply existsb_exists; exists z; split; [exact H|apply Z.eqb_refl]).
    now rewrite X.
  - destruct (existsb (Z.eqb z) ls) eqn:X; [|reflexivity]. apply existsb_exists in X as (y & Hy & Ey).
    apply Z.eqb_eq in Ey. subst y. contradiction.
Qed.

(** Nothing but a declared literal is ever stored in such a field, whatever is passed. *)
Theorem C46_only_literals_partial : forall n w i ls a w',
  let f := leafs w i in
  lpub f = true -> lk f = KI32 -> lc f = CInt TI32 -> lenum f = Some ls ->
  lforcible f = false -> lconn f = false ->
  set_any n w i a = (w', Ok tt) -> exists z, In z ls /\ lval (leafs w' i) = PInt z.
Proof.
  intros n w i ls a w' f P K C E F Cn H. unfold set_any, set_any_with in H. fold f in H. rewrite C in H.
  destruct (from_any (CInt TI32) a) as [v|e|] eqn:Q; try discriminate H.
  simpl in Q. destruct (get_int TI32 a) as [z|e|]; simpl in Q; try discriminate Q. injection Q as <-.
  unfold literal_ok in H. rewrite P, K, E in H.
  destruct (existsb (Z.eqb z) ls) eqn:X; [|discriminate H].
  destruct n as [|n]; [discriminate H|]. cbn [set_val] in H. fold f in H. rewrite F, Cn in H. simpl in H.
  injection H as <-. exists z. split.
  - apply existsb_exists in X as (y & Hy & Ey). apply Z.eqb_eq in Ey. now subst y.
  - simpl. now rewrite upd_same.
Qed.

Example C46_example :
  let w := ex_world [Leaf (CInt TI32) KI32 (PInt 1) false false false [] true (Some [1; 2; 5]%Z) false false] [] in
  (exists w', set_any 1 w 0 (i32 5) = (w', Ok tt) /\ lval (leafs w' 0) = PInt 5) /\
  set_any 1 w 0 (i32 4) = (w, Throw InvalidFieldValue).
Proof. split; [eexists; split; reflexivity|reflexivity]. Qed.

(** Enumerations of another size, items of arrays, and typed fields take any value
    of the underlying type. *)
Theorem C46_other_sizes_refuted : exists n w i ls z w',
  lpub (leafs w i) = true /\ lenum (leafs w i) = Some ls /\ ~ In z ls /\
  set_any n w i (Any (lk (leafs w i)) (PInt z)) = (w', Ok tt) /\ lval (leafs w' i) = PInt z.
Proof.
  exists 1, (ex_world [Leaf (CInt TI8) KI8 (PInt 1) false false false [] true (Some [1; 2]%Z) false false] []), 0, [1; 2]%Z, 3%Z.
  eexists. split; [reflexivity|]. split; [reflexivity|]. split; [intros [H|[H|[]]]; discriminate H|].
  split; reflexivity.
Qed.

Theorem C46_array_items_refuted : exists w i ls z w',
  apub (arrs w i) = true /\ aenum (arrs w i) = Some ls /\ ak (arrs w i) = KI32 /\ ~ In z ls /\
  arr_set_any w i 0 (i32 z) = (w', Ok tt) /\ avals (arrs w' i) = [PInt z].
Proof.
  exists (ex_world [] [SArr (CInt TI32) KI32 [PInt 1] false [] true (Some [1; 2]%Z) false false]), 0, [1; 2]%Z, 3%Z.
  eexists. repeat (split; [reflexivity|]). split; [intros [H|[H|[]]]; discriminate H|]. split; reflexivity.
Qed.

Theorem C46_typed_fields_refuted : exists n w i ls z w',
  lpub (leafs w i) = false /\ lenum (leafs w i) = Some ls /\ lk (leafs w i) = KI32 /\ ~ In z ls /\
  set_any n w i (i32 z) = (w', Ok tt) /\ lval (leafs w' i) = PInt z.
Proof.
  exists 1, (ex_world [Leaf (CInt TI32) KI32 (PInt 1) false false false [] false (Some [1; 2]%Z) false false] []), 0, [1; 2]%Z, 3%Z.
  eexists. repeat (split; [reflexivity|]). split; [intros [H|[H|[]]]; discriminate H|]. split; reflexivity.
Qed.

Print Assumptions C39_forced_value_kept.
Print Assumptions C40_assignment_propagates_partial.
Print Assumptions C41_accepted_partial.
Print Assumptions C41_links.
Print Assumptions C41_disconnect.
Print Assumptions C46_published_literals_partial.
