(** Theorems about the helpers: C27, C30, C54, C61. *)
From Verif Require Import Base Text HelperModel HelperSpec HelperProofs.

(** C27: for every memory block holding a NUL-terminated string, checkName reads no byte
    past the terminator, returns the string unchanged when it is a valid name, and throws
    otherwise; it throws on a null pointer. *)
Theorem C27_names_are_the_grammar : forall block s, cstring block s ->
  (valid_name s -> check_name (Some block) = Ok s) /\
  (~ valid_name s -> exists e, check_name (Some block) = Throw e) /\
  (exists e, check_name None = Throw e).
Proof.
  intros block s C. split; [|split; [|cbn; eauto]].
  all: destruct (check_name_ok block s C) as [[E V]|[[e E] V]]; intros H; eauto; contradiction.
Qed.

(** A valid name contains none of the characters that separate path segments, except a
    bracket at its start. *)
Theorem C27_names_have_no_separators : forall s, valid_name s ->
  s <> [] /\ ~ In 46 s /\ ~ In 47 s /\ ~ In 0 s /\ ~ In 91 (tl s).
Proof.
  intros s [c r L F|r N F]; cbn [tl].
  - assert (X : forall x, In x r -> letter x \/ digit x \/ x = 95) by now apply Forall_forall.
    unfold letter, digit in *. repeat split; try discriminate; intros I.
    1-3: destruct I as [->|I]; [lia|]. all: apply X in I; lia.
  - assert (X : forall x, In x r -> digit x) by now apply Forall_forall.
    unfold digit in X. repeat split; try discriminate; intros I.
    1-3: destruct I as [E|I]; [lia|]. all: apply in_app_iff in I as [I|[I|[]]]; [apply X in I; lia|lia].
Qed.

Example C27_witness :
  check_name (Some (codes "speed_2" ++ [0; 7])) = Ok (codes "speed_2") /\ valid_name (codes "speed_2") /\
  check_name (Some (codes "[42]" ++ [0])) = Ok (codes "[42]") /\
  check_name (Some (codes "[4][3]" ++ [0])) = Throw (BadEnd (codes "[4]")) /\
  check_name (Some (codes "[4" ++ [0])) = Throw (NeedsClosing (codes "[4")) /\
  check_name (Some (codes "_a" ++ [0])) = Throw (BadStart (codes "_a")) /\
  check_name (Some [0]) = Throw (BadStart []) /\
  cstring (codes "speed_2" ++ [0; 7]) (codes "speed_2").
Proof.
  split; [reflexivity|]. split.
  { change (codes "speed_2") with [115; 112; 101; 101; 100; 95; 50]. apply vn_ident; [unfold letter; lia|]. repeat constructor; unfold letter, digit; lia. }
  do 5 (split; [reflexivity|]). split; [now exists [7]|]. cbn. lia.
Qed.

(** C30: CopyString with a destination of at least size + 1 bytes stays inside it, writes
    the longest prefix of the source that has at most [size] bytes, terminates it, and
    leaves the bytes after the terminator alone; a null source gives the empty string. *)
Theorem C30_copy_fits_and_terminates : forall dst size block s, cstring block s -> (size < length dst)%nat ->
  (exists p rest, copy_string dst size (Some block) = Some (p ++ 0 :: rest) /\
     longest_prefix p s size /\ ~ In 0 p /\ rest = skipn (S (length p)) dst) /\
  copy_string dst size None = Some (0 :: skipn 1 dst).
Proof.
  intros dst size block s C H. split.
  - exists (firstn size s), (skipn (S (length (firstn size s))) dst). split; [apply copy_string_ok; [assumption|lia]|].
    split; [apply firstn_longest|]. split; [|reflexivity].
    intros I. apply C. rewrite <- (firstn_skipn size s). apply in_or_app. auto.
  - destruct dst; [cbn in H; lia|reflexivity].
Qed.

(** Every caller in the code base gives CopyString such a destination. *)
Theorem C30_callers_give_room : forall c dst block s, (forall m, c = CharArray m -> (0 < m)%nat) ->
  length dst = caller_bytes c -> cstring block s ->
  exists p rest, copy_string dst (caller_size c) (Some block) = Some (p ++ 0 :: rest) /\ longest_prefix p s (caller_bytes c - 1).
Proof.
  intros c dst block s M L C.
  assert (E : caller_size c = (caller_bytes c - 1)%nat) by (destruct c; cbn; lia). rewrite <- E.
  destruct (C30_copy_fits_and_terminates dst (caller_size c) block s C) as [(p & r & H & P & _) _]; [|eauto].
  rewrite L. destruct c; cbn; [lia| |lia]. specialize (M m eq_refl). lia.
Qed.

(** The documentation of CopyString (include/Xsmp/Helper.h:96-103) says that size is the
    total size of the destination including the terminator.  Used that way it writes one
    byte past the destination whenever the source has at least size bytes. *)
Theorem C30_documented_size_overruns : forall dst block s, cstring block s -> (length dst <= length s)%nat ->
  copy_string dst (length dst) (Some block) = None.
Proof. intros. apply copy_string_overrun with s; [assumption|lia]. Qed.

Example C30_witness :
  copy_string [9; 9; 9; 9] 3 (Some (codes "hello" ++ [0])) = Some (codes "hel" ++ [0]) /\
  copy_string [9; 9; 9; 9] 3 (Some (codes "a" ++ [0])) = Some (codes "a" ++ [0; 9; 9]) /\
  copy_string [9; 9; 9; 9] 4 (Some (codes "hello" ++ [0])) = None /\
  copy_string [9; 9; 9; 9] 4 (Some (codes "abc" ++ [0])) = Some (codes "abc" ++ [0]) /\
  cstring (codes "hello" ++ [0]) (codes "hello").
Proof. do 4 (split; [reflexivity|]). split; [now exists []|cbn; lia]. Qed.

(** C54: on fields made of simple fields, simple arrays, arrays and structures,
    AreEquivalent is an equivalence relation ... *)
Theorem C54_equivalence_relation :
  (forall a, known a -> are_equivalent a a = true) /\
  (forall a b, are_equivalent a b = true -> are_equivalent b a = true) /\
  (forall a b c, are_equivalent a b = true -> are_equivalent b c = true -> are_equivalent a c = true).
Proof.
  repeat split.
  - intros a K. apply are_equivalent_ok. apply shape_refl; [intros; exact I|assumption].
  - intros a b H. apply are_equivalent_ok in H. apply are_equivalent_ok. revert H. apply shape_sym. intros; exact I.
  - intros a b c H H'. apply are_equivalent_ok in H, H'. apply are_equivalent_ok. revert H H'. apply shape_trans. intros; exact I.
Qed.

(** ... which accepts exactly the pairs of the same shape up to the item kinds of the
    simple arrays: number of items, number and order of structure fields and kinds of
    simple fields agree at every depth. *)
Theorem C54_same_shape_partial : forall a b, are_equivalent a b = true <-> same_shape (fun _ _ => True) a b.
Proof. apply are_equivalent_ok. Qed.

(** The item kinds are not compared: an array of Int8 (kind 3) and an array of Float64
    (kind 11) are "equivalent", although their shapes differ. *)
Theorem C54_same_shape_refuted : exists a b, are_equivalent a b = true /\ ~ same_shape eq a b.
Proof. exists (FSimpleArray 4 3), (FSimpleArray 4 11). split; [reflexivity|]. inversion 1; discriminate. Qed.

(** Two fields without simple arrays are equivalent exactly when they have the same shape. *)
Inductive no_simple_array : field -> Prop :=
| ns_simple : forall k, no_simple_array (FSimple k)
| ns_array : forall l, Forall no_simple_array l -> no_simple_array (FArray l)
| ns_struct : forall l, Forall no_simple_array l -> no_simple_array (FStruct l).
Theorem C54_same_shape_without_simple_arrays : forall a b, no_simple_array a ->
  (are_equivalent a b = true <-> same_shape eq a b).
Proof.
  assert (L : forall P Q : field -> field -> Prop, forall l, Forall (fun x => forall b, P x b -> Q x b) l ->
             forall l', Forall2 P l l' -> Forall2 Q l l')
    by (intros P Q l F; induction F; intros l' X; inversion X; subst; constructor; auto).
  intros a b N. rewrite are_equivalent_ok. split; revert b.
  - induction a as [k|n k|l IH|l IH|] using field_ind2; intros b X; inversion N; subst; inversion X; subst; constructor.
    all: eapply L; [|eassumption]; rewrite Forall_forall in *; eauto.
  - clear N. induction a as [k|n k|l IH|l IH|] using field_ind2; intros b X; inversion X; subst; constructor; try exact I.
    all: eapply L; eassumption.
Qed.

Example C54_witness :
  let a := FStruct [FSimple 3; FArray [FStruct [FSimple 11]; FStruct [FSimple 11]]; FSimpleArray 4 7] in
  let b := FStruct [FSimple 3; FArray [FStruct [FSimple 11]; FStruct [FSimple 3]]; FSimpleArray 4 7] in
  known a /\ are_equivalent a a = true /\ are_equivalent a b = false /\ are_equivalent b a = false /\
  are_equivalent (FArray []) (FStruct []) = false /\ are_equivalent FOther FOther = false.
Proof. cbn zeta. split; [repeat constructor|]. repeat split. Qed.

(** C61: IsAncestor(a, o) ends on every finite parent chain and answers whether a is o or
    one of the ancestors of o; it is false when either pointer is null. *)
Theorem C61_is_ancestor_exact : forall (A : Type) eqb (parent : A -> option A) (rank : A -> nat),
  (forall x y, eqb x y = true <-> x = y) ->
  (forall o p, parent o = Some p -> (rank p < rank o)%nat) ->
  forall a o, exists b, is_ancestor eqb parent (S (rank o)) (Some a) (Some o) = Some b /\
    (b = true <-> ancestor_or_self parent a o).
Proof.
  intros A eqb parent rank E R a o.
  destruct (is_ancestor eqb parent (S (rank o)) (Some a) (Some o)) as [b|] eqn:H.
  - exists b. split; [reflexivity|]. eapply is_ancestor_sound; eassumption.
  - exfalso. revert H. apply is_ancestor_ends with rank; [assumption|lia].
Qed.
Theorem C61_is_ancestor_null : forall (A : Type) eqb (parent : A -> option A) n a o,
  is_ancestor eqb parent n None o = Some false /\ is_ancestor eqb parent n (Some a) None = Some false.
Proof. intros. destruct n; split; reflexivity. Qed.

Example C61_witness :
  let parent := fun o : nat => match o with O => None | S p => Some p end in
  is_ancestor Nat.eqb parent 5 (Some 2%nat) (Some 4%nat) = Some true /\
  is_ancestor Nat.eqb parent 5 (Some 4%nat) (Some 2%nat) = Some false.
Proof. split; reflexivity. Qed.

Print Assumptions C27_names_are_the_grammar.
Print Assumptions C30_copy_fits_and_terminates.
Print Assumptions C54_equivalence_relation.
