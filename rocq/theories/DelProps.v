(** C103: deleting components. *)
From Coq Require Import ZArith List Bool Lia Relations.
From Verif Require Import Base DelModel DelSpec DelProofs.
Import ListNotations.
Local Open Scope Z_scope.

Section Deletion.
  (** Any containers, references and bounds, any parents, any other reason to refuse a
      component, any growth of vectors, any user code. *)
  Variable owner : nat -> Z.
  Variable conts_of : Z -> list nat.
  Variable lower upper rlower rupper : nat -> Z.
  Variable par : Z -> Z.
  Variable refuses : st -> nat -> Z -> bool.
  Variable moves : nat -> bool.
  Variable disc dest : st -> Z -> prog.

  Notation delete := (delete owner conts_of lower upper rlower rupper par refuses moves disc dest).
  Notation top := (top owner conts_of lower upper rlower rupper par refuses moves disc dest).

  (** The states of a program that calls the containers of living components only. *)
  Inductive reached : st -> Prop :=
  | re_start : forall s, fresh s -> reached s
  | re_call : forall n s c s' o, reached s -> on_living owner s c -> top n s c = (s', o) -> o <> Deep -> reached s'.

  (** When every component minds its own containers in Disconnect and in its destructor,
      and destructors do not throw: no call is undefined, in any history; between calls
      the containers hold living components, each once, under its parent.
      Missing: user code that minds the containers of others (refuted below). *)
  Theorem C103_histories_partial : tree_like owner conts_of par -> disciplined owner disc dest ->
    forall s, reached s -> sound owner par s /\ forall n c, on_living owner s c -> snd (top n s c) <> Undef.
  Proof.
    intros T D s R.
    assert (S : sound owner par s).
    { induction R as [s F|n s c s' o R IH L E N]; [now apply fresh_sound|].
      now apply (top_sound owner conts_of lower upper rlower rupper par refuses moves disc dest T D n s c s' o IH L E). }
    split; [exact S|]. intros n c L. destruct (top n s c) as [s' o] eqn:E.
    exact (proj1 (top_sound owner conts_of lower upper rlower rupper par refuses moves disc dest T D n s c s' o S L E)).
  Qed.

  (** DeleteComponent of the component [x] then takes [x] out of its container and keeps
      the others in their order; it destroys [x] and everything inside it, each once
      (sound), and nothing that is not below [x]; containers of other components and all
      references are as before.  If it throws, [x] is still there, alive. *)
  Theorem C103_delete_partial : tree_like owner conts_of par -> disciplined owner disc dest ->
    forall n s k a x b s' o, reached s -> ~ In (owner k) (gone s) -> owner k < next s ->
    cts s k = a ++ x :: b -> delete n s k (length a) = (s', o) ->
    o <> Undef /\
    (o = Fin -> sound owner par s' /\ cts s' k = a ++ b /\
       (forall k', k' <> k -> ~ below par x (owner k') -> cts s' k' = cts s k') /\ refs s' = refs s /\
       (exists l, gone s' = gone s ++ l /\ In x l /\ forall y, In y l -> below par x y) /\
       (forall y, inside owner s x y -> In y (gone s'))) /\
    (forall e, o = Thrown e -> sound owner par s' /\ cts s' k = cts s k /\ ~ In x (gone s')).
  Proof.
    intros T D n s k a x b s' o R N L Ec E. apply (delete_full owner conts_of lower upper rlower rupper par refuses moves disc dest T D n s k a x b); auto.
    now apply C103_histories_partial.
  Qed.

  (** References are left alone, so that none leads to a destroyed component if none led to
      one, or to [x] or something below it, before.
      Missing: references that do (refuted below). *)
  Theorem C103_references_partial : tree_like owner conts_of par -> disciplined owner disc dest ->
    forall n s k a x b s', reached s -> ~ In (owner k) (gone s) -> owner k < next s ->
    cts s k = a ++ x :: b -> delete n s k (length a) = (s', Fin) ->
    (forall r y, In y (refs s r) -> ~ In y (gone s) /\ ~ below par x y) ->
    forall r y, In y (refs s' r) -> ~ In y (gone s').
  Proof.
    intros T D n s k a x b s' R N L Ec E H r y I G.
    destruct (C103_delete_partial T D n s k a x b s' Fin R N L Ec E) as (_ & F & _).
    destruct (F eq_refl) as (_ & _ & _ & F1 & (l & F2 & _ & F3) & _).
    rewrite F1 in I. destruct (H r y I) as [H1 H2]. rewrite F2 in G. apply in_app_iff in G as [G|G]; [contradiction|].
    apply H2. now apply F3.
  Qed.

  (** A deletion ends when Disconnect and the destructors create no component, within a
      depth of calls given by the number of components. *)
  Theorem C103_returns : tree_like owner conts_of par -> disciplined owner disc dest ->
    (forall s c, creates_none (disc s c) /\ creates_none (dest s c)) ->
    forall n s k i, reached s -> ~ In (owner k) (gone s) -> owner k < next s ->
    2 * (next s - owner k) + 2 <= Z.of_nat n -> snd (delete n s k i) <> Deep.
  Proof.
    intros T D F n s k i R N L H.
    apply (delete_ends owner conts_of lower upper rlower rupper par refuses moves disc dest T D F n s k i); auto.
    now apply C103_histories_partial.
  Qed.

  (** If Disconnect and the destructors do nothing of their own, the components end in a
      fixed order: the component itself, then what its containers hold, the container
      declared last first and each container from its last component to its first. *)
  Theorem C103_order : tree_like owner conts_of par -> (forall s c, disc s c = Ret /\ dest s c = Ret) ->
    forall n s k a x b s', reached s -> ~ In (owner k) (gone s) -> owner k < next s ->
    cts s k = a ++ x :: b -> delete n s k (length a) = (s', Fin) ->
    exists l, gone s' = gone s ++ l /\ ends conts_of s x l.
  Proof.
    intros T D n s k a x b s' R N L Ec E.
    assert (D' : disciplined owner disc dest) by (intros s1 c; destruct (D s1 c) as [-> ->]; cbn; auto).
    apply (delete_order owner conts_of lower upper rlower rupper par refuses moves disc dest T D' n s k a x b); auto.
    - intros s1 c. apply D.
    - now apply C103_histories_partial.
    - intros _ s1. apply D.
  Qed.

  (** A deleted component is disconnected, and no component is connected again, whatever
      the user code.  The components inside it are not disconnected: without user code of
      their own they are destroyed while connected. *)
  Theorem C103_disconnected : forall n s k i x s', nth_error (cts s k) i = Some x -> delete n s k i = (s', Fin) ->
    conn s' x = false /\ (forall y, conn s y = false -> conn s' y = false) /\
    ((forall s c, disc s c = Ret /\ dest s c = Ret) -> forall y, y <> x -> conn s' y = conn s y).
  Proof.
    intros n s k i x s' Ex E.
    destruct (proj2 (conn_stays owner conts_of lower upper rlower rupper par refuses moves disc dest n) s k i s' Fin E) as [S F].
    split; [now apply F|]. split; [exact S|]. intros I.
    exact (delete_conn owner conts_of lower upper rlower rupper par refuses moves disc dest n s k i s' x I Ex E).
  Qed.
End Deletion.

(** The examples: the container number k belongs to the component k; component 3 is a child
    of 1, the others are children of 0; no reason to refuse a component but its parent;
    vectors always reallocate. *)
Definition ex_owner (k : nat) : Z := Z.of_nat k.
Definition ex_conts (c : Z) : list nat := if 0 <=? c then [Z.to_nat c] else [].
Definition ex_par (c : Z) : Z := if c =? 3 then 1 else if 0 <? c then 0 else c - 1.
Definition ex_delete := delete ex_owner ex_conts (fun _ => 0) (fun _ => 100) (fun _ => 0) (fun _ => 100) ex_par (fun _ _ _ => false) (fun _ => true).
Definition ex_top := top ex_owner ex_conts (fun _ => 0) (fun _ => 100) (fun _ => 0) (fun _ => 100) ex_par (fun _ _ _ => false) (fun _ => true).
Definition ex_destroy := destroy ex_owner ex_conts (fun _ => 0) (fun _ => 100) (fun _ => 0) (fun _ => 100) ex_par (fun _ _ _ => false) (fun _ => true).
Definition ex_start : st := St (fun _ => []) (fun _ => []) [] [] (fun _ => true) [] 1.
Definition idle (s : st) (c : Z) : prog := Ret.
(** Only component [c] does anything. *)
Definition only (c : Z) (p : prog) (s : st) (x : Z) : prog := if x =? c then p else Ret.
Fixpoint ex_run (disc dest : st -> Z -> prog) (s : st) (cs : list call) : st * outcome :=
  match cs with
  | [] => (s, Fin)
  | c :: r => match ex_top disc dest 9 s c with (s', Fin) => ex_run disc dest s' r | o => o end
  end.

Lemma ex_tree : tree_like ex_owner ex_conts ex_par.
Proof.
  unfold tree_like, ex_owner, ex_conts, ex_par. split; [|split].
  - intros c. destruct (Z.eqb_spec c 3); [lia|]. destruct (Z.ltb_spec 0 c); lia.
  - intros c k. destruct (Z.leb_spec 0 c); cbn; split.
    + intros [<-|[]]. lia.
    + intros <-. left. lia.
    + intros [].
    + intros <-. lia.
  - intros c. destruct (_ <=? _); repeat constructor. intros [].
Qed.

(** Components 1 and 2 in the root, 3 in 1; component 1 creates a child and deletes its first child when
    it is disconnected. *)
Example C103_example :
  let disc := only 1 (Do (CNew 1) (fun _ => Do (CDelete 1 0) (fun _ => Ret))) in
  disciplined ex_owner disc idle /\
  exists s s', ex_run disc idle ex_start [CNew 0; CNew 0; CNew 1] = (s, Fin) /\
    cts s 0%nat = [1; 2] /\ cts s 1%nat = [3] /\ inside ex_owner s 1 3 /\
    ex_delete disc idle 9 s 0%nat 0%nat = (s', Fin) /\ cts s' 0%nat = [2] /\ cts s' 1%nat = [] /\ gone s' = [3; 1].
Proof.
  cbv zeta. split.
  - intros s c. unfold only, idle. destruct (Z.eqb_spec c 1) as [->|N]; cbn; auto.
  - match goal with |- context [ex_run ?d ?e ?s ?c] => exists (fst (ex_run d e s c)); set (s0 := fst (ex_run d e s c)) end.
    match goal with |- context [ex_delete ?d ?e ?n s0 ?k ?i] => exists (fst (ex_delete d e n s0 k i)) end.
    split; [vm_compute; reflexivity|]. split; [vm_compute; reflexivity|]. split; [vm_compute; reflexivity|].
    split; [apply (in_self _ _ _ 1%nat); [reflexivity|vm_compute; now left]|].
    split; [vm_compute; reflexivity|]. split; [vm_compute; reflexivity|]. split; vm_compute; reflexivity.
Qed.

(** The same without the creation: a depth of twelve is enough for the five components. *)
Example C103_returns_example :
  let disc := only 1 (Do (CDelete 1 0) (fun _ => Ret)) in
  disciplined ex_owner disc idle /\ (forall s c, creates_none (disc s c) /\ creates_none (idle s c)) /\
  exists s s', ex_run disc idle ex_start [CNew 0; CNew 0; CNew 1; CNew 0] = (s, Fin) /\ next s = 5 /\
    ex_delete disc idle 12 s 0%nat 0%nat = (s', Fin) /\ gone s' = [3; 1].
Proof.
  cbv zeta. split; [|split].
  - intros s c. unfold only, idle. destruct (Z.eqb_spec c 1) as [->|N]; cbn; auto.
  - intros s c. unfold only, idle. destruct (Z.eqb_spec c 1) as [->|N]; cbn; auto.
  - match goal with |- context [ex_run ?d ?e ?s ?c] => exists (fst (ex_run d e s c)); set (s0 := fst (ex_run d e s c)) end.
    match goal with |- context [ex_delete ?d ?e ?n s0 ?k ?i] => exists (fst (ex_delete d e n s0 k i)) end.
    split; [vm_compute; reflexivity|]. split; [vm_compute; reflexivity|]. split; vm_compute; reflexivity.
Qed.

(** Component 3 ends with component 1, connected. *)
Example C103_disconnected_example : exists s s',
  ex_run idle idle ex_start [CNew 0; CNew 0; CNew 1] = (s, Fin) /\ nth_error (cts s 0%nat) 0 = Some 1 /\
  ex_delete idle idle 9 s 0%nat 0%nat = (s', Fin) /\ gone s' = [1; 3] /\ conn s' 1 = false /\ conn s' 3 = true.
Proof.
  match goal with |- context [ex_run ?d ?e ?s ?c] => exists (fst (ex_run d e s c)); set (s0 := fst (ex_run d e s c)) end.
  match goal with |- context [ex_delete ?d ?e ?n s0 ?k ?i] => exists (fst (ex_delete d e n s0 k i)) end.
  split; [vm_compute; reflexivity|]. split; [vm_compute; reflexivity|]. split; [vm_compute; reflexivity|].
  split; [vm_compute; reflexivity|]. split; vm_compute; reflexivity.
Qed.

(** A reference to component 2 outlives component 1. *)
Example C103_references_example : exists s s',
  ex_run idle idle ex_start [CNew 0; CNew 0; CRef 0 0 1] = (s, Fin) /\ cts s 0%nat = [1; 2] /\ refs s 0%nat = [2] /\
  ex_delete idle idle 9 s 0%nat 0%nat = (s', Fin) /\ gone s' = [1] /\ refs s' 0%nat = [2].
Proof.
  match goal with |- context [ex_run ?d ?e ?s ?c] => exists (fst (ex_run d e s c)); set (s0 := fst (ex_run d e s c)) end.
  match goal with |- context [ex_delete ?d ?e ?n s0 ?k ?i] => exists (fst (ex_delete d e n s0 k i)) end.
  split; [vm_compute; reflexivity|]. split; [vm_compute; reflexivity|]. split; [vm_compute; reflexivity|].
  split; [vm_compute; reflexivity|]. split; vm_compute; reflexivity.
Qed.

(** Components 1, 2, 4 and 5 in the root, 3 in 1: the root ends before 5, 4, 2, 1 and 3. *)
Example C103_order_example : exists s s' l,
  ex_run idle idle ex_start [CNew 0; CNew 0; CNew 1; CNew 0; CNew 0] = (s, Fin) /\ cts s 0%nat = [1; 2; 4; 5] /\
  cts s 1%nat = [3] /\ ends ex_conts s 0 l /\ l = [0; 5; 4; 2; 1; 3] /\
  ex_destroy idle idle 9 s 0 = (s', Fin) /\ gone s' = l.
Proof.
  match goal with |- context [ex_run ?d ?e ?s ?c] => exists (fst (ex_run d e s c)); set (s0 := fst (ex_run d e s c)) end.
  exists (fst (ex_destroy idle idle 9 s0 0)), [0; 5; 4; 2; 1; 3].
  split; [vm_compute; reflexivity|]. split; [vm_compute; reflexivity|]. split; [vm_compute; reflexivity|].
  split; [|split; [reflexivity|split; vm_compute; reflexivity]].
  assert (Leaf : forall c, cts s0 (Z.to_nat c) = [] -> ends ex_conts s0 c [c]).
  { intros c H. apply (ends_one _ _ c []). unfold ex_conts. destruct (0 <=? c); cbn; [rewrite H|]; constructor. }
  apply (ends_one _ _ 0 [[5]; [4]; [2]; [1; 3]]). change (flat_map _ _) with [5; 4; 2; 1].
  repeat constructor; try (apply Leaf; vm_compute; reflexivity).
  apply (ends_one _ _ 1 [[3]]). change (flat_map _ _) with [3]. constructor; [apply Leaf; vm_compute; reflexivity|constructor].
Qed.

(** A component that deletes a sibling in front of it while it is disconnected for its own
    deletion: undefined, for every depth that is enough. *)
Theorem C103_sibling_refuted : exists disc s,
  ex_run disc idle ex_start [CNew 0; CNew 0] = (s, Fin) /\ cts s 0%nat = [1; 2] /\
  forall n, (5 <= n)%nat -> snd (ex_delete disc idle n s 0%nat 1%nat) = Undef.
Proof.
  exists (only 2 (Do (CDelete 0 0) (fun _ => Ret))).
  match goal with |- context [ex_run ?d ?e ?s ?c] => exists (fst (ex_run d e s c)) end.
  split; [vm_compute; reflexivity|]. split; [vm_compute; reflexivity|].
  intros n H. do 5 (destruct n as [|n]; [lia|]). vm_compute. reflexivity.
Qed.

(** A component that creates a sibling then: undefined too, if the vector has to grow. *)
Theorem C103_new_sibling_refuted : exists disc s,
  ex_run disc idle ex_start [CNew 0] = (s, Fin) /\ cts s 0%nat = [1] /\
  forall n, (5 <= n)%nat -> snd (ex_delete disc idle n s 0%nat 0%nat) = Undef.
Proof.
  exists (only 1 (Do (CNew 0) (fun _ => Ret))).
  match goal with |- context [ex_run ?d ?e ?s ?c] => exists (fst (ex_run d e s c)) end.
  split; [vm_compute; reflexivity|]. split; [vm_compute; reflexivity|].
  intros n H. do 5 (destruct n as [|n]; [lia|]). vm_compute. reflexivity.
Qed.

(** A sibling behind it may be deleted. *)
Example C103_later_sibling :
  let disc := only 1 (Do (CDelete 0 1) (fun _ => Ret)) in
  exists s s', ex_run disc idle ex_start [CNew 0; CNew 0] = (s, Fin) /\
    ex_delete disc idle 9 s 0%nat 0%nat = (s', Fin) /\ cts s' 0%nat = [] /\ gone s' = [2; 1].
Proof.
  cbv zeta. match goal with |- context [ex_run ?d ?e ?s ?c] => exists (fst (ex_run d e s c)); set (s0 := fst (ex_run d e s c)) end.
  match goal with |- context [ex_delete ?d ?e ?n s0 ?k ?i] => exists (fst (ex_delete d e n s0 k i)) end.
  split; [vm_compute; reflexivity|]. split; [vm_compute; reflexivity|]. split; vm_compute; reflexivity.
Qed.

(** A component whose destructor creates a sibling, when its parent is destroyed: the
    destructor of the container destroys it twice. *)
Theorem C103_container_refuted : exists dest s,
  ex_run idle dest ex_start [CNew 0] = (s, Fin) /\ cts s 0%nat = [1] /\
  forall n, (6 <= n)%nat -> snd (ex_destroy idle dest n s 0) = Undef.
Proof.
  exists (only 1 (Do (CNew 0) (fun _ => Ret))).
  match goal with |- context [ex_run ?d ?e ?s ?c] => exists (fst (ex_run d e s c)) end.
  split; [vm_compute; reflexivity|]. split; [vm_compute; reflexivity|].
  intros n H. do 6 (destruct n as [|n]; [lia|]). vm_compute. reflexivity.
Qed.

(** References: DeleteComponent leaves the component in every reference, where neither
    GetComponent nor RemoveComponent can be used on it any more. *)
Theorem C103_references_refuted : exists s s',
  ex_run idle idle ex_start [CNew 0; CRef 0 0 0] = (s, Fin) /\ cts s 0%nat = [1] /\ refs s 0%nat = [1] /\
  ex_delete idle idle 9 s 0%nat 0%nat = (s', Fin) /\ In 1 (gone s') /\ refs s' 0%nat = [1] /\
  snd (ex_top idle idle 9 s' (CLook 0 0)) = Undef /\ snd (ex_top idle idle 9 s' (CUnref 0 0)) = Undef.
Proof.
  match goal with |- context [ex_run ?d ?e ?s ?c] => exists (fst (ex_run d e s c)); set (s0 := fst (ex_run d e s c)) end.
  match goal with |- context [ex_delete ?d ?e ?n s0 ?k ?i] => exists (fst (ex_delete d e n s0 k i)) end.
  split; [vm_compute; reflexivity|]. split; [vm_compute; reflexivity|]. split; [vm_compute; reflexivity|].
  split; [vm_compute; reflexivity|]. split; [vm_compute; now left|]. split; [vm_compute; reflexivity|].
  split; vm_compute; reflexivity.
Qed.

Print Assumptions C103_histories_partial.
Print Assumptions C103_delete_partial.
Print Assumptions C103_returns.
