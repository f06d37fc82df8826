(** Property C84: a cstring owns its own copy of its text. *)
From Coq Require Import ZArith List Bool Arith Lia.
From Verif Require Import Base HelperModel CstrModel CstrSpec CstrProofs.
Import ListNotations.
Local Open Scope nat_scope.

(** Every careful program (no null or unterminated source, none moved from, no object given
    its own c_str(), no failing assignment) is defined, and afterwards exactly the expected
    objects exist, each holding exactly the text it was last given, whatever became of the
    objects and buffers it was copied from. *)
Theorem C84_own_copy_partial : forall ops, careful_program no_texts ops -> exists s, crun cs_init ops = Some s /\
  forall i, (objs s i = None <-> outcome no_texts ops i = None) /\
            (forall t, outcome no_texts ops i = Some (Some t) -> ctext s i = Ok t).
Proof.
  intros ops C. destruct (run_ok ops _ _ inv_init C) as (s & R & V). exists s. split; [exact R|]. intros i. split; [exact (none_iff _ _ i V)|].
  intros t T. apply (read_told s _ (SOf i) t V). cbn. now rewrite T.
Qed.

(** Each block is held by exactly one object at every moment, so it is freed exactly once:
    when no object is left, no block is. *)
Theorem C84_freed_once_partial : forall ops s, careful_program no_texts ops -> crun cs_init ops = Some s ->
  (forall p, heap s p <> None -> exists! i, objs s i = Some (Some p)) /\
  (forall i p, objs s i = Some (Some p) -> heap s p <> None) /\
  ((forall i, outcome no_texts ops i = None) -> forall p, heap s p = None).
Proof.
  intros ops s C R. destruct (run_ok ops _ _ inv_init C) as (s' & R' & V). rewrite R in R'. injection R' as <-.
  split; [|split].
  - intros p H. destruct (inv_owned _ _ V p H) as [i E]. exists i. split; [exact E|]. intros j E'. exact (inv_one _ _ V i j p E E').
  - intros i p E. destruct (holds_live _ _ i p V E) as (b & H & _). congruence.
  - intros N p. destruct (heap s p) eqn:H; [|reflexivity]. destruct (inv_owned _ _ V p ltac:(congruence)) as [i E].
    specialize (N i). apply (none_iff _ _ i V) in N. congruence.
Qed.

(** A constructor that cannot allocate throws and changes nothing. *)
Theorem C84_failed_construction : forall s i v t, objs s i = None -> cread v s = Ok t -> cstep s (CFrom i v true) = (s, Throw CBadAlloc).
Proof. intros s i v t N T. cbn. rewrite N. unfold from_source. rewrite T. reflexivity. Qed.

Definition txt : list Z := [77; 111; 100; 101]%Z.

(** An object that is given its own c_str(), as by publishing again an operation or property
    with the description it already has, reads the block it has just freed; this holds in
    every state. *)
Theorem C84_own_text_refuted :
  (forall s i p fail, objs s i = Some (Some p) -> snd (cstep s (CSet i (SOf i) fail)) = UB) /\
  crun cs_init [CFrom 0 (SExt (txt ++ [0%Z])) false; CSet 0 (SOf 0) false] = None.
Proof.
  split; [|reflexivity]. intros s i p fail E. cbn. unfold set_source. rewrite E. unfold cdelete. destruct (heap s p); [|reflexivity].
  unfold cread. cbn [objs heap]. rewrite E, upd_same. reflexivity.
Qed.

(** When the allocation of an assignment fails the object keeps the address of the freed
    block: its text cannot be read any more and its destructor frees the block again. *)
Theorem C84_failed_assignment_refuted : forall s i p b v s', objs s i = Some (Some p) -> heap s p = Some b ->
  cstep s (CSet i v true) = (s', Throw CBadAlloc) -> ctext s' i = UB /\ snd (cstep s' (CDestroy i)) = UB.
Proof.
  intros s i p b v s' E H S. cbn in S. unfold set_source in S. rewrite E in S. unfold cdelete in S. rewrite H in S.
  destruct (cread v _) as [t|e|] eqn:R; cbn in S; try discriminate; injection S as <-; subst; unfold ctext, cread; cbn; rewrite E; cbn; rewrite upd_same; auto.
Qed.
Example C84_failed_assignment_example :
  snd (cstep (fst (cstep cs_init (CFrom 0 (SExt (txt ++ [0%Z])) false))) (CSet 0 (SExt [65; 0]%Z) true)) = Throw CBadAlloc /\
  crun cs_init [CFrom 0 (SExt (txt ++ [0%Z])) false; CSet 0 (SExt [65; 0]%Z) true; CDestroy 0] = None.
Proof. split; reflexivity. Qed.

(** Copying an object that was moved from is undefined; moving an object to itself loses
    its text; a null pointer is not accepted. *)
Theorem C84_moved_from_refuted :
  (forall s i j fail, objs s i = None -> objs s j = Some None -> snd (cstep s (CCopyNew i j fail)) = UB) /\
  (forall s i p b, objs s i = Some (Some p) -> heap s p = Some b -> objs (fst (cstep s (CMove i i))) i = Some None) /\
  (forall s i fail, objs s i = None -> snd (cstep s (CFrom i SNull fail)) = UB).
Proof.
  split; [|split].
  - intros s i j fail N M. cbn. rewrite N, M. unfold from_source. cbn. rewrite M. reflexivity.
  - intros s i p b E H. cbn. rewrite E. unfold cdelete. rewrite H. cbn. apply upd_same.
  - intros s i fail N. cbn. rewrite N. reflexivity.
Qed.

(** Two objects from one buffer, one of them copied, moved and given another text, the
    first destroyed: the copies keep their texts. *)
Definition ex_ops : list cop :=
  [CFrom 0 (SExt (txt ++ [0; 33]%Z)) false; CCopyNew 1 0 false; CFromSize 2 txt 2 false; CDestroy 0; CMoveNew 3 1;
   CSet 2 (SExt [65; 0]%Z) false; CFrom 4 (SOf 3) false; CAssign 1 3 false; CMove 2 4; CFrom 5 (SOf 2) true; CAssign 3 3 false].
Example C84_example : careful_program no_texts ex_ops /\
  map (outcome no_texts ex_ops) (seq 0 6) = [None; Some (Some txt); Some (Some txt); Some (Some txt); Some None; None].
Proof.
  split; [|reflexivity]. unfold ex_ops. cbn [careful_program careful]. repeat match goal with |- _ /\ _ => split end; try exact I; try reflexivity; try (vm_compute; lia); vm_compute; discriminate.
Qed.
Example C84_all_destroyed : careful_program no_texts [CFrom 0 (SExt [65; 0]%Z) false; CCopyNew 1 0 false; CDestroy 0; CDestroy 1] /\
  forall i, outcome no_texts [CFrom 0 (SExt [65; 0]%Z) false; CCopyNew 1 0 false; CDestroy 0; CDestroy 1] i = None.
Proof.
  split.
  - cbn [careful_program careful]. repeat match goal with |- _ /\ _ => split end; try exact I; try reflexivity; vm_compute; discriminate.
  - intros i. cbn. unfold put. destruct (i =? 1) eqn:A, (i =? 0) eqn:B; reflexivity.
Qed.

Print Assumptions C84_own_copy_partial.
Print Assumptions C84_freed_once_partial.
Print Assumptions C84_failed_assignment_refuted.
