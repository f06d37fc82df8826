(** C42: fields and C67: the component tree through Store and Restore. *)
From Coq Require Import ZArith List Bool Lia.
From Verif Require Import Base AnyModel FieldStoreModel FieldStoreSpec FieldStoreProofs.
Import ListNotations.
Local Open Scope nat_scope.

(** * C42 *)

(** Every field can be stored; restoring it later, whatever the memory has become,
    gives every state byte its value back, leaves every other byte alone and
    consumes exactly what was written. *)
Theorem C42_round_trip : forall t, creatable t -> forall m, exists bytes, store m t = Ok bytes /\
  forall now rest, exists m',
    restore now t (bytes ++ rest) = (m', Ok rest) /\
    (forall x, state_byte t x -> m' x = m x) /\
    (forall x, ~ state_byte t x -> m' x = now x).
Proof.
  intros t C m. destruct (field_round_trip t C m) as (b & E & H). exists b. split; [exact E|].
  intros now rest. destruct (H now rest) as (m' & R & B). exists m'. split; [exact R|].
  split; intros x Hx; destruct (B x) as (B1 & B2 & _); auto.
Qed.

(** What is written depends on the state only. *)
Theorem C42_stores_state_only : forall t, creatable t -> forall m m',
  (forall x, state_byte t x -> m x = m' x) -> store m t = store m' t.
Proof. exact store_same. Qed.

(** A transient field writes and reads nothing. *)
Theorem C42_transient : forall t, creatable t -> (forall x, ~ state_byte t x) ->
  forall m now s, store m t = store now t /\ forall m' r, restore now t s = (m', r) -> forall x, m' x = now x.
Proof.
  intros t C N m now s. split; [apply store_same; [exact C|]; intros x H; now apply N in H|].
  intros m' r E x. destruct (tree_segs t C) as [_ E2]. rewrite E2 in E.
  destruct (run_segs_any (segs t) now s) as (m1 & E1 & O). rewrite E1 in E. injection E as <- _.
  apply O. intros G. apply (N x). now apply state_byte_segs.
Qed.

(** A truncated file is noticed; no byte outside the state is touched. *)
Theorem C42_truncated : forall t, creatable t -> forall m bytes now s r,
  store m t = Ok bytes -> bytes = s ++ r -> r <> [] ->
  exists m', restore now t s = (m', Throw CannotRestore) /\ forall x, ~ state_byte t x -> m' x = now x.
Proof. exact field_truncated. Qed.

(** A structure with a forcible field, a failure, a transient field and a published
    string. *)
Definition ex_tree : ftree :=
  TyStr true
    [TySimple true 0 4 (Some 10) None; TySimple false 4 4 (Some 11) (Some 12);
     PbSimple true 20 KString8 (Some 2); TyArr true [TySArr true 30 2 (Some 32)] None] (Some 13).

Example C42_example :
  creatable ex_tree /\
  let m := fun x => Z.of_nat (100 + x) in
  store m ex_tree = Ok [100; 101; 102; 103; 110; 120; 121; 122; 130; 131; 132; 113]%Z /\
  exists m', restore (fun _ => 0%Z) ex_tree [100; 101; 102; 103; 110; 120; 121; 122; 130; 131; 132; 113; 7]%Z = (m', Ok [7]%Z) /\
    map m' (seq 0 14) = [100; 101; 102; 103; 0; 0; 0; 0; 0; 0; 110; 0; 0; 113]%Z.
Proof.
  split.
  - constructor. intros t [<-|[<-|[<-|[<-|[]]]]]; constructor. intros t [<-|[]]. constructor.
  - split; [reflexivity|]. eexists. split; reflexivity.
Qed.

(** The bytes of the transient field are not in the state. *)
Example C42_example_transient : state_byte ex_tree 2 /\ state_byte ex_tree 13 /\ ~ state_byte ex_tree 5 /\ ~ state_byte ex_tree 12.
Proof.
  assert (C : creatable ex_tree) by apply C42_example.
  rewrite !(state_byte_segs ex_tree C). split; [|split; [|split]].
  - exists (0, 4). split; [now left|]. unfold in_range. simpl. lia.
  - exists (13, 1). split; [simpl; tauto|]. unfold in_range. simpl. lia.
  - intros (g & I & R). simpl in I. unfold in_range in R.
    destruct I as [<-|[<-|[<-|[<-|[<-|[<-|[]]]]]]]; simpl in R; lia.
  - intros (g & I & R). simpl in I. unfold in_range in R.
    destruct I as [<-|[<-|[<-|[<-|[<-|[<-|[]]]]]]]; simpl in R; lia.
Qed.

(** * C67 *)

(** Storing the tree and restoring it, whatever has happened to the memory in
    between, brings back the state of every field of every component, and the state
    the components store themselves, and nothing else. *)
Theorem C67_tree_round_trip : forall own o, sound_tree own o ->
  forall m, exists bytes, store_obj m o = Ok bytes /\
    forall now rest, exists m', restore_obj now o (bytes ++ rest) = (m', Ok rest) /\
      (forall x, tree_byte own o x -> m' x = m x) /\
      (forall x, ~ tree_byte own o x -> m' x = now x).
Proof.
  intros own o S m. destruct (obj_back own o S m) as (b & E & H). exists b. split; [exact E|].
  intros now rest. destruct (H now rest) as (m' & R & B). exists m'. split; [exact R|].
  split; intros x Hx; destruct (B x) as (B1 & B2 & _); auto.
Qed.

(** A truncated file ends in CannotRestore. *)
Theorem C67_truncated : forall own o, sound_tree own o -> alert o ->
  forall m bytes now s r, store_obj m o = Ok bytes -> bytes = s ++ r -> r <> [] ->
    exists m', restore_obj now o s = (m', Throw CannotRestore).
Proof. intros own o S A m bytes now s r. exact (obj_short own o S A m bytes now s r). Qed.

(** A file that does not begin with the marker the object expects is refused before
    anything is restored. *)
Theorem C67_wrong_marker : forall now p fs cs s,
  (exists q, p = Some q) -> (forall r, s <> kPERSIST ++ r) ->
  restore_obj now (Obj p fs cs) s = (now, Throw CannotRestore).
Proof.
  intros now p fs cs s (q & ->) N. rewrite restore_obj_eq. unfold restore_own, check.
  destruct (length s <? 4) eqn:L; [reflexivity|].
  destruct (list_eq_dec Z.eq_dec (firstn 4 s) kPERSIST) as [E|E]; [|reflexivity].
  exfalso. apply (N (skipn 4 s)). rewrite <- E. symmetry. apply firstn_skipn.
Qed.

Definition ex_persist : persist :=
  Persist (fun m => [m 50]) (fun m s => restore_bytes m 50 1 s).
Definition ex_obj : obj :=
  Obj None None (Some [Obj (Some ex_persist) (Some [ex_tree]) (Some [Obj None (Some []) None]); Obj None None None]).

Example C67_example : sound_tree (fun p x => p = ex_persist /\ x = 50) ex_obj /\ alert ex_obj.
Proof.
  assert (Pq : forall m now rest, exists m', p_restore ex_persist now (p_store ex_persist m ++ rest) = (m', Ok rest) /\
    brought_back (fun x => ex_persist = ex_persist /\ x = 50) m now m').
  { intros m now rest. simpl. eexists. split; [exact (restore_bytes_ok m now 50 1 rest)|].
    eapply bb_iff; [|apply bb_range]. intros x. unfold in_range. split; [intros H; split; [reflexivity|lia]|intros [_ ->]; lia]. }
  split.
  - constructor; [discriminate|discriminate|]. intros l o E; injection E as <-; intros [<-|[<-|[]]].
    + constructor; [|intros l t E; injection E as <-; intros [<-|[]]; apply C42_example|].
      * intros q E. injection E as <-. exact Pq.
      * intros l o E. injection E as <-. intros [<-|[]]. constructor; [discriminate|intros l t E; injection E as <-; intros []|discriminate].
    + constructor; discriminate.
  - constructor; [discriminate|]. intros l o E; injection E as <-; intros [<-|[<-|[]]].
    + constructor.
      * intros q E. injection E as <-. intros m now s L _. simpl in L. destruct s; simpl in L; [|lia].
        simpl. eexists. reflexivity.
      * intros l o E. injection E as <-. intros [<-|[]]. constructor; discriminate.
    + constructor; discriminate.
Qed.

Example C67_example_run :
  let m := fun x => Z.of_nat (100 + x) in
  match store_obj m ex_obj with
  | Ok b => length b = 49 /\
            match restore_obj (fun _ => 0%Z) ex_obj b with
            | (m', Ok []) => m' 50 = 150%Z /\ m' 13 = 113%Z /\ m' 5 = 0%Z
            | _ => False
            end
  | _ => False
  end.
Proof. vm_compute. repeat split. Qed.

(** The markers do not tell trees apart: the file of a component with two fields is
    accepted by one with a single, longer field. *)
Theorem C67_foreign_tree_accepted : exists m bytes m',
  store_obj m (Obj None (Some [TySArr true 0 1 None; TySArr true 1 1 None]) None) = Ok bytes /\
  restore_obj m (Obj None (Some [TySArr true 10 6 None]) None) bytes = (m', Ok []) /\
  m 10 <> m' 10.
Proof.
  exists (fun x => if Nat.eqb x 0 then 9%Z else 0%Z). eexists. eexists.
  split; [reflexivity|]. split; [reflexivity|]. discriminate.
Qed.

Print Assumptions C42_round_trip.
Print Assumptions C67_tree_round_trip.
Print Assumptions C67_truncated.
