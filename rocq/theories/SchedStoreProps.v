(** C11: Store and Restore of the scheduler and of the time keeper.  The vocabulary is
    in SchedStoreSpec.v; [run ls] is the simulation after the history [ls]. *)
From Coq Require Import ZArith List Bool Lia.
From Verif Require Import Base PersistModel SchedModel SchedSpec SchedProps SchedStoreModel SchedStoreSpec SchedStoreProofs.
Import ListNotations.
Local Open Scope Z_scope.

(** Whatever the history of the stored simulation and of the one restored into, the
    stored bytes are accepted, exactly they are consumed, and every pending event,
    its identifier, its next and cycle times, its repetitions and its kind, the
    immediate events, the last identifier and the times are back. *)
Theorem C11_everything_stored_is_back : forall E ls m0 rest,
  env_ok E -> storable E (sc (run ls)) ->
  exists m', restore_services E (store_services E (run ls) ++ rest) m0 = Ok (m', rest) /\
    evs (sc m') = evs (sc (run ls)) /\ tbl (sc m') = tbl (sc (run ls)) /\
    imm (sc m') = imm (sc (run ls)) /\ last (sc m') = last (sc (run ls)) /\
    now (sc m') = now (sc (run ls)) /\ epoch0 (sc m') = epoch0 (sc (run ls)) /\
    mission0 (sc m') = mission0 (sc (run ls)).
Proof.
  intros E ls m0 rest H S. exists (with_sched m0 (restored (sc (run ls)) (sc m0))).
  split; [now apply restore_services_back; [|apply sok_run|]|]. repeat split.
Qed.

(** A simulation stored outside of execution and restored into one that is not
    executing either, with the same pending Zulu events, continues as the stored
    one: whatever is done next, the same entry points start at the same times with
    the same identifiers.  Partial: the pending Zulu events (and the permission to set the
    time, see below) must already agree, because they are not stored. *)
Theorem C11_same_future_partial : forall E ls ls0 rest,
  env_ok E -> storable E (sc (run ls)) ->
  standby (run ls) -> standby (run ls0) -> same_unstored (run ls) (run ls0) ->
  exists m', restore_services E (store_services E (run ls) ++ rest) (run ls0) = Ok (m', rest) /\
    same_future (run ls) m'.
Proof.
  intros E ls ls0 rest H S A B U. exists (with_sched (run ls0) (restored (sc (run ls)) (sc (run ls0)))).
  split; [now apply restore_services_back; [|apply sok_run|]|].
  apply alike_future. now apply restored_alike.
Qed.

(** An environment: entry point [o] has the one-character path [o]. *)
Definition demo_env : env :=
  Env (fun o => [o]) (fun p => match p with [o] => o | _ => 0 end) (fun _ => 5) 1000.

Lemma demo_env_ok : env_ok demo_env.
Proof. intros t. cbn. lia. Qed.

(** A hold in the middle of the instant 15 of the history [demo]: event 1 was
    executed, the cyclic event 0 will be executed again at 20. *)
Definition demo_held : list label := firstn 35 demo.

(** A checker of [storable demo_env], used to show that the hypothesis can be met. *)
Definition fitsb (z : Z) : bool := (i64_min <=? z) && (z <=? i64_max).
Definition idb (z : Z) : bool := (0 <=? z) && (z <? 2 ^ 64).
Definition countb {A} (l : list A) : bool := Z.of_nat (length l) <? 2 ^ 64.
Definition eventb (e : event) : bool :=
  (0 <=? ev_ep e) && (ev_ep e <? 256) && fitsb (ev_next e) && fitsb (ev_time e) && fitsb (ev_cycle e) && fitsb (ev_repeat e).
Definition storableb (s : sched) : bool :=
  forallb (fun p => idb (fst p) && eventb (snd p)) (evs s) &&
  forallb (fun p => fitsb (fst p) && countb (snd p) && forallb idb (snd p)) (tbl s) &&
  forallb idb (imm s) && countb (evs s) && countb (tbl s) && countb (imm s) &&
  fitsb (last s) && fitsb (now s) && fitsb (mission0 s) && fitsb (epoch0 s).

Lemma fitsb_ok z : fitsb z = true -> fits z.
Proof. unfold fitsb, fits. rewrite andb_true_iff, !Z.leb_le. auto. Qed.
Lemma idb_ok z : idb z = true -> 0 <= z < 2 ^ 64.
Proof. unfold idb. rewrite andb_true_iff, Z.leb_le, Z.ltb_lt. auto. Qed.
Lemma ids_ok l : forallb idb l = true -> Forall (fun z => 0 <= z < 2 ^ 64) l.
Proof. rewrite forallb_forall, Forall_forall. intros H x I. apply idb_ok, H, I. Qed.

Lemma storableb_ok s : storableb s = true -> storable demo_env s.
Proof.
  unfold storableb. rewrite !andb_true_iff, !forallb_forall.
  intros (((((((((A & B) & C) & D1) & D2) & D3) & F1) & F2) & F3) & F4). unfold countb in *. apply Z.ltb_lt in D1, D2, D3.
  unfold storable. repeat (match goal with |- _ /\ _ => split end); auto; try now apply fitsb_ok.
  - intros id e I. specialize (A _ I). cbn [fst snd] in A. apply andb_true_iff in A as [_ A].
    unfold eventb in A. rewrite !andb_true_iff, Z.leb_le, Z.ltb_lt in A. destruct A as (((((A1 & A2) & A3) & A4) & A5) & A6).
    repeat (match goal with |- _ /\ _ => split | |- storable_event _ _ => split end); try now apply fitsb_ok.
    split; [|split; [|split]]; cbn [demo_env e_path e_mem e_resolve length]; try reflexivity; auto. discriminate.
  - intros id e I. specialize (A _ I). cbn [fst snd] in A. apply andb_true_iff in A as [A _]. now apply idb_ok.
  - intros k l I. specialize (B _ I). cbn [fst snd] in B. rewrite !andb_true_iff, Z.ltb_lt in B. destruct B as ((B1 & B2) & B3).
    split; [now apply fitsb_ok|]. split; [exact B2|now apply ids_ok].
  - apply ids_ok. now apply forallb_forall.
Qed.

Lemma demo_storable : storable demo_env (sc (run demo_held)).
Proof. apply storableb_ok. vm_compute. reflexivity. Qed.

Example C11_example : exists m',
  restore_services demo_env (store_services demo_env (run demo_held)) mach_init = Ok (m', []) /\
  same_future (run demo_held) m' /\
  tr (fold_left mstep (skipn 35 demo) m') = [TEnd 0; TStart 0 20 false; TTime 20; TTime 15].
Proof.
  exists (with_sched mach_init (restored (sc (run demo_held)) (sc mach_init))). split; [|split].
  - rewrite <- (app_nil_r (store_services demo_env (run demo_held))).
    apply restore_services_back; [exact demo_env_ok|apply sok_run|exact demo_storable].
  - apply alike_future. apply (restored_alike demo_held []); repeat split.
  - vm_compute. reflexivity.
Qed.

(** The property fails with Zulu events.  They are stored with the other events,
    but not the table in which the Zulu thread finds them: the restored event is
    never executed. *)
Definition zulu_hist : list label := [LCall (AddZulu 1 100 0 0 50)].
Definition zulu_future : list label := [LZTick 200; LZTau true; LZTau true; LZEnd].

Lemma zulu_storable : storable demo_env (sc (run zulu_hist)).
Proof. apply storableb_ok. vm_compute. reflexivity. Qed.

Theorem C11_zulu_events_refuted : exists E ls m',
  env_ok E /\ storable E (sc (run ls)) /\ standby (run ls) /\
  restore_services E (store_services E (run ls)) mach_init = Ok (m', []) /\
  (** the event is still registered ... *)
  mget 0 (evs (sc m')) = mget 0 (evs (sc (run ls))) /\ mget 0 (evs (sc m')) <> None /\
  (** ... it is executed in the original and not in the restored simulation ... *)
  tr (fold_left mstep zulu_future (run ls)) = TEnd 0 :: TZulu 0 100 200 :: tr (run ls) /\
  tr (fold_left mstep zulu_future m') = [] /\
  ~ same_future (run ls) m'.
Proof.
  exists demo_env, zulu_hist, (with_sched mach_init (restored (sc (run zulu_hist)) (sc mach_init))).
  split; [exact demo_env_ok|]. split; [exact zulu_storable|]. split; [repeat split|]. split.
  { rewrite <- (app_nil_r (store_services demo_env (run zulu_hist))).
    apply restore_services_back; [exact demo_env_ok|apply sok_run|exact zulu_storable]. }
  split; [reflexivity|]. split; [discriminate|]. split; [vm_compute; reflexivity|]. split; [vm_compute; reflexivity|].
  intros F. destruct (F zulu_future) as (n & A & B & _). vm_compute in B. 
  destruct n; [|discriminate]. vm_compute in A. discriminate.
Qed.

(** ... and no continuation in which no Zulu event is posted or re-timed executes it:
    it is lost, not late. *)
Definition no_zulu_call (l : label) : Prop :=
  match l with
  | LCall (AddZulu _ _ _ _ _) | LCall (SetZulu _ _ _) | LCall (Remove _) => False
  | _ => True
  end.

Theorem C11_zulu_events_lost : forall E ls rest m', env_ok E -> storable E (sc (run ls)) ->
  restore_services E (store_services E (run ls) ++ rest) mach_init = Ok (m', rest) ->
  forall fut, Forall no_zulu_call fut ->
  forall id t z, ~ In (TZulu id t z) (tr (fold_left mstep fut m')).
Proof.
  intros E ls rest m' H S R. rewrite restore_services_back in R; [|exact H|apply sok_run|exact S].
  injection R as <-. exact (zulu_lost (sc (run ls))). 
Qed.

(** A hold requested while the time is about to change leaves the simulation time
    open to SetSimulationTime; this is not stored either. *)
Theorem C11_time_window_refuted : exists E ls m',
  env_ok E /\ storable E (sc (run ls)) /\ standby (run ls) /\ ztbl (sc (run ls)) = [] /\
  restore_services E (store_services E (run ls)) mach_init = Ok (m', []) /\
  now (sc (fold_left mstep [LCall (TKSetSim 7)] (run ls))) = 7 /\
  now (sc (fold_left mstep [LCall (TKSetSim 7)] m')) = 0.
Proof.
  set (ls := [LCall (AddSim 1 10 0 0); LRun; LTau; LHold; LTau]).
  assert (S : storable demo_env (sc (run ls))) by (apply storableb_ok; vm_compute; reflexivity).
  exists demo_env, ls, (with_sched mach_init (restored (sc (run ls)) (sc mach_init))).
  split; [exact demo_env_ok|]. split; [exact S|]. split; [repeat split|]. split; [reflexivity|]. split.
  { rewrite <- (app_nil_r (store_services demo_env (run ls))).
    apply restore_services_back; [exact demo_env_ok|apply sok_run|exact S]. }
  split; vm_compute; reflexivity.
Qed.

Print Assumptions C11_everything_stored_is_back.
Print Assumptions C11_same_future_partial.
Print Assumptions C11_zulu_events_refuted.
Print Assumptions C11_zulu_events_lost.
Print Assumptions C11_time_window_refuted.
