(** C102: breakpoints on disk. *)
From Coq Require Import ZArith List Bool Lia.
From Verif Require Import Base AnyModel FieldStoreModel FieldStoreSpec FieldStoreProofs SimModel BrkModel BrkSpec BrkProofs.
Import ListNotations.
Local Open Scope nat_scope.

(** A Store during which nothing fails returns in Standby, leaves the simulation
    alone, and from then on, whatever is stored elsewhere, restored, run, failed or
    killed, Restore from that directory brings the state back.

    Missing: that it is enough that Store returns; see the refutation. *)
Theorem C102_kept_partial : forall own root, sound_tree own root -> forall w d e,
  w_state w = Standby -> healthy root w d e ->
  exists w1, bstep root w (OStore d e) = (w1, Done) /\ w_state w1 = Standby /\ w_mem w1 = w_mem w /\
    forall l, Forall (spares d) l -> gives_back own root (w_disk (bsteps root w1 l)) d (w_mem w).
Proof. exact store_kept. Qed.

(** With a stream that holds nothing back it is. *)
Theorem C102_unbuffered : forall own root, sound_tree own root -> forall w d e w1,
  bstep root w (OStore d e) = (w1, Done) ->
  (forall bytes j, store_obj (w_mem w) root = Ok bytes -> length bytes <= e_flush e j) ->
  forall l, Forall (spares d) l -> gives_back own root (w_disk (bsteps root w1 l)) d (w_mem w).
Proof. exact store_eager. Qed.

(** The simulation of the examples: a component with two fields and a contained
    component with one. *)
Definition x_root : obj :=
  Obj None (Some [TySArr true 0 2 None; TySArr true 2 1 None]) (Some [Obj None (Some [TySimple true 4 1 None None]) None]).
Definition x_own (_ : persist) (_ : nat) : Prop := False.
Definition x_mem : mem := fun x => Z.of_nat (100 + x).
Definition x_zero : mem := fun _ => 0%Z.
Definition x_disk : disk := Disk (fun d => d =? 0) (fun _ => None).
Definition x_world : world := World Standby x_mem x_disk.
(** A device with room for [n] bytes; the stream keeps everything until it is closed. *)
Definition x_env (n : nat) : env := Env true true n (fun _ => 0).

Lemma x_sound : sound_tree x_own x_root.
Proof.
  constructor; [discriminate| |].
  - intros l t E. injection E as <-. intros [<-|[<-|[]]]; constructor.
  - intros l o E. injection E as <-. intros [<-|[]]. constructor; [discriminate| |discriminate].
    intros l t E. injection E as <-. intros [<-|[]]. constructor.
Qed.
Lemma x_alert : alert x_root.
Proof.
  constructor; [discriminate|]. intros l o E. injection E as <-. intros [<-|[]]. constructor; discriminate.
Qed.
Definition x_bytes : list Z := Eval vm_compute in (match store_obj x_mem x_root with Ok b => b | _ => [] end).
Lemma by_snd : forall (p : world * outcome) o, snd p = o -> p = (fst p, o).
Proof. intros [w o'] o E. simpl in *. now subst. Qed.
Lemma x_stored : store_obj x_mem x_root = Ok x_bytes.
Proof. reflexivity. Qed.

(** A new directory, a device with just enough room; then a Store elsewhere that
    fails, a new process, and a death during a Store elsewhere. *)
Example C102_kept_example :
  healthy x_root x_world 5 (x_env 32) /\
  Forall (spares 5) [OChange x_zero; OStore 0 (x_env 3); ORestart x_zero; ODie 7 (x_env 32) 4 x_zero; ORestore 7 true] /\
  (exists x, tree_byte x_own x_root x) /\ (exists x, ~ tree_byte x_own x_root x).
Proof.
  split; [|split; [|split]].
  - split; [now right|]. split; [reflexivity|]. exists x_bytes. split; [reflexivity|]. simpl. lia.
  - repeat constructor; simpl; lia.
  - exists 2. eapply tb_field; [right; left; reflexivity|]. constructor. unfold in_range. lia.
  - exists 3. intros T. inversion T as [|p1 l1 c1 t1 x1 I1 B1|p1 f1 l1 o1 x1 I1 B1]; subst.
    + destruct I1 as [<-|[<-|[]]]; inversion B1; subst; unfold in_range in *; lia.
    + destruct I1 as [<-|[]]. inversion B1 as [|p2 l2 c2 t2 x2 I2 B2|]; subst.
      destruct I2 as [<-|[]]. inversion B2; subst; unfold in_range in *; lia.
Qed.

Example C102_unbuffered_example :
  snd (bstep x_root x_world (OStore 5 (Env true true 32 (fun _ => 32)))) = Done /\
  (forall bytes j, store_obj x_mem x_root = Ok bytes -> length bytes <= e_flush (Env true true 32 (fun _ => 32)) j) /\
  snd (bstep x_root x_world (OStore 5 (Env true true 31 (fun _ => 32)))) = Raised (Smp CannotStore).
Proof.
  split; [vm_compute; reflexivity|]. split; [|vm_compute; reflexivity]. intros bytes j E. rewrite x_stored in E. injection E as <-. simpl. lia.
Qed.

(** Store returns although the device did not take the bytes that were still in the
    stream when it was closed: the breakpoint cannot be restored. *)
Theorem C102_kept_refuted : exists own root w d e w1,
  sound_tree own root /\ w_state w = Standby /\
  bstep root w (OStore d e) = (w1, Done) /\ refuses root (w_disk w1) d.
Proof.
  exists x_own, x_root, x_world, 5, (x_env 31), (fst (bstep x_root x_world (OStore 5 (x_env 31)))).
  split; [exact x_sound|]. split; [reflexivity|]. split; [apply by_snd; vm_compute; reflexivity|].
  eapply (prefix_refused x_own x_root x_sound x_alert x_mem x_bytes _ _ (firstn 31 x_bytes) (skipn 31 x_bytes));
    [reflexivity|reflexivity|discriminate|vm_compute; reflexivity].
Qed.

(** A process that dies at any point of a Store, or a Store that fails in any way:
    the breakpoints of the other directories are as before; that of this directory is
    as before, or is the new one, or is refused with CannotRestore: Restore never
    returns with a mixture. *)
Theorem C102_death : forall own root, sound_tree own root -> alert root -> forall w d e i m,
  let k := w_disk (fst (bstep root w (ODie d e i m))) in
  (forall d', d' <> d -> same_breakpoint root (w_disk w) k d') /\
  (same_breakpoint root (w_disk w) k d \/ gives_back own root k d (w_mem w) \/ refuses root k d).
Proof. exact die_cases. Qed.

Theorem C102_failure : forall own root, sound_tree own root -> alert root -> forall w d e,
  let k := w_disk (fst (bstep root w (OStore d e))) in
  (forall d', d' <> d -> same_breakpoint root (w_disk w) k d') /\
  (same_breakpoint root (w_disk w) k d \/ gives_back own root k d (w_mem w) \/ refuses root k d).
Proof. exact store_cases. Qed.

(** All three cases occur. *)
Definition x_full : world := World Standby x_zero (put_file 0 x_bytes x_disk).
Example C102_death_example :
  let at_ i := w_disk (fst (bstep x_root x_full (ODie 0 (x_env 32) i x_mem))) in
  gives_back x_own x_root (at_ 1) 0 x_mem /\ refuses x_root (at_ 2) 0 /\ refuses x_root (at_ 33) 0 /\
  gives_back x_own x_root (at_ 34) 0 x_zero.
Proof.
  cbv zeta.
  assert (E : exists b, store_obj x_zero x_root = Ok b /\ length b = 32) by (eexists; split; reflexivity).
  destruct E as (b & E & L).
  split; [|split; [|split]].
  - apply (whole_gives x_own x_root x_sound x_mem x_bytes); [reflexivity|vm_compute; reflexivity].
  - eapply (prefix_refused x_own x_root x_sound x_alert x_zero b _ _ [] b); [exact E|reflexivity| |vm_compute; reflexivity].
    intros ->. discriminate L.
  - eapply (prefix_refused x_own x_root x_sound x_alert x_zero b _ _ (firstn 31 b) (skipn 31 b)); [exact E|symmetry; apply firstn_skipn| |].
    + intros X. apply (f_equal (@length Z)) in X. rewrite skipn_length, L in X. discriminate X.
    + vm_compute in E. injection E as <-. vm_compute. reflexivity.
  - apply (whole_gives x_own x_root x_sound x_zero b); [exact E|]. vm_compute in E. injection E as <-. vm_compute. reflexivity.
Qed.

(** The former breakpoint is not kept until the new one is there: it is lost when the
    file is opened. *)
Theorem C102_former_kept_refuted : exists own root w d e i m m0,
  sound_tree own root /\ alert root /\ healthy root w d e /\ gives_back own root (w_disk w) d m0 /\
  refuses root (w_disk (fst (bstep root w (ODie d e i m)))) d.
Proof.
  exists x_own, x_root, x_full, 0, (x_env 32), 2, x_zero, x_mem.
  split; [exact x_sound|]. split; [exact x_alert|]. split; [|split].
  - split; [now left|]. split; [reflexivity|]. eexists. split; [reflexivity|]. simpl. lia.
  - apply (whole_gives x_own x_root x_sound x_mem x_bytes); [reflexivity|vm_compute; reflexivity].
  - apply C102_death_example.
Qed.

(** What a Store reports.  A missing directory that cannot be created is reported with
    an exception that is not one of SMP; an exception always leaves the simulator in
    the Storing state. *)
Theorem C102_reports : forall own root, sound_tree own root -> forall w d e, w_state w = Standby ->
  let (w1, o) := bstep root w (OStore d e) in
  w_mem w1 = w_mem w /\
  match o with
  | Ignored => False
  | Done => w_state w1 = Standby /\ (d_dir (w_disk w) d = true \/ e_mkdir e = true) /\ e_open e = true
  | Raised Filesystem =>
      w_state w1 = Storing /\ d_dir (w_disk w) d = false /\ e_mkdir e = false /\ w_disk w1 = w_disk w
  | Raised (Smp x) =>
      w_state w1 = Storing /\ x = CannotStore /\
      (e_open e = false /\ d_file (w_disk w1) = d_file (w_disk w) \/
       exists bytes, store_obj (w_mem w) root = Ok bytes /\ e_room e < length bytes)
  end.
Proof. exact store_reasons. Qed.
Example C102_reports_example :
  snd (bstep x_root x_world (OStore 5 (Env false true 32 (fun _ => 0)))) = Raised Filesystem /\
  snd (bstep x_root x_world (OStore 0 (Env false false 32 (fun _ => 0)))) = Raised (Smp CannotStore) /\
  snd (bstep x_root x_world (OStore 0 (Env false true 5 (fun i => if i =? 2 then 6 else 0)))) = Raised (Smp CannotStore) /\
  snd (bstep x_root x_world (OStore 0 (x_env 0))) = Done.
Proof. vm_compute. repeat split. Qed.

(** Directories.  A Store leaves every other directory as it is; its own directory is
    there afterwards unless it reports that it could not be created.  Whatever happens
    later, deaths included, it stays, so that no later Store to it reports such a
    failure. *)
Theorem C102_directories : forall root w d e, w_state w = Standby ->
  let (w1, o) := bstep root w (OStore d e) in
  (forall d', d' <> d -> d_dir (w_disk w1) d' = d_dir (w_disk w) d') /\
  (o <> Raised Filesystem -> d_dir (w_disk w1) d = true /\
   forall l e', d_dir (w_disk (bsteps root w1 l)) d = true /\
                snd (bstep root (bsteps root w1 l) (OStore d e')) <> Raised Filesystem).
Proof.
  intros root w d e St. assert (H := store_dirs root w d e St).
  destruct (bstep root w (OStore d e)) as [w1 o]. destruct H as [H1 H2]. split; [exact H1|].
  intros N. split; [exact (H2 N)|]. intros l e'. assert (D := dirs_stay root l w1 d (H2 N)).
  split; [exact D|now apply there_no_failure].
Qed.
Example C102_directories_example :
  d_dir (w_disk x_world) 5 = false /\
  (let (w1, o) := bstep x_root x_world (OStore 5 (Env true true 32 (fun _ => 0))) in
   o = Done /\ d_dir (w_disk w1) 5 = true /\
   snd (bstep x_root w1 (OStore 5 (Env false true 32 (fun _ => 0)))) = Done) /\
  snd (bstep x_root x_world (OStore 5 (Env false true 32 (fun _ => 0)))) = Raised Filesystem.
Proof. vm_compute. repeat split. Qed.

(** A simulator in another state than Standby, as after a Store or Restore that
    failed, ignores every further Store and Restore: until the application is started
    again no breakpoint is written any more. *)
Theorem C102_stuck : forall root l w, w_state w <> Standby -> Forall goes_on l ->
  w_state (bsteps root w l) = w_state w /\ w_disk (bsteps root w l) = w_disk w /\
  (forall d e, bstep root (bsteps root w l) (OStore d e) = (bsteps root w l, Ignored)) /\
  (forall d r, bstep root (bsteps root w l) (ORestore d r) = (bsteps root w l, Ignored)).
Proof.
  intros root l w N F. destruct (stuck root l w N F) as [E1 E2]. split; [exact E1|]. split; [exact E2|].
  assert (G : is_standby (w_state (bsteps root w l)) = false) by (rewrite E1; destruct (w_state w); try reflexivity; contradiction).
  split; intros; simpl; unfold do_store, do_restore; now rewrite G.
Qed.
Example C102_stuck_example :
  w_state (fst (bstep x_root x_world (OStore 0 (Env true false 32 (fun _ => 0))))) = Storing /\
  w_state (fst (bstep x_root x_world (ORestore 9 true))) = Restoring.
Proof. vm_compute. split; reflexivity. Qed.

(** The breakpoint is not complete when SMP_LeaveStoring and SMP_EnterStandby are
    emitted: a subscriber that restores from it is refused, although nothing fails. *)
Theorem C102_complete_at_leave_refuted : exists own root w d e w1,
  sound_tree own root /\ w_state w = Standby /\ healthy root w d e /\
  bstep root w (OStore d e) = (w1, Done) /\ gives_back own root (w_disk w1) d (w_mem w) /\
  refuses root (disk_at_leave root w d e) d.
Proof.
  assert (H : healthy x_root x_world 5 (x_env 32)) by apply C102_kept_example.
  destruct (C102_kept_partial x_own x_root x_sound x_world 5 (x_env 32) eq_refl H) as (w1 & B & S1 & M1 & K).
  exists x_own, x_root, x_world, 5, (x_env 32), w1.
  split; [exact x_sound|]. split; [reflexivity|]. split; [exact H|]. split; [exact B|]. split; [exact (K [] (Forall_nil _))|].
  eapply (prefix_refused x_own x_root x_sound x_alert x_mem x_bytes _ _ [] x_bytes); [reflexivity|reflexivity|discriminate|vm_compute; reflexivity].
Qed.

(** A Restore from a file that is not there or cannot be opened raises CannotRestore
    and changes nothing but the state of the simulator. *)
Theorem C102_failed_restore_partial : forall root w d r, w_state w = Standby ->
  d_file (w_disk w) d = None \/ r = false ->
  bstep root w (ORestore d r) = (World Restoring (w_mem w) (w_disk w), Raised (Smp CannotRestore)).
Proof.
  intros root w d r S H. simpl. unfold do_restore. rewrite S. simpl.
  destruct H as [->| ->]; [reflexivity|]. destruct (d_file (w_disk w) d); reflexivity.
Qed.
Example C102_failed_restore_example : d_file (w_disk x_world) 0 = None /\ d_file (w_disk x_full) 0 <> None.
Proof. split; [reflexivity|discriminate]. Qed.

(** In general a Restore that fails does change the simulation: the state before the
    end of the file is that of the breakpoint. *)
Theorem C102_failed_restore_refuted : exists own root w d w1 x,
  sound_tree own root /\ alert root /\ w_state w = Standby /\ tree_byte own root x /\
  bstep root w (ORestore d true) = (w1, Raised (Smp CannotRestore)) /\ w_mem w1 x <> w_mem w x.
Proof.
  exists x_own, x_root, (World Standby x_zero (put_file 0 (firstn 20 x_bytes) x_disk)), 0.
  exists (fst (bstep x_root (World Standby x_zero (put_file 0 (firstn 20 x_bytes) x_disk)) (ORestore 0 true))), 1.
  split; [exact x_sound|]. split; [exact x_alert|]. split; [reflexivity|]. split; [|split; [apply by_snd; vm_compute; reflexivity|vm_compute; discriminate]].
  eapply tb_field; [left; reflexivity|]. constructor. unfold in_range. lia.
Qed.

Print Assumptions C102_kept_partial.
Print Assumptions C102_unbuffered.
Print Assumptions C102_death.
Print Assumptions C102_failure.
Print Assumptions C102_reports.
Print Assumptions C102_stuck.
