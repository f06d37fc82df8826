(** What is meant by a breakpoint that is kept. *)
From Coq Require Import ZArith List Bool.
From Verif Require Import Base AnyModel FieldStoreModel FieldStoreSpec SimModel BrkModel.
Import ListNotations.
Local Open Scope nat_scope.

(** The directory is there or can be created, the file can be opened, and the device
    takes all the bytes of the state. *)
Definition healthy (root : obj) (w : world) (d : nat) (e : env) : Prop :=
  (d_dir (w_disk w) d = true \/ e_mkdir e = true) /\ e_open e = true /\
  exists bytes, store_obj (w_mem w) root = Ok bytes /\ length bytes <= e_room e.

(** The operation does not store into the directory [d]. *)
Definition spares (d : nat) (a : op) : Prop :=
  match a with OStore d' _ | ODie d' _ _ _ => d' <> d | _ => True end.

(** The operation does not start the application again. *)
Definition goes_on (a : op) : Prop :=
  match a with ORestart _ | ODie _ _ _ _ => False | _ => True end.

(** Whatever the memory is, Restore from [d] returns with the state as it was in [m]
    and everything else unchanged. *)
Definition gives_back (own : persist -> nat -> Prop) (root : obj) (k : disk) (d : nat) (m : mem) : Prop :=
  forall now, exists m',
    bstep root (World Standby now k) (ORestore d true) = (World Standby m' k, Done) /\
    (forall x, tree_byte own root x -> m' x = m x) /\
    (forall x, ~ tree_byte own root x -> m' x = now x).

(** Restore from [d] raises CannotRestore. *)
Definition refuses (root : obj) (k : disk) (d : nat) : Prop :=
  forall now, exists m',
    bstep root (World Standby now k) (ORestore d true) = (World Restoring m' k, Raised (Smp CannotRestore)).

(** Restore from [d] does on both disks the same. *)
Definition same_breakpoint (root : obj) (k k' : disk) (d : nat) : Prop :=
  forall now r, let (w, o) := bstep root (World Standby now k) (ORestore d r) in
    bstep root (World Standby now k') (ORestore d r) = (World (w_state w) (w_mem w) k', o).

(** The disk that the subscribers of SMP_LeaveStoring and SMP_EnterStandby find at the
    end of a Store. *)
Definition disk_at_leave (root : obj) (w : world) (d : nat) (e : env) : disk :=
  last (sv_leave (save e (writes_obj (w_mem w) root) (w_disk w) d)) (w_disk w).
