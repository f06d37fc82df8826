(** Model of breakpoints on disk: Simulator::Store and Restore (src/Xsmp/Simulator.cpp:393-484)
    with the files they write and read (src/Xsmp/StorageWriter.cpp, StorageReader.cpp),
    with directories and files that cannot be created or opened, devices that are
    full and processes that die.

    Simplifications: two texts that name the same directory are one directory (a
    number here); the subscribers of the global events do not act (see SimModel.v for
    those that do); a directory whose creation fails is not there; a device that has
    refused bytes refuses all that follow; a process that dies loses what the stream
    has not handed over to the operating system, and nothing else. *)
From Coq Require Import ZArith List Bool.
From Verif Require Import Base AnyModel FieldStoreModel SimModel.
Import ListNotations.
Local Open Scope nat_scope.

(** The calls of IStorageWriter::Store made while an object is stored, in order, and
    the exception that ends them. *)
Definition wr := (list (list Z) * option sexn)%type.
Definition wthen (a b : wr) : wr :=
  match snd a with None => (fst a ++ fst b, snd b) | Some _ => a end.
Definition one (b : list Z) : wr := ([b], None).
Definition none : wr := ([], None).

(** Field.h:389-394, Field.cpp:352-354 and 536-539 *)
Definition w_flag (m : mem) (f : option nat) : wr :=
  match f with None => none | Some a => one (read_mem m a 1) end.

(** Store of a field: Field.h:443-453, 608-615, 816-822, 1156-1162, Field.cpp:573-576,
    Publication/Field.cpp:218-224, 254-258, 423-429, 470-476, 497-501, 651-659, 829-835. *)
Fixpoint writes (m : mem) (t : ftree) : wr :=
  let all :=
    fix all (l : list ftree) : wr :=
      match l with [] => none | x :: r => wthen (writes m x) (all r) end in
  match t with
  | TySimple st a n fo fa =>
      if st then wthen (one (read_mem m a n)) (wthen (w_flag m fo) (w_flag m fa)) else none
  | TySArr st a n fa => if st then wthen (one (read_mem m a n)) (w_flag m fa) else none
  | TyArr st l fa => if st then wthen (all l) (w_flag m fa) else none
  | TyStr st l fa => if st then wthen (all l) (w_flag m fa) else none
  | PbSimple st a k len =>
      if st then
        match simple_size k len with Some n => one (read_mem m a n) | None => ([], Some CannotStore) end
      else none
  | PbSArr st a i n => if st then one (read_mem m a (i * n)) else none
  | PbArr st l => if st then all l else none
  | PbStr st l => if st then all l else none
  | AnArr st l => if st then all l else none
  | AnStr st l => if st then all l else none
  | AnSArr st a k n =>
      if st then
        match kind_size k with
        | Some i => one (read_mem m a (i * n)) | None => ([], Some InvalidPrimitiveType) end
      else none
  end.

Fixpoint writes_fields (m : mem) (l : list ftree) : wr :=
  match l with
  | [] => none
  | x :: r => wthen (one kFIELD) (wthen (writes m x) (writes_fields m r))
  end.

(** Simulator.cpp:363-391, Store.  Simplified: what a component stores itself is one
    call of the writer. *)
Fixpoint writes_obj (m : mem) (o : obj) : wr :=
  match o with
  | Obj p fs cs =>
      wthen (match p with None => none | Some p => wthen (one kPERSIST) (one (p_store p m)) end)
     (wthen (match fs with None => none | Some l => wthen (one kCOMPONENT) (writes_fields m l) end)
            (match cs with
             | None => none
             | Some l =>
                 wthen (one kCOMPOSITE)
                   ((fix all (l : list obj) : wr :=
                       match l with
                       | [] => none
                       | x :: r => wthen (one kCONTAINER) (wthen (writes_obj m x) (all r))
                       end) l)
             end))
  end.

(** What the file system holds: the directories that exist, and the file
    simulator.bin of each. *)
Record disk := Disk { d_dir : nat -> bool; d_file : nat -> option (list Z) }.
Definition make_dir (d : nat) (k : disk) : disk :=
  Disk (fun x => if x =? d then true else d_dir k x) (d_file k).
Definition put_file (d : nat) (f : list Z) (k : disk) : disk :=
  Disk (d_dir k) (fun x => if x =? d then Some f else d_file k x).

(** What the environment decides during one Store: whether a missing directory can be
    created, whether the file can be opened for writing, how many bytes the device
    takes, and how many of the bytes it holds the stream hands over to the operating
    system at each call. *)
Record env := Env { e_mkdir : bool; e_open : bool; e_room : nat; e_flush : nat -> nat }.

(** std::ofstream: what the operating system has, what waits in the buffer, what the
    device still takes; and all the contents the file has had so far. *)
Record stream := Stream { o_file : list Z; o_buffer : list Z; o_room : nat; o_seen : list (list Z) }.

(** The contents of a file while bytes are appended to it. *)
Fixpoint growing (f bytes : list Z) : list (list Z) :=
  match bytes with [] => [] | b :: r => (f ++ [b]) :: growing (f ++ [b]) r end.

(** The stream hands over [n] of the bytes it holds; false when the device does not
    take all of them. *)
Definition hand (n : nat) (s : stream) : stream * bool :=
  let n := Nat.min n (length (o_buffer s)) in
  let k := Nat.min n (o_room s) in
  let b := firstn k (o_buffer s) in
  (Stream (o_file s ++ b) (skipn k (o_buffer s)) (o_room s - k) (o_seen s ++ growing (o_file s) b), k =? n).

(** StorageWriter.cpp:53-63, Store, for the calls of a list *)
Fixpoint write_all (e : env) (i : nat) (l : list (list Z)) (s : stream) : stream * option sexn :=
  match l with
  | [] => (s, None)
  | b :: r =>
      match hand (e_flush e i) (Stream (o_file s) (o_buffer s ++ b) (o_room s) (o_seen s)) with
      | (s1, true) => write_all e (S i) r s1
      | (s1, false) => (s1, Some CannotStore)
      end
  end.

(** Exceptions: those of SMP, and std::filesystem::filesystem_error. *)
Inductive bexn := Smp (x : sexn) | Filesystem.

(** The file a Store writes: the states of the disk after each of its changes, those
    of them that precede LeaveStoring, and the exception.

    StorageWriter.cpp:32-45 createOutputStream: the file is emptied when it is opened.
    The stream is closed by its destructor, at the end of Simulator::Store
    (Simulator.cpp:414-421) or when an exception leaves it, and ignores errors. *)
Record saved := Saved { sv_disks : list disk; sv_leave : list disk; sv_exn : option bexn }.
Definition save (e : env) (w : wr) (k : disk) (d : nat) : saved :=
  if negb (d_dir k d) && negb (e_mkdir e) then Saved [] [] (Some Filesystem)
  else
    let k := make_dir d k in
    if negb (e_open e) then Saved [k] [k] (Some (Smp CannotStore))
    else
      let (s1, x) := write_all e 0 (fst w) (Stream [] [] (e_room e) [[]]) in
      let (s2, _) := hand (length (o_buffer s1)) s1 in
      let on s := k :: map (fun f => put_file d f k) (o_seen s) in
      Saved (on s2) (on s1) (option_map Smp (match x with Some x => Some x | None => snd w end)).

(** The process and the disk. *)
Record world := World { w_state : sst; w_mem : mem; w_disk : disk }.

Inductive op :=
| OStore (d : nat) (e : env)                      (* ISimulator::Store *)
| ORestore (d : nat) (readable : bool)            (* ISimulator::Restore *)
| OChange (m : mem)                               (* the simulation runs *)
| ORestart (m : mem)                              (* the process ends; the application is started again *)
| ODie (d : nat) (e : env) (i : nat) (m : mem).   (* ... during Store, after [i] changes of the disk *)

Inductive outcome := Done | Ignored | Raised (x : bexn).

(** The disk after the first [i] of its changes. *)
Definition after (k : disk) (l : list disk) (i : nat) : disk := last (firstn i l) k.

Section Tree.
  Variable root : obj.   (* the simulator *)

  (** Simulator.cpp:394-421.  The guard also refuses calls made by subscribers of
      LeaveStandby, see SimModel.v. *)
  Definition do_store (d : nat) (e : env) (w : world) : world * outcome :=
    if is_standby (w_state w) then
      let s := save e (writes_obj (w_mem w) root) (w_disk w) d in
      let k := last (sv_disks s) (w_disk w) in
      match sv_exn s with
      | None => (World Standby (w_mem w) k, Done)
      | Some x => (World Storing (w_mem w) k, Raised x)
      end
    else (w, Ignored).

  (** Simulator.cpp:458-484, StorageReader.cpp:28-50 *)
  Definition do_restore (d : nat) (readable : bool) (w : world) : world * outcome :=
    if is_standby (w_state w) then
      match d_file (w_disk w) d with
      | Some f =>
          if readable then
            match restore_obj (w_mem w) root f with
            | (m, Ok _) => (World Standby m (w_disk w), Done)
            | (m, Throw x) => (World Restoring m (w_disk w), Raised (Smp x))
            | (m, UB) => (World Restoring m (w_disk w), Raised (Smp CannotRestore))
            end
          else (World Restoring (w_mem w) (w_disk w), Raised (Smp CannotRestore))
      | None => (World Restoring (w_mem w) (w_disk w), Raised (Smp CannotRestore))
      end
    else (w, Ignored).

  Definition bstep (w : world) (a : op) : world * outcome :=
    match a with
    | OStore d e => do_store d e w
    | ORestore d r => do_restore d r w
    | OChange m => (World (w_state w) m (w_disk w), Done)
    | ORestart m => (World Standby m (w_disk w), Done)
    | ODie d e i m =>
        if is_standby (w_state w) then
          (World Standby m
             (after (w_disk w) (sv_disks (save e (writes_obj (w_mem w) root) (w_disk w) d)) i), Done)
        else (World Standby m (w_disk w), Done)
    end.
  Definition bsteps (w : world) (l : list op) : world := fold_left (fun w a => fst (bstep w a)) l w.
End Tree.
