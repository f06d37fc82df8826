(** Model of src/Xsmp/Services/XsmpEventManager.{h,cpp}.

    Event names are byte strings, entry points are identified by an address.  Each
    public method is one atomic step (its data are protected by locks; the interleavings of
    the sections of overlapping calls are the subject of ConcModel); the only
    method that runs foreign code is Emit, which is modelled by a call record: the
    copy of the subscribers that remain to be executed.  The step [ONext k] executes
    the next entry point of the call [k].  Any interleaving of steps is a history:
    nested calls made by the entry points, and calls made by other threads.

    Simplifications: log messages are not modelled; the entry points are executed
    through Helper::SafeExecute, so that an exception does not leave Emit. *)
From Verif Require Import Base Assoc Text UuidModel.

Definition ename := list Z.
Definition ename_eqb : ename -> ename -> bool := list_eqb.

(** IEventManager.h (SMP standard), and the constructor XsmpEventManager.cpp:47-85. *)
Definition predefined : list (ename * Z) :=
  [ (codes "SMP_LeaveConnecting", 1); (codes "SMP_EnterInitialising", 2); (codes "SMP_LeaveInitialising", 3);
    (codes "SMP_EnterStandby", 4); (codes "SMP_LeaveStandby", 5); (codes "SMP_EnterExecuting", 6);
    (codes "SMP_LeaveExecuting", 7); (codes "SMP_EnterStoring", 8); (codes "SMP_LeaveStoring", 9);
    (codes "SMP_EnterRestoring", 10); (codes "SMP_LeaveRestoring", 11); (codes "SMP_EnterExiting", 12);
    (codes "SMP_EnterAborting", 13); (codes "SMP_EpochTimeChanged", 14); (codes "SMP_MissionTimeChanged", 15);
    (codes "SMP_EnterReconnecting", 16); (codes "SMP_LeaveReconnecting", 17);
    (codes "SMP_PreSimTimeChange", 18); (codes "SMP_PostSimTimeChange", 19) ].

(** What is observed of a history. *)
Inductive eev :=
| EvQuery (name : ename) (id : Z)      (** QueryEventId(name) returned id *)
| EvSub (id ep : Z)                    (** Subscribe succeeded *)
| EvUnsub (id ep : Z)                  (** Unsubscribe succeeded *)
| EvEmit (k : nat) (id : Z)            (** call number k of Emit, accepted *)
| EvRun (k : nat) (ep : Z)             (** the call k executes ep *)
| EvEnd (k : nat)                      (** the call k returns *)
| EvError (e : Z).                     (** the call threw *)

(** Exceptions: 1 InvalidEventName, 2 InvalidEventId, 3 EntryPointAlreadySubscribed,
    4 EntryPointNotSubscribed. *)
Record em := Em {
  e_events : list (ename * Z);        (* XsmpEventManager.h _events *)
  e_ids : list (Z * ename);           (* _ids *)
  e_subs : list (Z * list Z);         (* _subscriptions *)
  e_calls : list (nat * list Z);      (* the calls of Emit in progress *)
  e_next : nat;                       (* number of calls of Emit *)
}.

(** XsmpEventManager.cpp:87-90 and 205-209: _ids from _events. *)
Definition ids_of (ev : list (ename * Z)) : list (Z * ename) :=
  fold_left (fun m p => atry Z.eqb (snd p) (fst p) m) ev [].

(** XsmpEventManager.cpp:40-91 constructor. *)
Definition em_init : em :=
  let ev := fold_left (fun m p => atry ename_eqb (fst p) (snd p) m) predefined [] in
  Em ev (ids_of ev) [] [] 0.

(** XsmpEventManager.cpp:93-113 QueryEventId; [None] is the null pointer. *)
Definition query (name : option ename) (s : em) : em * eev :=
  match name with
  | None | Some [] => (s, EvError 1)
  | Some n =>
      match aget ename_eqb n (e_events s) with
      | Some id => (s, EvQuery n id)
      | None =>
          let id := Z.of_nat (length (e_events s)) + 1 in
          (Em (atry ename_eqb n id (e_events s)) (atry Z.eqb id n (e_ids s)) (e_subs s) (e_calls s) (e_next s),
           EvQuery n id)
      end
  end.

Definition mem (x : Z) (l : list Z) : bool := existsb (Z.eqb x) l.

(** vector.erase(find(x)) *)
Fixpoint erase (x : Z) (l : list Z) : list Z :=
  match l with
  | [] => []
  | y :: r => if x =? y then r else y :: erase x r
  end.

(** XsmpEventManager.cpp:125-153 Subscribe. *)
Definition subscribe (id ep : Z) (s : em) : em * eev :=
  match aget Z.eqb id (e_ids s) with
  | None => (s, EvError 2)
  | Some _ =>
      match aget Z.eqb id (e_subs s) with
      | Some l =>
          if mem ep l then (s, EvError 3)
          else (Em (e_events s) (e_ids s) (aset Z.eqb id (l ++ [ep]) (e_subs s)) (e_calls s) (e_next s), EvSub id ep)
      | None =>
          (Em (e_events s) (e_ids s) (atry Z.eqb id [ep] (e_subs s)) (e_calls s) (e_next s), EvSub id ep)
      end
  end.

(** XsmpEventManager.cpp:155-180 Unsubscribe. *)
Definition unsubscribe (id ep : Z) (s : em) : em * eev :=
  match aget Z.eqb id (e_ids s) with
  | None => (s, EvError 2)
  | Some _ =>
      match aget Z.eqb id (e_subs s) with
      | Some l =>
          if mem ep l
          then (Em (e_events s) (e_ids s) (aset Z.eqb id (erase ep l) (e_subs s)) (e_calls s) (e_next s), EvUnsub id ep)
          else (s, EvError 4)
      | None => (s, EvError 4)
      end
  end.

(** XsmpEventManager.cpp:182-194 Emit, up to the copy of the entry points. *)
Definition emit (id : Z) (s : em) : em * eev :=
  match aget Z.eqb id (e_ids s) with
  | None => (s, EvError 2)
  | Some _ =>
      let copy := match aget Z.eqb id (e_subs s) with Some l => l | None => [] end in
      (Em (e_events s) (e_ids s) (e_subs s) (aset Nat.eqb (e_next s) copy (e_calls s)) (S (e_next s)),
       EvEmit (e_next s) id)
  end.

(** XsmpEventManager.cpp:195-197: the next turn of the loop of the call k. *)
Definition next (k : nat) (s : em) : em * list eev :=
  match aget Nat.eqb k (e_calls s) with
  | None => (s, [])
  | Some (ep :: r) =>
      (Em (e_events s) (e_ids s) (e_subs s) (aset Nat.eqb k r (e_calls s)) (e_next s), [EvRun k ep])
  | Some [] =>
      (Em (e_events s) (e_ids s) (e_subs s) (adel Nat.eqb k (e_calls s)) (e_next s), [EvEnd k])
  end.

Inductive eop :=
| OQuery (name : option ename)
| OSub (id ep : Z)
| OUnsub (id ep : Z)
| OEmit (id : Z)
| ONext (k : nat).

Definition estep (o : eop) (s : em) : em * list eev :=
  match o with
  | OQuery n => let '(s, e) := query n s in (s, [e])
  | OSub i p => let '(s, e) := subscribe i p s in (s, [e])
  | OUnsub i p => let '(s, e) := unsubscribe i p s in (s, [e])
  | OEmit i => let '(s, e) := emit i s in (s, [e])
  | ONext k => next k s
  end.

Fixpoint erun (s : em) (os : list eop) : em * list eev :=
  match os with
  | [] => (s, [])
  | o :: r => let '(s1, t1) := estep o s in let '(s2, t2) := erun s1 r in (s2, t1 ++ t2)
  end.

(** XsmpEventManager.cpp:212-215 Store: the two persisted maps (their encoding is the
    subject of C37; entry points are stored as paths and resolved on restore). *)
Definition estore (s : em) : list (ename * Z) * list (Z * list Z) := (e_events s, e_subs s).

(** XsmpEventManager.cpp:201-210 Restore, into the manager [s0]. *)
Definition erestore (st : list (ename * Z) * list (Z * list Z)) (s0 : em) : em :=
  Em (fst st) (ids_of (fst st)) (snd st) (e_calls s0) (e_next s0).
