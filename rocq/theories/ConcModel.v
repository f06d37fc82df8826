(** The link registry and the event manager used by several threads:
    src/Xsmp/Services/XsmpLinkRegistry.cpp, XsmpEventManager.cpp and
    src/Xsmp/ThreadSafeData.h (locks).

    Each map of a service is protected by a shared mutex; a method is a sequence of
    sections, each under one lock, and the threads interleave between the sections.  A call
    is in progress from its beginning to its return; its next section is its program
    counter.  There is no bound on the number of calls in progress (a thread is a sequence
    of calls, and an entry point executed by Emit may make calls of its own).

    Simplifications: the readers of a map are serialised too; the collection returned by
    GetLinkSources is read at the instant the call finds it (the code returns a pointer
    to a collection that later calls of other threads modify); the log messages are not
    modelled; Store and Restore of the event manager are not called concurrently. *)
From Verif Require Import Base Assoc Text UuidModel EventModel LinkModel ConcSpec.

(** A step of a schedule: a thread begins a call, or the call k performs its next section. *)
Inductive sstep {Op : Type} := Begin (o : Op) | Run (k : nat).
Arguments sstep : clear implicits.

(** The number of calls begun. *)
Definition is_begin {Op} (e : sstep Op) : bool := match e with Begin _ => true | Run _ => false end.
Definition begun {Op} (sch : list (sstep Op)) : nat := length (filter is_begin sch).

(** * Link registry *)

Inductive lpc :=
| PBegin (o : lop)
| PAddTarget (s t : Z)      (* AddLink, _links locked, before _targets.write() *)
| PDrop (s t : Z)           (* RemoveLink, _links unlocked, before _targets.write() *)
| PMake (t : Z)             (* GetLinkSources, before _targets.write() *)
| PEnd (x : lout).          (* about to return *)

Record lstate := LState {
  l_reg : reg;
  l_holder : option nat;               (* the call that keeps _links locked between two sections *)
  l_calls : list (nat * lpc);          (* the calls in progress *)
  l_next : nat;                        (* number of calls begun *)
  l_hist : lhist;                      (* the history *)
  l_done : lorder;                     (* ghost: the calls in the order in which they took effect *)
}.
Definition l_init : lstate := LState reg_init None [] 0 [] [].

Section Link.
Variable name : Z -> list Z.

(** What a section does: new contents of the maps, whether it keeps _links locked, the next
    section, and (ghost) the call and result that take effect. *)
Record lact := LAct { a_reg : reg; a_hold : bool; a_pc : lpc; a_done : option (lop * lout) }.

(** XsmpLinkRegistry.cpp:24-91, one section; [None]: the call waits for a lock or returns. *)
Definition lsection (k : nat) (pc : lpc) (r : reg) (holder : option nat) : option lact :=
  match pc with
  | PBegin (LAdd s t) =>
      (* 29-40: under _links.write() *)
      match holder with
      | Some _ => None
      | None =>
          match aget pair_eqb (s, t) (r_links r) with
          | None => Some (LAct (Reg (atry pair_eqb (s, t) 1 (r_links r)) (r_targets r)) true (PAddTarget s t) None)
          | Some n =>
              Some (LAct (Reg (aset pair_eqb (s, t) ((n + 1) mod u32) (r_links r)) (r_targets r)) false (PEnd LDone)
                     (Some (LAdd s t, LDone)))
          end
      end
  | PAddTarget s t =>
      (* 33-36: under _targets.write(); then _links is unlocked *)
      let targets := atry Z.eqb t [] (r_targets r) in
      match coll_add name s (coll_of t r) with
      | Some l => Some (LAct (Reg (r_links r) (aset Z.eqb t l targets)) false (PEnd LDone) (Some (LAdd s t, LDone)))
      | None => Some (LAct (Reg (r_links r) targets) false (PEnd LDuplicate) (Some (LAdd s t, LDuplicate)))
      end
  | PBegin (LRemove s t) =>
      (* 56-64: under _links.write() *)
      match holder with
      | Some _ => None
      | None =>
          match aget pair_eqb (s, t) (r_links r) with
          | None => Some (LAct r false (PEnd (LBool false)) (Some (LRemove s t, LBool false)))
          | Some n =>
              let n' := (n - 1) mod u32 in
              if n' =? 0 then
                Some (LAct (Reg (adel pair_eqb (s, t) (r_links r)) (r_targets r)) false (PDrop s t)
                       (Some (LRemove s t, LBool true)))
              else
                Some (LAct (Reg (aset pair_eqb (s, t) n' (r_links r)) (r_targets r)) false (PEnd (LBool true))
                       (Some (LRemove s t, LBool true)))
          end
      end
  | PDrop s t =>
      (* 65-69: under _targets.write() *)
      let targets := match aget Z.eqb t (r_targets r) with
                     | Some l => aset Z.eqb t (erase s l) (r_targets r)
                     | None => r_targets r
                     end in
      Some (LAct (Reg (r_links r) targets) false (PEnd (LBool true)) None)
  | PBegin (LGetCount s t) =>
      (* 45-50: under _links.read() *)
      match holder with
      | Some _ => None
      | None => Some (LAct r false (PEnd (LCount (link_count s t r))) (Some (LGetCount s t, LCount (link_count s t r))))
      end
  | PBegin (LGetSources t) =>
      (* 78-84: under _targets.read() *)
      match aget Z.eqb t (r_targets r) with
      | Some l => Some (LAct r false (PEnd (LSources l)) (Some (LGetSources t, LSources l)))
      | None => Some (LAct r false (PMake t) None)
      end
  | PMake t =>
      (* 86-90: under _targets.write() *)
      let r' := Reg (r_links r) (atry Z.eqb t [] (r_targets r)) in
      Some (LAct r' false (PEnd (LSources (coll_of t r'))) (Some (LGetSources t, LSources (coll_of t r'))))
  | PEnd _ => None
  end.

Definition lstep_conc (e : sstep lop) (s : lstate) : lstate :=
  match e with
  | Begin o =>
      LState (l_reg s) (l_holder s) (l_calls s ++ [(l_next s, PBegin o)]) (S (l_next s))
        (l_hist s ++ [Inv (l_next s) o]) (l_done s)
  | Run k =>
      match aget Nat.eqb k (l_calls s) with
      | None => s
      | Some (PEnd x) =>
          LState (l_reg s) (l_holder s) (adel Nat.eqb k (l_calls s)) (l_next s) (l_hist s ++ [Ret k x]) (l_done s)
      | Some pc =>
          match lsection k pc (l_reg s) (l_holder s) with
          | None => s
          | Some a =>
              let holder := match pc with
                            | PAddTarget _ _ => None
                            | _ => if a_hold a then Some k else l_holder s
                            end in
              LState (a_reg a) holder (aset Nat.eqb k (a_pc a) (l_calls s)) (l_next s) (l_hist s)
                (match a_done a with Some (o, x) => l_done s ++ [(k, o, x)] | None => l_done s end)
          end
      end
  end.

Definition lrun_conc (s : lstate) (sch : list (sstep lop)) : lstate := fold_left (fun s e => lstep_conc e s) sch s.

End Link.

(** * Event manager *)

Inductive epc :=
| QBegin (n : option ename)
| QIds (id : Z) (n : ename)         (* QueryEventId, _events unlocked, before _ids.write() *)
| UBegin (o : cop)                  (* Subscribe, Unsubscribe, Emit: before GetEventName *)
| UDo (o : cop)                     (* the name is found; before the lock of _subscriptions *)
| URun (ran todo : list Z)          (* Emit: executing the copied entry points *)
| EEnd (x : cout).

Record estate := EState {
  s_events : list (ename * Z);
  s_ids : list (Z * ename);
  s_subs : list (Z * list Z);
  s_calls : list (nat * epc);
  s_next : nat;
  s_hist : chist;
  s_done : corder;                  (* ghost *)
}.
Definition s_init : estate := EState (e_events em_init) (e_ids em_init) [] [] 0 [] [].

(** What a section does to the three maps. *)
Record eact := EAct {
  b_events : list (ename * Z); b_ids : list (Z * ename); b_subs : list (Z * list Z);
  b_pc : epc; b_done : option (cop * cout) }.

Definition begin_pc (o : cop) : epc := match o with CQuery n => QBegin n | _ => UBegin o end.
Definition id_of (o : cop) : Z := match o with CSub i _ | CUnsub i _ | CEmit i => i | CQuery _ => 0 end.

(** XsmpEventManager.cpp:93-197, one section; [None]: the call returns. *)
Definition esection (pc : epc) (ev : list (ename * Z)) (ids : list (Z * ename)) (subs : list (Z * list Z)) : option eact :=
  match pc with
  | QBegin n =>
      (* 95-110: under _events.write() *)
      match n with
      | None | Some [] => Some (EAct ev ids subs (EEnd (CError 1)) (Some (CQuery n, CError 1)))
      | Some m =>
          match aget ename_eqb m ev with
          | Some id => Some (EAct ev ids subs (EEnd (CId id)) (Some (CQuery n, CId id)))
          | None =>
              let id := Z.of_nat (length ev) + 1 in
              Some (EAct (atry ename_eqb m id ev) ids subs (QIds id m) (Some (CQuery n, CId id)))
          end
      end
  | QIds id m =>
      (* 111-112: under _ids.write() *)
      Some (EAct ev (atry Z.eqb id m ids) subs (EEnd (CId id)) None)
  | UBegin o =>
      (* 115-123 GetEventName: under _ids.read() *)
      match aget Z.eqb (id_of o) ids with
      | None => Some (EAct ev ids subs (EEnd (CError 2)) (Some (o, CError 2)))
      | Some _ => Some (EAct ev ids subs (UDo o) None)
      end
  | UDo (CSub id ep as o) =>
      (* 130-145: under _subscriptions.write() *)
      match aget Z.eqb id subs with
      | Some l =>
          if mem ep l then Some (EAct ev ids subs (EEnd (CError 3)) (Some (o, CError 3)))
          else Some (EAct ev ids (aset Z.eqb id (l ++ [ep]) subs) (EEnd CDone) (Some (o, CDone)))
      | None => Some (EAct ev ids (atry Z.eqb id [ep] subs) (EEnd CDone) (Some (o, CDone)))
      end
  | UDo (CUnsub id ep as o) =>
      (* 160-179: under _subscriptions.write() *)
      match aget Z.eqb id subs with
      | Some l =>
          if mem ep l
          then Some (EAct ev ids (aset Z.eqb id (erase ep l) subs) (EEnd CDone) (Some (o, CDone)))
          else Some (EAct ev ids subs (EEnd (CError 4)) (Some (o, CError 4)))
      | None => Some (EAct ev ids subs (EEnd (CError 4)) (Some (o, CError 4)))
      end
  | UDo (CEmit id as o) =>
      (* 189-194: the copy under _subscriptions.read() *)
      let l := match aget Z.eqb id subs with Some l => l | None => [] end in
      Some (EAct ev ids subs (URun [] l) (Some (o, CRan l)))
  | UDo (CQuery _) => None
  | URun ran todo =>
      (* 195-197: the next turn of the loop *)
      match todo with
      | ep :: todo => Some (EAct ev ids subs (URun (ran ++ [ep]) todo) None)
      | [] => Some (EAct ev ids subs (EEnd (CRan ran)) None)
      end
  | EEnd _ => None
  end.

Definition estep_conc (e : sstep cop) (s : estate) : estate :=
  match e with
  | Begin o =>
      EState (s_events s) (s_ids s) (s_subs s) (s_calls s ++ [(s_next s, begin_pc o)]) (S (s_next s))
        (s_hist s ++ [Inv (s_next s) o]) (s_done s)
  | Run k =>
      match aget Nat.eqb k (s_calls s) with
      | None => s
      | Some (EEnd x) =>
          EState (s_events s) (s_ids s) (s_subs s) (adel Nat.eqb k (s_calls s)) (s_next s)
            (s_hist s ++ [Ret k x]) (s_done s)
      | Some pc =>
          match esection pc (s_events s) (s_ids s) (s_subs s) with
          | None => s
          | Some a =>
              EState (b_events a) (b_ids a) (b_subs a) (aset Nat.eqb k (b_pc a) (s_calls s)) (s_next s) (s_hist s)
                (match b_done a with Some (o, x) => s_done s ++ [(k, o, x)] | None => s_done s end)
          end
      end
  end.

Definition erun_conc (s : estate) (sch : list (sstep cop)) : estate := fold_left (fun s e => estep_conc e s) sch s.
