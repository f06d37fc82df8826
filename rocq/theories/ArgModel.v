(** The arguments of events: include/Xsmp/EventSource.h:78-172, include/Xsmp/EventSink.h:52-156,
    src/Xsmp/EventSource.cpp:46-108 and src/Xsmp/EventSink.cpp:46-66.

    Simplified: the functions of the sinks return without calling the source (SinkModel has
    sinks that do) and without throwing; what they receive is recorded. *)
From Verif Require Import Base UuidModel AnyModel HelperModel FlowModel.
From Coq Require Import ZArith List Bool.
Import ListNotations.
Local Open Scope Z_scope.

(** The template argument: void, ::Smp::String8 or another simple type. *)
Inductive ety := EVoid | EString8 | EVal (c : cty).

(** A sink or a source: the template argument and the kind given to the constructor. *)
Record port := Port { ptype : ety; pgiven : kind }.

(** GetEventArgType: EventSink.h:92-94, EventSink.cpp:46-48, EventSource.cpp:68-70, 90-97. *)
Definition pkind (p : port) : kind := match ptype p with EVoid => KNone | _ => pgiven p end.

(** What a function receives: nothing, or a value. *)
Inductive received := RVoid | RVal (v : payload).

(** EventSink.h:102-104 and EventSink.cpp:60-66, Notify: conversion of the argument, then
    the function. *)
Definition notify (s : port) (a : any) : res any_exn received :=
  match ptype s with
  | EVoid => if kind_eqb (atype a) KNone then Ok RVoid else Throw InvalidAnyType
  | EString8 => bind (get_str a) (fun s => Ok (RVal (PStr s)))
  | EVal c => bind (from_any c a) (fun v => Ok (RVal v))
  end.

(** EventSource.h:107-110 and EventSource.cpp:99-101: the AnySimple that Emit builds.
    [v] is a value of the template argument. *)
Definition argument (s : port) (v : payload) : res any_exn any :=
  match ptype s with
  | EVoid => Ok (Any KNone PNothing)
  | EString8 => match v with
                | PStr t => bind (set_payload (pkind s) (GStr t)) (fun p => Ok (Any (pkind s) p))
                | _ => UB
                end
  | EVal c => to_any c (pkind s) v
  end.

(** The sinks by address, and std::set of the subscribed ones. *)
Definition sinks := Z -> port.

Inductive op := Subscribe (x : Z) | Unsubscribe (x : Z) | Emit (v : payload).
Inductive outcome :=
| Done                                             (** Subscribe, Unsubscribe returned *)
| InvalidEventSink | AlreadySubscribed | NotSubscribed
| Emitted (l : list (Z * received))                (** Emit returned; who received what, in order *)
| Failed (l : list (Z * received))                 (** Emit threw InvalidAnyType, after these *)
| Undefined.

(** EventSource.cpp:83-87 DoEmit. *)
Fixpoint emit_to (g : sinks) (a : any) (l : list Z) (done : list (Z * received)) : outcome :=
  match l with
  | [] => Emitted done
  | x :: r => match notify (g x) a with
              | Ok y => emit_to g a r (done ++ [(x, y)])
              | Throw _ => Failed done
              | UB => Undefined
              end
  end.

Definition step (g : sinks) (s : port) (subs : list Z) (o : op) : list Z * outcome :=
  match o with
  | Subscribe x =>                                 (* EventSource.cpp:47-58 *)
      if negb (kind_eqb (pkind (g x)) (pkind s)) then (subs, InvalidEventSink)
      else if existsb (Z.eqb x) subs then (subs, AlreadySubscribed)
      else (sins x subs, Done)
  | Unsubscribe x =>                               (* EventSource.cpp:59-65 *)
      if existsb (Z.eqb x) subs then (sdel x subs, Done) else (subs, NotSubscribed)
  | Emit v => (subs, match argument s v with
                     | Ok a => emit_to g a subs []
                     | Throw _ => Failed []
                     | UB => Undefined
                     end)
  end.

Fixpoint run (g : sinks) (s : port) (subs : list Z) (os : list op) : list Z * list outcome :=
  match os with
  | [] => (subs, [])
  | o :: r => let '(s1, x) := step g s subs o in let '(s2, xs) := run g s s1 r in (s2, x :: xs)
  end.
