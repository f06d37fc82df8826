(** Model of the life of a component: src/Xsmp/Component.cpp, the generated
    overrides (src-gen/.../*Gen.cpp, e.g. ModelWithOperationsGen.cpp:181-214)
    with the hooks of include/Xsmp/ComponentHelper.h, and the walk over the
    component tree of src/Xsmp/Simulator.cpp. *)
From Coq Require Import List Bool Arith.
From Verif Require Import Base.
Import ListNotations.
Local Open Scope nat_scope.

(** Smp::ComponentStateKind *)
Inductive cstate := Created | Publishing | Configured | Connected | Disconnected.

Definition cstate_eqb (a b : cstate) : bool :=
  match a, b with
  | Created, Created | Publishing, Publishing | Configured, Configured
  | Connected, Connected | Disconnected, Disconnected => true
  | _, _ => false
  end.

(** The operations of IComponent that change its state.  A boolean argument is
    whether the pointer passed is not null. *)
Inductive cop := CPublish (receiver : bool) | CConfigure | CConnect (sim : bool) | CDisconnect.

Inductive cexn :=
| InvalidComponentState (invalid expected : cstate)
| NullPointer
| UserException.

(** Component.h: _state, _publication and _simulator (set or null). *)
Record cmp := Cmp { cst : cstate; cpub : bool; csim : bool }.

Definition cmp_new : cmp := Cmp Created false false.

Definition check (c : cmp) (s : cstate) (k : cmp * res cexn unit) : cmp * res cexn unit :=
  if cstate_eqb (cst c) s then k else (c, Throw (InvalidComponentState (cst c) s)).

(** Component.cpp:58-99, Publish, Configure, Connect, Disconnect. *)
Definition cmp_step (c : cmp) (o : cop) : cmp * res cexn unit :=
  match o with
  | CPublish receiver =>
      check c Created
        (if receiver then (Cmp Publishing true (csim c), Ok tt) else (c, Throw NullPointer))
  | CConfigure => check c Publishing (Cmp Configured (cpub c) (csim c), Ok tt)
  | CConnect sim => check c Configured (Cmp Connected (cpub c) sim, Ok tt)
  | CDisconnect => check c Connected (Cmp Disconnected (cpub c) false, Ok tt)
  end.

(** * Generated components and their hooks *)

(** How the user declares DoConfigure (ComponentHelper.h:47-83). *)
Inductive configure_sig :=
| NoHook | FullHook | LoggerHook | LinkRegistryHook | PlainHook.

Inductive hook := DoPublish | DoConfigure | DoConnect | DoDisconnect.

(** ComponentHelper.h:47-83, Component::Helper::Configure.  The statement at line
    52 calls the hook with both arguments before its signature is examined:
    other signatures do not compile ([None]). *)
Definition helper_configure (g : configure_sig) : option (list hook) :=
  match g with
  | NoHook => Some []
  | FullHook => Some ([DoConfigure] ++ [DoConfigure])
  | LoggerHook | LinkRegistryHook | PlainHook => None
  end.

(** A generated component: its base, its hooks (whether it declares DoPublish,
    DoConnect and DoDisconnect) and the calls made to them so far. *)
Record gcmp := GCmp { gbase : cmp; gcalls : list hook }.

Record gdecl := GDecl { has_publish : bool; configure : configure_sig;
                        has_connect : bool; has_disconnect : bool }.

Definition hook_if (b : bool) (h : hook) : list hook := if b then [h] else [].

(** ModelWithOperationsGen.cpp:59-214: the parent implementation first and the
    hook last, except that Disconnect calls the hook first. *)
Definition gcmp_step (d : gdecl) (g : gcmp) (o : cop) : option (gcmp * res cexn unit) :=
  let after (h : list hook) :=
    match cmp_step (gbase g) o with
    | (c, Ok tt) => (GCmp c (gcalls g ++ h), Ok tt)
    | (c, r) => (GCmp c (gcalls g), r)
    end in
  match o with
  | CPublish _ => Some (after (hook_if (has_publish d) DoPublish))
  | CConfigure => option_map after (helper_configure (configure d))
  | CConnect _ => Some (after (hook_if (has_connect d) DoConnect))
  | CDisconnect =>
      let (c, r) := cmp_step (gbase g) o in
      Some (GCmp c (gcalls g ++ hook_if (has_disconnect d) DoDisconnect), r)
  end.

Fixpoint gcmp_run (d : gdecl) (g : gcmp) (l : list cop) : option gcmp :=
  match l with
  | [] => Some g
  | o :: l =>
      match gcmp_step d g o with
      | Some (g', _) => gcmp_run d g' l
      | None => None
      end
  end.

(** * The tree of components *)

Inductive call := PublishCall | ConfigureCall | ConnectCall | DisconnectCall.

(** When a component comes into a container: it is there from the start, its
    parent adds it while handling one of the calls, or somebody adds it while
    the simulator is already going through the container. *)
Inductive when := Here | During (c : call) | Late.

(** A component: its state, the calls it received so far, the call (if any) that
    throws an exception, and its containers. *)
Inductive comp := Comp (st : cstate) (calls : list call) (throws : option call)
                       (conts : list (list (when * comp))).

Definition call_eqb (a b : call) : bool :=
  match a, b with
  | PublishCall, PublishCall | ConfigureCall, ConfigureCall
  | ConnectCall, ConnectCall | DisconnectCall, DisconnectCall => true
  | _, _ => false
  end.

Definition needs (c : call) : cstate :=
  match c with
  | PublishCall => Created | ConfigureCall => Publishing
  | ConnectCall => Configured | DisconnectCall => Connected
  end.
Definition leads (c : call) : cstate :=
  match c with
  | PublishCall => Publishing | ConfigureCall => Configured
  | ConnectCall => Connected | DisconnectCall => Disconnected
  end.

(** The commands of the simulator that walk over the tree (Simulator.cpp:165-228,
    480-551) and, for each, the calls it makes on a component, in order, each
    guarded by the state the component is in. *)
Inductive walk_cmd := WPublish | WConfigure | WConnect | WExit.

Definition cmd_calls (w : walk_cmd) : list call :=
  match w with
  | WPublish => [PublishCall]
  | WConfigure => [PublishCall; ConfigureCall]
  | WConnect => [PublishCall; ConfigureCall; ConnectCall]
  | WExit => [DisconnectCall]
  end.

(** The body of the lambda: state, calls received, new calls, and whether no
    exception was thrown. *)
Fixpoint visit (st : cstate) (hist made : list call) (throws : option call)
         (todo : list call) : cstate * list call * list call * bool :=
  match todo with
  | [] => (st, hist, made, true)
  | c :: todo =>
      if cstate_eqb st (needs c) then
        let hist' := hist ++ [c] in
        let made' := made ++ [c] in
        match throws with
        | Some t => if call_eqb t c then (leads c, hist', made', false)
                    else visit (leads c) hist' made' throws todo
        | None => visit (leads c) hist' made' throws todo
        end
      else visit st hist made throws todo
  end.

(** Whether the walk finds the component in its container when it gets there. *)
Definition found (made : list call) (w : when) : bool :=
  match w with
  | Here => true
  | During c => existsb (call_eqb c) made
  | Late => false
  end.

(** Simulator.cpp:79-114, recursive_action: the component, then its containers
    in order and their components in order; the number of components of a
    container is read when it is entered (Container.cpp:58-65).  The walk stops
    at the first exception. *)
Fixpoint walk (w : walk_cmd) (c : comp) : comp * bool :=
  match c with
  | Comp st hist throws conts =>
      let '(st', hist', made, ok) := visit st hist [] throws (cmd_calls w) in
      let over_components :=
        (fix over (l : list (when * comp)) (ok : bool) : list (when * comp) * bool :=
           match l with
           | [] => ([], ok)
           | (t, k) :: l =>
               if ok then
                 if found made t then
                   let (k', ok1) := walk w k in
                   let (l', ok2) := over l ok1 in
                   ((Here, k') :: l', ok2)
                 else
                   let (l', ok2) := over l ok in
                   ((match t with Late => Here | _ => t end, k) :: l', ok2)
               else
                 let (l', ok2) := over l ok in
                 ((if found made t then Here else t, k) :: l', ok2)
           end) in
      let over_containers :=
        (fix over (ll : list (list (when * comp))) (ok : bool)
           : list (list (when * comp)) * bool :=
           match ll with
           | [] => ([], ok)
           | l :: ll =>
               let (l', ok1) := over_components l ok in
               let (ll', ok2) := over ll ok1 in
               (l' :: ll', ok2)
           end) in
      let (conts', ok') := over_containers conts ok in
      (Comp st' hist' throws conts', ok')
  end.

(** Reconnect(root) (Simulator.cpp:480-514): the walk starts with the containers
    of [root]; [root] itself is not visited. *)
Definition reconnect (c : comp) : comp * bool :=
  match c with
  | Comp st hist throws conts =>
      match walk WConnect (Comp Disconnected [] None conts) with
      | (Comp _ _ _ conts', ok) => (Comp st hist throws conts', ok)
      end
  end.

(** A history of commands on the tree. *)
Inductive tree_cmd := TWalk (w : walk_cmd) | TReconnect.

Definition tree_step (c : comp) (k : tree_cmd) : comp :=
  match k with
  | TWalk w => fst (walk w c)
  | TReconnect => fst (reconnect c)
  end.

Definition tree_run (c : comp) (l : list tree_cmd) : comp := fold_left tree_step l c.
