(** The life cycle of components, in plain terms. *)
From Coq Require Import List Bool Arith.
From Verif Require Import Base CmpModel.
Import ListNotations.

(** The order of the states. *)
Definition rank (s : cstate) : nat :=
  match s with
  | Created => 0 | Publishing => 1 | Configured => 2 | Connected => 3 | Disconnected => 4
  end.

(** The life of a component: the calls in the order they may be accepted. *)
Definition life : list call := [PublishCall; ConfigureCall; ConnectCall; DisconnectCall].

Definition call_of (o : cop) : call :=
  match o with
  | CPublish _ => PublishCall | CConfigure => ConfigureCall
  | CConnect _ => ConnectCall | CDisconnect => DisconnectCall
  end.

(** The calls that returned without an exception, in order. *)
Fixpoint accepted (c : cmp) (l : list cop) : list call :=
  match l with
  | [] => []
  | o :: l =>
      match cmp_step c o with
      | (c', Ok _) => call_of o :: accepted c' l
      | (c', _) => accepted c' l
      end
  end.

Fixpoint final (c : cmp) (l : list cop) : cmp :=
  match l with [] => c | o :: l => final (fst (cmp_step c o)) l end.

(** [member c t]: [c] is [t] or a component inside one of its containers, at any
    depth. *)
Inductive member : comp -> comp -> Prop :=
| member_self : forall t, member t t
| member_in : forall c st hist throws conts l k,
    In l conts -> In (Here, k) l -> member c k -> member c (Comp st hist throws conts).

(** [everywhere P t]: [P] holds of every component of the tree, also of those
    that do not exist yet. *)
Inductive everywhere (P : comp -> Prop) : comp -> Prop :=
| everywhere_intro : forall st hist throws conts,
    P (Comp st hist throws conts) ->
    (forall l w k, In l conts -> In (w, k) l -> everywhere P k) ->
    everywhere P (Comp st hist throws conts).

Definition state_of (c : comp) : cstate := match c with Comp st _ _ _ => st end.
Definition received (c : comp) : list call := match c with Comp _ h _ _ => h end.

(** A component as constructed. *)
Definition fresh (c : comp) : Prop := state_of c = Created /\ received c = [].

(** Nobody adds a component to a container the simulator is going through. *)
Definition no_late (c : comp) : Prop :=
  match c with
  | Comp _ _ _ conts => forall l k, In l conts -> ~ In (Late, k) l
  end.

(** No call of the component throws. *)
Definition no_throw (c : comp) : Prop := match c with Comp _ _ t _ => t = None end.

Definition hook_eqb (a b : hook) : bool :=
  match a, b with
  | DoPublish, DoPublish | DoConfigure, DoConfigure
  | DoConnect, DoConnect | DoDisconnect, DoDisconnect => true
  | _, _ => false
  end.

(** How often a hook was called, a call accepted, a call made. *)
Definition hook_count (h : hook) (l : list hook) : nat := length (filter (hook_eqb h) l).
Definition call_count (c : call) (l : list call) : nat := length (filter (call_eqb c) l).
Definition is_disconnect (o : cop) : bool := match o with CDisconnect => true | _ => false end.

(** The [j]-th entry of the [i]-th container. *)
Definition child (c : comp) (i j : nat) : option (when * comp) :=
  match c with Comp _ _ _ conts => match nth_error conts i with Some l => nth_error l j | None => None end end.

(** Nothing that should have been created by a call received so far is still missing. *)
Definition settled (c : comp) : Prop :=
  forall i j x k, child c i j = Some (During x, k) -> ~ In x (received c).

(** From [t] to [t'] a component that its parent creates during call [x] has appeared if and
    only if the parent received [x], and is untouched otherwise; at every depth. *)
Inductive follows : comp -> comp -> Prop :=
| follows_intro : forall t t',
    (forall i j w k, child t i j = Some (w, k) -> exists w' k', child t' i j = Some (w', k') /\
       (forall x, w = During x -> (w' = Here /\ In x (received t')) \/ (w' = w /\ k' = k /\ ~ In x (received t'))) /\
       (k' = k \/ follows k k')) ->
    follows t t'.
