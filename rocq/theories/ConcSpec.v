(** What the properties of concurrent use talk about: histories of calls that may overlap,
    and the order in which they can be said to have happened. *)
From Verif Require Import Base Text UuidModel EventModel LinkModel.

(** * Histories *)

Section History.
Context {Op Out : Type}.

(** A history: call number k begins with the operation o; call number k returns x. *)
Inductive hev := Inv (k : nat) (o : Op) | Ret (k : nat) (x : Out).

(** Call i has returned before call j began. *)
Definition before (tr : list hev) (i j : nat) : Prop :=
  exists a x b o c, tr = a ++ Ret i x :: b ++ Inv j o :: c.

(** After the history p the call k, with the operation o, has begun and not returned. *)
Definition active (p : list hev) (k : nat) (o : Op) : Prop :=
  In (Inv k o) p /\ forall x, ~ In (Ret k x) p.

(** At some moment of the history the calls i and j are both in progress. *)
Definition overlap (tr : list hev) (i : nat) (o : Op) (j : nat) (o' : Op) : Prop :=
  exists p q, tr = p ++ q /\ active p i o /\ active p j o'.

(** [L] is an order of the calls (number, operation, result) that explains the history:
    every call that has returned is in it, with the result it returned; a call that
    returned before another one began comes first; and each result is acceptable ([ok])
    after the calls that come before it in L. *)
Record explains (ok : list hev -> list (nat * Op * Out) -> nat -> Op -> Out -> Prop)
    (tr : list hev) (L : list (nat * Op * Out)) : Prop := {
  x_once : NoDup (map (fun c => fst (fst c)) L);
  x_begun : forall k o x, In (k, o, x) L -> In (Inv k o) tr;
  x_returned : forall k x, In (Ret k x) tr -> exists o, In (k, o, x) L;
  x_order : forall i j L1 o x L2, before tr i j -> L = L1 ++ (j, o, x) :: L2 ->
    exists o' x', In (i, o', x') L1;
  x_result : forall L1 k o x L2, L = L1 ++ (k, o, x) :: L2 -> ok tr L1 k o x;
}.

(** No call is in progress. *)
Definition quiet (tr : list hev) : Prop := forall k o, ~ active tr k o.
End History.
Arguments hev : clear implicits.

(** * The link registry *)

Definition lhist := list (hev lop lout).
Definition lorder := list (nat * lop * lout).

(** Number of calls of AddLink(s,t) minus number of calls of RemoveLink(s,t) that
    returned true. *)
Fixpoint links_of (L : lorder) (s t : Z) : Z :=
  match L with
  | [] => 0
  | (_, LAdd a b, _) :: L => (if (a =? s) && (b =? t) then 1 else 0) + links_of L s t
  | (_, LRemove a b, LBool true) :: L => links_of L s t - (if (a =? s) && (b =? t) then 1 else 0)
  | _ :: L => links_of L s t
  end.

(** The results of a registry that performs one call at a time. *)
Definition link_result (L : lorder) (o : lop) (x : lout) : Prop :=
  match o with
  | LAdd _ _ => x = LDone
  | LRemove s t => x = LBool (negb (links_of L s t =? 0))
  | LGetCount s t => x = LCount (links_of L s t)
  | LGetSources t => exists l, x = LSources l /\ NoDup l /\ forall s, In s l <-> 0 < links_of L s t
  end.

(** The same, for what concerns the numbers of links only. *)
Definition count_result (L : lorder) (o : lop) (x : lout) : Prop :=
  match o with
  | LAdd _ _ => x = LDone \/ x = LDuplicate
  | LGetSources _ => True
  | _ => link_result L o x
  end.

Definition links_ok (_ : lhist) (L : lorder) (_ : nat) (o : lop) (x : lout) : Prop := link_result L o x.
Definition counts_ok (_ : lhist) (L : lorder) (_ : nat) (o : lop) (x : lout) : Prop := count_result L o x.

(** The components given as sources of the same target have different names. *)
Definition distinct_sources (name : Z -> list Z) (tr : lhist) : Prop :=
  forall i j a b t, In (Inv i (LAdd a t)) tr -> In (Inv j (LAdd b t)) tr -> name a = name b -> a = b.

(** RemoveLink(s,t) disturbs the calls of AddLink(s,t) and of GetLinkSources(t). *)
Definition disturbs (o o' : lop) : Prop :=
  match o, o' with
  | LRemove s t, LAdd s' t' => s = s' /\ t = t'
  | LRemove _ t, LGetSources t' => t = t'
  | _, _ => False
  end.

(** No call overlaps a call that disturbs it. *)
Definition undisturbed (tr : lhist) : Prop :=
  forall i o j o', overlap tr i o j o' -> ~ disturbs o o'.

(** * The event manager *)

Inductive cop := CQuery (name : option ename) | CSub (id ep : Z) | CUnsub (id ep : Z) | CEmit (id : Z).
Inductive cout := CId (id : Z) | CDone | CRan (eps : list Z) | CError (e : Z).

Definition chist := list (hev cop cout).
Definition corder := list (nat * cop * cout).

Definition has (n : ename) (l : list ename) : bool := existsb (ename_eqb n) l.

(** The names that have an identifier, in the order of their identifiers 1, 2, ...: the
    predefined ones, then every other name in the order of its first query. *)
Fixpoint names_of (l : list ename) (L : corder) : list ename :=
  match L with
  | [] => l
  | (_, CQuery (Some (c :: n)), _) :: L => names_of (if has (c :: n) l then l else l ++ [c :: n]) L
  | _ :: L => names_of l L
  end.
Definition names (L : corder) : list ename := names_of (map fst predefined) L.

Fixpoint index_of (n : ename) (l : list ename) : Z :=
  match l with
  | [] => 1
  | m :: l => if ename_eqb n m then 1 else 1 + index_of n l
  end.

(** The entry points subscribed to the event: subscribed and not unsubscribed since, in
    the order of the subscriptions. *)
Fixpoint subscribers_of (l : list Z) (L : corder) (id : Z) : list Z :=
  match L with
  | [] => l
  | (_, CSub i ep, CDone) :: L => subscribers_of (if i =? id then l ++ [ep] else l) L id
  | (_, CUnsub i ep, CDone) :: L => subscribers_of (if i =? id then erase ep l else l) L id
  | _ :: L => subscribers_of l L id
  end.
Definition subscribers := subscribers_of [].

Definition valid_id (L : corder) (id : Z) : bool := (1 <=? id) && (id <=? Z.of_nat (length (names L))).

(** The results of an event manager that performs one call at a time (1 InvalidEventName,
    2 InvalidEventId, 3 EntryPointAlreadySubscribed, 4 EntryPointNotSubscribed). *)
Definition event_answer (L : corder) (o : cop) : cout :=
  match o with
  | CQuery None | CQuery (Some []) => CError 1
  | CQuery (Some n) => CId (index_of n (names (L ++ [(O, CQuery (Some n), CDone)])))
  | CSub id ep =>
      if negb (valid_id L id) then CError 2
      else if mem ep (subscribers L id) then CError 3 else CDone
  | CUnsub id ep =>
      if negb (valid_id L id) then CError 2
      else if mem ep (subscribers L id) then CDone else CError 4
  | CEmit id => if negb (valid_id L id) then CError 2 else CRan (subscribers L id)
  end.

(** The call j is a first query of a name: no query of the name had returned before. *)
Definition first_query (tr : chist) (j : nat) (n : ename) : Prop :=
  In (Inv j (CQuery (Some n))) tr /\ ~ In n (map fst predefined) /\
  forall i, before tr i j -> ~ In (Inv i (CQuery (Some n))) tr.

(** The call uses an event that is not a predefined one. *)
Definition uses (o : cop) (id : Z) : Prop :=
  19 < id /\ match o with CSub i _ | CUnsub i _ | CEmit i => i = id | CQuery _ => False end.

(** The call k uses an event while a first query is in progress. *)
Definition hurried (tr : chist) (k : nat) (o : cop) : Prop :=
  exists id j n, uses o id /\ overlap tr k o j (CQuery (Some n)) /\ first_query tr j n.

Definition event_result (_ : chist) (L : corder) (_ : nat) (o : cop) (x : cout) : Prop := x = event_answer L o.

(** The same, except that a call that uses an event while a first query is in progress
    may be told that the identifier is not valid. *)
Definition event_result_or_hurried (tr : chist) (L : corder) (k : nat) (o : cop) (x : cout) : Prop :=
  x = event_answer L o \/ (x = CError 2 /\ hurried tr k o).
