(** Model of src/Xsmp/EventSource.cpp (AbstractEventSource) with sinks that run arbitrary
    code.

    A sink is an address; [typ] gives the argument type of a sink (GetEventArgType), [par]
    the address of its parent.  Emit runs foreign code (Notify), so it is modelled by a
    call record that holds the position of the iterator of DoEmit; the step [SReturn k]
    is the return of the sink that the call k is notifying.  Between two steps of a call
    there can be any other steps: the calls made by the sinks.

    std::set keeps its elements sorted by address; its iterators stay valid except the
    ones to an erased element.  All calls are made from one thread: the class has no lock. *)
From Verif Require Import Base Assoc.

Inductive sev :=
| VSub (x : Z)                     (** Subscribe succeeded *)
| VUnsub (x : Z)                   (** Unsubscribe succeeded *)
| VRemove (t : Z)                  (** RemoveLinks(t) *)
| VEmit (k : nat) (v : Z)          (** the call number k of Emit starts, with value v *)
| VNotify (k : nat) (x v : Z)      (** the call k calls Notify of x with value v *)
| VEnd (k : nat)                   (** the call k returns *)
| VAbort (k : nat)                 (** the call k ends with the exception of a sink *)
| VInvalid (x : Z)                 (** Subscribe threw InvalidEventSink *)
| VAlready (x : Z)                 (** Subscribe threw EventSinkAlreadySubscribed *)
| VNot (x : Z)                     (** Unsubscribe threw EventSinkNotSubscribed *)
| VUB (k : nat).                   (** the call k uses an iterator to an erased element *)

(** A call of Emit in progress: the value, the element the iterator is at, and whether
    this element was erased. *)
Record emission := Emission { em_value : Z; em_at : Z; em_erased : bool }.

Record src := Src {
  sinks : list Z;                      (* _event_sinks *)
  calls : list (nat * emission);
  count : nat;                         (* number of calls of Emit *)
  dead : bool;                         (* undefined behaviour happened *)
}.
Definition src_init : src := Src [] [] 0 false.

(** std::set::insert *)
Fixpoint sinsert (x : Z) (l : list Z) : list Z :=
  match l with
  | [] => [x]
  | y :: r => if x <? y then x :: l else if x =? y then l else y :: sinsert x r
  end.
Definition smem (x : Z) (l : list Z) : bool := existsb (Z.eqb x) l.

(** Erasing elements: the iterators of the calls that are at one of them become invalid. *)
Definition serase (gone : Z -> bool) (s : src) : src :=
  Src (filter (fun x => negb (gone x)) (sinks s))
      (map (fun p => (fst p, Emission (em_value (snd p)) (em_at (snd p)) (em_erased (snd p) || gone (em_at (snd p))))) (calls s))
      (count s) (dead s).

Inductive sop :=
| SSubscribe (x : Z) | SUnsubscribe (x : Z) | SRemoveLinks (t : Z)
| SEmit (v : Z)
| SReturn (k : nat)      (** the sink notified by the call k returns *)
| SThrow (k : nat).      (** the sink notified by the call k throws *)

Section Source.
  Context (kind : Z) (typ par : Z -> Z).

  Definition sstep (o : sop) (s : src) : src * list sev :=
    if dead s then (s, []) else
    match o with
    | SSubscribe x =>                                       (* EventSource.cpp:46-57 *)
        if negb (typ x =? kind) then (s, [VInvalid x])
        else if smem x (sinks s) then (s, [VAlready x])
        else (Src (sinsert x (sinks s)) (calls s) (count s) false, [VSub x])
    | SUnsubscribe x =>                                     (* EventSource.cpp:58-64 *)
        if smem x (sinks s) then (serase (Z.eqb x) s, [VUnsub x]) else (s, [VNot x])
    | SRemoveLinks t =>                                     (* EventSource.cpp:69-79 *)
        (serase (fun x => par x =? t) s, [VRemove t])
    | SEmit v =>                                            (* EventSource.cpp:80-85, begin() *)
        let k := count s in
        match sinks s with
        | [] => (Src (sinks s) (calls s) (S k) false, [VEmit k v; VEnd k])
        | x :: _ => (Src (sinks s) (aset Nat.eqb k (Emission v x false) (calls s)) (S k) false, [VEmit k v; VNotify k x v])
        end
    | SReturn k =>                                          (* EventSource.cpp:81-83, ++it != end() *)
        match aget Nat.eqb k (calls s) with
        | None => (s, [])
        | Some e =>
            if em_erased e then (Src (sinks s) (calls s) (count s) true, [VUB k])
            else
              match find (fun y => em_at e <? y) (sinks s) with
              | None => (Src (sinks s) (adel Nat.eqb k (calls s)) (count s) false, [VEnd k])
              | Some y => (Src (sinks s) (aset Nat.eqb k (Emission (em_value e) y false) (calls s)) (count s) false,
                           [VNotify k y (em_value e)])
              end
        end
    | SThrow k =>
        match aget Nat.eqb k (calls s) with
        | None => (s, [])
        | Some _ => (Src (sinks s) (adel Nat.eqb k (calls s)) (count s) false, [VAbort k])
        end
    end.

  Fixpoint srun (s : src) (os : list sop) : src * list sev :=
    match os with
    | [] => (s, [])
    | o :: os => let '(s1, t1) := sstep o s in let '(s2, t2) := srun s1 os in (s2, t1 ++ t2)
    end.
End Source.
