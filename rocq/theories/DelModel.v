(** Model of the deletion of components: Container<T>::DeleteComponent and ~Container
    (include/Xsmp/Container.h), AbstractContainer::DeleteComponent (src/Xsmp/Container.cpp)
    and Reference<T> (include/Xsmp/Reference.h), with user code that runs in the middle of
    them: the Disconnect and the destructor of a component may call the same containers
    and references again.

    Simplifications.  A component is a number, given in the order of creation.  User code
    is a tree of calls that may depend on the state it starts in and on every answer.  It
    names components by their container and index, as GetComponent(index) does, so that
    it uses a destroyed component only when the library hands one out.  A destructor that
    throws, a call on a destroyed container and every use of a destroyed component count
    as undefined behaviour.  The checks of AddComponent that concern types and names are
    a parameter (their exact form is in CollModel.v). *)
From Coq Require Import ZArith List Bool.
From Verif Require Import Base.
Import ListNotations.
Local Open Scope Z_scope.

Inductive err := NotContained | CannotDelete | ContainerFull | Rejected | InvalidParent
| NotReferenced | CannotRemove | InvalidObjectType | UserError.

(** How a call ends.  [Deep]: it has not ended within the depth considered. *)
Inductive outcome := Fin | Thrown (e : err) | Undef | Deep.

(** The calls of user code. *)
Inductive call :=
| CNew (k : nat)             (** container k: AddComponent(a new component) *)
| CDelete (k : nat) (i : nat)  (** container k: DeleteComponent(GetComponent(i)) *)
| CRef (r : nat) (k i : nat)   (** reference r: AddComponent(GetComponent(i) of container k) *)
| CLook (r : nat) (i : nat)    (** reference r: GetComponent(i)->GetName() *)
| CUnref (r : nat) (i : nat).  (** reference r: RemoveComponent(GetComponent(i)) *)

(** User code: it returns, throws, or makes a call and goes on according to the answer
    (the exception, if any). *)
Inductive prog := Ret | Raise | Do (c : call) (next : option err -> prog).

(** The state.  [cts], [refs]: the vectors of the containers and references.  [gone]: the
    components destroyed, in order.  [closed]: the containers destroyed.  [conn]: the
    component is connected.  [iters]: the iterators of the DeleteComponent calls in
    progress, innermost first: container and position, or None once invalidated. *)
Record st := St {
  cts : nat -> list Z; refs : nat -> list Z; gone : list Z; closed : list nat;
  conn : Z -> bool; iters : list (option (nat * nat)); next : Z }.

Definition upd {A} (f : nat -> A) (k : nat) (a : A) (x : nat) : A := if Nat.eqb x k then a else f x.
Definition is_in (x : Z) (l : list Z) : bool := existsb (Z.eqb x) l.
Definition is_closed (k : nat) (s : st) : bool := existsb (Nat.eqb k) (closed s).

Definition set_cts (s : st) k l := St (upd (cts s) k l) (refs s) (gone s) (closed s) (conn s) (iters s) (next s).
Definition set_refs (s : st) r l := St (cts s) (upd (refs s) r l) (gone s) (closed s) (conn s) (iters s) (next s).
Definition set_iters (s : st) l := St (cts s) (refs s) (gone s) (closed s) (conn s) l (next s).
Definition bury (s : st) c := St (cts s) (refs s) (gone s ++ [c]) (closed s) (conn s) (iters s) (next s).
Definition shut (s : st) k := St (cts s) (refs s) (gone s) (k :: closed s) (conn s) (iters s) (next s).
Definition created (s : st) := St (cts s) (refs s) (gone s) (closed s) (conn s) (iters s) (next s + 1).
Definition off (s : st) c :=
  St (cts s) (refs s) (gone s) (closed s) (fun x => if x =? c then false else conn s x) (iters s) (next s).

(** std::vector: an iterator at [p] or behind is invalidated by an erasure at [p], all are
    by a reallocation ([vector.modifiers]). *)
Definition drop_from (k p : nat) (it : option (nat * nat)) : option (nat * nat) :=
  match it with
  | Some (k', q) => if Nat.eqb k' k && Nat.leb p q then None else it
  | None => None
  end.
Fixpoint del_nth {A} (i : nat) (l : list A) : list A :=
  match l, i with
  | [], _ => []
  | _ :: r, O => r
  | x :: r, S i => x :: del_nth i r
  end.
Definition erase_at (s : st) (k p : nat) : st :=
  set_iters (set_cts s k (del_nth p (cts s k))) (map (drop_from k p) (iters s)).

(** static_cast<std::size_t> of an Int64. *)
Definition to_size (z : Z) : Z := z mod 2 ^ 64.

Section Deletion.
  (** The component a container belongs to, the containers of a component in the order of
      their declaration, the bounds. *)
  Variable owner : nat -> Z.
  Variable conts_of : Z -> list nat.
  Variable lower upper rlower rupper : nat -> Z.
  (** The parent given to a component when it is created. *)
  Variable par : Z -> Z.
  (** Whether AddComponent refuses the component for its type or its name. *)
  Variable refuses : st -> nat -> Z -> bool.
  (** Whether std::vector::emplace_back reallocates at this size. *)
  Variable moves : nat -> bool.
  (** The user code of a component: DoDisconnect and the body of the destructor. *)
  Variable disc dest : st -> Z -> prog.

  (** Container.h:275-283 AddComponent, Container.cpp:181-188 and 95-178: the checks look at
      the names of all the components of the composite. *)
  Definition add (s : st) (k : nat) : st * outcome :=
    let c := next s in
    let s := created s in
    if to_size (upper k) <=? Z.of_nat (length (cts s k)) then (s, Thrown ContainerFull)
    else if existsb (fun k' => existsb (fun x => is_in x (gone s)) (cts s k')) (conts_of (owner k)) then (s, Undef)
    else if refuses s k c then (s, Thrown Rejected)
    else if negb (par c =? owner k) then (s, Thrown InvalidParent)
    else
      let its := if moves (length (cts s k)) then map (drop_from k 0) (iters s) else iters s in
      (set_iters (set_cts s k (cts s k ++ [c])) its, Fin).

  (** Reference.h:231-242 AddComponent. *)
  Definition ref_add (s : st) (r k i : nat) : st * outcome :=
    match nth_error (cts s k) i with
    | None => if to_size (rupper r) <=? Z.of_nat (length (refs s r)) then (s, Thrown ContainerFull)
              else (s, Thrown InvalidObjectType)
    | Some c =>
        if to_size (rupper r) <=? Z.of_nat (length (refs s r)) then (s, Thrown ContainerFull)
        else if is_in c (gone s) then (s, Undef)
        else (set_refs s r (refs s r ++ [c]), Fin)
    end.

  (** Reference.h:212-217 GetComponent(index): a dynamic_cast of the component. *)
  Definition ref_look (s : st) (r i : nat) : st * outcome :=
    match nth_error (refs s r) i with
    | None => (s, Fin)
    | Some c => if is_in c (gone s) then (s, Undef) else (s, Fin)
    end.

  Fixpoint first_of (x : Z) (l : list Z) : option nat :=
    match l with
    | [] => None
    | y :: r => if y =? x then Some O else option_map S (first_of x r)
    end.

  (** Reference.h:252-262 RemoveComponent of what GetComponent(i) gave: the first one equal. *)
  Definition ref_remove (s : st) (r i : nat) : st * outcome :=
    match nth_error (refs s r) i with
    | None => (s, Thrown NotReferenced)
    | Some c =>
        if is_in c (gone s) then (s, Undef)
        else match first_of c (refs s r) with
             | None => (s, Thrown NotReferenced)
             | Some p =>
                 if Z.of_nat (length (refs s r)) <=? to_size (rlower r) then (s, Thrown CannotRemove)
                 else (set_refs s r (del_nth p (refs s r)), Fin)
             end
    end.

  (** One call of user code; [del]: DeleteComponent. *)
  Definition one (del : st -> nat -> nat -> st * outcome) (s : st) (c : call) : st * outcome :=
    match c with
    | CNew k => if is_closed k s then (s, Undef) else add s k
    | CDelete k i => if is_closed k s then (s, Undef) else del s k i
    | CRef r k i => if is_closed k s then (s, Undef) else ref_add s r k i
    | CLook r i => ref_look s r i
    | CUnref r i => ref_remove s r i
    end.

  Fixpoint exec (del : st -> nat -> nat -> st * outcome) (s : st) (p : prog) : st * outcome :=
    match p with
    | Ret => (s, Fin)
    | Raise => (s, Thrown UserError)
    | Do c f =>
        match one del s c with
        | (s', Fin) => exec del s' (f None)
        | (s', Thrown e) => exec del s' (f (Some e))
        | o => o
        end
    end.

  (** Container.h:227-233 ~Container: delete the last one and pop_back, as long as there is
      one.  [m] bounds the rounds. *)
  Fixpoint empty_out (dst : st -> Z -> st * outcome) (m : nat) (s : st) (k : nat) : st * outcome :=
    match m with
    | O => (s, Deep)
    | S m =>
        match rev (cts s k) with
        | [] => (shut s k, Fin)
        | c :: _ =>
            if is_in c (gone s) then (s, Undef)
            else match dst s c with
                 | (s', Fin) =>
                     match cts s' k with
                     | [] => (s', Undef)
                     | l => empty_out dst m (erase_at s' k (pred (length l))) k
                     end
                 | o => o
                 end
        end
    end.

  Fixpoint empty_all (dst : st -> Z -> st * outcome) (m : nat) (s : st) (ks : list nat) : st * outcome :=
    match ks with
    | [] => (s, Fin)
    | k :: r =>
        match empty_out dst m s k with
        | (s', Fin) => empty_all dst m s' r
        | o => o
        end
    end.

  (** The destructor of a component: its body, then its containers, the last declared
      first.  DeleteComponent: Container.h:294-301 and Container.cpp:189-198; the call of
      Disconnect runs DoDisconnect (ComponentHelper.h:105-113) and then Component.cpp:91-99.
      Container.h:294-301 erases the element with the iterator found at the beginning. *)
  Fixpoint destroy (n : nat) (s : st) (c : Z) : st * outcome :=
    match n with
    | O => (s, Deep)
    | S n =>
        let s1 := bury s c in
        match exec (delete n) s1 (dest s1 c) with
        | (s2, Fin) => empty_all (destroy n) n s2 (rev (conts_of c))
        | (s2, Thrown _) => (s2, Undef)
        | o => o
        end
    end
  with delete (n : nat) (s : st) (k i : nat) : st * outcome :=
    match n with
    | O => (s, Deep)
    | S n =>
        match nth_error (cts s k) i with
        | None => (s, Thrown NotContained)
        | Some c =>
            if is_in c (gone s) then (s, Undef)
            else if Z.of_nat (length (cts s k)) <=? to_size (lower k) then (s, Thrown CannotDelete)
            else
              let its := iters s in
              let s1 := set_iters s (Some (k, i) :: its) in
              let '(s2, o) := if conn s1 c then exec (delete n) s1 (disc s1 c) else (s1, Fin) in
              match o with
              | Fin =>
                  if is_in c (gone s2) then (s2, Undef)
                  else match destroy n (off s2 c) c with
                       | (s3, Fin) =>
                           match iters s3 with
                           | Some (k', p) :: its' =>
                               if is_closed k' s3 then (s3, Undef) else (erase_at (set_iters s3 its') k' p, Fin)
                           | _ => (s3, Undef)
                           end
                       | o => o
                       end
              | Thrown e => (set_iters s2 (tl (iters s2)), Thrown e)
              | o => (s2, o)
              end
        end
    end.

  (** A call of the application on the objects that exist. *)
  Definition top (n : nat) (s : st) (c : call) : st * outcome := one (delete n) s c.
End Deletion.
