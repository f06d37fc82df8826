(** What is meant by the properties of the deletion of components. *)
From Coq Require Import ZArith List Bool Relations.
From Verif Require Import Base DelModel.
Import ListNotations.
Local Open Scope Z_scope.

Section Spec.
  Variable owner : nat -> Z.
  Variable conts_of : Z -> list nat.
  Variable par : Z -> Z.

  (** A component exists before the components it is the parent of, and a component knows
      its own containers. *)
  Definition tree_like : Prop :=
    (forall c, par c < c) /\ (forall c k, In k (conts_of c) <-> owner k = c) /\ (forall c, NoDup (conts_of c)).

  (** [x] is [c] or has [c] among its ancestors. *)
  Definition below (c x : Z) : Prop := clos_refl_trans_1n Z (fun a b => par a = b) x c.

  (** User code that minds the containers of [c] and nothing else. *)
  Fixpoint minds_own (c : Z) (p : prog) : Prop :=
    match p with
    | Ret | Raise => True
    | Do a f => match a with CNew k => owner k = c | CDelete k _ => owner k = c | _ => False end /\
                forall r, minds_own c (f r)
    end.
  (** User code that does not throw, whatever it is answered. *)
  Fixpoint quiet (p : prog) : Prop :=
    match p with Ret => True | Raise => False | Do _ f => forall r, quiet (f r) end.

  (** User code that creates no component. *)
  Fixpoint creates_none (p : prog) : Prop :=
    match p with
    | Ret | Raise => True
    | Do a f => match a with CNew _ => False | _ => True end /\ forall r, creates_none (f r)
    end.

  (** Every component minds its own containers, and destructors do not throw. *)
  Definition disciplined (disc dest : st -> Z -> prog) : Prop :=
    forall s c, minds_own c (disc s c) /\ minds_own c (dest s c) /\ quiet (dest s c).

  (** [x] is in a container of [c], or in one of a component inside [c]. *)
  Inductive inside (s : st) (c : Z) : Z -> Prop :=
  | in_self : forall k x, owner k = c -> In x (cts s k) -> inside s c x
  | in_deep : forall k x y, inside s c y -> owner k = y -> In x (cts s k) -> inside s c x.

  (** The order in which the component [c] and what is inside it end: [c] first, then its
      containers, the last declared first, each from its last component to its first. *)
  Inductive ends (s : st) : Z -> list Z -> Prop :=
  | ends_one : forall c ls, Forall2 (ends s) (flat_map (fun k => rev (cts s k)) (rev (conts_of c))) ls ->
      ends s c (c :: concat ls).

  (** Nothing is being deleted; the components in the containers are alive, once, under
      their parent; the containers of a destroyed component are empty, and only those have
      been destroyed. *)
  Definition sound (s : st) : Prop :=
    iters s = [] /\ NoDup (gone s) /\ (forall x, In x (gone s) -> x < next s) /\
    (forall k, NoDup (cts s k)) /\
    (forall k x, In x (cts s k) -> par x = owner k /\ x < next s /\ ~ In x (gone s)) /\
    (forall k k' x, In x (cts s k) -> In x (cts s k') -> k = k') /\
    (forall k, In (owner k) (gone s) -> cts s k = []) /\
    (forall k, In k (closed s) -> In (owner k) (gone s)).

  (** Nothing exists yet but the components below [next] and their empty containers. *)
  Definition fresh (s : st) : Prop :=
    iters s = [] /\ gone s = [] /\ closed s = [] /\ forall k, cts s k = [].

  (** A call of the application on a container of a living component. *)
  Definition on_living (s : st) (c : call) : Prop :=
    match c with
    | CNew k | CDelete k _ => ~ In (owner k) (gone s) /\ owner k < next s
    | _ => False
    end.
End Spec.
