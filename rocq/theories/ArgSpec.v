(** What is expected of the arguments of events. *)
From Verif Require Import Base UuidModel AnyModel AnySpec HelperModel FlowModel FlowSpec ArgModel.
From Coq Require Import ZArith List Bool.
Import ListNotations.
Local Open Scope Z_scope.

(** The kind given to the constructor is the one of the template argument. *)
Definition declared_well (p : port) : Prop :=
  match ptype p with EVoid => True | EString8 => pgiven p = KString8 | EVal c => kind_of c (pgiven p) end.

(** The values that can be given to Emit. *)
Definition emits (p : port) (v : payload) : Prop :=
  match ptype p with EVoid => True | EString8 => exists t, v = PStr t | EVal c => value_of c v end.

(** What a sink of type [t] is given for the value [v]: [v] itself, except that a string of
    bounded length takes as many characters as it has room for, and none of a null string. *)
Definition as_received (t : ety) (v : payload) : received :=
  match t with
  | EVoid => RVoid
  | EVal (CStr n) => RVal (PStr (Some match v with PStr (Some l) => firstn n l | _ => [] end))
  | _ => RVal v
  end.

(** [x] is subscribed after the calls [os]: the last call about it was Subscribe. *)
Fixpoint subscribed_after (ok : Z -> bool) (os : list op) (x : Z) (now : bool) : bool :=
  match os with
  | [] => now
  | Subscribe y :: r => subscribed_after ok r x (if Z.eqb x y && ok x then true else now)
  | Unsubscribe y :: r => subscribed_after ok r x (if Z.eqb x y then false else now)
  | Emit _ :: r => subscribed_after ok r x now
  end.
