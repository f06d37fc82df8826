(** C98: the arguments of events. *)
From Verif Require Import Base Text UuidModel AnyModel AnySpec AnyProofs HelperModel FlowModel FlowSpec FlowProofs ArgModel ArgSpec ArgProofs.
From Coq Require Import ZArith List Bool Lia.
Import ListNotations.
Local Open Scope Z_scope.

(** If sources and sinks are constructed with the kind of their type, then after any calls
    Emit gives the value to each sink that is subscribed, once, in the order of the set,
    and to no other, and does not throw. *)
Theorem C98_delivered g s os v : declared_well s -> (forall x, declared_well (g x)) -> emits s v ->
  exists subs, ssorted subs /\
    (forall x, In x subs <-> subscribed_after (fun y => kind_eqb (pkind (g y)) (pkind s)) os x false = true) /\
    snd (step g s (fst (run g s [] os)) (Emit v)) = Emitted (map (fun x => (x, as_received (ptype (g x)) v)) subs).
Proof.
  intros D G E. exists (fst (run g s [] os)).
  assert (N : good g s []) by (split; [constructor|intros x []]).
  split; [apply (run_good g s os [] N)|]. split; [|now apply delivered].
  intros x. rewrite (run_subs g s os x [] N). reflexivity.
Qed.

(** A source of strings: the sink at 20 has room for two characters, the one at 10 takes
    integers and is refused, 30 unsubscribes. *)
Definition str_source := Port EString8 KString8.
Definition str_sinks : sinks := fun x =>
  if x =? 10 then Port (EVal (CInt TI64)) KDateTime else if x =? 20 then Port (EVal (CStr 2)) KString8 else Port EString8 KString8.
Definition str_calls := [Subscribe 40; Subscribe 10; Subscribe 30; Emit (PStr None); Subscribe 20; Unsubscribe 30; Subscribe 40].
Example C98_delivered_example :
  declared_well str_source /\ (forall x, declared_well (str_sinks x)) /\ emits str_source (PStr (Some (codes "abc"))) /\
  run str_sinks str_source [] (str_calls ++ [Emit (PStr (Some (codes "abc")))]) =
    ([20; 40], [Done; InvalidEventSink; Done; Emitted [(30, RVal (PStr None)); (40, RVal (PStr None))]; Done; Done; AlreadySubscribed;
                Emitted [(20, RVal (PStr (Some (codes "ab")))); (40, RVal (PStr (Some (codes "abc"))))]]).
Proof.
  split; [reflexivity|]. split.
  - intros x. unfold str_sinks. destruct (x =? 10); [reflexivity|]. destruct (x =? 20); reflexivity.
  - split; [eexists; reflexivity|vm_compute; reflexivity].
Qed.

(** An event without argument. *)
Example C98_void_example :
  let g : sinks := fun x => if x =? 1 then Port EVoid KI32 else Port (EVal CBool) KBool in
  run g (Port EVoid KNone) [] [Subscribe 1; Subscribe 2; Emit PNothing] = ([1], [Done; InvalidEventSink; Emitted [(1, RVoid)]]).
Proof. reflexivity. Qed.

(** A sink that is subscribed always has the kind of the source, whatever the kinds given. *)
Theorem C98_same_kind g s os x : In x (fst (run g s [] os)) -> pkind (g x) = pkind s.
Proof. apply (run_good g s os []). split; [constructor|intros y []]. Qed.

(** Integers, whatever integral kind was given to the source and the sink: the sink receives
    the number that was emitted, or Emit throws. *)
Theorem C98_integers g s os x c t u v :
  ptype s = EVal (CInt c) -> of_type c v -> kind_type (pkind s) = Some u ->
  fst (run g s [] os) = [x] -> ptype (g x) = EVal (CInt t) ->
  snd (step g s [x] (Emit (PInt v))) = Emitted [(x, RVal (PInt v))] /\ of_type u v /\ of_type t v \/
  snd (step g s [x] (Emit (PInt v))) = Failed [] /\ (~ of_type u v \/ ~ of_type t v).
Proof.
  intros P C K R T. destruct (integer_source s c v u P C K) as [A1 A2]. cbn.
  destruct (of_type_dec u v) as [U|U].
  - rewrite (A1 U). destruct (integer_sink (g x) (pkind s) u t v T K U) as [B1 B2]. cbn.
    destruct (of_type_dec t v) as [V|V].
    + rewrite (B1 V). auto.
    + rewrite (B2 V). auto.
  - rewrite (A2 U). auto.
Qed.

Example C98_integers_example :
  let g : sinks := fun _ => Port (EVal (CInt TI8)) KU16 in let s := Port (EVal (CInt TI64)) KU16 in
  run g s [] [Subscribe 5; Emit (PInt 100); Emit (PInt 300); Emit (PInt (-1))] =
    ([5], [Done; Emitted [(5, RVal (PInt 100))]; Failed []; Failed []]).
Proof. vm_compute. reflexivity. Qed.

(** When Emit throws, the sinks before the one whose conversion failed have been notified
    and those after it have not; none has when the conversion to the kind of the source failed. *)
Theorem C98_failed g s subs v out : snd (step g s subs (Emit v)) = Failed out ->
  (argument s v = Throw InvalidAnyType /\ out = []) \/
  (exists a l1 x l2, argument s v = Ok a /\ subs = l1 ++ x :: l2 /\ map fst out = l1 /\ notify (g x) a = Throw InvalidAnyType).
Proof.
  cbn. destruct (argument s v) as [a|[]|]; [| |discriminate].
  - intros H. destruct (emit_stop g a subs [] out H) as (l1 & x & l2 & ys & -> & -> & L & T). right.
    exists a, l1, x, l2. repeat split; auto. cbn [app]. clear H. revert ys L. induction l1 as [|z l1 IH]; intros [|y ys] L; try discriminate; [reflexivity|].
    cbn. f_equal. apply IH. now injection L.
  - intros H. injection H as <-. auto.
Qed.

Example C98_failed_example :
  let g : sinks := fun x => Port (EVal (CInt (if x =? 2 then TI8 else TI32))) KI32 in
  run g (Port (EVal (CInt TI32)) KI32) [] [Subscribe 3; Subscribe 2; Subscribe 1; Emit (PInt 300)] =
    ([1; 2; 3], [Done; Done; Done; Failed [(1, RVal (PInt 300))]]).
Proof. vm_compute. reflexivity. Qed.

Print Assumptions C98_delivered.
Print Assumptions C98_integers.
