(** Proofs about exceptions. *)
From Verif Require Import Base Text UuidSpec UuidModel AnyModel AnySpec CalModel CalProofs OutSpec OutModel OutProofs ExcModel ExcSpec.
From Coq Require Import ZArith List Bool Lia String.
Import ListNotations.
Local Open Scope Z_scope.

Lemma fs_text t : format_string [IText t] = Ok t.
Proof. rewrite fs_one. cbn [put_item]. rewrite put_calm by apply plain_calm. reflexivity. Qed.

Lemma fs_parts l : Forall item_ok l -> forall m, format_string l = Ok m ->
  exists ts, Forall2 (fun i t => format_string [i] = Ok t) l ts /\ m = List.concat ts.
Proof.
  intros F. induction F as [|i l I F IH]; intros m E.
  - exists []. split; [constructor|]. injection E as <-. reflexivity.
  - rewrite fs_cons in E by assumption. destruct (format_string [i]) as [t|[]|] eqn:Ei; [|discriminate]. cbn [bind] in E.
    destruct (format_string l) as [r|[]|]; [|discriminate]. cbn [bind] in E. injection E as <-.
    destruct (IH r eq_refl) as (ts & A & ->). exists (t :: ts). split; [constructor; assumption|reflexivity].
Qed.

(** The parts of the message that are not fixed are the arguments. *)
Lemma items_ok w e : (forall u, In (IUuid u) (arguments w e) -> uuid_ok u) -> Forall item_ok (c_items (class_of w e)).
Proof.
  intros H. destruct e; cbn [class_of c_items]; repeat (constructor; [exact I || (apply H; cbn; tauto)|]); constructor.
Qed.

Lemma throw_eq w e x : throw w e = Ok x ->
  format_string (c_items (class_of w e)) = Ok (x_message x) /\ x_sender x = c_sender (class_of w e) /\
  x_name x = codes (c_name (class_of w e)) /\ x_description x = codes (c_description (class_of w e)) /\
  x_what x = x_name x ++ codes "(" ++ x_description x ++ codes "): " ++ x_message x /\
  x_kept x = c_kept (class_of w e).
Proof.
  unfold throw. destruct (format_string (c_items (class_of w e))) as [m|[]|] eqn:E; intros H.
  - assert (K : match e with InvalidObjectType _ None _ _ => False | _ => True end).
    { destruct e; try exact I. destruct invalid; [exact I|discriminate]. }
    assert (H' : Ok (Thrown (c_sender (class_of w e)) (codes (c_name (class_of w e))) (codes (c_description (class_of w e))) m
                (codes (c_name (class_of w e)) ++ codes "(" ++ codes (c_description (class_of w e)) ++ codes "): " ++ m)
                (c_kept (class_of w e))) = Ok x :> res other thrown).
    { destruct e; try exact H. destruct invalid; [exact H|contradiction]. }
    injection H' as <-. cbn [x_message x_sender x_name x_description x_what x_kept]. repeat split.
  - exfalso. destruct e; try discriminate.
Qed.

Ltac invert_parts :=
  repeat match goal with
  | H : Forall2 _ [] _ |- _ => inversion H; clear H; subst
  | H : Forall2 _ (_ :: _) _ |- _ => inversion H; clear H; subst
  end;
  repeat match goal with
  | H : format_string [T _] = Ok _ |- _ => unfold T in H; rewrite fs_text in H; injection H as <-
  | H : format_string [X _] = Ok _ |- _ => unfold X in H; rewrite fs_text in H; injection H as <-
  | H : format_string [IText _] = Ok _ |- _ => rewrite fs_text in H; injection H as <-
  end.

Lemma message_ok w e m : (forall u, In (IUuid u) (arguments w e) -> uuid_ok u) ->
  format_string (c_items (class_of w e)) = Ok m -> exists ts,
  Forall2 (fun i t => format_string [i] = Ok t) (arguments w e) ts /\ m = render (template e) ts.
Proof.
  intros U E. destruct (fs_parts _ (items_ok w e U) m E) as (ps & F & ->). clear E U.
  destruct e; cbn [class_of c_items] in F; cbn [arguments template]; invert_parts;
    (eexists; split;
     [unfold obj_text, str_text; repeat (apply Forall2_cons; [first [eassumption|apply fs_text]|]); apply Forall2_nil|reflexivity]).
Qed.

Lemma any_undefined a f : value_ok a -> calm f -> (put_any a f = UB <->
  aval a = PStr None \/ (exists v, holds a KDuration v /\ v = i64_min) \/
  (exists v, holds a KDateTime v /\ i64_max < v + TimeModel.epoch_to_mjd)).
Proof.
  intros (V & _) U. rewrite (put_any_calm f a U). destruct a as [k p]. unfold any_ok in V. unfold any_text, holds.
  cbn [atype aval] in *.
  destruct k; cbn [kind_type] in V;
    try (destruct V as (v & -> & B)); try (destruct V as (v & ->)); try subst p;
    try (split; [discriminate|intros [X|[(w & (X & _) & _)|(w & (X & _) & _)]]; discriminate]).
  - apply i64_type in B. split.
    + destruct (Z.eq_dec v i64_min) as [->|N]; [intros _; right; left; eauto|].
      destruct (duration_text_ok v ltac:(lia)) as (b & -> & _). discriminate.
    + intros [X|[(w & (_ & X) & ->)|(w & (X & _) & _)]]; try discriminate. injection X as ->. reflexivity.
  - apply i64_type in B. rewrite date_defined by assumption. split.
    + destruct (Z.leb_spec (v + TimeModel.epoch_to_mjd) i64_max); [discriminate|]. intros _. right; right; eauto.
    + intros [X|[(w & (X & _) & _)|(w & (_ & X) & L)]]; try discriminate. injection X as ->.
      destruct (Z.leb_spec (w + TimeModel.epoch_to_mjd) i64_max); [lia|reflexivity].
  - destruct v as [t|].
    + split; [discriminate|]. intros [X|[(w & (X & _) & _)|(w & (X & _) & _)]]; discriminate.
    + split; [auto|reflexivity].
Qed.

Lemma fs_any_undefined a : value_ok a -> (format_string [IAny a] = UB <->
  aval a = PStr None \/ (exists v, holds a KDuration v /\ v = i64_min) \/
  (exists v, holds a KDateTime v /\ i64_max < v + TimeModel.epoch_to_mjd)).
Proof.
  intros V. rewrite <- (any_undefined a plain V plain_calm). rewrite fs_one. cbn [put_item].
  destruct (put_any a plain) as [[t f]|[]|]; cbn [bind]; [|tauto]. split; discriminate.
Qed.

Lemma fs_duration_undefined d : i64_min <= d <= i64_max -> (format_string [IDuration d] = UB <-> d = i64_min).
Proof.
  intros H. rewrite fs_one. cbn [put_item]. unfold put_lib. split.
  - intros E. destruct (Z.eq_dec d i64_min) as [D|D]; [exact D|].
    destruct (duration_text_ok d ltac:(lia)) as (b & T & _). rewrite T in E. discriminate.
  - intros ->. rewrite duration_min. reflexivity.
Qed.

Lemma fs_plain_defined i : match i with IAny _ | IDuration _ | IUuid _ => False | _ => True end -> format_string [i] <> UB.
Proof.
  rewrite fs_one. destruct i as [t|t v|a|e v|u|d]; intros H; try contradiction; cbn [put_item].
  - rewrite put_calm by apply plain_calm. discriminate.
  - rewrite put_int_calm by apply plain_calm. discriminate.
  - rewrite put_enum_calm by apply plain_calm. discriminate.
Qed.

Lemma fs_uuid_defined u : uuid_ok u -> format_string [IUuid u] <> UB.
Proof. intros H. rewrite fs_one. cbn [put_item]. rewrite put_uuid_any by assumption. discriminate. Qed.

Lemma undefined_parts w e : (forall u, In (IUuid u) (arguments w e) -> uuid_ok u) ->
  (format_string (c_items (class_of w e)) = UB <->
   (exists a, value_of e = Some a /\ format_string [IAny a] = UB) \/
   (exists d, In d (durations_of e) /\ format_string [IDuration d] = UB)).
Proof.
  intros U. rewrite (fs_defined _ (items_ok w e U)). split.
  - intros (i & I & B).
    assert (K : (exists a, i = IAny a /\ value_of e = Some a) \/ (exists d, i = IDuration d /\ In d (durations_of e)) \/
                (exists u, i = IUuid u /\ In (IUuid u) (arguments w e)) \/
                match i with IAny _ | IDuration _ | IUuid _ => False | _ => True end).
    { destruct e; cbn [class_of c_items In] in I;
        repeat match type of I with _ \/ _ => destruct I as [<-|I] | False => contradiction end;
        try (right; right; right; exact Logic.I);
        try (left; eexists; split; reflexivity);
        try (right; left; eexists; split; [reflexivity|cbn; tauto]);
        try (right; right; left; eexists; split; [reflexivity|cbn; tauto]). }
    destruct K as [(a & -> & A)|[(d & -> & D)|[(u & -> & IU)|K]]].
    + left. eauto.
    + right. eauto.
    + exfalso. exact (fs_uuid_defined u (U u IU) B).
    + exfalso. exact (fs_plain_defined i K B).
  - intros [(a & A & B)|(d & D & B)].
    + exists (IAny a). split; [|exact B]. destruct e; try discriminate; injection A as ->; cbn; tauto.
    + exists (IDuration d). split; [|exact B]. destruct e; try contradiction; cbn in D; destruct D as [<-|D]; try contradiction; cbn; try tauto.
      destruct D as [<-|[]]. tauto.
Qed.

(** Getters. *)
Lemma getters_ok w e g k : In (g, k) (c_kept (class_of w e)) ->
  find (fun y => String.eqb (fst y) g) (c_kept (class_of w e)) = Some (g, k).
Proof.
  intros I. destruct e; cbn [class_of c_kept In] in *;
    repeat match type of I with _ \/ _ => destruct I as [I|I] | False => contradiction end;
    injection I as <- <-; reflexivity.
Qed.
Lemma gives_kept w e g v : In (g, v) (gives e) -> In (g, Kept v) (c_kept (class_of w e)).
Proof.
  intros I. destruct e; cbn [gives In] in I;
    repeat match type of I with _ \/ _ => destruct I as [I|I] | False => contradiction end;
    injection I as <- <-; cbn; tauto.
Qed.
Lemma gives_name_kept w e g p : In (g, p) (gives_name e) -> In (g, NameOf p) (c_kept (class_of w e)).
Proof.
  intros I. destruct e; cbn [gives_name In] in I;
    repeat match type of I with _ \/ _ => destruct I as [I|I] | False => contradiction end;
    injection I as <- <-; cbn; tauto.
Qed.
Lemma kept_gives w e g k : In (g, k) (c_kept (class_of w e)) ->
  (exists v, k = Kept v /\ In (g, v) (gives e)) \/ (exists p, k = NameOf p /\ In (g, p) (gives_name e)).
Proof.
  intros I. destruct e; cbn [class_of c_kept In] in I;
    repeat match type of I with _ \/ _ => destruct I as [I|I] | False => contradiction end;
    injection I as <- <-; try (left; eexists; split; [reflexivity|cbn; tauto]); right; eexists; split; try reflexivity; cbn; tauto.
Qed.

(** The descriptions, by class. *)
Definition descriptions : list (string * string) :=
  ([("FieldAlreadyConnected", "Cannot connect a target field to a data flow field that is already connected");
   ("InvalidTarget", "Cannot connect two data flow fields of incompatible types");
   ("CannotStore", "This exception is raised when the component cannot store its data to the storage writer given to the Store() method");
   ("CannotRestore", "This exception is raised when the content of the storage reader passed to the Restore() method contains invalid data");
   ("InvalidObjectName", "Cannot set an object's name to an invalid name");
   ("ContainerFull", "Cannot add a component to a container that is full, i.e. where the Count has reached the Upper limit");
   ("DuplicateName", "Cannot add an object to a collection of objects, which have to have unique names, but another object with the same name does exist already in this collection. This would lead to duplicate names");
   ("NotContained", "This exception is thrown when trying to delete a component from a container which was not contained before");
   ("CannotDelete", "This exception is thrown when trying to delete a component from a container when the number of contained components is lower than or equal to the Lower limit");
   ("InvalidComponentState", "This exception is raised by a component when one of its methods is called in an invalid state");
   ("InvalidObjectType", "Cannot pass an object of wrong type");
   ("NotReferenced", "This exception is thrown when trying to remove a component from a reference which was not referenced before");
   ("ReferenceFull", "Cannot add a component to a reference that is full, i.e. where the Count has reached the Upper limit");
   ("CannotRemove", "This exception is thrown when trying to remove a component from a reference when the number of referenced components is lower than or equal to the Lower limit");
   ("InvalidEventSink", "Cannot subscribe an event sink to an event source that has a different event type");
   ("EventSinkAlreadySubscribed", "Cannot subscribe an event sink to an event source that is already subscribed");
   ("EventSinkNotSubscribed", "Cannot unsubscribe an event sink from an event source that is not subscribed to it");
   ("InvalidOperationName", "This exception is raised by the Invoke() method when trying to invoke a method that does not exist, or that does not support dynamic invocation");
   ("InvalidParameterCount", "This exception is raised by the Invoke() method when trying to invoke a method with a wrong number of parameters");
   ("InvalidParameterType", "This exception is raised by the Invoke() method when trying to invoke a method passing a parameter of wrong type");
   ("InvalidArrayIndex", "This exception is raised when an invalid index is specified");
   ("InvalidFieldValue", "This exception is raised when trying to assign an illegal value to a field");
   ("InvalidArrayValue", "This exception is raised when trying to assign an illegal value to an array field");
   ("InvalidArraySize", "This exception is raised when an invalid array size is specified");
   ("InvalidEventName", "This exception is thrown by the QueryEventId() method of the event manager when an empty event name has been provided");
   ("InvalidEventId", "This exception is raised when an invalid event id is provided, e.g.when calling Subscribe(), Unsubscribe() or Emit() of the Event Manager (using an invalid global event id), or when calling SetEventSimulationTime(), SetEventMissionTime(), SetEventEpochTime(), SetEventZuluTime(), SetEventCycleTime(), SetEventCount() or RemoveEvent() of the Scheduler (using an invalid scheduler event id)");
   ("InvalidCycleTime", "This exception is thrown by one of the AddEvent() methods of the scheduler when the event is a cyclic event (i.e. repeat is not 0),  but the cycle time specified is not a positive duration");
   ("InvalidEventTime", "This exception is thrown by one of the AddEvent() methods of the scheduler when the time specified for the first execution of the  event is in the past");
   ("EntryPointNotSubscribed", "Cannot unsubscribe an entry point from an event that is not subscribed to it");
   ("EntryPointAlreadySubscribed", "Cannot subscribe an entry point to an event that is already subscribed");
   ("InvalidFieldName", "This exception is raised when an invalid field name is specified");
   ("TypeNotRegistered", "Cannot publish a feature with a type Uuid that has not been registered");
   ("InvalidParameterIndex", "This exception is raised when using an invalid parameter index to set (SetParameterValue()) or get (GetParameterValue()) a parameter value of an operation in a request");
   ("VoidOperation", "Cannot read (GetReturnValue()) or write (SetReturnValue()) the return value of a void operation");
   ("InvalidAnyType", "Cannot use an AnySimple argument of wrong type");
   ("InvalidReturnValue", "Cannot assign an invalid return value of an operation in a request using SetReturnValue()");
   ("InvalidParameterValue", "Cannot assign an illegal value to a parameter of an operation in a request using SetParameterValue()");
   ("InvalidFieldType", "Cannot publish a field with invalid type");
   ("DuplicateUuid", "Cannot register a factory under a Uuid that has already been used to register another (or the same) factory. This would lead to duplicate implementation Uuids");
   ("LibraryNotFound", "Cannot load a library that does not exist");
   ("InvalidLibrary", "Cannot load an undefined symbol from a library");
   ("InvalidSimulationTime", "This exception is thrown by SetSimulationTime if the new simulation time is not between the current simulation time and the simulation time of the next event on the scheduler");
   ("TypeAlreadyRegistered", "Cannot register a type with a Uuid that has already been registered");
   ("DuplicateLiteral", "Cannot add a literal to an enumeration using a value that has been used for another literal before.");
   ("InvalidPrimitiveType", "Cannot use an invalid primitive type kind as parameter for a user-defined float or integer type");
   ("InvalidSimulatorState", "This exception is raised by the simulator when one of the operations is called in an invalid state");
   ("IncompatibleType", "The type is incompatible")])%string.
Lemma described w e :
  option_map snd (find (fun y => String.eqb (fst y) (class_name e)) descriptions) = Some (c_description (class_of w e)) /\
  c_description (class_of w e) <> EmptyString.
Proof. destruct e; (split; [reflexivity|discriminate]). Qed.
