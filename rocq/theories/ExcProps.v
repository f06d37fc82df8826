(** C95: the exceptions of the library. *)
From Verif Require Import Base Text UuidSpec UuidModel AnyModel AnySpec CalModel CalProofs OutSpec OutModel OutProofs
  ExcModel ExcSpec ExcProofs.
From Verif Require SchedModel.
From Coq Require Import ZArith List Bool Lia String.
Import ListNotations.
Local Open Scope Z_scope.

(** * Text *)

(** An exception that reaches its handler has the name of its class and the sender; its
    message is the template of the class with the texts of the arguments, null pointers
    included; what() joins name, description and message. *)
Theorem C95_text w e x : (forall u, In (IUuid u) (arguments w e) -> uuid_ok u) -> throw w e = Ok x ->
  get_name x = codes (class_name e) /\ get_sender x = sender_of e /\
  what x = (get_name x ++ codes "(" ++ get_description x ++ codes "): " ++ get_message x)%list /\
  exists ts, Forall2 (fun i t => format_string [i] = Ok t) (arguments w e) ts /\ get_message x = render (template e) ts.
Proof.
  intros U H. destruct (throw_eq w e x H) as (M & A & B & C & D & _).
  unfold get_name, get_sender, get_description, get_message, what. rewrite A, B, D, B.
  split; [destruct e; reflexivity|]. split; [destruct e; reflexivity|]. split; [reflexivity|]. exact (message_ok w e _ U M).
Qed.

(** The description is the same for all exceptions of a class, and is not empty. *)
Theorem C95_description w e x w' e' x' : throw w e = Ok x -> throw w' e' = Ok x' -> class_name e = class_name e' ->
  get_description x = get_description x' /\ get_description x <> [].
Proof.
  intros H H' E. destruct (throw_eq w e x H) as (_ & _ & _ & C & _). destruct (throw_eq w' e' x' H') as (_ & _ & _ & C' & _).
  unfold get_description. rewrite C, C'. destruct (described w e) as (D & N). destruct (described w' e') as (D' & _).
  rewrite E, D' in D. injection D as D. rewrite <- D. split; [reflexivity|].
  rewrite D. clear -N. destruct (c_description (class_of w e)); [congruence|]. discriminate.
Qed.

Definition here : world := World (fun p => match p with O => codes "/sim/c" | _ => codes "/sim" end)
  (fun p => match p with O => Some (codes "c") | _ => Some (codes "sim") end).
Definition later : world := World (fun _ => []) (fun p => match p with O => None | _ => Some (codes "sim") end).

Example C95_text_example :
  (exists x, throw here (InvalidParameterValue (Some 0%nat) (codes "p") (Any KI8 (PInt (-5)))) = Ok x /\
     get_message x = codes "The value '-5i8' is invalid for parameter 'p' in Operation '/sim/c'." /\
     get_sender x = Some 0%nat) /\
  (exists x, throw here (DuplicateName None None (Some 1%nat)) = Ok x /\
     what x = codes "DuplicateName(Cannot add an object to a collection of objects, which have to have unique names, but another object with the same name does exist already in this collection. This would lead to duplicate names): Tried to add an object named '<null>' in '/sim' collection already containing an object with this name.") /\
  (exists x, throw here (InvalidCycleTime (Some 1%nat) (-3)) = Ok x /\
     get_message x = codes "The cycle time '-00:00:00.000000003' is not a positive value.").
Proof.
  split; [|split]; (eexists; split; [vm_compute; reflexivity|]).
  - split; vm_compute; reflexivity.
  - vm_compute. reflexivity.
  - vm_compute. reflexivity.
Qed.

(** * Which calls reach the handler *)

(** Making the exception is undefined exactly when it carries a null string, a duration of
    -2^63 ns or a date after 2262 it has to print (C94_undefined_exactly). *)
Theorem C95_undefined_exactly w e : (forall u, In (IUuid u) (arguments w e) -> uuid_ok u) ->
  (forall a, value_of e = Some a -> value_ok a) -> (forall d, In d (durations_of e) -> i64_min <= d <= i64_max) ->
  (throw w e = UB <->
   (exists a, value_of e = Some a /\
      (aval a = PStr None \/ holds a KDuration i64_min \/
       exists v, holds a KDateTime v /\ i64_max < v + TimeModel.epoch_to_mjd)) \/
   In i64_min (durations_of e)).
Proof.
  intros U V D.
  assert (T : throw w e = UB <-> format_string (c_items (class_of w e)) = UB).
  { unfold throw. destruct (format_string (c_items (class_of w e))) as [m|[]|] eqn:E.
    - split; [|discriminate]. destruct e; try discriminate. destruct invalid; discriminate.
    - split; [reflexivity|]. intros _. destruct e; try reflexivity. destruct invalid; [reflexivity|].
      exfalso. apply (undefined_parts w (InvalidObjectType sender None its_type expected_type) U) in E.
      destruct E as [(a & A & _)|(d & [] & _)]. discriminate. }
  rewrite T, (undefined_parts w e U). split.
  - intros [(a & A & B)|(d & I & B)].
    + left. exists a. split; [exact A|]. apply (fs_any_undefined a (V a A)) in B. destruct B as [B|[(v & B & ->)|B]]; auto.
    + right. apply (fs_duration_undefined d (D d I)) in B. now subst d.
  - intros [(a & A & B)|I].
    + left. exists a. split; [exact A|]. apply (fs_any_undefined a (V a A)). destruct B as [B|[B|B]]; eauto.
    + right. exists i64_min. split; [exact I|]. now apply (fs_duration_undefined i64_min (D _ I)).
Qed.

(** Another exception takes its place exactly when the type of a null object is wrong. *)
Theorem C95_replaced_exactly w e b : throw w e = Throw b <-> b = BadTypeid /\ class_name e = "InvalidObjectType"%string /\
  forall o, In ("GetInvalidObject"%string, VObject o) (gives e) -> o = None.
Proof.
  split.
  - intros H. unfold throw in H. destruct (format_string (c_items (class_of w e))) as [m|[]|];
      destruct e; try discriminate H; destruct invalid; try discriminate H; injection H as <-;
      (split; [reflexivity|]; split; [reflexivity|]; intros o [I|[]]; now injection I as <-).
  - intros (-> & C & G). destruct e; try discriminate C. rewrite (G invalid ltac:(now left)). reflexivity.
Qed.

Example C95_undefined_example :
  throw here (InvalidFieldValue None (Any KString8 (PStr None)) (codes "t")) = UB /\
  throw here (InvalidCycleTime None i64_min) = UB /\
  throw here (InvalidObjectType (Some 1%nat) None [] (codes "IModel")) = Throw BadTypeid /\
  (exists x, throw here (InvalidObjectType (Some 1%nat) (Some 0%nat) (codes "C") (codes "IModel")) = Ok x).
Proof.
  split; [vm_compute; reflexivity|]. split; [vm_compute; reflexivity|]. split; [vm_compute; reflexivity|].
  eexists. vm_compute. reflexivity.
Qed.

(** The library makes such exceptions: a call of the scheduler with a cycle time of -2^63 ns
    is rejected with InvalidCycleTime, and the rejection itself is undefined. *)
Theorem C95_rejections_refuted :
  ~ (forall w s, SchedModel.api SchedModel.sched_init (SchedModel.AddSim 1 0 i64_min 1) =
       Throw SchedModel.InvalidCycleTime -> exists x, throw w (InvalidCycleTime s i64_min) = Ok x).
Proof.
  intros H. destruct (H here None) as (x & X); [vm_compute; reflexivity|]. vm_compute in X. discriminate.
Qed.

(** * Getters *)

(** A getter gives the argument it is named after, whatever happened to the objects. *)
Theorem C95_getters w e x w' g v : throw w e = Ok x -> In (g, v) (gives e) -> getter w' x g = Some (Ok v).
Proof.
  intros H I. destruct (throw_eq w e x H) as (_ & _ & _ & _ & _ & K). unfold getter. rewrite K.
  rewrite (getters_ok w e g _ (gives_kept w e g v I)). reflexivity.
Qed.

(** Getters of the name of the container, reference, operation or factory: the name the
    object has when the getter is called.  Missing: the object was destroyed. *)
Theorem C95_names_partial w e x w' g p t : throw w e = Ok x -> In (g, p) (gives_name e) -> name w' p = Some t ->
  getter w' x g = Some (Ok (VText t)).
Proof.
  intros H I N. destruct (throw_eq w e x H) as (_ & _ & _ & _ & _ & K). unfold getter. rewrite K.
  rewrite (getters_ok w e g _ (gives_name_kept w e g p I)). now rewrite N.
Qed.

Theorem C95_names_refuted :
  ~ (forall w e x w' g p, throw w e = Ok x -> In (g, p) (gives_name e) -> exists t, getter w' x g = Some (Ok (VText t))).
Proof.
  intros H.
  assert (E : exists x, throw here (ContainerFull 0 3) = Ok x) by (eexists; vm_compute; reflexivity).
  destruct E as (x & E). destruct (H here _ x later "GetContainerName"%string 0%nat E (or_introl eq_refl)) as (t & G).
  vm_compute in E. injection E as <-. vm_compute in G. discriminate.
Qed.

(** There are no other getters. *)
Theorem C95_getters_exactly w e x w' g : throw w e = Ok x ->
  (getter w' x g = None <-> (forall v, ~ In (g, v) (gives e)) /\ forall p, ~ In (g, p) (gives_name e)).
Proof.
  intros H. destruct (throw_eq w e x H) as (_ & _ & _ & _ & _ & K). unfold getter. rewrite K. split.
  - intros F. split; intros y I; [apply (gives_kept w) in I|apply (gives_name_kept w) in I];
      rewrite (getters_ok w e g _ I) in F; discriminate.
  - intros (A & B). destruct (find _ _) as [[g' k]|] eqn:F; [|reflexivity]. exfalso.
    apply find_some in F. destruct F as (I & E). cbn [fst] in E. apply String.eqb_eq in E. subst g'.
    destruct (kept_gives w e g k I) as [(v & _ & J)|(p & _ & J)]; [exact (A v J)|exact (B p J)].
Qed.

Example C95_getters_example : exists x, throw here (CannotDelete 1 (Some 0%nat) 2) = Ok x /\
  getter later x "GetLowerLimit" = Some (Ok (VInt 2)) /\ getter later x "GetComponent" = Some (Ok (VObject (Some 0%nat))) /\
  getter later x "GetContainerName" = Some (Ok (VText (codes "sim"))) /\ getter later x "GetEventName" = None.
Proof.
  eexists. split; [vm_compute; reflexivity|]. split; [vm_compute; reflexivity|]. split; [vm_compute; reflexivity|].
  split; vm_compute; reflexivity.
Qed.

Print Assumptions C95_text.
Print Assumptions C95_undefined_exactly.
Print Assumptions C95_getters.
