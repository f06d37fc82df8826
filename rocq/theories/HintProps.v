(** C104: the Python file with the types of a simulator. *)
From Verif Require Import Text HelperModel HelperSpec HintModel HintSpec HintProofs.

(** If all names are identifiers of Python and the descriptions can be quoted, the file is
    Python, and its classes are those of the simulator and of exactly the objects in it,
    nested and named as they are, each with its interfaces, its fields, its components and
    its other parts. *)
Theorem C104_file_partial s t : readable s -> write s = Ok t -> describes_all s t.
Proof. apply write_describes. Qed.

(** A simulator with a model in the container Models, which has a field that can be forced, a
    structure field with one field in it, an operation, an entry point and a reference. *)
Scheme Equality for iface.
Definition sets (l : list iface) (i : iface) : bool := existsb (iface_beq i) l.
Definition ex_field (n : list Z) (l : list iface) (fs : list obj) : obj :=
  Obj (Info n [] (sets (IPersist :: IField :: l)) None None None None None false false []) fs [].
Definition ex_speed := ex_field (codes "speed") [ISimpleField; IForcibleField; IDataflowField] [].
Definition ex_pos := ex_field (codes "pos") [IStructureField] [ex_field (codes "x") [ISimpleField] []].
Definition ex_model (pub : bool) (fs : list obj) : obj :=
  Obj (Info (codes "sat") (codes "A satellite") (sets [IComponent; IModel; IAggregate; IDynamicInvocation; IEntryPointPublisher])
       (Some [codes "ground"]) (if pub then Some [codes "reset"] else None) (if pub then Some [] else None) None None pub false [codes "step"]) fs [].
Definition ex_sim (m : obj) : obj :=
  Obj (Info (codes "Sim") [] (sets [ISimulator; IComposite]) None None None None None false true []) [] [(codes "Models", [m]); (codes "Services", [])].
Definition ex_s : obj := ex_sim (ex_model true [ex_speed; ex_pos]).
Definition ex_text : list Z := match write ex_s with Ok t => t | _ => [] end.

(** The file is, indented by four blanks for each level (here by one):
<<
import ecss_smp

class Simulator(ecss_smp.Smp.ISimulator, ):
 _Models: ecss_smp.Smp.IContainer

 class __sat(ecss_smp.Smp.IModel, ecss_smp.Smp.IAggregate, ecss_smp.Smp.IDynamicInvocation, ecss_smp.Smp.IEntryPointPublisher, ):
  _ground: ecss_smp.Smp.IReference

  def reset(self, ): ...
  class __speed(ecss_smp.Smp.IForcibleField, ecss_smp.Smp.IDataflowField, ):
   pass
  ...
>> *)
Example C104_file_example :
  readable ex_s /\ write ex_s = Ok ex_text /\ length ex_text = 719%nat /\
  inside ex_s [codes "sat"; codes "pos"; codes "x"] (ex_field (codes "x") [ISimpleField] []) /\
  describes_all ex_s ex_text.
Proof.
  split; [apply check_readable; vm_compute; reflexivity|]. split; [vm_compute; reflexivity|]. split; [vm_compute; reflexivity|]. split.
  - apply (in_next ex_s (ex_model true [ex_speed; ex_pos])); [eapply mb_component; [reflexivity|reflexivity|now left|now left]|].
    apply (in_next _ ex_pos); [apply mb_field; [now left|right; now left]|].
    apply (in_next _ (ex_field (codes "x") [ISimpleField] [])); [apply mb_field; [now right|now left]|constructor].
  - apply C104_file_partial; [apply check_readable; vm_compute; reflexivity|vm_compute; reflexivity].
Qed.

(** The file is written unless a component has not been published; then a null pointer is
    used. *)
Theorem C104_written s : (forall p o, inside s p o -> regular (has (inf o))) ->
  (exists t, write s = Ok t) <-> forall p o, inside s p o -> ~ unpublished o.
Proof. apply write_defined. Qed.
Theorem C104_undefined s : (forall p o, inside s p o -> regular (has (inf o))) ->
  write s = UB <-> exists p o, inside s p o /\ unpublished o.
Proof. apply write_undefined. Qed.
Example C104_undefined_example : (forall p o, inside ex_s p o -> regular (has (inf o)) /\ ~ unpublished o) /\
  unpublished (ex_model false []) /\ inside (ex_sim (ex_model false [])) [codes "sat"] (ex_model false []) /\
  write (ex_sim (ex_model false [])) = UB.
Proof.
  assert (R : forall p o, inside ex_s p o -> regular (has (inf o))).
  { apply rd_regular. apply check_readable. vm_compute. reflexivity. }
  split; [intros p o I; split; [now apply (R p)|apply (proj1 (C104_written ex_s R)) with (p := p); [exists ex_text; vm_compute; reflexivity|assumption]]|]. split; [split; [reflexivity|now left]|]. split.
  - apply (in_next (ex_sim (ex_model false [])) (ex_model false [])); [|constructor].
    eapply mb_component; [reflexivity|reflexivity|now left|now left].
  - vm_compute. reflexivity.
Qed.

(** A component created after the others have been connected has not been published: the file
    cannot be written. *)
Theorem C104_unpublished_refuted : exists s, readable s /\ write s = UB.
Proof. exists (ex_sim (ex_model false [])). split; [apply check_readable; vm_compute; reflexivity|vm_compute; reflexivity]. Qed.

(** Names the library allows are not always names in Python: with a field [in], or a component
    [[0]], the file is not Python. *)
Definition ex_plain (n : list Z) (fs : list obj) : obj :=
  Obj (Info n [] (sets [IComponent; IModel]) None None None None None true false []) fs [].
Definition ex_in_field : obj := ex_field (codes "in") [ISimpleField] [].
Definition ex_in : obj := ex_sim (ex_plain (codes "sat") [ex_in_field]).
Definition ex_0 : obj := ex_sim (ex_plain (codes "[0]") []).
Theorem C104_names_refuted : exists s s' t t',
  (exists o, inside s [codes "sat"; codes "in"] o) /\ valid_name (codes "in") /\
  (exists o, inside s' [codes "[0]"] o) /\ valid_name (codes "[0]") /\
  write s = Ok t /\ write s' = Ok t' /\ forall l, ~ block 0 t l /\ ~ block 0 t' l.
Proof.
  exists ex_in, ex_0, (match write ex_in with Ok t => t | _ => [] end), (match write ex_0 with Ok t => t | _ => [] end).
  assert (Q : forall t, existsb (Z.eqb 34) t = false -> ~ In 34 t).
  { intros t E I. assert (X : existsb (Z.eqb 34) t = true) by (apply existsb_exists; exists 34; split; [assumption|reflexivity]). congruence. }
  split; [|split; [|split; [|split; [|split; [|split]]]]].
  - exists ex_in_field. apply (in_next ex_in (ex_plain (codes "sat") [ex_in_field])); [eapply mb_component; [reflexivity|reflexivity|now left|now left]|].
    apply (in_next _ ex_in_field); [apply mb_field; [now left|now left]|constructor].
  - apply (vn_ident 105 [110]); [unfold letter; lia|]. constructor; [left; unfold letter; lia|constructor].
  - exists (ex_plain (codes "[0]") []). apply (in_next ex_0 (ex_plain (codes "[0]") [])); [eapply mb_component; [reflexivity|reflexivity|now left|now left]|constructor].
  - apply (vn_index [48]); [discriminate|]. constructor; [unfold digit; lia|constructor].
  - vm_compute. reflexivity.
  - vm_compute. reflexivity.
  - intros l. split; apply not_python; try (apply Q; vm_compute; reflexivity); vm_compute; reflexivity.
Qed.

(** Nor with a description that ends with a quote or holds three quotes. *)
Definition ex_described (t : list Z) : obj :=
  ex_sim (Obj (Info (codes "sat") t (sets [IComponent; IModel]) None None None None None true false []) [] []).
Definition ex_d1 : list Z := codes "the " ++ [34] ++ codes "fast one" ++ [34].
Definition ex_d2 : list Z := codes "the " ++ [34; 34; 34] ++ codes "fast one".
Theorem C104_descriptions_refuted : exists s s' t t',
  (exists o, inside s [codes "sat"] o /\ descr (inf o) = ex_d1) /\ (exists o, inside s' [codes "sat"] o /\ descr (inf o) = ex_d2) /\
  write s = Ok t /\ write s' = Ok t' /\ forall l, ~ block 0 t l /\ ~ block 0 t' l.
Proof.
  exists (ex_described ex_d1), (ex_described ex_d2), (match write (ex_described ex_d1) with Ok t => t | _ => [] end), (match write (ex_described ex_d2) with Ok t => t | _ => [] end).
  assert (I : forall t, exists o, inside (ex_described t) [codes "sat"] o /\ descr (inf o) = t).
  { intros t. exists (Obj (Info (codes "sat") t (sets [IComponent; IModel]) None None None None None true false []) [] []). split; [|reflexivity].
    apply (in_next (ex_described t) (Obj (Info (codes "sat") t (sets [IComponent; IModel]) None None None None None true false []) [] [])); [|constructor].
    eapply mb_component; [reflexivity|reflexivity|now left|now left]. }
  split; [apply I|]. split; [apply I|]. split; [vm_compute; reflexivity|]. split; [vm_compute; reflexivity|].
  intros l. split; apply not_closed; vm_compute; reflexivity.
Qed.

Print Assumptions C104_file_partial.
Print Assumptions C104_names_refuted.
