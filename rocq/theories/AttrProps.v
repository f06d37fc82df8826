(** Property C106: the values of fields and properties by name from Python. *)
From Coq Require Import String ZArith List Bool Lia.
From Verif Require Import Base Text UuidModel PathModel PathSpec PathProps AnyModel AnySpec PyModel PySpec PyProofs AttrModel AttrSpec AttrProofs.
Import ListNotations.
Local Open Scope Z_scope.

(** A model with a field of the type Int8, one of an enumeration type, a property that can
    only be read and a field called as a method. *)
Definition plant : tree :=
  nd KSim "sim" [nd KCont "Models" []; nd KCont "Services" [];
    comp "Models" "m" [nd KSimple "x" []; nd KSimple "mode" []; nd (KLeaf Property) "p" []; nd KSimple "GetName" []; nd KStruct "s" [nd KSimple "y" []]]].
Definition m_ : loc := [2%nat].
Definition at_ (i : nat) : loc := [i; 2%nat].
Definition small : world := World plant
  (fun c => if loc_eqb c (at_ 1) then Some KI32 else if loc_eqb c (at_ 4) then None else Some KI8)
  (fun c => if loc_eqb c (at_ 1) then Any KI32 (PInt 1) else Any KI8 (PInt 100))
  (fun _ => ReadOnly) (fun _ z => (0 <=? z) && (z <? 3)).
Definition class (o : loc) : list (list Z) := [codes "GetName"; codes "GetDescription"; codes "GetParent"].
Definition add (x y : Z) : option Z := Some (x + y).
Definition sub (x y : Z) : option Z := Some (x - y).

Example C106_plant : good_tree plant.
Proof. apply good_by_check; reflexivity. Qed.

(** An integer that is assigned to an element by a name is stored if the type of the
    element has it (and the element may be written), and is then what every name of the
    element reads; nothing else changes.  Any other integer is refused with an exception. *)
Theorem C106_integers : forall item w o name c t z, resolve (w_tree w) o name = Some c -> number w c t ->
  (takes w c t z -> exists w', assign item w o name (AVal (PyInt z)) = Ok w' /\ only c w w' /\ is w' c z /\
     ((property w c -> w_access w c <> WriteOnly) -> value w' c = Ok (PyInt z))) /\
  (~ takes w c t z -> exists e, assign item w o name (AVal (PyInt z)) = Throw e).
Proof.
  intros item w o name c t z R N. destruct (assign_number item w o name c t z R N) as [(T & w' & E & O & I & N')|(T & X)].
  2:{ split; [contradiction|auto]. }
  split; [|contradiction]. intros _. exists w'. split; [exact E|]. split; [exact O|]. split; [exact I|]. intros A.
  destruct (number_value w' c t N') as (z' & I' & _ & V). assert (z' = z) by (unfold is in *; congruence). subst z'.
  rewrite V. destruct O as (Tr & _ & Ac & _). rewrite Tr, Ac.
  destruct (node_at (w_tree w) c) as [[k' n' cs']|] eqn:Q; [|reflexivity]. destruct k' as [| |[]| | | | |]; try reflexivity.
  destruct (w_access w c) eqn:B; try reflexivity. exfalso. apply A; [now exists n', cs'|reflexivity].
Qed.

Ltac num := split; [eexists; split; [reflexivity|]; split; reflexivity|]; split; [cbn; eexists; split; [reflexivity|]; vm_compute; split; discriminate|].
Example C106_integers_example :
  number small (at_ 0) TI8 /\ number small (at_ 1) TI32 /\ number small (at_ 2) TI8 /\
  resolve plant m_ (codes "x") = Some (at_ 0) /\ resolve plant [] (codes "m.x") = Some (at_ 0) /\
  takes small (at_ 0) TI8 127 /\ ~ takes small (at_ 0) TI8 128 /\ ~ takes small (at_ 1) TI32 3 /\ ~ takes small (at_ 2) TI8 5.
Proof.
  split; [num; exists (codes "x"), []; left; reflexivity|].
  split; [num; exists (codes "mode"), []; left; reflexivity|].
  split; [num; exists (codes "p"), []; right; reflexivity|].
  split; [reflexivity|]. split; [reflexivity|].
  split; [split; [vm_compute; split; discriminate|]; split; [intros _ X; discriminate X|intros (n & cs & X); discriminate X]|].
  split; [intros ((X & Y) & _); vm_compute in Y; now apply Y|].
  split; [intros (_ & X & _); discriminate (X (ex_intro _ _ (ex_intro _ _ eq_refl)) eq_refl)|].
  intros (_ & _ & X). exact (X (ex_intro _ _ (ex_intro _ _ eq_refl)) eq_refl).
Qed.

(** A whole script, which goes on after exceptions: at the end every element has the
    integer that the statements mean, whatever the names used; overflow never wraps around,
    as the operators work on the integers of Python and only the result is checked. *)
Theorem C106_scripts : forall m w v l v', shows w v -> effects w m v l v' ->
  exists w', script m w l = Ok w' /\ shows w' v' /\ w_tree w' = w_tree w.
Proof.
  intros m w v l v' S E. destruct (script_refines w m l v v' E w (alike_refl w) S) as (w' & X & A & S').
  exists w'. split; [exact X|]. split; [exact S'|]. apply A.
Qed.

Definition demo : list stmt :=
  [Aug false m_ (codes "x") add 27; Aug true [] (codes "m.x") add 1; Set_ false m_ (codes "mode") (AVal (PyInt 2));
   Set_ true m_ (codes "mode") (AVal (PyInt 7));
   Calc false m_ (codes "mode") (Op sub (Elem false m_ (codes "x")) (Op add (Elem true [] (codes "m.s.y")) (Num 26)));
   Aug false [] (codes "m.s.z") add 1].
Example C106_scripts_example : exists v v', shows small v /\ effects small class v demo v' /\
  v (at_ 0) = 100 /\ v' (at_ 0) = 127 /\ v' (at_ 1) = 1 /\ v' (at_ 2) = 100.
Proof.
  destruct C106_integers_example as (N0 & N1 & _ & R0 & R0' & T0 & T1 & T2 & _).
  set (v := fun c => if loc_eqb c (at_ 1) then 1 else 100).
  set (v1 := fun c => if loc_eqb c (at_ 0) then 127 else v c).
  set (v2 := fun c => if loc_eqb c (at_ 1) then 2 else v1 c).
  set (v3 := fun c => if loc_eqb c (at_ 1) then 1 else v2 c).
  exists v, v3. split.
  { intros c t _. unfold is, v. cbn [small w_val]. now destruct (loc_eqb c (at_ 1)). }
  split; [|repeat split].
  apply e_cons with v1.
  { eapply e_aug; [exact R0|exact N0|exact T0|right; vm_compute; intros [X|[X|[X|X]]]; discriminate X || exact X| |reflexivity|reflexivity|].
    - intros (n & cs & X); discriminate X.
    - intros x D. unfold v1. now rewrite (loc_eqb_neq _ _ D). }
  apply e_cons with v1.
  { eapply e_aug_refused; [exact R0'|exact N0|]. left. intros z Z. injection Z as <-. exact T1. }
  apply e_cons with v2.
  { eapply e_set with (c := at_ 1); [reflexivity|exact N1| |reflexivity|].
    - split; [vm_compute; split; discriminate|]. split; [reflexivity|]. intros (n & cs & X); discriminate X.
    - intros x D. unfold v2. now rewrite (loc_eqb_neq _ _ D). }
  apply e_cons with v2.
  { eapply e_set_refused with (c := at_ 1); [reflexivity|exact N1|].
    intros (_ & X & _). discriminate (X (ex_intro _ _ (ex_intro _ _ eq_refl)) eq_refl). }
  apply e_cons with v3.
  { eapply e_calc with (c := at_ 1); [reflexivity|exact N1| | |reflexivity|].
    - eapply m_op with (x := 127) (y := 126); [|eapply m_op with (x := 100) (y := 26); [|constructor|reflexivity]|reflexivity].
      + eapply (m_elem small class v2) with (c := at_ 0); [exact R0|exact N0|right; vm_compute; intros [X|[X|[X|X]]]; discriminate X || exact X|].
        intros (n & cs & X); discriminate X.
      + eapply (m_elem small class v2) with (c := [0; 4; 2]%nat) (t := TI8); [reflexivity| |now left|intros (n & cs & X); discriminate X].
        num; exists (codes "y"), []; left; reflexivity.
    - split; [vm_compute; split; discriminate|]. split; [reflexivity|]. intros (n & cs & X); discriminate X.
    - intros x D. unfold v3. now rewrite (loc_eqb_neq _ _ D). }
  apply e_cons with v3; [|constructor]. apply e_aug_unknown. reflexivity.
Qed.

(** The names an object can be reached by need not be those of the statement that wrote:
    an integer that is assigned by the path of the element is the one that is read. *)
Theorem C106_by_path : forall item w c t n z, good_tree (w_tree w) -> node_at (w_tree w) c = Some n -> addressable n = true ->
  number w c t -> takes w c t z ->
  exists w', assign item w [] (get_path (w_tree w) c) (AVal (PyInt z)) = Ok w' /\ only c w w' /\ is w' c z.
Proof.
  intros item w c t n z G Nd A N T.
  destruct (proj1 (C106_integers item w [] (get_path (w_tree w) c) c t z (C28_path_resolves_to_object_partial _ _ _ G Nd A) N) T) as (w' & E & O & I & _).
  exists w'. auto.
Qed.
Example C106_by_path_example : get_path plant (at_ 0) = codes "/m.x" /\
  (exists n, node_at plant (at_ 0) = Some n /\ addressable n = true).
Proof. split; [reflexivity|]. eexists. split; reflexivity. Qed.

(** Every assignment that succeeds changes at most the value of the element that was named. *)
Theorem C106_frame : forall item w o name v w', assign item w o name v = Ok w' ->
  exists c, resolve (w_tree w) o name = Some c /\ only c w w'.
Proof. exact assign_changes. Qed.

(** The exception for a missing attribute (or key): the name names nothing, or something
    that is neither a simple field nor a property and is not the assigned object. *)
Theorem C106_missing : forall item w o name v,
  assign item w o name v = Throw (if item then KeyError else AttributeError) <->
  resolve (w_tree w) o name = None \/
  exists c, resolve (w_tree w) o name = Some c /\ v <> AObj c /\ ~ (w_kind w c <> None /\ (field w c \/ property w c)).
Proof.
  intros item w o name v. unfold assign, set_by_name. fold (error item).
  destruct (resolve (w_tree w) o name) as [c|] eqn:R; [|cbn [bind]; split; [now left|reflexivity]].
  assert (S : (if match v with AObj c' => loc_eqb c c' | AVal _ => false end then v = AObj c else v <> AObj c)).
  { destruct v as [p|c']; [discriminate|]. unfold loc_eqb. destruct (list_eq_dec Nat.eq_dec c c') as [->|D]; [reflexivity|]. intros X. injection X as ->. now apply D. }
  destruct (match v with AObj c' => loc_eqb c c' | AVal _ => false end).
  { cbn [bind]. split; [discriminate|]. intros [X|(c' & X & N & _)]; [discriminate|]. injection X as <-. contradiction. }
  assert (Y : forall r : res aexn (option world), r = Ok None ->
    ~ (w_kind w c <> None /\ (field w c \/ property w c)) ->
    bind r (fun r => match r with Some w => Ok w | None => Throw (error item) end) = Throw (error item) <->
    (Some c = None \/ exists c0, Some c = Some c0 /\ v <> AObj c0 /\ ~ (w_kind w c0 <> None /\ (field w c0 \/ property w c0)))).
  { intros r -> P. cbn [bind]. split; [intros _; right; now exists c|reflexivity]. }
  assert (Z : forall r : res aexn (option world), r <> Ok None -> (forall i, r <> Throw (error i)) ->
    w_kind w c <> None -> field w c \/ property w c ->
    bind r (fun r => match r with Some w => Ok w | None => Throw (error item) end) = Throw (error item) <->
    (Some c = None \/ exists c0, Some c = Some c0 /\ v <> AObj c0 /\ ~ (w_kind w c0 <> None /\ (field w c0 \/ property w c0)))).
  { intros r P Q K F. split.
    - destruct r as [[w'|]|e|]; cbn [bind]; intros X; try discriminate; [now destruct P|]. injection X as ->. now destruct (Q item).
    - intros [X|(c' & X & _ & N)]; [discriminate|]. injection X as <-. destruct N. now split. }
  assert (C : forall k, match converted w v k with Throw e => forall i, e <> error i | _ => True end).
  { intros k. unfold converted.
    assert (D : forall p, match (match of_py p k with Ok a => Ok a | Throw e => Throw (Convert e) | UB => UB end : res aexn any) with
                Throw e => forall i, e <> error i | _ => True end).
    { intros p. destruct (of_py p k) as [a|e|]; auto. intros []; discriminate. }
    destruct v as [p|d]; [apply D|]. destruct (node_at (w_tree w) d) as [[[] ? ?]|]; try (intros []; discriminate).
    destruct (w_kind w d); [apply D|intros []; discriminate]. }
  destruct (w_kind w c) as [k|] eqn:K.
  2:{ apply Y; [|intros (X & _); now apply X]. destruct (node_at (w_tree w) c) as [[k n cs]|]; [|reflexivity]. now destruct k as [| |[]| | | | |]. }
  specialize (C k). unfold field, property in *.
  destruct (node_at (w_tree w) c) as [[k' n cs]|] eqn:N.
  2:{ apply Y; [reflexivity|]. intros (_ & [(? & ? & X)|(? & ? & X)]); discriminate. }
  destruct k' as [| |[]| | | | |]; try (apply Y; [reflexivity|]; intros (_ & [(? & ? & X)|(? & ? & X)]); discriminate).
  - apply Z; try discriminate; try (right; now exists n, cs);
      destruct (converted w v k) as [a|e|]; cbn [bind]; try discriminate.
    + unfold set_property. destruct (w_access w c); cbn [bind]; discriminate.
    + unfold set_property. intros []; destruct (w_access w c); cbn [bind]; discriminate.
    + intros i X. injection X as X. now apply (C i).
  - assert (F : forall a, (exists w', set_field w c a = Ok w') \/ set_field w c a = Throw InvalidFieldValue).
    { intros [ka pa]. unfold set_field. cbn [atype aval]. destruct ka; eauto. destruct pa; eauto. destruct (w_literal w c z); eauto. }
    apply Z; try discriminate; try (left; now exists n, cs);
      destruct (converted w v k) as [a|e|]; cbn [bind]; try discriminate.
    + destruct (F a) as [(w' & ->)| ->]; cbn [bind]; discriminate.
    + destruct (F a) as [(w' & ->)| ->]; cbn [bind]; intros []; discriminate.
    + intros i X. injection X as X. now apply (C i).
Qed.
Example C106_missing_example :
  assign false small m_ (codes "s") (AVal (PyInt 1)) = Throw AttributeError /\
  assign true small m_ (codes "q") (AVal (PyInt 1)) = Throw KeyError /\
  assign false small m_ (codes "p") (AVal (PyInt 1)) = Throw InvalidAccessKind.
Proof. repeat split. Qed.

(** The object that a name already names may be assigned to it, whatever it is: nothing
    happens (so that [o.name += n] would also work for objects that change in place). *)
Theorem C106_same_object : forall item w o name c, resolve (w_tree w) o name = Some c ->
  assign item w o name (AObj c) = Ok w.
Proof. exact assign_same. Qed.

(** A field that is assigned to another field of the same kind gives it its value; the two
    stay apart afterwards. *)
Theorem C106_copy : forall item w o name c d k, resolve (w_tree w) o name = Some c -> field w c -> field w d -> c <> d ->
  w_kind w c = Some k -> w_kind w d = Some k -> atype (w_val w d) = k -> any_ok (w_val w d) ->
  (k = KI32 -> forall z, is w d z -> w_literal w c z = true) ->
  exists w', assign item w o name (AObj d) = Ok w' /\ only c w w' /\ w_val w' c = w_val w d.
Proof.
  intros item w o name c d k R F F' D K K' T O X. exists (put_val w c (w_val w d)).
  split; [now apply (assign_copy item w o name c d k)|]. split; [apply put_only|apply put_same].
Qed.
Example C106_copy_example : exists w', assign false small m_ (codes "x") (AObj (at_ 3)) = Ok w' /\ w_val w' (at_ 0) = Any KI8 (PInt 100).
Proof. eexists. split; reflexivity. Qed.

(** Values of every kind (truth values, characters, floats, strings, times): what Python
    shows of a value, assigned to an element of the same kind, is that value, and is shown
    again; nothing else changes. *)
Theorem C106_values : forall item w o name c k a p, resolve (w_tree w) o name = Some c -> field w c \/ property w c ->
  w_kind w c = Some k -> atype a = k -> any_ok a -> showable a -> to_py a = Ok p ->
  (property w c -> w_access w c = ReadWrite) ->
  (field w c -> k = KI32 -> forall z, aval a = PInt z -> w_literal w c z = true) ->
  exists w', assign item w o name (AVal p) = Ok w' /\ only c w w' /\ w_val w' c = a /\ value w' c = Ok p.
Proof.
  intros item w o name c k a p R F K T O Sh P A L. exists (put_val w c a).
  destruct (round_trip a O Sh) as (p' & P' & B). rewrite P in P'. injection P' as <-. rewrite T in B.
  split; [|split; [apply put_only|split; [apply put_same|]]].
  - unfold assign, set_by_name. rewrite R, K. destruct F as [(n & cs & N)|(n & cs & N)]; rewrite N; unfold converted; rewrite B; cbn [bind].
    + unfold set_field. rewrite T. destruct k; try reflexivity. destruct (aval a) as [|z| | | |] eqn:V; try reflexivity.
      rewrite (L (ex_intro _ n (ex_intro _ cs N)) eq_refl z eq_refl). reflexivity.
    + unfold set_property. rewrite (A (ex_intro _ n (ex_intro _ cs N))). reflexivity.
  - unfold value. rewrite put_same, P. cbn [put_val w_tree w_kind w_access]. rewrite K.
    destruct F as [(n & cs & N)|(n & cs & N)]; rewrite N; [reflexivity|]. now rewrite (A (ex_intro _ n (ex_intro _ cs N))).
Qed.
Example C106_values_example :
  let w := World plant (fun _ => Some KString8) (fun _ => Any KString8 (PStr (Some []))) (fun _ => ReadWrite) (fun _ _ => false) in
  let a := Any KString8 (PStr (Some (codes "on"))) in
  any_ok a /\ showable a /\ to_py a = Ok (PyStr (codes "on")) /\ property w (at_ 2).
Proof.
  cbv zeta. split; [now eexists|]. split; [|split; [reflexivity|]].
  { eexists. split; [reflexivity|]. split; [now apply utf8_ok|]. vm_compute. intros [X|[X|X]]; discriminate X || exact X. }
  now exists (codes "p"), []. Qed.

(** It is not so that what is assigned to an attribute is read back from it: a field with
    the name of a method is written by [o.name = z], while [o.name] is the method. *)
Theorem C106_method_names_refuted : exists m w o name c z w', good_tree (w_tree w) /\
  resolve (w_tree w) o name = Some c /\ assign false w o name (AVal (PyInt z)) = Ok w' /\ is w' c z /\
  lookup m false w' o name = Ok Method /\ lookup m true w' o name = Ok (Object c).
Proof.
  exists class, small, m_, (codes "GetName"), (at_ 3), 5. eexists. split; [exact C106_plant|].
  split; [reflexivity|]. split; [reflexivity|]. repeat split.
Qed.

(** For all other names, and by index, reading finds the object that an assignment writes. *)
Theorem C106_read_back_partial : forall m item w o name v w' , item = true \/ ~ In name (m o) ->
  assign item w o name v = Ok w' ->
  exists c, resolve (w_tree w) o name = Some c /\ lookup m item w' o name = Ok (Object c) /\ only c w w'.
Proof.
  intros m item w o name v w' M E. destruct (assign_changes item w o name v w' E) as (c & R & O). exists c.
  split; [exact R|]. split; [|exact O]. unfold lookup. destruct O as (T & _). rewrite T, R.
  destruct M as [->|M]; [reflexivity|]. destruct (existsb (UuidModel.list_eqb name) (m o)) eqn:X; [now apply in_methods in X|].
  now rewrite andb_false_r.
Qed.

Print Assumptions C106_scripts.
Print Assumptions C106_missing.
