(** The properties of the Python bindings: indexes (C72), calls of operations (C73), values
    (C74) and classes (C75). *)
From Coq Require Import ZArith List Bool String Lia Floats.SpecFloat.
From Verif Require Import Base Text Assoc UuidModel HelperSpec PathModel AnyModel AnySpec AnyProofs FlowModel TypeModel TypeProofs
  ReqModel ReqSpec ReqProofs ReqMarshalProofs ReqInvokeProofs ReqProps PyModel PySpec PyProofs PyCallProofs.
Import ListNotations.
Local Open Scope Z_scope.

(** ** C72: indexes of collections, arrays and parameters *)

(** From the start, an index gives the item Python expects, or IndexError outside of the
    collection.  Missing: the indexes counted from the end (see the refutation). *)
Theorem C72_index_partial : forall (A : Type) (l : list A) i, 0 <= i < 2 ^ 63 ->
  py_getitem l i = match python_item l i with Some x => Ok x | None => Throw PyIndexError end.
Proof.
  intros A l i B. rewrite getitem_nonneg by assumption. unfold python_item.
  rewrite (proj2 (Z.leb_le 0 i)) by lia. cbn [andb]. destruct (Z.ltb_spec i (Z.of_nat (length l))).
  - destruct (nth_error l (Z.to_nat i)) eqn:E; [reflexivity|]. apply nth_error_None in E. lia.
  - rewrite (proj2 (Z.ltb_ge i 0)) by lia. rewrite andb_false_r.
    destruct (nth_error l (Z.to_nat i)) eqn:E; [|reflexivity]. assert (Z.to_nat i < length l)%nat by (apply nth_error_Some; congruence). lia.
Qed.

(** A for loop visits every item once, in order, and stops. *)
Theorem C72_iteration : forall (A : Type) (l : list A) n, Z.of_nat (length l) < 2 ^ 63 -> (length l < n)%nat -> py_iter l 0 n = l.
Proof. intros A l n B N. rewrite iter_all by lia. reflexivity. Qed.

(** No index counted from the end is ever accepted. *)
Theorem C72_negative_index_refuted :
  (forall (A : Type) (l : list A) i, - 2 ^ 63 <= i < 0 -> Z.of_nat (length l) < 2 ^ 63 -> py_getitem l i = Throw PyIndexError) /\
  (exists l : list Z, python_item l (-1) = Some 30 /\ py_getitem l (-1) = Throw PyIndexError).
Proof.
  split.
  - intros A l i I L. unfold py_getitem. rewrite py_index_neg by lia. reflexivity.
  - exists [10; 20; 30]. vm_compute. auto.
Qed.

Example ex_index : py_getitem [10; 20; 30] 2 = Ok 30 /\ py_getitem [10; 20; 30] 3 = Throw PyIndexError /\ py_iter [10; 20; 30] 0 7 = [10; 20; 30].
Proof. vm_compute. auto. Qed.

(** ** C73: operations called from Python *)

(** The component receives a request exactly when the arguments fit the operation.  The
    request then holds the converted argument of every parameter that was given one, and
    nothing for the others. *)
Theorem C73_call_reaches_component : forall n r o q0 args kws inv, described o -> Z.of_nat (length (o_params o)) < 2 ^ 31 ->
  create_request n r o = Some (Ok q0) -> NoDup (map fst kws) -> (forall nm a, In (nm, a) kws -> ~ In 0 nm) ->
  (good_call r o args kws ->
     exists q, fst (py_call n r o true args kws inv) = [q] /\ rret q = any_new KNone /\
       length (rvals q) = length (o_params o) /\
       forall k p, nth_error (o_params o) k = Some p ->
         (forall a v, argument_of args kws k (p_name p) a -> suits r p a v -> value_at q k = Some v) /\
         ((forall a, ~ argument_of args kws k (p_name p) a) -> value_at q k = Some (any_new KNone))) /\
  (~ good_call r o args kws -> fst (py_call n r o true args kws inv) = [] /\ forall x, snd (py_call n r o true args kws inv) <> Ok x).
Proof.
  intros n r o q0 args kws inv D L C NK NN.
  destruct (call_cases n r o q0 args kws inv D L C NK NN) as [[G (q & S & R & F & E)]|[G (x & E & X)]]; rewrite E; split; intros H; try contradiction.
  - exists q. split; [reflexivity|]. split; [assumption|]. split; [exact (shape_length _ _ S)|exact F].
  - auto.
Qed.

(** An operation of a component without dynamic invocation is never called. *)
Theorem C73_no_dynamic_invocation : forall n r o args kws inv,
  fst (py_call n r o false args kws inv) = [] /\ forall x, snd (py_call n r o false args kws inv) <> Ok x.
Proof.
  intros n r o args kws inv. unfold py_call.
  destruct (create_request n r o) as [[q|e|]|]; try (cbn; split; [reflexivity|discriminate]).
  destruct (_ <? _); [cbn; split; [reflexivity|discriminate]|].
  destruct (bind_args r (o_params o) 0 args q) as [q1 [u|e|]]; try (cbn; split; [reflexivity|discriminate]).
  destruct (bind_kwargs r (o_params o) _ kws q1) as [q2 [u'|e|]]; try (cbn; split; [reflexivity|discriminate]).
  unfold invoke. rewrite (proj2 (leq _ _) eq_refl). cbn; split; [reflexivity|discriminate].
Qed.

(** What the caller gets back when the component has set results in the request: None when
    there is nothing to give, else one attribute for the returned value and for every
    parameter that is not an input, with the Python value of what the request holds; an
    exception if one of those values has no Python value. *)
Theorem C73_results : forall n r o q0 args kws inv q xs, described o -> Z.of_nat (length (o_params o)) < 2 ^ 31 ->
  create_request n r o = Some (Ok q0) -> NoDup (map fst kws) -> (forall nm a, In (nm, a) kws -> ~ In 0 nm) ->
  fst (py_call n r o true args kws inv) = [q] -> inv q = (fst (qrun q xs), Ok tt) ->
  let q' := fst (qrun q xs) in
  let out := snd (py_call n r o true args kws inv) in
  let shown := (o_ret o <> None -> exists x, to_py (rret q') = Ok x) /\
    (forall k p v, nth_error (o_params o) k = Some p -> p_dir p <> PIn -> value_at q' k = Some v -> exists x, to_py v = Ok x) in
  let gives := o_ret o <> None \/ exists p, In p (o_params o) /\ p_dir p <> PIn in
  (shown -> ~ gives -> out = Ok None) /\
  (shown -> gives -> exists ns, out = Ok (Some ns) /\ answer o q' ns) /\
  (~ shown -> forall x, out <> Ok x).
Proof.
  intros n r o q0 args kws inv q xs D L C NK NN E I. cbv zeta.
  destruct (call_cases n r o q0 args kws inv D L C NK NN) as [[_ (q1 & S & _ & _ & X)]|[_ (x & X & _)]]; rewrite X in E; [|discriminate E].
  cbn in E. injection E as ->. rewrite X, I. cbn [snd].
  assert (S' : shape o (fst (qrun q xs))). { destruct S as [S1 S2]. destruct (qrun_frame xs q) as [A B]. split; congruence. }
  destruct (results_spec o _ D S') as [P Q]. unfold showable_all in *. split; [|split; [|exact Q]]; intros H G; destruct (P H) as [(R & AI & ->)|(G' & ns & -> & A)].
  - reflexivity.
  - contradiction.
  - exfalso. destruct G as [G|(p & J & K)]; [congruence|]. exact (K (AI p J)).
  - eauto.
Qed.

(** An exception of the component reaches the caller. *)
Theorem C73_component_exception : forall n r o q0 args kws inv q q' e, described o -> Z.of_nat (length (o_params o)) < 2 ^ 31 ->
  create_request n r o = Some (Ok q0) -> NoDup (map fst kws) -> (forall nm a, In (nm, a) kws -> ~ In 0 nm) ->
  fst (py_call n r o true args kws inv) = [q] -> inv q = (q', Throw e) -> snd (py_call n r o true args kws inv) = Throw (PySmp e).
Proof.
  intros n r o q0 args kws inv q q' e D L C NK NN E I.
  destruct (call_cases n r o q0 args kws inv D L C NK NN) as [[_ (q1 & S & _ & _ & X)]|[_ (x & X & _)]]; rewrite X in E; [|discriminate E].
  cbn in E. injection E as ->. now rewrite X, I.
Qed.

(** Two elements with different names have different Python names. *)
Theorem C73_names_stay_different : forall a b, valid_name a -> valid_name b -> (py_name a = py_name b <-> a = b).
Proof. intros a b A B. split; [now apply py_name_inj|now intros ->]. Qed.

(** drive(5, part=0.5, mode=1): the text and the returned value come back. *)
Definition ex_kws := [(codes "part", PyFloat half); (codes "mode", PyInt 1)].
Definition ex_inv (q : request) : request * res rexn unit :=
  (fst (qrun q [QSet ex_r 1 (Any KI32 (PInt 0)); QSet ex_r 2 (Any KString8 (PStr (Some (codes "on")))); QRet ex_r ex_o (Any KI32 (PInt 42))]), Ok tt).
Example ex_call :
  map (fun q => map fst (rvals q)) (fst (py_call 1 ex_r ex_o true [PyInt 5] ex_kws ex_inv)) =
    [[Any KI32 (PInt 5); Any KI32 (PInt 1); any_new KNone; Any KF64 (PFloat half)]] /\
  snd (py_call 1 ex_r ex_o true [PyInt 5] ex_kws ex_inv) =
    Ok (Some [(codes "res", PyInt 42); (codes "mode", PyInt 0); (codes "text", PyStr (codes "on"))]) /\
  py_call 1 ex_r ex_o true [PyInt 5; PyInt 1] ex_kws ex_inv = ([], Throw PyTypeError) /\
  py_call 1 ex_r ex_o true [PyInt 501] ex_kws ex_inv = ([], Throw (PySmp RInvalidParameterValue)) /\
  py_call 1 ex_r ex_o true [PyFloat half] ex_kws ex_inv = ([], Throw PyCastError) /\
  fst (py_call 1 ex_r ex_o true [PyInt 5] [(codes "part", PyFloat half)] ex_inv) = [] /\
  py_call 1 ex_r ex_o true [PyInt 5] ((codes "speed", PyInt 5) :: ex_kws) ex_inv = ([], Throw PyTypeError) /\
  py_call 1 ex_r ex_o true [] [(codes "nothing", PyNone)] ex_inv = ([], Throw PyTypeError).
Proof. vm_compute. auto 12. Qed.
Example ex_call_meets : described ex_o /\ create_request 1 ex_r ex_o = Some (Ok ex_q) /\ NoDup (map fst ex_kws) /\
  (forall nm a, In (nm, a) ex_kws -> ~ In 0 nm) /\ good_call ex_r ex_o [PyInt 5] ex_kws.
Proof.
  assert (A : described ex_o).
  { exists (codes "drive"), ex_pubs. split; [|reflexivity]. repeat (constructor; [vm_compute; intuition discriminate|]). constructor. }
  assert (N : NoDup (map fst ex_kws)).
  { cbn. constructor; [|constructor; [intros []|constructor]]. intros [H|[]]. vm_compute in H. discriminate. }
  assert (Z : forall nm a, In (nm, a) ex_kws -> ~ In 0 nm).
  { intros nm a [H|[H|[]]]; injection H as <- <-; vm_compute; intuition discriminate. }
  split; [exact A|]. split; [exact ex_created|]. split; [exact N|]. split; [exact Z|].
  destruct (call_cases 1 ex_r ex_o ex_q [PyInt 5] ex_kws ex_inv A ltac:(vm_compute; reflexivity) ex_created N Z) as [[G _]|[_ (x & E & _)]]; [exact G|].
  vm_compute in E. discriminate.
Qed.
Example ex_names : py_name (codes "lambda") = codes "_lambda" /\ py_name (codes "speed") = codes "speed".
Proof. vm_compute. auto. Qed.

(** ** C74: values *)

(** A value read from Python and written back is the same value, for every value but the
    strings, characters and numbers of the refutation below. *)
Theorem C74_round_trip_partial : forall v, any_ok v -> showable v -> exists p, to_py v = Ok p /\ of_py p (atype v) = Ok v.
Proof. exact round_trip. Qed.

(** A Python integer is stored exactly, in the integer kinds that can hold it, and refused
    by the others; what is stored reads as the same integer. *)
Theorem C74_integers_exact_or_refused : forall k t z v, kind_type k = Some t ->
  (of_py (PyInt z) k = Ok v <-> of_type t z /\ v = Any k (PInt z)) /\
  (of_py (PyInt z) k = Ok v -> to_py v = Ok (PyInt z)).
Proof.
  intros k t z v K. assert (A : of_py (PyInt z) k = Ok v <-> of_type t z /\ v = Any k (PInt z)).
  { rewrite (of_py_int k t _ K) by discriminate. destruct (load_int_cases t z) as [[H ->]|[H ->]]; cbn [bind].
    - rewrite (mk_own k t z K H). split; [intros E; injection E as <-; auto|intros [_ ->]; reflexivity].
    - split; [discriminate|tauto]. }
  split; [exact A|]. intros E. apply A in E as [H ->]. exact (to_py_int k t z K H).
Qed.

(** A string is shown exactly when its bytes are UTF-8, and then as the same text. *)
Theorem C74_strings : forall s p, to_py (Any KString8 (PStr (Some s))) = Ok p <-> is_utf8 s /\ p = PyStr s.
Proof.
  intros s p. unfold to_py. cbn [atype get_str aval of_any bind]. unfold py_str. destruct (utf8 s) eqn:U.
  - apply utf8_ok in U. split; [intros E; injection E as <-; auto|intros [_ ->]; reflexivity].
  - split; [discriminate|]. intros [H _]. apply utf8_ok in H. congruence.
Qed.
Example ex_strings : is_utf8 [0x41; 0xC3; 0xA9; 0xE2; 0x82; 0xAC; 0xF0; 0x9F; 0x98; 0x80]
  /\ to_py (Any KString8 (PStr (Some [0xED; 0xA0; 0x80]))) = Throw PyDecodeError /\ to_py (Any KString8 (PStr (Some [0xC0; 0x80]))) = Throw PyDecodeError.
Proof. split; [apply utf8_ok|]; vm_compute; auto. Qed.

(** A character is written from a str of one character up to U+00FF and from nothing else,
    and shown as that str. *)
Theorem C74_characters : forall us v, Forall scalar us ->
  (of_py (PyStr (flat_map encode us)) KChar8 = Ok v <-> exists c, us = [c] /\ 0 <= c <= 255 /\ v = Any KChar8 (PChar c)) /\
  (of_py (PyStr (flat_map encode us)) KChar8 = Ok v -> to_py v = Ok (PyStr (flat_map encode us))).
Proof.
  intros us v F. assert (A : of_py (PyStr (flat_map encode us)) KChar8 = Ok v <-> exists c, us = [c] /\ 0 <= c <= 255 /\ v = Any KChar8 (PChar c)).
  { unfold of_py. split.
    - destruct (load_char _) as [c|e|] eqn:E; cbn [bind]; try discriminate. apply char_text in E; [|assumption]. destruct E as [-> B].
      intros H. exists c. split; [reflexivity|]. split; [assumption|]. vm_compute in H. congruence.
    - intros (c & -> & B & ->). cbn [flat_map]. rewrite app_nil_r, load_char_encode by (split; lia). rewrite (proj2 (Z.leb_le c 255)) by lia. reflexivity. }
  split; [exact A|]. intros E. apply A in E. destruct E as (c & -> & B & ->). unfold to_py. cbn [atype get_char aval of_any bind flat_map].
  now rewrite latin1_encode, app_nil_r by assumption.
Qed.
Example ex_characters : of_py (PyStr [0xC3; 0xA9]) KChar8 = Ok (Any KChar8 (PChar 233)) /\ of_py (PyStr [0xC4; 0x80]) KChar8 = Throw PyCastError.
Proof. vm_compute. auto. Qed.

(** Booleans: whatever has a truth value in Python, and that truth value. *)
Definition truth (p : pyval) (b : bool) : Prop :=
  match p with
  | PyNone => b = false
  | PyBool c => b = c
  | PyInt z => b = true <-> z <> 0
  | PyFloat f => b = false <-> exists s, f = S754_zero s
  | _ => False
  end.
Theorem C74_booleans : forall p v, (forall u, p <> PyField u) -> (of_py p KBool = Ok v <-> exists b, truth p b /\ v = Any KBool (PBool b)).
Proof.
  intros p v N. assert (X : forall b, (exists c, truth p c /\ v = Any KBool (PBool c)) -> truth p b -> (forall c, truth p c -> c = b) -> Ok (Any KBool (PBool b)) = (Ok v : res pexn any)).
  { intros b (c & T & ->) _ U. now rewrite (U c T). }
  destruct p as [|b|z|f|s|u]; [| | | | |now destruct (N u)]; cbn [of_py load_bool bind].
  - change (mk_any KBool (GBool false)) with (Ok (Any KBool (PBool false)) : res pexn any). split.
    + intros E. injection E as <-. exists false. now cbn.
    + intros H. apply X; cbn; auto.
  - change (mk_any KBool (GBool b)) with (Ok (Any KBool (PBool b)) : res pexn any). split.
    + intros E. injection E as <-. exists b. now cbn.
    + intros H. apply X; cbn; auto.
  - change (mk_any KBool (GBool (negb (z =? 0)))) with (Ok (Any KBool (PBool (negb (z =? 0)))) : res pexn any).
    assert (T : truth (PyInt z) (negb (z =? 0))) by (cbn; rewrite negb_true_iff, Z.eqb_neq; tauto). split.
    + intros E. injection E as <-. eauto.
    + intros H. apply X; auto. cbn in *. intros c [C1 C2]. destruct T as [T1 T2], c, (negb (z =? 0)); try reflexivity; [symmetry; auto|auto].
  - set (b := match f with S754_zero _ => false | _ => true end). change (mk_any KBool (GBool b)) with (Ok (Any KBool (PBool b)) : res pexn any).
    assert (T : truth (PyFloat f) b) by (cbn; subst b; destruct f; split; intros H; try discriminate H; try (destruct H; discriminate); eauto). split.
    + intros E. injection E as <-. eauto.
    + intros H. apply X; auto. clearbody b. cbn in *. intros c C. destruct c, b; try reflexivity; [apply C, T; reflexivity|symmetry; apply T, C; reflexivity].
  - split; [discriminate|]. intros (b & [] & _).
Qed.

(** Float64: a float as it is, an int as the nearest double, exactly below 2^53, True and
    False as 1 and 0; an int beyond the largest double, None and str are refused.  The
    integer kinds refuse floats, None and str, and take True and False as 1 and 0. *)
Theorem C74_numbers :
  (forall f, of_py (PyFloat f) KF64 = Ok (Any KF64 (PFloat f))) /\
  (forall z v, of_py (PyInt z) KF64 = Ok v -> v = Any KF64 (PFloat (binary_normalize 53 1024 z 0 false))) /\
  (forall z, of_py (PyInt z) KF64 = Throw PyCastError <-> exists s, binary_normalize 53 1024 z 0 false = S754_infinity s) /\
  (forall z, Z.abs z < 2 ^ 53 -> exists f, of_py (PyInt z) KF64 = Ok (Any KF64 (PFloat f)) /\ float_is f z) /\
  (forall b, exists f, of_py (PyBool b) KF64 = Ok (Any KF64 (PFloat f)) /\ float_is f (if b then 1 else 0)) /\
  (forall k t b, kind_type k = Some t -> of_py (PyBool b) k = Ok (Any k (PInt (if b then 1 else 0)))) /\
  (forall k t p, kind_type k = Some t -> match p with PyNone | PyFloat _ | PyStr _ => of_py p k = Throw PyCastError | _ => True end) /\
  (forall p, match p with PyNone | PyStr _ => of_py p KF64 = Throw PyCastError | _ => True end).
Proof. exact numbers. Qed.

(** Writing the Python object of a field into an element of the same kind copies its value,
    whatever it is. *)
Theorem C74_field_copy : forall v, any_ok v -> of_py (PyField v) (atype v) = Ok v.
Proof. exact field_copy. Qed.

(** Not every value survives: a null string reads as None, which cannot be written; a
    string that is not UTF-8 cannot be read; a string with a NUL
    is cut; a number too large for a Float32 becomes infinite. *)
Definition big : spec_float := S754_finite false 4503599627370496 900.
Theorem C74_round_trip_refuted :
  (exists v, any_ok v /\ to_py v = Ok PyNone /\ of_py PyNone (atype v) = Throw PyCastError) /\
  (exists v, any_ok v /\ atype v = KString8 /\ forall p, to_py v <> Ok p) /\
  (exists v s s', of_py (PyStr s) KString8 = Ok v /\ to_py v = Ok (PyStr s') /\ s <> s') /\
  (exists v f, valid_binary 53 1024 f = true /\ (exists s m e, f = S754_finite s m e) /\ of_py (PyFloat f) KF32 = Ok v /\ to_py v = Ok (PyFloat (S754_infinity false))).
Proof.
  split; [|split; [|split]].
  - exists (Any KString8 (PStr None)). split; [vm_compute; eauto|]. split; reflexivity.
  - exists (Any KString8 (PStr (Some [200; 1]))). split; [vm_compute; eauto|]. split; [reflexivity|discriminate].
  - exists (Any KString8 (PStr (Some [97]))), [97; 0; 98], [97]. split; [reflexivity|]. split; [reflexivity|discriminate].
  - exists (Any KF32 (PFloat (S754_infinity false))), big. split; [reflexivity|]. split; [unfold big; eauto|]. split; vm_compute; reflexivity.
Qed.

Example ex_values :
  to_py (Any KU64 (PInt 18446744073709551615)) = Ok (PyInt 18446744073709551615) /\
  of_py (PyInt 256) KU8 = Throw PyCastError /\ of_py (PyInt (-1)) KU64 = Throw PyCastError /\ of_py (PyInt (-1)) KDuration = Ok (Any KDuration (PInt (-1))) /\
  showable (Any KF32 (PFloat (S754_finite true 8388609 (-149)))) /\
  to_py (Any KF32 (PFloat (S754_finite true 8388609 (-149)))) = Ok (PyFloat (S754_finite true 4503600164241408 (-178))).
Proof. vm_compute. repeat (split; [solve [reflexivity|eexists; split; reflexivity]|]). reflexivity. Qed.

(** ** C75: classes *)

(** isinstance answers the interfaces the object implements.  Missing: factories and
    collections (see the refutation). *)
Theorem C75_isinstance_partial : forall inst i, object inst -> i <> IFactory -> i <> ICollection ->
  (isinstance (bases inst) i <-> inst i = true).
Proof. intros inst i O F C. apply isinstance_iff; [assumption|]. destruct i; try reflexivity; contradiction. Qed.

(** No base is redundant: among the interfaces of the object none but itself derives from
    a base of its class. *)
Theorem C75_most_derived_partial : forall inst b c, In b (bases inst) -> c <> IFactory -> c <> ICollection -> inst c = true -> derives c b -> c = b.
Proof. intros inst b c I F C Ic D. apply (bases_minimal inst b c); try assumption. destruct c; try reflexivity; contradiction. Qed.

Theorem C75_isinstance_refuted :
  (exists inst, object inst /\ inst IFactory = true /\ ~ isinstance (bases inst) IFactory) /\
  (exists inst, object inst /\ inst ICollection = true /\ ~ isinstance (bases inst) ICollection).
Proof.
  split.
  - exists (fun i => match i with IObject | IFactory => true | _ => false end). split; [|split; [reflexivity|]].
    + split; [reflexivity|]. intros i j H E. destruct i; try discriminate H; try discriminate E. injection E as <-. reflexivity.
    + intros (b & I & D). vm_compute in I. destruct I as [<-|[]]. inversion D; subst. discriminate.
  - exists (fun i => match i with IObject | ICollection => true | _ => false end). split; [|split; [reflexivity|]].
    + split; [reflexivity|]. intros i j H E. destruct i; try discriminate H; try discriminate E. injection E as <-. reflexivity.
    + intros (b & I & D). vm_compute in I. destruct I as [<-|[]]. inversion D; subst. discriminate.
Qed.

(** A model with fields of its own, events and operations. *)
Definition ex_inst (i : iface) : bool :=
  match i with IObject | IComponent | IModel | IFallibleModel | IComposite | IDynamicInvocation | IEventProvider => true | _ => false end.
Example ex_classes : object ex_inst /\ bases ex_inst = [IDynamicInvocation; IEventProvider; IFallibleModel; IComposite].
Proof.
  split; [|vm_compute; reflexivity]. split; [reflexivity|]. intros i j H E. destruct i; try discriminate H; try discriminate E; injection E as <-; reflexivity.
Qed.

Print Assumptions C72_index_partial.
Print Assumptions C73_call_reaches_component.
Print Assumptions C73_results.
Print Assumptions C74_round_trip_partial.
Print Assumptions C75_isinstance_partial.
