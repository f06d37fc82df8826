(** C45: the type registry. *)
From Coq Require Import ZArith List Bool Lia Relations.
From Verif Require Import Base Text Assoc AnyModel HelperSpec TypeModel TypeSpec TypeProofs.
Import ListNotations.
Local Open Scope Z_scope.

(** Types used by the examples: an integer, an array of it, a structure holding both, a
    class and a class derived from it. *)
Definition ex_field (s : string) (u : Z) : sfield := SField (codes s) u 0 true false false.
Definition ex_ops : list top :=
  [ TInt (codes "Speed") 100 0 500 KI32;
    TArray (codes "Speeds") 101 100 4 3 false;
    TStruct (codes "Wheels") 102;
    TField 102 (ex_field "left" 100); TField 102 (ex_field "all" 101);
    TClass (codes "Base") 103 uVoid; TClass (codes "Derived") 104 103;
    TEnum (codes "Mode") 105 4; TLiteral 105 (codes "OFF") 0; TLiteral 105 (codes "ON") 1 ].
Definition ex_reg := trun new_registry ex_ops.

(** Registering under a UUID that has a type is rejected. *)
Theorem C45_one_type_per_uuid : forall os o u n,
  registers o = Some (u, n) -> get_type (trun new_registry os) u <> None ->
  exists e, tstep (trun new_registry os) o = (trun new_registry os, Throw e) /\
  (sound (trun new_registry os) o -> e = TypeAlreadyRegistered).
Proof.
  intros os o u n R G. set (r := trun new_registry os) in *.
  destruct (get_type r u) as [t|] eqn:E; [|congruence].
  assert (A : forall m, add_type r u m = (r, Throw TypeAlreadyRegistered)) by (intros m; unfold add_type; now rewrite E).
  destruct o; cbn in R |- *; try discriminate; injection R as -> ->; try (rewrite A; eexists; split; reflexivity).
  - destruct k; cbn; try (rewrite A; eexists; split; reflexivity); (eexists; split; [reflexivity|intros [X|X]; discriminate]).
  - destruct k; cbn; try (rewrite A; eexists; split; reflexivity); (eexists; split; [reflexivity|intros X; exfalso; intuition discriminate]).
Qed.

Example ex_one_type_per_uuid :
  get_type ex_reg 101 <> None /\
  tstep ex_reg (TString (codes "Text") 101 20) = (ex_reg, Throw TypeAlreadyRegistered) /\
  tstep ex_reg (TString (codes "Text") uInt32 20) = (ex_reg, Throw TypeAlreadyRegistered).
Proof. vm_compute. repeat split; discriminate. Qed.

(** A call that fails changes nothing. *)
Theorem C45_failed_changes_nothing : forall r o r' e, tstep r o = (r', Throw e) -> r' = r.
Proof.
  intros r o r' e S. destruct (registers o) as [[u n]|] eqn:R.
  - destruct (step_reg r o u n R) as [(t & E & _)|(e' & E & _)]; rewrite E in S; congruence.
  - destruct (step_add r o R) as [(u & d & t & E & _)|[[e' E]|E]]; rewrite E in S; congruence.
Qed.

Example ex_failed_changes_nothing :
  tstep ex_reg (TClass (codes "Odd") 110 111) = (ex_reg, Throw TypeNotRegistered) /\
  tstep ex_reg (TClass (codes "Odd") 110 102) = (ex_reg, Throw IncompatibleType) /\
  tstep ex_reg (TArray (codes "Odd") 110 uString8 1 1 true) = (ex_reg, Throw IncompatibleType) /\
  tstep ex_reg (TEnum (codes "Odd") 110 3) = (ex_reg, Throw InvalidPrimitiveType) /\
  tstep ex_reg (TStruct (codes "0dd") 110) = (ex_reg, Throw InvalidObjectName) /\
  tstep ex_reg (TLiteral 105 (codes "AUTO") 1) = (ex_reg, Throw DuplicateLiteral).
Proof. vm_compute. repeat split; reflexivity. Qed.

(** Exactly the sound registrations are accepted, and the new type is then found under
    its UUID, with its name. *)
Theorem C45_accepted : forall r o u n, registers o = Some (u, n) -> ~ In 0 n ->
  ((exists r', tstep r o = (r', Ok u)) <-> valid_name n /\ get_type r u = None /\ sound r o) /\
  (forall r', tstep r o = (r', Ok u) ->
     (exists t, get_type r' u = Some t /\ ty_name t = n) /\
     (forall v, v <> u -> get_type r' v = get_type r v)).
Proof.
  intros r o u n R Z0. pose proof (mk_ok_iff r o u n R) as M. rewrite (to_nul_id n Z0) in M.
  assert (NM : forall t, mk r o = Ok t -> ty_name t = n).
  { intros t E.
    assert (Q : forall d x, with_name n d = Ok x -> ty_name x = n).
    { intros d x X. destruct (with_name_cases n d) as [[Y _]|[Y _]]; rewrite Y in X; [|discriminate].
      injection X as <-. cbn. now apply to_nul_id. }
    destruct o; cbn in R, E; try discriminate; injection R as -> ->.
    - destruct (is_float_kind k); [eauto|discriminate].
    - destruct (is_int_kind k); [eauto|discriminate].
    - destruct (size_kind size); [eauto|discriminate].
    - unfold mk_array in E. destruct (with_name n _) as [x|e|] eqn:W; cbn in E; try discriminate.
      destruct (get_type r item); [|discriminate]. destruct (_ || _); [discriminate|]. injection E as <-. eauto.
    - eauto.
    - eauto.
    - unfold mk_class in E. destruct (with_name n _) as [x|e|] eqn:W; cbn in E; try discriminate.
      apply Q in W. destruct (base =? uVoid); [congruence|]. destruct (base =? u); [discriminate|].
      destruct (get_type r base) as [y|]; [|discriminate]. destruct (ty_def y); congruence.
    - eauto. }
  destruct (step_reg r o u n R) as [(t & S & G & E)|(e & S & H)].
  - split.
    + split; [|eauto]. intros _. destruct M as [M _]. destruct M as [M1 M2]; eauto.
    + intros r' X. rewrite S in X. injection X as <-. split.
      * exists t. rewrite get_type_app, G. unfold get_type. cbn. rewrite Z.eqb_refl. split; [reflexivity|auto].
      * intros v V. rewrite get_type_app. destruct (get_type r v); [reflexivity|]. unfold get_type. cbn.
        apply Z.eqb_neq in V. now rewrite V.
  - split.
    + split; [intros [r' X]; rewrite S in X; discriminate|]. intros (V & G & D). exfalso.
      destruct H as [H|H]; [contradiction|]. destruct M as [_ M]. destruct M as [t M]; [auto|]. congruence.
    + intros r' X. rewrite S in X. discriminate.
Qed.

Example ex_accepted :
  snd (tstep ex_reg (TClass (codes "Third") 110 104)) = Ok 110 /\
  snd (tstep ex_reg (TArray (codes "Many") 110 102 16 2 false)) = Ok 110 /\
  sound ex_reg (TClass (codes "Third") 110 104) /\ valid_name (codes "Third").
Proof.
  split; [vm_compute; reflexivity|]. split; [vm_compute; reflexivity|]. split.
  - right. split; [discriminate|]. exists (codes "Derived"), 103, []. vm_compute. reflexivity.
  - apply (vn_ident 84 (codes "hird")); [left; lia|]. unfold codes; cbn.
    repeat (constructor; [left; right; lia|]). constructor.
Qed.

(** The type registered is the one the call describes. *)
Theorem C45_registered_as_described : forall r o u n r', registers o = Some (u, n) ->
  tstep r o = (r', Ok u) -> exists t, get_type r' u = Some t /\ described o (ty_def t).
Proof.
  intros r o u n r' R X.
  destruct (step_reg r o u n R) as [(t & S & G & E)|(e & S & H)]; rewrite S in X; [|discriminate].
  injection X as <-. exists t. rewrite get_type_app, G. unfold get_type at 1. cbn. rewrite Z.eqb_refl.
  split; [reflexivity|].
  assert (Q : forall d x, with_name n d = Ok x -> ty_def x = d).
  { intros d x X. destruct (with_name_cases n d) as [[Y _]|[Y _]]; rewrite Y in X; [|discriminate].
    now injection X as <-. }
  destruct o; cbn in R, E |- *; try discriminate; injection R as -> ->.
  - destruct (is_float_kind k); [eauto|discriminate].
  - destruct (is_int_kind k); [eauto|discriminate].
  - unfold size_kind in E.
    destruct (Z.eqb_spec size 1) as [->|_]; [apply Q in E; eauto 6|].
    destruct (Z.eqb_spec size 2) as [->|_]; [apply Q in E; eauto 6|].
    destruct (Z.eqb_spec size 4) as [->|_]; [apply Q in E; eauto 7|].
    destruct (Z.eqb_spec size 8) as [->|_]; [apply Q in E; eauto 8|discriminate].
  - unfold mk_array in E. destruct (with_name n _) as [x|e|] eqn:W; cbn in E; try discriminate.
    destruct (get_type r item); [|discriminate]. destruct (_ || _); [discriminate|]. injection E as <-.
    apply Q in W. rewrite W. f_equal; lia.
  - eauto.
  - eauto.
  - unfold mk_class in E. destruct (with_name n _) as [x|e|] eqn:W; cbn in E; try discriminate.
    apply Q in W. destruct (base =? uVoid); [congruence|]. destruct (base =? u); [discriminate|].
    destruct (get_type r base) as [y|]; [|discriminate]. destruct (ty_def y); congruence.
  - eauto.
Qed.

Example ex_described :
  get_type (fst (tstep ex_reg (TEnum (codes "Gear") 110 2))) 110 = Some (Ty (codes "Gear") (DEnum KI16 [])) /\
  get_type (fst (tstep ex_reg (TArray (codes "Many") 110 102 16 (-2) true))) 110 =
    Some (Ty (codes "Many") (DArray 102 16 0 true)).
Proof. vm_compute. split; reflexivity. Qed.

(** The types of the SMP standard are in every registry, with their names, kinds, ranges
    and literals; a user may add literals after the standard ones. *)
Theorem C45_standard_types : forall os,
  (forall u n d, In (u, n, d) standard_types -> get_type (trun new_registry os) u = Some (Ty (codes n) d)) /\
  (forall u n l, In (u, n, l) standard_enums -> exists more,
     get_type (trun new_registry os) u =
     Some (Ty (codes n) (DEnum KI32 (combine (map Z.of_nat (seq 0 (length l))) (map codes l) ++ more)))).
Proof.
  intros os. split.
  - intros u n d I.
    assert (F : Forall (fun x => get_type new_registry (fst (fst x)) = Some (Ty (codes (snd (fst x))) (snd x)) /\
                        match snd x with DPrim _ | DInt _ _ _ => True | _ => False end) standard_types).
    { repeat (constructor; [vm_compute; auto|]). constructor. }
    destruct (proj1 (Forall_forall _ _) F _ I) as [G D]. cbn [fst snd] in G, D.
    destruct (run_keeps os _ _ _ G) as ([m d'] & G' & [M D'] & _). rewrite G'. cbn in M, D'. subst m.
    destruct d; try contradiction; now subst.
  - intros u n l I.
    assert (F : Forall (fun x => get_type new_registry (fst (fst x)) =
                  Some (Ty (codes (snd (fst x)))
                    (DEnum KI32 (combine (map Z.of_nat (seq 0 (length (snd x)))) (map codes (snd x))))))
                standard_enums).
    { repeat (constructor; [vm_compute; reflexivity|]). constructor. }
    pose proof (proj1 (Forall_forall _ _) F _ I) as G. cbn [fst snd] in G.
    destruct (run_keeps os _ _ _ G) as ([m d'] & G' & [M D'] & _). rewrite G'. cbn [ty_name ty_def] in M, D'. subst m.
    destruct d'; try (exfalso; congruence). destruct D' as [-> [x ->]]. now exists x.
Qed.

Example ex_standard_types :
  get_type (trun new_registry [TLiteral uViewKind (codes "VK_Mine") 9]) uViewKind =
  Some (Ty (codes "ViewKind") (DEnum KI32 [(0, codes "VK_None"); (1, codes "VK_Debug"); (2, codes "VK_Expert");
                                           (3, codes "VK_All"); (9, codes "VK_Mine")])).
Proof. vm_compute. reflexivity. Qed.

(** Whatever is registered stays registered, and stays what it is, except for the
    literals and fields added to it. *)
Theorem C45_registered_never_changes : forall r os u t, get_type r u = Some t ->
  exists t', get_type (trun r os) u = Some t' /\ grown t t' /\
  ((forall o, In o os -> ~ adds_to u o) -> t' = t).
Proof. intros. now apply run_keeps. Qed.

Example ex_never_changes :
  get_type ex_reg 102 = Some (Ty (codes "Wheels") (DStruct [ex_field "left" 100; ex_field "all" 101])) /\
  get_type (trun ex_reg [TStruct (codes "Wheels") 102; TField 102 (ex_field "x" 100); TStruct (codes "Other") 130]) 102 =
    Some (Ty (codes "Wheels") (DStruct [ex_field "left" 100; ex_field "all" 101; ex_field "x" 100])).
Proof. vm_compute. split; reflexivity. Qed.

(** AddLiteral is accepted exactly for a new value, which is a literal from then on. *)
Theorem C45_literals : forall r u n v k ls m, get_type r u = Some (Ty m (DEnum k ls)) ->
  (literal r u v -> tstep r (TLiteral u n v) = (r, Throw DuplicateLiteral)) /\
  (~ literal r u v -> exists r', tstep r (TLiteral u n v) = (r', Ok u) /\
     forall w x, literal r' x w <-> literal r x w \/ (x = u /\ w = v)).
Proof.
  intros r u n v k ls m G.
  assert (LI : forall w l, (exists s, In (w, s) l) <-> aget (A := list Z) Z.eqb w l <> None).
  { intros w l. split.
    - intros [s I] N. apply (aget_None Z.eqb zeq) in N. apply N. now apply (in_map fst) in I.
    - intros N. destruct (aget Z.eqb w l) as [s|] eqn:E; [|congruence]. exists s. now apply (aget_In Z.eqb zeq). }
  assert (LU : forall w, literal r u w <-> aget Z.eqb w ls <> None).
  { intros w. rewrite <- LI. unfold literal. split.
    - intros (n' & k' & l & s & E & I). rewrite G in E. injection E as <- <- <-. eauto.
    - intros [s I]. exists m, k, ls, s. auto. }
  cbn. unfold add_literal. rewrite G. split.
  - intros H. apply LU in H. destruct (aget Z.eqb v ls); [reflexivity|congruence].
  - intros H. rewrite LU in H. destruct (aget Z.eqb v ls) eqn:E; [exfalso; apply H; discriminate|].
    eexists. split; [reflexivity|]. intros w x. destruct (Z.eq_dec x u) as [->|X].
    + unfold literal at 1. rewrite (get_upd_same _ _ _ _ G). cbn [ty_name].
      rewrite LU, <- LI. split.
      * intros (n' & k' & l & s & Q & I). injection Q as <- <- <-. apply in_app_iff in I.
        destruct I as [I|[I|[]]]; [left; eauto|]. injection I as <- <-. auto.
      * intros [[s I]|[_ ->]].
        -- exists m, k, (ls ++ [(v, n)]), s. split; [reflexivity|]. apply in_app_iff. now left.
        -- exists m, k, (ls ++ [(v, n)]), n. split; [reflexivity|]. apply in_app_iff. right. now left.
    + unfold literal at 1. rewrite get_upd_other by assumption. fold (literal r x w). tauto.
Qed.

Example ex_literals : literal ex_reg 105 1 /\ ~ literal ex_reg 105 2.
Proof.
  split.
  - exists (codes "Mode"), KI32, [(0, codes "OFF"); (1, codes "ON")], (codes "ON").
    split; [vm_compute; reflexivity|]. right. now left.
  - intros (n & k & l & s & G & I). vm_compute in G. injection G as <- <- <-.
    destruct I as [I|[I|[]]]; discriminate.
Qed.

(** Class inheritance has no loop, and ends with Void. *)
Theorem C45_inheritance_acyclic : forall os u,
  ~ clos_trans Z (base_class (trun new_registry os)) u u /\
  (forall b, base_class (trun new_registry os) u b -> rooted (trun new_registry os) u).
Proof.
  intros os u. pose proof (run_inv os _ (proj1 new_inv)) as I. split.
  - intros C. apply (before_trans_acyclic _ (inv_nodup _ I) u).
    revert C. generalize u at 1 3. intros x C. induction C as [a b H|a b c _ IH1 _ IH2].
    + apply t_step. now apply base_before.
    + eapply t_trans; eassumption.
  - intros b. now apply class_rooted.
Qed.

Example ex_inheritance : base_class ex_reg 104 103 /\ base_class ex_reg 103 uVoid.
Proof.
  split.
  - exists (codes "Derived"), []. vm_compute. reflexivity.
  - exists (codes "Base"), []. vm_compute. reflexivity.
Qed.

(** The types of the primitive kinds are always there. *)
Theorem C45_primitive_types : forall os k, exists t,
  get_type_kind (trun new_registry os) k = Some t /\ ty_kind t = k.
Proof.
  intros os k.
  assert (H : exists n, get_type_kind new_registry k = Some (Ty n (DPrim k))).
  { destruct k; eexists; vm_compute; reflexivity. }
  destruct H as [n H]. unfold get_type_kind in *. destruct (run_keeps os _ _ _ H) as ([m d] & G & [_ D] & _).
  exists (Ty m d). split; [assumption|]. cbn in D. now subst.
Qed.

(** Publishing a field of a registered type comes to an end when the fields of the
    structures were added with types registered before the structure. *)
Theorem C45_expansion_ends_partial : forall os u, in_order new_registry os ->
  get_type (trun new_registry os) u <> None -> publishable (trun new_registry os) u.
Proof.
  intros os u O G. destruct (get_type (trun new_registry os) u) as [t|] eqn:E; [|congruence].
  apply (ordered_publishable _ u t); [|now apply run_fields; [apply new_inv|]|assumption].
  apply run_inv. apply new_inv.
Qed.

Example ex_expansion : in_order new_registry ex_ops /\
  forall m, expand (S (S (S m))) ex_reg 102 =
    Some (Ok (PStruct [(codes "left", PSimple 100); (codes "all", PArray [PSimple 100; PSimple 100; PSimple 100])])).
Proof.
  split.
  - repeat split; cbv beta iota.
    + apply before_keys. exists (map Z.of_nat (seq 0 25) ++ [100; 101]), []. split; [vm_compute; reflexivity|]. vm_compute. tauto.
    + apply before_keys. exists (map Z.of_nat (seq 0 25) ++ [100; 101]), []. split; [vm_compute; reflexivity|]. vm_compute. tauto.
  - intros m. vm_compute. reflexivity.
Qed.

(** A structure may be given a field of its own type: publishing it never ends. *)
Definition rec_reg := trun new_registry [TStruct (codes "Node") 100; TField 100 (ex_field "next" 100)].
Theorem C45_recursive_structure_refuted :
  get_type rec_reg 100 <> None /\ (forall n, expand n rec_reg 100 = Some UB) /\ ~ publishable rec_reg 100.
Proof.
  assert (E : forall n, expand n rec_reg 100 = Some UB).
  { assert (G : get_type rec_reg 100 = Some (Ty (codes "Node") (DStruct [ex_field "next" 100]))) by (vm_compute; reflexivity).
    induction n as [|n IH]; [reflexivity|]. cbn [expand]. rewrite G. cbn [ty_kind ty_def add_fields ex_field sf_type].
    rewrite IH. vm_compute. reflexivity. }
  split; [vm_compute; discriminate|]. split; [exact E|].
  intros (x & D & n & H). specialize (H n (le_n n)). rewrite E in H. congruence.
Qed.

(** The field created for a type has the parts of the type: the items of an array, the
    fields of a structure in their order and with their names. *)
Theorem C45_published_fields : forall os n u p, Forall c_names os ->
  expand n (trun new_registry os) u = Some (Ok p) -> shaped (trun new_registry os) u p.
Proof.
  intros os n u p F E. apply (expand_shaped n); [apply run_inv, new_inv| |assumption].
  apply run_names; [assumption|]. intros v t f G I.
  assert (X : forall v t, get_type new_registry v = Some t -> fields_of t = []).
  { apply (forall_get (fun _ t => fields_of t = [])). vm_compute. repeat constructor. }
  rewrite (X _ _ G) in I. destruct I.
Qed.

Example ex_published : Forall c_names ex_ops.
Proof. repeat constructor; vm_compute; intuition discriminate. Qed.

Print Assumptions C45_accepted.
Print Assumptions C45_expansion_ends_partial.
Print Assumptions C45_published_fields.
