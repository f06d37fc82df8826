(** Proofs about the type registry. *)
From Coq Require Import ZArith List Bool Lia Relations Wf_nat FinFun.
From Verif Require Import Base Text UuidModel UuidProofs Assoc AnyModel HelperModel HelperSpec HelperProofs TypeModel TypeSpec.
Import ListNotations.
Local Open Scope Z_scope.

Arguments get_type : simpl never.

Lemma zeq : forall a b, Z.eqb a b = true <-> a = b.
Proof. apply Z.eqb_eq. Qed.

Lemma get_type_app : forall r r' u, get_type (r ++ r') u = match get_type r u with Some t => Some t | None => get_type r' u end.
Proof. intros. apply aget_app. Qed.

Lemma get_type_none : forall r u, get_type r u = None <-> ~ In u (map fst r).
Proof. intros. apply (aget_None Z.eqb zeq). Qed.

Lemma keys_upd : forall u d r, map fst (upd_type u d r) = map fst r.
Proof.
  intros u d r. induction r as [|[v t] r IH]; cbn; [reflexivity|].
  destruct (u =? v); cbn; [reflexivity|]. now rewrite IH.
Qed.

Lemma get_upd_same : forall u d r t, get_type r u = Some t -> get_type (upd_type u d r) u = Some (Ty (ty_name t) d).
Proof.
  unfold get_type. intros u d r t. induction r as [|[v x] r IH]; cbn; [discriminate|].
  destruct (u =? v) eqn:E; cbn; rewrite E; [intros [= ->]; reflexivity|assumption].
Qed.

Lemma get_upd_other : forall u v d r, v <> u -> get_type (upd_type u d r) v = get_type r v.
Proof.
  unfold get_type. intros u v d r H. induction r as [|[w x] r IH]; cbn; [reflexivity|].
  destruct (Z.eqb_spec u w) as [->|N]; cbn.
  - replace (v =? w) with false by (symmetry; now apply Z.eqb_neq). reflexivity.
  - now rewrite IH.
Qed.

(** * Names *)

Fixpoint to_nul (n : list Z) : list Z :=
  match n with [] => [] | c :: r => if c =? 0 then [] else c :: to_nul r end.

Lemma cstring_to_nul : forall n, cstring (n ++ [0]) (to_nul n).
Proof.
  induction n as [|c n IH]; cbn.
  - split; [now exists []|intros []].
  - destruct (Z.eqb_spec c 0) as [->|H].
    + split; [now exists (n ++ [0])|intros []].
    + destruct IH as [[r E] N]. split; [exists r; cbn; now rewrite E|].
      intros [X|X]; [congruence|contradiction].
Qed.

Lemma to_nul_id : forall n, ~ In 0 n -> to_nul n = n.
Proof.
  induction n as [|c n IH]; cbn; [reflexivity|]. intros H.
  destruct (Z.eqb_spec c 0) as [->|E]; [tauto|]. now rewrite IH by tauto.
Qed.

Lemma with_name_cases : forall n d,
  (with_name n d = Ok (Ty (to_nul n) d) /\ valid_name (to_nul n)) \/
  (with_name n d = Throw InvalidObjectName /\ ~ valid_name (to_nul n)).
Proof.
  intros n d. unfold with_name.
  destruct (check_name_ok _ _ (cstring_to_nul n)) as [[-> V]|[[e ->] V]]; auto.
Qed.

Lemma valid_no_nul : forall n, valid_name n -> ~ In 0 n.
Proof.
  intros n [c s L F|s _ F] I.
  - destruct I as [I|I]; [unfold letter in L; lia|]. rewrite Forall_forall in F. apply F in I.
    unfold letter, digit in I. lia.
  - destruct I as [I|I]; [lia|]. apply in_app_iff in I. destruct I as [I|[I|[]]]; [|lia].
    rewrite Forall_forall in F. apply F in I. unfold digit in I. lia.
Qed.

(** * One step *)

(** What the registering calls construct. *)
Definition mk (r : reg) (o : top) : res texn ty :=
  match o with
  | TFloat n u lo hi a b k => if is_float_kind k then with_name n (DFloat k lo hi a b) else Throw InvalidPrimitiveType
  | TInt n u lo hi k => if is_int_kind k then with_name n (DInt k lo hi) else Throw InvalidPrimitiveType
  | TEnum n u size => match size_kind size with Some k => with_name n (DEnum k []) | None => Throw InvalidPrimitiveType end
  | TArray n u item isize count simple => mk_array r n item isize count simple
  | TString n u len => with_name n (DString len)
  | TStruct n u => with_name n (DStruct [])
  | TClass n u base => mk_class r n u base
  | TPrim n u k => with_name n (DPrim k)
  | _ => UB
  end.

Lemma step_reg : forall r o u n, registers o = Some (u, n) ->
  (exists t, tstep r o = (r ++ [(u, t)], Ok u) /\ get_type r u = None /\ mk r o = Ok t) \/
  (exists e, tstep r o = (r, Throw e) /\ (get_type r u <> None \/ mk r o = Throw e)).
Proof.
  assert (Q : forall r u m, (m = UB -> False) ->
    (exists t, add_type r u m = (r ++ [(u, t)], Ok u) /\ get_type r u = None /\ m = Ok t) \/
    (exists e, add_type r u m = (r, Throw e) /\ (get_type r u <> None \/ m = Throw e))).
  { intros r u m H. unfold add_type. destruct (get_type r u) eqn:G.
    - right. eexists. split; [reflexivity|]. left. discriminate.
    - destruct m; [left; eauto|right; eauto|exfalso; auto]. }
  assert (W : forall n d, with_name n d = UB -> False).
  { intros n d E. destruct (with_name_cases n d) as [[X _]|[X _]]; congruence. }
  assert (P : forall r u (b : bool) m, (m = UB -> False) ->
    (exists t, (if b then add_type r u m else (r, Throw InvalidPrimitiveType)) = (r ++ [(u, t)], Ok u) /\
       get_type r u = None /\ (if b then m else Throw InvalidPrimitiveType) = Ok t) \/
    (exists e, (if b then add_type r u m else (r, Throw InvalidPrimitiveType)) = (r, Throw e) /\
       (get_type r u <> None \/ (if b then m else Throw InvalidPrimitiveType) = Throw e))).
  { intros r u [] m H; [now apply Q|]. right. eauto. }
  intros r o u n R. destruct o; cbn in R |- *; try discriminate; injection R as -> ->;
    try (apply Q); try (apply P); try (exact (W _ _)).
  - destruct (size_kind size); [exact (W _ _)|discriminate].
  - unfold mk_array. destruct (with_name_cases n (DArray item (Z.max isize 0) (Z.max count 0) simple)) as [[-> _]|[-> _]]; cbn; [|discriminate].
    destruct (get_type r item); [|discriminate]. destruct (_ || _); discriminate.
  - unfold mk_class. destruct (with_name_cases n (DClass base [])) as [[-> _]|[-> _]]; cbn; [|discriminate].
    destruct (base =? uVoid); [discriminate|]. destruct (base =? u); [discriminate|].
    destruct (get_type r base) as [b|]; [|discriminate]. destruct (ty_def b); discriminate.
Qed.

Lemma in_int_kind : forall k, is_int_kind k = true <-> In k [KI8; KI16; KI32; KI64; KU8; KU16; KU32; KU64].
Proof. intros k. split; [destruct k; cbn; intros H; try discriminate; tauto|]. cbn. intuition; subst; reflexivity. Qed.

Lemma size_kind_iff : forall s, size_kind s <> None <-> In s [1; 2; 4; 8].
Proof.
  intros s. unfold size_kind. cbn.
  destruct (Z.eqb_spec s 1); [split; [lia|discriminate]|].
  destruct (Z.eqb_spec s 2); [split; [lia|discriminate]|].
  destruct (Z.eqb_spec s 4); [split; [lia|discriminate]|].
  destruct (Z.eqb_spec s 8); [split; [lia|discriminate]|].
  split; [congruence|lia].
Qed.

Lemma mk_ok_iff : forall r o u n, registers o = Some (u, n) ->
  ((exists t, mk r o = Ok t) <-> valid_name (to_nul n) /\ sound r o).
Proof.
  assert (W : forall n d, (exists t, with_name n d = Ok t) <-> valid_name (to_nul n)).
  { intros n d. destruct (with_name_cases n d) as [[-> V]|[-> V]]; split; eauto; [intros [t E]; discriminate|tauto]. }
  intros r o u n R. destruct o; cbn in R |- *; try discriminate; injection R as -> ->;
    try (rewrite W; tauto).
  - destruct k; cbn; try (rewrite W; intuition congruence); (split; [intros [t E]; discriminate|intros [_ [E|E]]; discriminate]).
  - destruct (is_int_kind k) eqn:E; [rewrite W; apply in_int_kind in E; cbn in E; tauto|].
    split; [intros [t X]; discriminate|]. intros [_ X]. change (In k [KI8; KI16; KI32; KI64; KU8; KU16; KU32; KU64]) in X.
    apply in_int_kind in X. congruence.
  - pose proof (size_kind_iff size) as X. destruct (size_kind size) eqn:E.
    + rewrite W. cbn in X. intuition congruence.
    + split; [intros [t Y]; discriminate|]. intros [_ Y]. apply X in Y. congruence.
  - unfold mk_array. destruct (with_name_cases n (DArray item (Z.max isize 0) (Z.max count 0) simple)) as [[-> V]|[-> V]]; cbn.
    + destruct (get_type r item) eqn:G.
      * destruct (Z.eqb_spec item uString8), (Z.eqb_spec item uVoid); cbn;
          split; try (intros [? X]; discriminate); try tauto; intros _.
        -- repeat split; auto. discriminate.
        -- eauto.
      * split; [intros [? X]; discriminate|tauto].
    + split; [intros [? X]; discriminate|tauto].
  - unfold mk_class. destruct (with_name_cases n (DClass base [])) as [[-> V]|[-> V]]; cbn.
    + destruct (Z.eqb_spec base uVoid) as [->|N]; [split; eauto|].
      destruct (Z.eqb_spec base u) as [->|N'].
      * split; [intros [? X]; discriminate|]. intros [_ [X|[X _]]]; congruence.
      * destruct (get_type r base) as [[m d]|] eqn:G; cbn.
        -- destruct d; split; try (intros [? X]; discriminate);
             try (intros [_ [X|[_ (? & ? & ? & X)]]]; [contradiction|discriminate]).
           ++ intros _. split; [assumption|]. right. split; [assumption|]. eauto.
           ++ eauto.
        -- split; [intros [? X]; discriminate|]. intros [_ [X|[_ (? & ? & ? & X)]]]; [contradiction|congruence].
    + split; [intros [? X]; discriminate|tauto].
Qed.

(** The other two calls. *)
Lemma step_add : forall r o, registers o = None ->
  (exists u d t, tstep r o = (upd_type u d r, Ok u) /\ get_type r u = Some t /\ grown t (Ty (ty_name t) d) /\ adds_to u o) \/
  (exists e, tstep r o = (r, Throw e)) \/ tstep r o = (r, UB).
Proof.
  intros r o R. destruct o; cbn in R |- *; try discriminate.
  - unfold add_literal. destruct (get_type r u) as [[m [| k l| | | | | |]]|] eqn:G; auto.
    destruct (aget Z.eqb v l); [eauto|]. left.
    exists u, (DEnum k (l ++ [(v, n)])), (Ty m (DEnum k l)). split; [reflexivity|]. split; [assumption|].
    split; [|reflexivity]. split; [reflexivity|]. cbn. split; [reflexivity|]. eauto.
  - unfold add_field. destruct (get_type r u) as [[m [| | | | | |l|b l]]|] eqn:G; auto; left.
    + exists u, (DStruct (l ++ [f])), (Ty m (DStruct l)). split; [reflexivity|]. split; [assumption|].
      split; [|reflexivity]. split; [reflexivity|]. cbn. eauto.
    + exists u, (DClass b (l ++ [f])), (Ty m (DClass b l)). split; [reflexivity|]. split; [assumption|].
      split; [|reflexivity]. split; [reflexivity|]. cbn. split; [reflexivity|]. eauto.
Qed.

Lemma grown_refl : forall t, grown t t.
Proof.
  intros [n d]. split; [reflexivity|]. destruct d; cbn; try reflexivity;
    try (split; [reflexivity|]); exists []; now rewrite app_nil_r.
Qed.

Lemma grown_trans : forall a b c, grown a b -> grown b c -> grown a c.
Proof.
  intros [n d] [m e] [o f] [N D] [M E]. cbn in *. subst. split; [reflexivity|]. cbn.
  destruct d, e; try discriminate; try (destruct D; congruence); try (injection D as; subst);
    destruct f; try discriminate; try contradiction; try congruence.
  - destruct D as [-> [x ->]], E as [-> [y ->]]. split; [reflexivity|]. exists (x ++ y). now rewrite app_assoc.
  - destruct D as [x ->], E as [y ->]. exists (x ++ y). now rewrite app_assoc.
  - destruct D as [-> [x ->]], E as [-> [y ->]]. split; [reflexivity|]. exists (x ++ y). now rewrite app_assoc.
Qed.

Lemma step_keeps : forall r o u t, get_type r u = Some t ->
  exists t', get_type (fst (tstep r o)) u = Some t' /\ grown t t' /\ (~ adds_to u o -> t' = t).
Proof.
  intros r o u t G. destruct (registers o) as [[v n]|] eqn:R.
  - destruct (step_reg r o v n R) as [(x & -> & _)|(e & -> & _)]; cbn.
    + exists t. rewrite get_type_app, G. split; [reflexivity|]. split; [apply grown_refl|auto].
    + exists t. split; [assumption|]. split; [apply grown_refl|auto].
  - destruct (step_add r o R) as [(v & d & x & -> & X & D & A)|[[e ->]| ->]]; cbn.
    2,3: exists t; split; [assumption|]; split; [apply grown_refl|auto].
    destruct (Z.eq_dec u v) as [->|N].
    + rewrite X in G. injection G as ->. exists (Ty (ty_name t) d).
      split; [now apply get_upd_same|]. split; [assumption|]. tauto.
    + exists t. rewrite get_upd_other by assumption. split; [assumption|]. split; [apply grown_refl|auto].
Qed.

Lemma run_keeps : forall os r u t, get_type r u = Some t ->
  exists t', get_type (trun r os) u = Some t' /\ grown t t' /\ ((forall o, In o os -> ~ adds_to u o) -> t' = t).
Proof.
  induction os as [|o os IH]; intros r u t G.
  - exists t. split; [assumption|]. split; [apply grown_refl|auto].
  - destruct (step_keeps r o u t G) as (t1 & G1 & D1 & E1).
    destruct (IH _ _ _ G1) as (t2 & G2 & D2 & E2). exists t2. split; [assumption|].
    split; [eapply grown_trans; eassumption|]. intros H.
    rewrite E2 by (intros x X; apply H; now right). apply E1. apply H. now left.
Qed.

Lemma run_app : forall a b r, trun r (a ++ b) = trun (trun r a) b.
Proof. intros. unfold trun. apply fold_left_app. Qed.

(** * Order of registration *)

Lemma before_app : forall r r' v u, before r v u -> before (r ++ r') v u.
Proof.
  intros r r' v u (a & t & b & -> & I). exists a, t, (b ++ r'). split; [|assumption].
  now rewrite <- app_assoc.
Qed.

Lemma before_keys : forall r v u, before r v u <-> exists a b, map fst r = a ++ u :: b /\ In v a.
Proof.
  intros r v u. split.
  - intros (a & t & b & -> & I). exists (map fst a), (map fst b). rewrite map_app. auto.
  - intros (a & b & E & I). apply map_eq_app in E. destruct E as (r1 & r2 & -> & <- & E).
    destruct r2 as [|[w t] r2]; [discriminate|]. cbn in E. injection E as -> <-.
    exists r1, t, r2. auto.
Qed.

Lemma before_upd : forall r v u w d, before (upd_type w d r) v u <-> before r v u.
Proof. intros. rewrite !before_keys. now rewrite keys_upd. Qed.

Lemma before_new : forall r u t v, In v (map fst r) -> before (r ++ [(u, t)]) v u.
Proof. intros r u t v I. exists r, t, []. auto. Qed.

Lemma before_acc : forall r, NoDup (map fst r) -> forall u, Acc (before r) u.
Proof.
  intros r N.
  assert (Q : forall a b, map fst r = a ++ b -> forall u, In u a -> Acc (before r) u).
  { induction a as [|x a IH] using rev_ind; intros b E u I; [destruct I|].
    rewrite <- app_assoc in E. apply in_app_iff in I. destruct I as [I|[<-|[]]].
    - exact (IH _ E u I).
    - constructor. intros v (p & q & F & J)%before_keys.
      assert (p = a); [|subst; exact (IH _ E v J)].
      rewrite E in F, N. clear - F N. revert p F N. induction a as [|y a IH]; intros [|z p] F N; cbn in *.
      + reflexivity.
      + injection F as -> F. inversion N as [|? ? H1 H2]. exfalso. apply H1. rewrite F. apply in_app_iff. right. now left.
      + injection F as -> F. inversion N as [|? ? H1 H2]. exfalso. apply H1. apply in_app_iff. right. now left.
      + injection F as -> F. inversion N as [|? ? H1 H2]. f_equal. eauto. }
  intros u. constructor. intros v H. pose proof H as (a & b & E & I)%before_keys. exact (Q _ _ E v I).
Qed.

Lemma before_in : forall r v u, before r v u -> In v (map fst r).
Proof. intros r v u (a & b & -> & I)%before_keys. apply in_app_iff. now left. Qed.

(** * Invariants *)

Definition item_of (t : ty) : option Z := match ty_def t with DArray i _ _ _ => Some i | _ => None end.
Definition fields_of (t : ty) : list sfield := match ty_def t with DStruct l | DClass _ l => l | _ => [] end.
Definition base_of (t : ty) : option Z := match ty_def t with DClass b _ => Some b | _ => None end.

Record inv (r : reg) : Prop := {
  inv_nodup : NoDup (map fst r);
  inv_void : exists n, get_type r uVoid = Some (Ty n (DPrim KNone));
  inv_item : forall u t i, get_type r u = Some t -> item_of t = Some i -> before r i u;
  inv_count : forall u n i s c b, get_type r u = Some (Ty n (DArray i s c b)) -> 0 <= c;
  inv_base : forall u t b, get_type r u = Some t -> base_of t = Some b ->
     before r b u /\ (b = uVoid \/ exists x, get_type r b = Some x /\ base_of x <> None)
}.

Definition fields_before (r : reg) : Prop :=
  forall u t f, get_type r u = Some t -> In f (fields_of t) -> before r (sf_type f) u.

Lemma grown_item : forall a b, grown a b -> item_of b = item_of a.
Proof. intros [n d] [m e] [_ H]. unfold item_of. cbn in *. destruct d; try (now subst); destruct e; try discriminate; reflexivity. Qed.
Lemma grown_base : forall a b, grown a b -> base_of b = base_of a.
Proof.
  intros [n d] [m e] [_ H]. unfold base_of. cbn in *. destruct d; try (now subst); destruct e; try discriminate; try reflexivity.
  now destruct H as [-> _].
Qed.

Lemma mk_item : forall r o t i, mk r o = Ok t -> item_of t = Some i -> exists x, get_type r i = Some x.
Proof.
  intros r o t i M I. destruct o; cbn in M; try discriminate;
    try (destruct (with_name_cases n (DFloat k lo hi lo_in hi_in)) as [[W _]|[W _]]; rewrite W in M;
         destruct (is_float_kind k); try discriminate; injection M as <-; discriminate).
  - destruct (is_int_kind k); [|discriminate].
    destruct (with_name_cases n (DInt k lo hi)) as [[W _]|[W _]]; rewrite W in M; try discriminate. injection M as <-; discriminate.
  - destruct (size_kind size); [|discriminate].
    destruct (with_name_cases n (DEnum k [])) as [[W _]|[W _]]; rewrite W in M; try discriminate. injection M as <-; discriminate.
  - unfold mk_array in M.
    destruct (with_name_cases n (DArray item (Z.max isize 0) (Z.max count 0) simple)) as [[W _]|[W _]]; rewrite W in M; cbn in M; [|discriminate].
    destruct (get_type r item) eqn:G; [|discriminate]. destruct (_ || _); [discriminate|].
    injection M as <-. injection I as <-. eauto.
  - destruct (with_name_cases n (DString len)) as [[W _]|[W _]]; rewrite W in M; try discriminate. injection M as <-; discriminate.
  - destruct (with_name_cases n (DStruct [])) as [[W _]|[W _]]; rewrite W in M; try discriminate. injection M as <-; discriminate.
  - unfold mk_class in M.
    destruct (with_name_cases n (DClass base [])) as [[W _]|[W _]]; rewrite W in M; cbn in M; [|discriminate].
    exfalso. assert (t = Ty (to_nul n) (DClass base [])); [|subst; discriminate].
    destruct (base =? uVoid); [congruence|]. destruct (base =? u); [discriminate|].
    destruct (get_type r base) as [x|]; [|discriminate]. destruct (ty_def x); congruence.
  - destruct (with_name_cases n (DPrim k)) as [[W _]|[W _]]; rewrite W in M; try discriminate. injection M as <-; discriminate.
Qed.

(** A new type has no field, and its base class is Void or a class. *)
Lemma mk_shape : forall r o t, mk r o = Ok t ->
  fields_of t = [] /\
  (forall b, base_of t = Some b -> b = uVoid \/ exists x, get_type r b = Some x /\ base_of x <> None) /\
  (forall n i s c b, t = Ty n (DArray i s c b) -> 0 <= c).
Proof.
  assert (P : forall (t : ty), fields_of t = [] -> base_of t = None -> item_of t = None ->
    fields_of t = [] /\ (forall r b, base_of t = Some b -> b = uVoid \/ exists x, get_type r b = Some x /\ base_of x <> None) /\
    (forall n i s c b, t = Ty n (DArray i s c b) -> 0 <= c)).
  { intros t F B I. split; [assumption|]. split; [congruence|]. intros n i s c b ->. discriminate. }
  assert (W : forall r n d t, with_name n d = Ok t -> fields_of (Ty n d) = [] -> base_of (Ty n d) = None -> item_of (Ty n d) = None ->
    fields_of t = [] /\ (forall b, base_of t = Some b -> b = uVoid \/ exists x, get_type r b = Some x /\ base_of x <> None) /\
    (forall n i s c b, t = Ty n (DArray i s c b) -> 0 <= c)).
  { intros r n d t E F B I. destruct (with_name_cases n d) as [[W _]|[W _]]; rewrite W in E; [|discriminate].
    injection E as <-. destruct (P (Ty (to_nul n) d) F B I) as (X & Y & Z). auto. }
  intros r o t M. destruct o; cbn in M; try discriminate.
  - destruct (is_float_kind k); [|discriminate]. now apply (W r) in M.
  - destruct (is_int_kind k); [|discriminate]. now apply (W r) in M.
  - destruct (size_kind size); [|discriminate]. now apply (W r) in M.
  - unfold mk_array in M.
    destruct (with_name_cases n (DArray item (Z.max isize 0) (Z.max count 0) simple)) as [[E _]|[E _]]; rewrite E in M; cbn in M; [|discriminate].
    destruct (get_type r item); [|discriminate]. destruct (_ || _); [discriminate|]. injection M as <-.
    split; [reflexivity|]. split; [discriminate|]. intros m i s c b [= _ _ _ <- _]. lia.
  - now apply (W r) in M.
  - now apply (W r) in M.
  - unfold mk_class in M.
    destruct (with_name_cases n (DClass base [])) as [[E _]|[E _]]; rewrite E in M; cbn in M; [|discriminate].
    destruct (Z.eqb_spec base uVoid) as [->|V].
    + injection M as <-. split; [reflexivity|]. split; [|discriminate]. intros b [= <-]. now left.
    + destruct (base =? u); [discriminate|]. destruct (get_type r base) as [x|] eqn:G; [|discriminate].
      destruct (ty_def x) eqn:D; try discriminate. injection M as <-. split; [reflexivity|]. split; [|discriminate].
      intros c [= <-]. right. exists x. split; [assumption|]. unfold base_of. rewrite D. discriminate.
  - now apply (W r) in M.
Qed.

Lemma step_keys : forall r o, exists x, map fst (fst (tstep r o)) = map fst r ++ x.
Proof.
  intros r o. destruct (registers o) as [[v n]|] eqn:R.
  - destruct (step_reg r o v n R) as [(x & -> & _)|(e & -> & _)]; cbn.
    + exists [v]. now rewrite map_app.
    + exists []. now rewrite app_nil_r.
  - exists []. rewrite app_nil_r. destruct (step_add r o R) as [(v & d & x & -> & _)|[[e ->]| ->]]; cbn; try reflexivity.
    apply keys_upd.
Qed.

Lemma before_step : forall r o v u, before r v u -> before (fst (tstep r o)) v u.
Proof.
  intros r o v u. rewrite !before_keys. intros (a & b & E & I). destruct (step_keys r o) as [x X].
  exists a, (b ++ x). rewrite X, E, <- app_assoc. auto.
Qed.

Lemma some_in : forall r u t, get_type r u = Some t -> In u (map fst r).
Proof.
  intros r u t G. destruct (in_dec Z.eq_dec u (map fst r)) as [H|H]; [assumption|].
  apply get_type_none in H. congruence.
Qed.

Lemma in_some : forall r u, In u (map fst r) -> exists t, get_type r u = Some t.
Proof.
  intros r u I. destruct (get_type r u) eqn:G; [eauto|]. apply get_type_none in G. contradiction.
Qed.

Lemma step_type : forall r o u t', get_type (fst (tstep r o)) u = Some t' ->
  (exists t, get_type r u = Some t /\ grown t t' /\ (adds_to u o \/ t' = t)) \/
  (get_type r u = None /\ mk r o = Ok t' /\ fst (tstep r o) = r ++ [(u, t')]).
Proof.
  intros r o u t' G. destruct (get_type r u) as [t|] eqn:E.
  - left. exists t. split; [reflexivity|]. destruct (step_keeps r o u t E) as (x & X & D & A).
    rewrite X in G. injection G as ->. split; [assumption|].
    destruct o; cbn in A |- *; try (right; apply A; tauto);
      match goal with |- ?a = ?b \/ _ => destruct (Z.eq_dec a b); [now left|right; apply A; assumption] end.
  - right. split; [reflexivity|]. destruct (registers o) as [[v n]|] eqn:R.
    + destruct (step_reg r o v n R) as [(x & S & F & M)|(e & S & _)]; rewrite S in G |- *; cbn in *.
      * rewrite get_type_app, E in G. unfold get_type in G. cbn in G. destruct (Z.eqb_spec u v) as [->|]; [|discriminate].
        injection G as ->. auto.
      * congruence.
    + destruct (step_add r o R) as [(v & d & x & S & F & _)|[[e S]|S]]; rewrite S in G; cbn in G; try congruence.
      destruct (Z.eq_dec u v) as [->|N]; [congruence|]. rewrite get_upd_other in G by assumption. congruence.
Qed.

Lemma step_inv : forall r o, inv r -> inv (fst (tstep r o)).
Proof.
  intros r o [N V I C B]. constructor.
  - destruct (registers o) as [[v n]|] eqn:R.
    + destruct (step_reg r o v n R) as [(x & S & G & _)|(e & S & _)]; rewrite S; cbn; [|assumption].
      rewrite map_app. apply NoDup_snoc; [assumption|]. now apply get_type_none.
    + destruct (step_add r o R) as [(v & d & x & S & _)|[[e S]|S]]; rewrite S; cbn; try assumption.
      now rewrite keys_upd.
  - destruct V as [n V]. destruct (step_keeps r o _ _ V) as (t & G & D & _). exists n.
    destruct t as [m d]. destruct D as [E D]. cbn in E, D. subst. assumption.
  - intros u t i G J. destruct (step_type r o u t G) as [(t0 & G0 & D & _)|(F & M & S)].
    + apply before_step. apply (I u t0); [assumption|]. now rewrite <- (grown_item _ _ D).
    + destruct (mk_item _ _ _ _ M J) as [x X]. rewrite S. apply before_new. now apply some_in in X.
  - intros u n i s c b G. destruct (step_type r o u _ G) as [([m e] & G0 & [_ D] & _)|(F & M & S)].
    + cbn in D. destruct e; try discriminate. injection D as -> -> -> ->. apply (C _ _ _ _ _ _ G0).
    + apply mk_shape in M. destruct M as (_ & _ & M). now apply (M n i s c b).
  - intros u t b G J. destruct (step_type r o u t G) as [(t0 & G0 & D & _)|(F & M & S)].
    + rewrite (grown_base _ _ D) in J. destruct (B u t0 b G0 J) as [X Y]. split; [now apply before_step|].
      destruct Y as [Y|(x & Y & Z)]; [now left|]. right.
      destruct (step_keeps r o b x Y) as (x' & Y' & D' & _). exists x'. split; [assumption|].
      now rewrite (grown_base _ _ D').
    + pose proof (mk_shape _ _ _ M) as (_ & X & _). specialize (X b J). rewrite S.
      assert (K : In b (map fst r)).
      { destruct X as [->|(x & X & _)]; [destruct V as [n V]; now apply some_in in V|now apply some_in in X]. }
      split; [now apply before_new|]. destruct X as [X|(x & X & Y)]; [now left|]. right. exists x.
      rewrite get_type_app, X. auto.
Qed.

Lemma run_inv : forall os r, inv r -> inv (trun r os).
Proof. induction os as [|o os IH]; intros r H; [assumption|]. apply (IH (fst (tstep r o))). now apply step_inv. Qed.

Lemma step_fields : forall r o, fields_before r ->
  match o with TField u f => before r (sf_type f) u | _ => True end -> fields_before (fst (tstep r o)).
Proof.
  intros r o H O u t f G I. destruct (step_type r o u t G) as [(t0 & G0 & D & A)|(F & M & S)].
  - apply before_step. destruct A as [A|A]; [|subst; now apply (H u t0)].
    destruct t0 as [n0 d0]. destruct o; cbn in A; try contradiction; subst; cbn in G.
    + unfold add_literal in G. rewrite G0 in G. destruct d0; cbn in G; try (rewrite G0 in G; injection G as <-; now apply (H u _ f G0)).
      destruct (aget Z.eqb v lits); cbn in G.
      * rewrite G0 in G; injection G as <-; now apply (H u _ f G0).
      * erewrite get_upd_same in G by eassumption. injection G as <-. destruct I.
    + unfold add_field in G. rewrite G0 in G. destruct d0; cbn in G; try (rewrite G0 in G; injection G as <-; now apply (H u _ f G0)).
      * erewrite get_upd_same in G by eassumption. injection G as <-. cbn in I. apply in_app_iff in I.
        destruct I as [I|[<-|[]]]; [now apply (H u _ f G0)|assumption].
      * erewrite get_upd_same in G by eassumption. injection G as <-. cbn in I. apply in_app_iff in I.
        destruct I as [I|[<-|[]]]; [now apply (H u _ f G0)|assumption].
  - apply mk_shape in M. destruct M as [M _]. rewrite M in I. destruct I.
Qed.

Lemma run_fields : forall os r, fields_before r -> in_order r os -> fields_before (trun r os).
Proof.
  induction os as [|o os IH]; intros r H O; [assumption|]. destruct O as [O1 O2].
  apply (IH (fst (tstep r o))); [|assumption]. now apply step_fields.
Qed.

Lemma forall_get : forall (P : Z -> ty -> Prop) r, Forall (fun p => P (fst p) (snd p)) r -> forall u t, get_type r u = Some t -> P u t.
Proof.
  intros P r F u t G. apply (aget_In Z.eqb zeq) in G. rewrite Forall_forall in F. exact (F _ G).
Qed.

Lemma new_inv : inv new_registry /\ fields_before new_registry.
Proof.
  assert (X : forall u t, get_type new_registry u = Some t -> item_of t = None /\ base_of t = None /\ fields_of t = []).
  { apply (forall_get (fun _ t => item_of t = None /\ base_of t = None /\ fields_of t = [])).
    vm_compute. repeat constructor. }
  split; [constructor|].
  - assert (E : map fst new_registry = map Z.of_nat (seq 0 25)) by (vm_compute; reflexivity).
    rewrite E. apply Injective_map_NoDup; [intros a b; lia|apply seq_NoDup].
  - exists (codes "Void"). vm_compute. reflexivity.
  - intros u t i G I. apply X in G. destruct G as [G _]. congruence.
  - intros u n i s c b G. apply X in G. destruct G as [G _]. discriminate.
  - intros u t b G I. apply X in G. destruct G as (_ & G & _). congruence.
  - intros u t f G I. apply X in G. destruct G as (_ & _ & G). rewrite G in I. destruct I.
Qed.

(** * Expansion *)

Definition decided (x : res texn pfield) : Prop := x <> UB.

(** A bound on the depth that is enough for the parts is enough for the whole. *)
Lemma uniform : forall (P : nat -> Z -> Prop), (forall n m u, (n <= m)%nat -> P n u -> P m u) ->
  forall l, (forall u, In u l -> exists n, P n u) -> exists n, forall u, In u l -> P n u.
Proof.
  intros P M l. induction l as [|x l IH]; intros H; [exists O; intros u []|].
  destruct IH as [n N]; [intros u I; apply H; now right|].
  destruct (H x (or_introl eq_refl)) as [m Q]. exists (Nat.max n m).
  intros u [<-|I]; [apply (M m); [lia|assumption]|apply (M n); [lia|auto]].
Qed.

Definition settled (r : reg) (n : nat) (u : Z) : Prop :=
  (get_type r u = None \/ exists x, x <> UB /\ forall m, (n <= m)%nat -> expand m r u = Some x).

Lemma settled_mono : forall r n m u, (n <= m)%nat -> settled r n u -> settled r m u.
Proof.
  intros r n m u L [H|(x & D & H)]; [now left|]. right. exists x. split; [assumption|]. intros k K. apply H. lia.
Qed.

Lemma check_name_not_ub : forall n, check_name (Some (n ++ [0])) <> UB.
Proof. intros n. destruct (check_name_ok _ _ (cstring_to_nul n)) as [[-> _]|[[e ->] _]]; discriminate. Qed.

Lemma add_fields_stable : forall r n fs, (1 <= n)%nat -> (forall f, In f fs -> settled r n (sf_type f)) -> forall acc,
  exists x, x <> UB /\ forall m, (n <= m)%nat -> add_fields (expand m r) fs acc = x.
Proof.
  intros r n fs N. induction fs as [|f fs IH]; intros H acc; cbn [add_fields].
  - exists (Ok acc). split; [discriminate|auto].
  - destruct (H f (or_introl eq_refl)) as [E|(x & D & E)].
    + exists (Throw TypeNotRegistered). split; [discriminate|]. intros [|m] M; [lia|]. cbn [expand]. now rewrite E.
    + pose proof (check_name_not_ub (sf_name f)) as CU.
      destruct (check_name (Some (sf_name f ++ [0]))) as [s|e|] eqn:C; [| |congruence].
      * destruct x as [p|e|]; [| |congruence].
        -- destruct (has_name s acc) eqn:HN.
           ++ exists (Throw DuplicateName). split; [discriminate|]. intros m M. now rewrite E by assumption.
           ++ destruct (IH (fun f I => H f (or_intror I)) (acc ++ [(s, p)])) as (y & Y & F).
              exists y. split; [assumption|]. intros m M. rewrite E by assumption. now apply F.
        -- exists (Throw e). split; [discriminate|]. intros m M. now rewrite E by assumption.
      * exists (Throw InvalidObjectName). split; [discriminate|]. intros m M. now rewrite E by assumption.
Qed.

Lemma collect_same : forall A (l : list unit) (x : res texn A), x <> UB ->
  exists y, y <> UB /\ collect (map (fun _ => x) l) = y.
Proof.
  intros A l x D. induction l as [|[] l (y & Y & E)]; cbn; [exists (Ok []); split; [discriminate|reflexivity]|].
  rewrite E. destruct x as [a|e|]; [|exists (Throw e); split; [discriminate|reflexivity]|congruence]. cbn.
  destruct y as [b|e|]; [| |congruence]; cbn; eexists; (split; [|reflexivity]); discriminate.
Qed.

Lemma acc_settled : forall r, inv r -> fields_before r -> forall u, Acc (before r) u -> exists n, settled r n u.
Proof.
  intros r I F u A. induction A as [u _ IH].
  destruct (get_type r u) as [t|] eqn:G; [|exists O; now left].
  assert (T : (exists x, x <> UB /\ forall m, expand (S m) r u = Some x) -> exists n, settled r n u).
  { intros (x & D & E). exists 1%nat. right. exists x. split; [assumption|]. intros [|m] M; [lia|]. apply E. }
  assert (SF : forall fs, (forall f, In f fs -> In f (fields_of t)) ->
             exists n x, x <> UB /\ forall m, (n <= m)%nat -> add_fields (expand m r) fs [] = x).
  { intros fs H. destruct (uniform (settled r) (settled_mono r) (map sf_type fs)) as [n N].
    - intros v V. apply in_map_iff in V. destruct V as (f & <- & V). apply IH. apply (F u t); auto.
    - exists (S n). apply add_fields_stable; [lia|]. intros f V. apply (settled_mono r n); [lia|]. apply N. now apply in_map. }
  assert (FF : forall fs, (forall m, expand (S m) r u = Some (bind (add_fields (expand m r) fs []) (fun l => Ok (PStruct l)))) ->
             (forall f, In f fs -> In f (fields_of t)) -> exists n, settled r n u).
  { intros fs E H. destruct (SF fs H) as (n & x & D & X). exists (S n). right.
    exists (bind x (fun l => Ok (PStruct l))). split; [destruct x; cbn; [discriminate|discriminate|congruence]|].
    intros [|m] M; [lia|]. rewrite E. now rewrite X by lia. }
  assert (SIM : forall k, ty_kind t = k -> k <> KNone -> exists n, settled r n u).
  { intros k K NK. apply T. destruct (u =? uString8) eqn:U.
    - exists (Throw IncompatibleType). split; [discriminate|]. intros m. cbn [expand]. rewrite G, K, U. destruct k; congruence.
    - exists (Ok (PSimple u)). split; [discriminate|]. intros m. cbn [expand]. rewrite G, K, U. destruct k; congruence. }
  assert (INV : ty_kind t = KNone -> (match ty_def t with DArray _ _ _ _ | DStruct _ | DClass _ _ => False | _ => True end) -> exists n, settled r n u).
  { intros K D. apply T. exists (Throw InvalidFieldType). split; [discriminate|]. intros m. cbn [expand]. rewrite G, K.
    destruct (ty_def t); try contradiction; reflexivity. }
  destruct (match ty_kind t with KNone => true | _ => false end) eqn:K; [|apply (SIM (ty_kind t)); [reflexivity|destruct (ty_kind t); congruence]].
  assert (K' : ty_kind t = KNone) by (destruct (ty_kind t); congruence). clear K.
  destruct (ty_def t) as [k|k l|k a b c d|k a b|l|item isize count simple|fs|b fs] eqn:D; try (apply INV; [assumption|try rewrite D; constructor]).
  - assert (BI : before r item u) by (apply (inv_item r I u t); [assumption|unfold item_of; now rewrite D]).
    destruct (in_some r item (before_in _ _ _ BI)) as [it GI].
    destruct (simple && negb match ty_kind it with KNone => true | _ => false end) eqn:Q.
    + apply T. exists (Ok (PSimpleArray item count)). split; [discriminate|]. intros m. cbn [expand]. now rewrite G, K', D, GI, Q.
    + destruct (IH item BI) as [n [N|(x & X & E)]]; [congruence|].
      destruct (collect_same _ (repeat tt (Z.to_nat count)) x X) as (y & Y & EY).
      exists (S n). right. exists (bind y (fun l => Ok (PArray l))).
      split; [destruct y; cbn; [discriminate|discriminate|congruence]|].
      intros [|m] M; [lia|]. cbn [expand]. rewrite G, K', D, GI, Q. rewrite E by lia. now rewrite EY.
  - apply (FF fs).
    + intros m. cbn [expand]. now rewrite G, K', D.
    + intros f V. unfold fields_of. now rewrite D.
  - apply (FF fs).
    + intros m. cbn [expand]. now rewrite G, K', D.
    + intros f V. unfold fields_of. now rewrite D.
Qed.

Lemma ordered_publishable : forall r u t, inv r -> fields_before r -> get_type r u = Some t -> publishable r u.
Proof.
  intros r u t I F G. destruct (acc_settled r I F u (before_acc r (inv_nodup r I) u)) as [n [X|(x & D & E)]]; [congruence|].
  exists x. split; [assumption|]. exists n. assumption.
Qed.

(** * Inheritance *)

Lemma base_before : forall r, inv r -> forall u b, base_class r u b -> before r b u.
Proof. intros r I u b (n & fs & G). now apply (inv_base r I u _ b G). Qed.

Lemma before_trans_acyclic : forall r, NoDup (map fst r) -> forall u, ~ clos_trans Z (fun a b => before r b a) u u.
Proof.
  intros r N u H.
  assert (Q : forall x, Acc (before r) x -> ~ clos_trans Z (fun a b => before r b a) x x).
  { intros x A. induction A as [x _ IH]. intros C.
    assert (S : exists y, before r y x /\ clos_trans Z (fun a b => before r b a) y y).
    { apply clos_trans_t1n in C. inversion C as [? B|y ? B C']; subst.
      - exists x. split; [assumption|]. now apply t_step.
      - exists y. split; [assumption|]. apply clos_t1n_trans in C'. eapply t_trans; [exact C'|]. now apply t_step. }
    destruct S as (y & B & C'). exact (IH y B C'). }
  exact (Q u (before_acc r N u) H).
Qed.

Lemma class_rooted : forall r, inv r -> forall u b, base_class r u b -> rooted r u.
Proof.
  intros r I u b H. pose proof (before_acc r (inv_nodup r I) u) as A. revert b H.
  induction A as [u _ IH]. intros b H. destruct H as (n & fs & G).
  destruct (inv_base r I u _ b G eq_refl) as [B [->|(x & X & Y)]].
  - eapply rooted_base; [exists n, fs; exact G|constructor].
  - eapply rooted_base; [exists n, fs; exact G|]. destruct x as [m d]. unfold base_of in Y. cbn in Y.
    destruct d as [| | | | | | |b' l]; try congruence. apply (IH b B b'). exists m, l. assumption.
Qed.

(** * The fields of a published type *)

Lemma collect_ok : forall A (l : list (res texn A)) x, collect l = Ok x -> length x = length l /\ forall p, In p x -> In (Ok p) l.
Proof.
  intros A l. induction l as [|y l IH]; intros x E; cbn in E.
  - injection E as <-. split; [reflexivity|intros p []].
  - destruct y as [a|e|]; cbn in E; try discriminate. destruct (collect l) as [b|e|] eqn:C; cbn in E; try discriminate.
    injection E as <-. destruct (IH b eq_refl) as [L P]. split; [cbn; lia|].
    intros p [->|I]; [now left|right; auto].
Qed.

Lemma list_eqb_iff : forall a b, list_eqb a b = true <-> a = b.
Proof. apply list_eqb_eq. Qed.

Lemma has_name_in : forall n l, has_name n l = true <-> In n (map fst l).
Proof.
  intros n l. induction l as [|[m p] l IH]; cbn; [split; [discriminate|tauto]|].
  rewrite orb_true_iff, IH, list_eqb_iff. intuition.
Qed.

Lemma add_fields_ok : forall mk fs acc l, (forall f, In f fs -> ~ In 0 (sf_name f)) ->
  add_fields mk fs acc = Ok l -> NoDup (map fst acc) ->
  NoDup (map fst l) /\ map fst l = map fst acc ++ map sf_name fs /\
  exists q, map snd l = map snd acc ++ q /\ length q = length fs /\
  forall f p, In (f, p) (combine fs q) -> mk (sf_type f) = Some (Ok p).
Proof.
  intros mk0 fs. induction fs as [|f fs IH]; intros acc l Z0 E N; cbn [add_fields] in E.
  - injection E as <-. split; [assumption|]. rewrite app_nil_r. split; [reflexivity|]. exists [].
    rewrite app_nil_r. repeat split; auto; intros; contradiction.
  - destruct (mk0 (sf_type f)) as [x|] eqn:M; [|discriminate].
    pose proof (cstring_to_nul (sf_name f)) as CS. rewrite (to_nul_id (sf_name f)) in CS by (apply Z0; now left).
    destruct (check_name_ok _ _ CS) as [[C V]|[[e C] V]]; rewrite C in E; [|discriminate].
    destruct x as [p|e|]; [|discriminate|discriminate]. destruct (has_name _ acc) eqn:H; [discriminate|].
    apply IH in E.
    + destruct E as (N' & K & q & S & L & P). rewrite map_app, <- app_assoc in K, S. cbn in K, S.
      split; [assumption|]. split; [assumption|]. exists (p :: q). split; [assumption|]. split; [cbn; lia|].
      intros g y [Y|Y]; [injection Y as -> ->; assumption|auto].
    + intros g G. apply Z0. now right.
    + rewrite map_app. apply NoDup_snoc; [assumption|]. intros I. cbn in I. apply has_name_in in I. congruence.
Qed.

Lemma expand_shaped : forall n r, inv r -> (forall u t f, get_type r u = Some t -> In f (fields_of t) -> ~ In 0 (sf_name f)) ->
  forall u p, expand n r u = Some (Ok p) -> shaped r u p.
Proof.
  induction n as [|n IH]; intros r I Z0 u p E; [discriminate|]. cbn [expand] in E.
  destruct (get_type r u) as [t|] eqn:G; [|discriminate]. injection E as E.
  assert (ST : forall fs, (ty_def t = DStruct fs \/ exists b, ty_def t = DClass b fs) ->
     bind (add_fields (expand n r) fs []) (fun l => Ok (PStruct l)) = Ok p -> shaped r u p).
  { intros fs D B. destruct (add_fields (expand n r) fs []) as [l|e|] eqn:A; cbn in B; try discriminate. injection B as <-.
    apply add_fields_ok in A; [|intros f V; apply (Z0 u t); [assumption|unfold fields_of; destruct D as [->|[b ->]]; assumption]|constructor].
    destruct A as (N & K & q & S & L & P). cbn in K, S. destruct t as [nm d].
    eapply sh_struct; [exact G|exact D|exact K| |exact N].
    intros f y V. rewrite S in V. apply (IH r I Z0). apply P. assumption. }
  destruct (match ty_kind t with KNone => true | _ => false end) eqn:K.
  - assert (K' : ty_kind t = KNone) by (destruct (ty_kind t); congruence). rewrite K' in E.
    destruct (ty_def t) as [k|k l|k a b c d|k a b|l|item isize count simple|fs|b fs] eqn:D; try discriminate.
    + destruct (get_type r item) as [it|] eqn:GI; [|discriminate]. destruct t as [nm d]. cbn in D. subst d.
      destruct (simple && negb match ty_kind it with KNone => true | _ => false end) eqn:Q.
      * injection E as <-. apply andb_true_iff in Q. destruct Q as [-> Q].
        eapply sh_simple_array; [exact G|exact GI|]. unfold has_parts. intros H. rewrite H in Q. discriminate.
      * destruct (collect _) as [l|e|] eqn:C; cbn in E; try discriminate. injection E as <-.
        apply collect_ok in C. destruct C as [L C]. rewrite map_length, repeat_length in L.
        eapply sh_array; [exact G| |].
        -- rewrite L. apply Z2Nat.id. exact (inv_count r I _ _ _ _ _ _ G).
        -- intros q V. apply (IH r I Z0). apply C in V. apply in_map_iff in V. destruct V as ([] & V & _).
           destruct (expand n r item) as [x|] eqn:X; [now subst|discriminate].
    + apply (ST fs); [now left|assumption].
    + apply (ST fs); [right; eauto|assumption].
  - assert (X : (if u =? uString8 then Throw IncompatibleType else Ok (PSimple u)) = Ok p) by (destruct (ty_kind t); congruence || assumption).
    destruct (u =? uString8); [discriminate|]. injection X as <-. apply (sh_simple r u t G). unfold has_parts. intros H. rewrite H in K. discriminate.
Qed.

(** Names given by C strings. *)
Definition c_names (o : top) : Prop :=
  match o with TField _ f => ~ In 0 (sf_name f) | _ => True end.

Lemma run_names : forall os r, Forall c_names os ->
  (forall u t f, get_type r u = Some t -> In f (fields_of t) -> ~ In 0 (sf_name f)) ->
  (forall u t f, get_type (trun r os) u = Some t -> In f (fields_of t) -> ~ In 0 (sf_name f)).
Proof.
  induction os as [|o os IH]; intros r F H; [assumption|]. inversion F as [|? ? O F']; subst.
  apply (IH (fst (tstep r o)) F'). intros u t f G I.
  destruct (step_type r o u t G) as [([n0 d0] & G0 & D & A)|(_ & M & S)].
  - destruct A as [A|A]; [|subst; now apply (H u _ f G0)].
    destruct o; cbn in A; try contradiction; subst; cbn in G.
    + unfold add_literal in G. rewrite G0 in G. destruct d0; cbn in G; try (rewrite G0 in G; injection G as <-; now apply (H u _ f G0)).
      destruct (aget Z.eqb v lits); cbn in G.
      * rewrite G0 in G; injection G as <-; now apply (H u _ f G0).
      * erewrite get_upd_same in G by eassumption. injection G as <-. destruct I.
    + unfold add_field in G. rewrite G0 in G. destruct d0; cbn in G; try (rewrite G0 in G; injection G as <-; now apply (H u _ f G0)).
      * erewrite get_upd_same in G by eassumption. injection G as <-. cbn in I. apply in_app_iff in I.
        destruct I as [I|[<-|[]]]; [now apply (H u _ f G0)|exact O].
      * erewrite get_upd_same in G by eassumption. injection G as <-. cbn in I. apply in_app_iff in I.
        destruct I as [I|[<-|[]]]; [now apply (H u _ f G0)|exact O].
  - apply mk_shape in M. destruct M as [M _]. rewrite M in I. destruct I.
Qed.
