(** Proofs about invocation and about the publication of operations and properties. *)
From Coq Require Import ZArith List Bool Lia.
From Verif Require Import Base Text UuidModel UuidProofs Assoc HelperModel HelperSpec HelperProofs PathModel.
From Verif Require Import AnyModel AnySpec AnyProofs FlowModel FlowSpec FlowProofs TypeModel TypeSpec TypeProofs ReqModel ReqSpec ReqProofs.
Import ListNotations.
Local Open Scope Z_scope.
Arguments cast : simpl never.

(** * Kinds never change *)

Lemma grown_kind : forall t t', grown t t' -> ty_kind t' = ty_kind t.
Proof.
  intros [n d] [n' d'] [_ G]. unfold ty_kind. cbn in *. destruct d, d'; try discriminate G; try (now injection G as -> ->);
    try (now injection G as ->); try reflexivity; try (now destruct G as [-> _]); try (now injection G as -> -> -> -> ->); try (now injection G as -> -> ->).
Qed.

Lemma later_kind : forall r r' u t, later r r' -> get_type r u = Some t -> exists t', get_type r' u = Some t' /\ ty_kind t' = ty_kind t.
Proof.
  intros r r' u t [os ->] G. destruct (run_keeps os r u t G) as (t' & G' & D & _). exists t'. split; [assumption|]. now apply grown_kind.
Qed.

Lemma valid_kind : forall t v b, is_valid t v = Ok b -> atype v = ty_kind t.
Proof.
  intros t v b. unfold is_valid. destruct (kind_eqb (ty_kind t) (atype v)) eqn:K; cbn; [|discriminate].
  apply kind_eqb_eq in K. congruence.
Qed.

(** Every value of the request is empty or has the kind of its parameter. *)
Definition kinds_ok (r : reg) (q : request) : Prop :=
  forall i v u, nth_error (rvals q) i = Some (v, u) -> v = any_new KNone \/
  exists t, get_type r u = Some t /\ atype v = ty_kind t.

Lemma step_kinds : forall r q x, later r (call_reg x) ->
  (forall i v u, nth_error (rvals q) i = Some (v, u) -> exists t, get_type r u = Some t) ->
  kinds_ok r q -> kinds_ok r (fst (qstep q x)).
Proof.
  intros r q x L T K. destruct x as [r' j w|r' o w]; cbn in *.
  - destruct (set_param_cases r' q j w) as [(k & old & u' & t & Ej & N & G & V & X)|[[e X]|X]]; rewrite X; cbn; auto.
    intros i v u E. cbn in E. destruct (Nat.eq_dec i k) as [->|D].
    + rewrite (put_nth_same _ _ _ _ _ N) in E. injection E as <- <-. right. destruct (T _ _ _ N) as [t0 G0]. exists t0.
      split; [assumption|]. destruct (later_kind _ _ _ _ L G0) as (t' & G' & Kd). rewrite G in G'. injection G' as <-.
      rewrite <- Kd. eapply valid_kind; eauto.
    + rewrite put_nth_other in E by assumption. eauto.
  - destruct (set_ret_cases r' o q w) as [X|[[e X]|X]]; rewrite X; cbn; auto.
Qed.

Lemma types_frame : forall q q' (P : Z -> Prop), map snd (rvals q') = map snd (rvals q) ->
  (forall i v u, nth_error (rvals q) i = Some (v, u) -> P u) -> forall i v u, nth_error (rvals q') i = Some (v, u) -> P u.
Proof.
  intros q q' P E H i v u N. apply (map_nth_error snd) in N. rewrite E in N. cbn in N.
  destruct (nth_error (rvals q) i) as [[w u']|] eqn:X.
  - pose proof X as X'. apply (map_nth_error snd) in X. cbn in X. rewrite N in X. injection X as ->. eauto.
  - apply nth_error_None in X.
    assert (Y : nth_error (map snd (rvals q)) i = None) by (apply nth_error_None; now rewrite map_length). congruence.
Qed.

Lemma run_kinds : forall r xs q, Forall (fun x => later r (call_reg x)) xs ->
  (forall i v u, nth_error (rvals q) i = Some (v, u) -> exists t, get_type r u = Some t) ->
  kinds_ok r q -> kinds_ok r (fst (qrun q xs)).
Proof.
  intros r. induction xs as [|x xs IH]; intros q L T K; [exact K|]. inversion L as [|? ? L1 L2]; subst.
  cbn. pose proof (step_kinds r q x L1 T K) as K1. destruct (qstep q x) as [q1 a] eqn:E. cbn in K1.
  pose proof (qstep_frame _ _ _ _ E) as [_ F].
  specialize (IH q1 L2). destruct (qrun q1 xs) as [q2 t]. cbn in *. apply IH; [|assumption].
  apply (types_frame q q1); [assumption|]. exact T.
Qed.

(** * Invoke *)

Lemma check_inputs_ok : forall r q ps,
  (forall p, In p ps -> p_dir p <> POut -> exists i v t, get_index q (Some (p_name p)) = i /\ get_param q i = Ok v /\ get_type r (p_type p) = Some t) ->
  (check_inputs r q ps = Ok tt <->
   forall p, In p ps -> p_dir p <> POut -> exists v t, get_param q (get_index q (Some (p_name p))) = Ok v /\ get_type r (p_type p) = Some t /\ atype v = ty_kind t) /\
  (check_inputs r q ps <> Ok tt -> check_inputs r q ps = Throw RInvalidParameterType).
Proof.
  intros r q. induction ps as [|p ps IH]; intros H.
  - cbn. split; [split; [intros _ ? []|reflexivity]|congruence].
  - destruct IH as [I1 I2]; [intros x X; apply H; now right|].
    assert (Y : p_dir p <> POut -> exists v t, get_param q (get_index q (Some (p_name p))) = Ok v /\ get_type r (p_type p) = Some t).
    { intros D. destruct (H p (or_introl eq_refl) D) as (i & v & t & <- & A & B). eauto. }
    assert (Z : p_dir p <> POut ->
      check_inputs r q (p :: ps) = match get_param q (get_index q (Some (p_name p))), get_type r (p_type p) with
        | Ok v, Some t => if kind_eqb (atype v) (ty_kind t) then check_inputs r q ps else Throw RInvalidParameterType
        | _, _ => UB end).
    { intros D. destruct (Y D) as (v & t & A & B). cbn [check_inputs]. rewrite A, B. cbn [bind]. destruct (p_dir p); congruence. }
    destruct (p_dir p) eqn:D.
    2: { cbn [check_inputs]. rewrite D. split; [|exact I2]. rewrite I1. split.
         - intros X x [<-|I] N; [congruence|auto].
         - intros X x I N. apply X; [now right|assumption]. }
    all: rewrite Z by discriminate; destruct Y as (v & t & A & B); [discriminate|]; rewrite A, B;
      (destruct (kind_eqb (atype v) (ty_kind t)) eqn:K;
       [apply kind_eqb_eq in K; split; [|exact I2]; rewrite I1; split;
         [intros X x [<-|I] N; [exists v, t; auto|auto]|intros X x I N; apply X; [now right|assumption]]
       |split; [|auto]; split; [discriminate|]; intros X; exfalso;
        destruct (X p (or_introl eq_refl)) as (v' & t' & A' & B' & K'); [congruence|];
        rewrite A in A'; rewrite B in B'; injection A' as <-; injection B' as <-;
        rewrite K' in K; rewrite (proj2 (kind_eqb_eq _ _) eq_refl) in K; discriminate]).
Qed.

(** * The publication *)

Definition op_names (b : publ) := map o_name (pb_ops b).
Definition prop_names (b : publ) := map pr_name (pb_props b).

Lemma find_op_none : forall n l, find_op n l = None <-> ~ In n (map o_name l).
Proof.
  intros n. induction l as [|p l IH]; cbn; [tauto|]. destruct (list_eqb n (o_name p)) eqn:E.
  - apply leq in E. split; [discriminate|]. intros H. exfalso. apply H. now left.
  - rewrite IH. split; [|tauto]. intros H [X|X]; [|tauto]. subst. rewrite (proj2 (leq _ _) eq_refl) in E. discriminate.
Qed.
Lemma find_op_some : forall n l o, find_op n l = Some o -> In o l /\ o_name o = n.
Proof.
  intros n. induction l as [|q l IH]; cbn; [discriminate|]. intros p. destruct (list_eqb n (o_name q)) eqn:E.
  - apply leq in E. intros [= <-]. auto.
  - intros H. apply IH in H as [? ?]. auto.
Qed.
Lemma find_prop_none : forall n l, find_prop n l = None <-> ~ In n (map pr_name l).
Proof.
  intros n. induction l as [|p l IH]; cbn; [tauto|]. destruct (list_eqb n (pr_name p)) eqn:E.
  - apply leq in E. split; [discriminate|]. intros H. exfalso. apply H. now left.
  - rewrite IH. split; [|tauto]. intros H [X|X]; [|tauto]. subst. rewrite (proj2 (leq _ _) eq_refl) in E. discriminate.
Qed.
Lemma find_prop_some : forall n l o, find_prop n l = Some o -> In o l /\ pr_name o = n.
Proof.
  intros n. induction l as [|q l IH]; cbn; [discriminate|]. intros p. destruct (list_eqb n (pr_name q)) eqn:E.
  - apply leq in E. intros [= <-]. auto.
  - intros H. apply IH in H as [? ?]. auto.
Qed.

Lemma set_op_names : forall n o l, o_name o = n -> map o_name (set_op n o l) = map o_name l.
Proof.
  intros n o l E. induction l as [|x l IH]; cbn; [reflexivity|]. destruct (list_eqb n (o_name x)) eqn:X; cbn.
  - apply leq in X. congruence.
  - now rewrite IH.
Qed.
Lemma set_prop_names : forall n o l, pr_name o = n -> map pr_name (set_prop n o l) = map pr_name l.
Proof.
  intros n o l E. induction l as [|x l IH]; cbn; [reflexivity|]. destruct (list_eqb n (pr_name x)) eqn:X; cbn.
  - apply leq in X. congruence.
  - now rewrite IH.
Qed.
Lemma set_op_in : forall n o l x, In x (set_op n o l) -> x = o \/ In x l.
Proof.
  intros n o. induction l as [|y l IH]; intros x I; cbn in I; [tauto|]. destruct (list_eqb n (o_name y)).
  - destruct I as [<-|I]; [now left|right; now right].
  - destruct I as [<-|I]; [right; now left|]. apply IH in I as [->|I]; [now left|right; now right].
Qed.
Lemma set_op_find : forall n m o l, o_name o = n -> In n (map o_name l) ->
  find_op m (set_op n o l) = if list_eqb m n then Some o else find_op m l.
Proof.
  intros n m o l E. induction l as [|y l IH]; cbn; [intros []|]. intros I. destruct (list_eqb n (o_name y)) eqn:X; cbn.
  - apply leq in X. rewrite E, <- X. now destruct (list_eqb m n).
  - destruct I as [I|I]; [rewrite I, (proj2 (leq _ _) eq_refl) in X; discriminate|].
    rewrite (IH I). destruct (list_eqb m (o_name y)) eqn:Y; [|reflexivity]. apply leq in Y. subst m.
    destruct (list_eqb (o_name y) n) eqn:Q; [|reflexivity]. apply leq in Q. rewrite Q, (proj2 (leq _ _) eq_refl) in X. discriminate.
Qed.

Lemma find_op_app : forall n a b, find_op n (a ++ b) = match find_op n a with Some o => Some o | None => find_op n b end.
Proof. intros n a b. induction a as [|x a IH]; cbn; [reflexivity|]. now destruct (list_eqb n (o_name x)). Qed.

Lemma checked_cases : forall n, (checked n = Ok (to_nul n) /\ valid_name (to_nul n)) \/ (checked n = Throw RInvalidObjectName /\ ~ valid_name (to_nul n)).
Proof. intros n. unfold checked. destruct (check_name_ok _ _ (cstring_to_nul n)) as [[-> V]|[[e ->] V]]; auto. Qed.

Lemma publish_parameter_name : forall r o n u d, o_name (fst (publish_parameter r o n u d)) = o_name o.
Proof.
  intros r o n u d. unfold publish_parameter. destruct (get_type r u); [|reflexivity].
  destruct d; try (destruct (match o_ret o with Some _ => _ | None => _ end); [reflexivity|]; destruct (mk_param _ _ _) as [p|e|]; try reflexivity;
    destruct (find_param _ _); reflexivity).
  destruct (o_ret o); [reflexivity|]. destruct (find_param _ _); [reflexivity|]. destruct (mk_param _ _ _); reflexivity.
Qed.

Lemma orun_name : forall xs o, o_name (orun o xs) = o_name o.
Proof.
  induction xs as [|x xs IH]; intros o; [reflexivity|]. change (orun o (x :: xs)) with (orun (ostep o x) xs). rewrite IH. destruct x; [apply publish_parameter_name|reflexivity].
Qed.

Lemma published_step : forall o x, published o -> published (ostep o x).
Proof. intros o x (n & xs & ->). exists n, (xs ++ [x]). unfold orun. now rewrite fold_left_app. Qed.

(** [b] is a sane publication. *)
Definition binv (b : publ) : Prop :=
  NoDup (op_names b) /\ Forall valid_name (op_names b) /\ NoDup (prop_names b) /\ Forall valid_name (prop_names b) /\
  forall o, In o (pb_ops b) -> published o.

Lemma bstep_inv : forall b x, c_name x -> binv b -> binv (fst (bstep b x)).
Proof.
  intros b x C (A1 & A2 & B1 & B2 & P). destruct x as [n|r op n u d|r n u a|]; cbn in *.
  - unfold publish_operation. destruct (find_op n (pb_ops b)) as [o|] eqn:F.
    + apply find_op_some in F as [I E]. unfold binv, op_names, prop_names. cbn. rewrite set_op_names by exact E.
      repeat (split; [assumption|]). intros x X. apply set_op_in in X as [->|X]; [|auto]. apply (published_step o ORUpdate). auto.
    + destruct (checked_cases n) as [[-> V]|[-> V]]; [|repeat (split; [assumption|]); assumption]. cbn.
      unfold binv, op_names, prop_names. cbn. rewrite map_app. cbn. rewrite (to_nul_id n C) in *.
      apply find_op_none in F. split; [now apply NoDup_snoc|]. split; [apply Forall_app; split; [assumption|constructor; [assumption|constructor]]|].
      repeat (split; [assumption|]). intros o I. apply in_app_or in I as [I|[<-|[]]]; [auto|]. exists n, []. reflexivity.
  - destruct (find_op op (pb_ops b)) as [o|] eqn:F; [|repeat (split; [assumption|]); assumption].
    destruct (publish_parameter r o n u d) as [o' a] eqn:X. cbn. apply find_op_some in F as [I E].
    assert (N : o_name o' = op). { pose proof (publish_parameter_name r o n u d) as Y. rewrite X in Y. cbn in Y. congruence. }
    unfold binv, op_names, prop_names. cbn. rewrite set_op_names by exact N.
    repeat (split; [assumption|]). intros x Q. apply set_op_in in Q as [->|Q]; [|auto].
    replace o' with (ostep o (ORParam r n u d)) by (cbn; now rewrite X). apply published_step. auto.
  - unfold publish_property. destruct (get_type r u); [|repeat (split; [assumption|]); assumption].
    destruct (find_prop n (pb_props b)) as [p|] eqn:F.
    + apply find_prop_some in F as [I E]. unfold binv, op_names, prop_names. cbn. rewrite set_prop_names by exact E.
      repeat (split; [assumption|]). assumption.
    + destruct (checked_cases n) as [[-> V]|[-> V]]; [|repeat (split; [assumption|]); assumption]. cbn.
      unfold binv, op_names, prop_names. cbn. rewrite map_app. cbn. rewrite (to_nul_id n C) in *. apply find_prop_none in F.
      repeat (split; [assumption|]). split; [now apply NoDup_snoc|].
      split; [apply Forall_app; split; [assumption|constructor; [assumption|constructor]]|assumption].
  - repeat split; try constructor. intros o [].
Qed.

Lemma brun_inv : forall xs, Forall c_name xs -> binv (brun xs).
Proof.
  intros xs. unfold brun.
  assert (X : forall xs b, Forall c_name xs -> binv b -> binv (fold_left (fun b x => fst (bstep b x)) xs b)).
  { induction xs0 as [|x l IH]; intros b C I; [exact I|]. inversion C; subst. cbn. apply IH; [assumption|]. now apply bstep_inv. }
  intros C. apply X; [assumption|]. repeat split; try constructor. intros o [].
Qed.

Lemma strip_app : forall p s t, strip p s = Some t -> s = p ++ t.
Proof.
  induction p as [|c p IH]; intros [|d s] t E; cbn in *; try congruence.
  destruct (Z.eqb_spec c d) as [->|]; [|discriminate]. apply IH in E. congruence.
Qed.
Lemma strip_ok : forall p t, strip p (p ++ t) = Some t.
Proof. induction p as [|c p IH]; intros t; cbn; [reflexivity|]. now rewrite Z.eqb_refl. Qed.
