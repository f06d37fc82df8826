(** Proofs about operations, properties and requests. *)
From Coq Require Import ZArith List Bool Lia Floats.SpecFloat.
From Verif Require Import Base UuidModel UuidProofs Assoc HelperModel HelperSpec HelperProofs PathModel PathProofs.
From Verif Require Import AnyModel AnySpec AnyProofs FlowModel FlowSpec FlowProofs TypeModel TypeSpec TypeProofs ReqModel ReqSpec.
Import ListNotations.
Local Open Scope Z_scope.
Arguments cast : simpl never.

(** * Types of a reachable registry *)

Definition std (t : ty) : Prop :=
  match ty_def t with
  | DInt k lo hi => is_int_kind k = true /\ of_type TI64 lo /\ of_type TI64 hi
  | DFloat k _ _ _ _ => is_float_kind k = true
  | DEnum k ls => In k [KI8; KI16; KI32; KI64] /\ forall z n, In (z, n) ls -> of_type TI32 z
  | _ => True
  end.

Lemma mk_std : forall r o t, cpp_args o -> mk r o = Ok t -> std t.
Proof.
  assert (W : forall n d t, with_name n d = Ok t -> std (Ty n d) -> std t).
  { intros n d t E S. destruct (with_name_cases n d) as [[X _]|[X _]]; rewrite X in E; [|discriminate]. injection E as <-. exact S. }
  intros r o t C E. destruct o; cbn in C, E; try discriminate.
  - destruct (is_float_kind k) eqn:K; [|discriminate]. eapply W; [exact E|exact K].
  - destruct (is_int_kind k) eqn:K; [|discriminate]. eapply W; [exact E|]. split; [exact K|exact C].
  - destruct (size_kind size) as [k|] eqn:K; [|discriminate]. eapply W; [exact E|]. split; [|intros ? ? []].
    unfold size_kind in K. repeat match type of K with context [if ?b then _ else _] => destruct b end;
      try discriminate; injection K as <-; cbn; tauto.
  - unfold mk_array in E. destruct (with_name n _) as [x|?|] eqn:X; cbn in E; try discriminate.
    apply W in X; [|exact I]. destruct (get_type r item); [|discriminate]. destruct (_ || _); [discriminate|]. now injection E as <-.
  - eapply W; [exact E|exact I].
  - eapply W; [exact E|exact I].
  - unfold mk_class in E. destruct (with_name n _) as [x|?|] eqn:X; cbn in E; try discriminate.
    apply W in X; [|exact I]. destruct (base =? uVoid); [now injection E as <-|]. destruct (base =? u); [discriminate|].
    destruct (get_type r base) as [y|]; [|discriminate]. destruct (ty_def y); try discriminate. now injection E as <-.
  - eapply W; [exact E|exact I].
Qed.

Lemma step_std : forall r o, cpp_args o ->
  (forall u t, get_type r u = Some t -> std t) -> forall u t, get_type (fst (tstep r o)) u = Some t -> std t.
Proof.
  intros r o L S u t' G. destruct (registers o) as [[v n]|] eqn:R.
  - destruct (step_type r o u t' G) as [(t & Gt & _ & [A|A])|(_ & M & _)].
    + destruct o; discriminate R || contradiction.
    + subst. eauto.
    + eapply mk_std; eauto.
  - destruct o; try discriminate R; cbn in G.
    + unfold add_literal in G. destruct (get_type r u0) as [[m d]|] eqn:E; [|eauto].
      destruct d; eauto. destruct (aget Z.eqb v lits); [eauto|]. cbn in G.
      destruct (Z.eq_dec u u0) as [->|N]; [|rewrite get_upd_other in G by assumption; eauto].
      rewrite (get_upd_same _ _ _ _ E) in G. injection G as <-. cbn.
      destruct (S _ _ E) as [K Q]. split; [exact K|].
      intros z s I. apply in_app_or in I as [I|[I|[]]]; [eapply Q; eauto|injection I as <- <-; exact L].
    + unfold add_field in G. destruct (get_type r u0) as [[m d]|] eqn:E; [|eauto].
      destruct d; eauto; cbn in G; (destruct (Z.eq_dec u u0) as [->|N]; [|rewrite get_upd_other in G by assumption; eauto]);
        rewrite (get_upd_same _ _ _ _ E) in G; injection G as <-; exact I.
Qed.

Lemma run_std : forall os r, Forall cpp_args os ->
  (forall u t, get_type r u = Some t -> std t) -> forall u t, get_type (trun r os) u = Some t -> std t.
Proof.
  induction os as [|o os IH]; intros r L S; [exact S|]. inversion L; subst.
  cbn. apply IH; [assumption|]. now apply step_std.
Qed.

Lemma new_std : forall u t, get_type new_registry u = Some t -> std t.
Proof.
  assert (X : Forall cpp_args reg_ctor).
  { apply Forall_forall. intros o I. vm_compute in I.
    repeat (destruct I as [<-|I]; [exact Logic.I || (vm_compute; repeat split; discriminate)|]). destruct I. }
  intros u t. unfold new_registry. apply run_std; [exact X|]. intros ? ? G. discriminate G.
Qed.

Lemma reg_std : forall os, Forall cpp_args os -> forall u t, get_type (trun new_registry os) u = Some t -> std t.
Proof. intros os L. apply run_std; [assumption|apply new_std]. Qed.

(** * Validity *)

Lemma cmp_cases : forall a b, a <> S754_nan -> b <> S754_nan -> exists c, SFcompare a b = Some c.
Proof. intros a b A B. destruct a as [[]|[]| |[]], b as [[]|[]| |[]]; try congruence; cbn; eauto;
  destruct (_ ?= _); eauto. Qed.

Lemma cmp_flip : forall a b, SFcompare a b = match SFcompare b a with Some c => Some (CompOpp c) | None => None end.
Proof.
  intros a b.
  destruct a as [[]|[]| |[] m e], b as [[]|[]| |[] m' e']; cbn; try reflexivity;
    rewrite (Z.compare_antisym e' e); destruct (e' ?= e); cbn; try reflexivity;
    change (Pos.compare_cont Eq m m') with (Pos.compare m m'); change (Pos.compare_cont Eq m' m) with (Pos.compare m' m);
    rewrite (Pos.compare_antisym m' m); destruct (m' ?= m)%positive; reflexivity.
Qed.

Lemma in_bounds : forall lo hi f li hi_in, lo <> S754_nan -> hi <> S754_nan -> f <> S754_nan ->
  negb ((if li : bool then SFltb f lo else SFleb f lo) || (if hi_in : bool then SFltb hi f else SFleb hi f)) = true <->
  at_least li lo f /\ at_least hi_in f hi.
Proof.
  intros lo hi f li hi_in A B C.
  destruct (cmp_cases lo f A C) as [x X], (cmp_cases f hi C B) as [y Y].
  assert (X' : SFcompare f lo = Some (CompOpp x)) by (rewrite cmp_flip, X; reflexivity).
  assert (Y' : SFcompare hi f = Some (CompOpp y)) by (rewrite cmp_flip, Y; reflexivity).
  unfold SFltb, SFleb, at_least, fl_le, fl_lt. rewrite X, Y, X', Y'.
  destruct li, hi_in, x, y; cbn; intuition discriminate.
Qed.

Lemma is_valid_iff : forall t v, std t -> any_ok v -> ordinary t v -> is_valid t v = Ok true <-> in_type t v.
Proof.
  intros t v S V O. unfold is_valid, in_type. destruct (kind_eqb (ty_kind t) (atype v)) eqn:K; cbn [negb].
  2: { split; [discriminate|]. intros [E _]. rewrite E in K. rewrite (proj2 (kind_eqb_eq _ _) eq_refl) in K. discriminate. }
  apply kind_eqb_eq in K. destruct t as [nm d]. unfold std, ordinary, ty_kind in *. cbn [ty_def] in *. destruct d; try (split; [intros _; split; [congruence|exact I]|reflexivity]).
  - (* enum *)
    destruct S as [Kk L].
    assert (T : exists ty, kind_type (atype v) = Some ty).
    { rewrite <- K. destruct Kk as [<-|[<-|[<-|[<-|[]]]]]; cbn; eauto. }
    destruct T as [ty T]. destruct (any_ok_int v ty V T) as (z & H & B). pose proof H as [_ Az].
    destruct (of_type_dec TI32 z) as [R|R].
    + rewrite (get_int_ok v _ ty TI32 z H T B R). cbn. destruct (aget Z.eqb z lits) as [n|] eqn:G.
      * apply (aget_In Z.eqb zeq) in G. split; [|reflexivity]. intros _. split; [congruence|]. exists z, n. auto.
      * split; [discriminate|]. intros [_ (z' & n & E & I)]. rewrite Az in E. injection E as <-.
        apply (aget_None Z.eqb zeq) in G. exfalso. apply G. apply (in_map fst) in I. exact I.
    + rewrite (get_int_throw v _ ty TI32 z H T B R). cbn. split; [discriminate|]. intros [_ (z' & n & E & I)].
      rewrite Az in E. injection E as <-. exfalso. apply R. eapply L; eauto.
  - (* float *)
    assert (F : exists f, as_f64 v f /\ get_f64 v = Ok f).
    { unfold any_ok in V. unfold as_f64, get_f64. rewrite <- K in *. destruct k; try discriminate S; cbn in V |- *;
        destruct V as [g G]; rewrite G; eauto. }
    destruct F as (f & A & G). rewrite G. cbn. destruct O as (O1 & O2 & O3).
    assert (U : forall f', as_f64 v f' -> f' = f).
    { unfold as_f64 in *. intros f' A'. destruct (atype v); try congruence.
      destruct A as (g & E1 & ->), A' as (g' & E2 & ->). congruence. }
    split.
    + intros [= X]. split; [congruence|]. exists f. split; [assumption|]. apply in_bounds in X; auto.
    + intros [_ (f' & A' & X)]. rewrite (U _ A') in X. f_equal. apply in_bounds; auto.
  - (* int *)
    assert (T : exists ty, kind_type (atype v) = Some ty).
    { destruct S as [S _]. rewrite <- K. destruct k; try discriminate S; cbn; eauto. }
    destruct T as [ty T]. destruct (any_ok_int v ty V T) as (z & H & B). pose proof H as [_ Az].
    destruct (of_type_dec TI64 z) as [R|R].
    + rewrite (get_int_ok v _ ty TI64 z H T B R). cbn. split.
      * intros [= X]. split; [congruence|]. exists z. split; [assumption|].
        destruct (Z.ltb_spec z lo), (Z.ltb_spec hi z); cbn in X; try discriminate. lia.
      * intros [_ (z' & E & X)]. rewrite Az in E. injection E as <-.
        destruct (Z.ltb_spec z lo), (Z.ltb_spec hi z); cbn; try reflexivity; lia.
    + rewrite (get_int_throw v _ ty TI64 z H T B R). cbn. split; [discriminate|]. intros [_ (z' & E & X)].
      rewrite Az in E. injection E as <-. exfalso. apply R. destruct S as (_ & S1 & S2). unfold of_type in *. lia.
  - (* string *)
    unfold any_ok in V. unfold get_str. rewrite <- K in *. cbn in V. destruct V as [s Sx]. rewrite Sx. cbn. split.
    + intros [= X]. split; [congruence|]. exists s. split; [reflexivity|]. intros l ->. rewrite Z.mod_small in X by lia.
      destruct (Z.ltb_spec len (Z.of_nat (length l))); [discriminate|lia].
    + intros [_ (s' & E & X)]. injection E as <-. destruct s as [l|]; [|reflexivity]. specialize (X l eq_refl).
      rewrite Z.mod_small by lia. destruct (Z.ltb_spec len (Z.of_nat (length l))); [lia|reflexivity].
Qed.

(** * Operations *)

Lemma leq : forall a b, list_eqb a b = true <-> a = b.
Proof. exact list_eqb_iff. Qed.

Lemma find_param_none : forall n l, find_param n l = None <-> ~ In n (map p_name l).
Proof.
  intros n. induction l as [|p l IH]; cbn; [tauto|].
  destruct (list_eqb n (p_name p)) eqn:E.
  - apply leq in E. split; [discriminate|]. intros H. exfalso. apply H. now left.
  - rewrite IH. split; [|tauto]. intros H [X|X]; [|tauto]. subst. rewrite (proj2 (leq _ _) eq_refl) in E. discriminate.
Qed.

Lemma find_param_in : forall n l p, find_param n l = Some p -> In p l /\ p_name p = n.
Proof.
  intros n. induction l as [|q l IH]; cbn; [discriminate|]. intros p. destruct (list_eqb n (p_name q)) eqn:E.
  - apply leq in E. intros [= <-]. auto.
  - intros H. apply IH in H as [? ?]. auto.
Qed.

Lemma mk_param_ok : forall n u d p, mk_param n u d = Ok p -> p = Param (to_nul n) u d /\ valid_name (to_nul n).
Proof.
  intros n u d p. unfold mk_param. destruct (check_name_ok _ _ (cstring_to_nul n)) as [[-> V]|[[e ->] V]]; [|discriminate].
  intros [= <-]. auto.
Qed.

Lemma mk_param_cases : forall n u d,
  (mk_param n u d = Ok (Param (to_nul n) u d) /\ valid_name (to_nul n)) \/
  (mk_param n u d = Throw RInvalidObjectName /\ ~ valid_name (to_nul n)).
Proof.
  intros n u d. unfold mk_param. destruct (check_name_ok _ _ (cstring_to_nul n)) as [[-> V]|[[e ->] V]]; auto.
Qed.

Definition well (o : oper) : Prop :=
  NoDup (names o) /\ Forall valid_name (names o).

Lemma step_well : forall o x, well o -> well (ostep o x).
Proof.
  intros o x [N V]. destruct x as [r n u d|]; cbn.
  2: { split; constructor. }
  unfold publish_parameter. destruct (get_type r u); [|split; assumption].
  assert (X : forall d, well (fst (match mk_param n u d with
               | Ok p => match find_param (p_name p) (o_params o) with
                         | Some _ => (o, Throw RDuplicateName)
                         | None => (Oper (o_name o) (o_params o ++ [p]) (o_ret o), Ok tt)
                         end
               | Throw e => (o, Throw e)
               | UB => (o, UB) end))).
  { intros d'. destruct (mk_param_cases n u d') as [[-> W]|[-> W]]; [|split; assumption]. cbn [p_name].
    destruct (find_param (to_nul n) (o_params o)) eqn:F; [split; assumption|]. apply find_param_none in F.
    unfold well, names. cbn. rewrite map_app. cbn. split; [now apply NoDup_snoc|].
    apply Forall_app. split; [assumption|]. constructor; [assumption|constructor]. }
  destruct d; try (destruct (match o_ret o with Some _ => _ | None => _ end); [split; assumption|apply X]).
  destruct (o_ret o); [split; assumption|]. destruct (find_param n (o_params o)); [split; assumption|].
  destruct (mk_param n u PReturn); split; assumption.
Qed.

Lemma published_well : forall o, published o -> well o.
Proof.
  intros o (n & xs & ->).
  assert (X : forall xs o, well o -> well (orun o xs)).
  { induction xs0 as [|x xs' IH]; intros o W; [exact W|]. cbn. apply IH. now apply step_well. }
  apply X. split; constructor.
Qed.

(** * The index of a request *)

Definition simple_type (r : reg) (u : Z) : Prop := exists t, get_type r u = Some t /\ ty_kind t <> KNone.

Lemma is_none_iff : forall k, is_none k = true <-> k = KNone.
Proof. intros k. destruct k; cbn; split; congruence. Qed.

Lemma rq_init_simple : forall n r nm u q, simple_type r u -> rq_init (S n) r nm u q = Ok (add_value nm u q).
Proof.
  intros n r nm u q (t & G & K). cbn. rewrite G.
  destruct (is_none (ty_kind t)) eqn:E; [apply is_none_iff in E; contradiction|reflexivity].
Qed.

Fixpoint number (i : nat) (l : list (list Z)) : list (list Z * Z) :=
  match l with [] => [] | x :: l => (x, Z.of_nat i) :: number (S i) l end.

Lemma number_keys : forall l i, map fst (number i l) = l.
Proof. induction l as [|x l IH]; intros i; cbn; [reflexivity|]. now rewrite IH. Qed.
Lemma number_length : forall l i, length (number i l) = length l.
Proof. induction l as [|x l IH]; intros i; cbn; [reflexivity|]. now rewrite IH. Qed.
Lemma number_snoc : forall l i x, number i (l ++ [x]) = number i l ++ [(x, Z.of_nat (i + length l))].
Proof.
  induction l as [|y l IH]; intros i x; cbn; [now rewrite Nat.add_0_r|]. rewrite IH.
  now replace (i + S (length l))%nat with (S i + length l)%nat by lia.
Qed.

Definition limit := 2 ^ 31.

Lemma rq_params_ok : forall n r ps done q,
  (forall p, In p ps -> simple_type r (p_type p)) ->
  NoDup (map p_name (done ++ ps)) -> Z.of_nat (length (done ++ ps)) < limit ->
  rvals q = map (fun p => (any_new KNone, p_type p)) done -> ridx q = number 0 (map p_name done) ->
  rq_params (S n) r ps q = Ok (Req (map (fun p => (any_new KNone, p_type p)) (done ++ ps)) (number 0 (map p_name (done ++ ps))) (rret q)).
Proof.
  intros n r. induction ps as [|p ps IH]; intros done q S N L V X.
  - rewrite app_nil_r. cbn. destruct q; cbn in *. now subst.
  - cbn [rq_params]. rewrite rq_init_simple by (apply S; now left). cbn [bind].
    replace (done ++ p :: ps) with ((done ++ [p]) ++ ps) in * by (rewrite <- app_assoc; reflexivity).
    assert (F : ~ In (p_name p) (map p_name done)).
    { rewrite !map_app in N. cbn in N. rewrite <- app_assoc in N. apply NoDup_remove_2 in N. intros I. apply N.
      apply in_or_app. now left. }
    rewrite (IH (done ++ [p])); [reflexivity|intros; apply S; now right|assumption..| |].
    + cbn. rewrite V, map_app. reflexivity.
    + unfold add_value. cbn [ridx]. rewrite X. unfold atry.
      replace (aget list_eqb (p_name p) (number 0 (map p_name done))) with (@None Z).
      2: { symmetry. apply (aget_None list_eqb leq). unfold akeys. now rewrite number_keys. }
      rewrite map_app. cbn [map]. rewrite number_snoc, number_length, map_length. do 3 f_equal.
      apply cast_id. rewrite app_length in L. cbn in L. rewrite app_length in L. cbn in L. change limit with 2147483648 in L. unfold of_type. cbn. lia.
Qed.

Lemma rq_new_ok : forall n r o, NoDup (names o) -> (forall p, In p (o_params o) -> simple_type r (p_type p)) ->
  Z.of_nat (length (o_params o)) < limit ->
  rq_new (S n) r o = Ok (Req (map (fun p => (any_new KNone, p_type p)) (o_params o)) (number 0 (names o)) (any_new KNone)).
Proof. intros n r o N S L. unfold rq_new. now rewrite (rq_params_ok n r (o_params o) []) by assumption || reflexivity. Qed.

Lemma rq_params_simple : forall n r ps q q', (forall p, In p ps -> kind_none r (p_type p) = false) ->
  rq_params n r ps q = Ok q' -> forall p, In p ps -> simple_type r (p_type p).
Proof.
  intros n r. induction ps as [|p ps IH]; intros q q' K E x I; [destruct I|]. cbn in E.
  assert (Kp := K p (or_introl eq_refl)).
  destruct (rq_init n r (p_name p) (p_type p) q) as [q1|e|] eqn:R; cbn in E; try discriminate.
  destruct I as [<-|I].
  - destruct n; cbn in R; [discriminate|]. unfold kind_none in Kp. destruct (get_type r (p_type p)) as [t|] eqn:G; [|discriminate].
    exists t. split; [assumption|]. intros Z. apply is_none_iff in Z. congruence.
  - eapply IH; eauto. intros y Y. apply K. now right.
Qed.

Lemma existsb_false : forall A (f : A -> bool) l, existsb f l = false -> forall x, In x l -> f x = false.
Proof.
  intros A f l E x I. destruct (f x) eqn:F; [|reflexivity].
  assert (existsb f l = true) by (apply existsb_exists; eauto). congruence.
Qed.

Lemma created : forall n r o q, published o -> Z.of_nat (length (o_params o)) < limit ->
  create_request n r o = Some (Ok q) ->
  q = Req (map (fun p => (any_new KNone, p_type p)) (o_params o)) (number 0 (names o)) (any_new KNone) /\
  (forall p, In p (o_params o) -> simple_type r (p_type p)).
Proof.
  intros n r o q P L E. apply published_well in P as [N _]. unfold create_request in E.
  destruct (existsb _ _) eqn:X; [discriminate|].
  destruct (match o_ret o with Some _ => _ | None => _ end); [discriminate|]. injection E as E.
  assert (S := rq_params_simple _ _ _ _ _ (existsb_false _ _ _ X) E).
  split; [|assumption]. destruct n as [|n].
  - unfold rq_new in E. unfold names. destruct (o_params o) as [|p ps]; [|discriminate E]. injection E as <-. reflexivity.
  - rewrite rq_new_ok in E by assumption. congruence.
Qed.

(** ** Histories *)

Lemma put_nth_length : forall A (f : A -> A) l k, length (put_nth k f l) = length l.
Proof. intros A f. induction l as [|x l IH]; intros [|k]; cbn; auto. Qed.
Lemma put_nth_same : forall A (f : A -> A) l k x, nth_error l k = Some x -> nth_error (put_nth k f l) k = Some (f x).
Proof. intros A f. induction l as [|y l IH]; intros [|k] x E; cbn in *; try discriminate; [congruence|auto]. Qed.
Lemma put_nth_other : forall A (f : A -> A) l k j, j <> k -> nth_error (put_nth k f l) j = nth_error l j.
Proof. intros A f. induction l as [|y l IH]; intros [|k] [|j] N; cbn; try reflexivity; [congruence|]. apply IH. congruence. Qed.
Lemma put_nth_snd : forall (l : list (any * Z)) k v, map snd (put_nth k (fun e => (v, snd e)) l) = map snd l.
Proof. induction l as [|y l IH]; intros [|k] v; cbn; [reflexivity..|]. now rewrite IH. Qed.

Lemma set_param_cases : forall r q i v,
  (exists k old u t, i = Z.of_nat k /\ nth_error (rvals q) k = Some (old, u) /\ get_type r u = Some t /\ is_valid t v = Ok true /\
     set_param r q i v = (Req (put_nth k (fun e => (v, snd e)) (rvals q)) (ridx q) (rret q), Ok tt)) \/
  (exists e, set_param r q i v = (q, Throw e)) \/ set_param r q i v = (q, UB).
Proof.
  intros r q i v. unfold set_param. destruct (Z.ltb_spec i 0); cbn; [eauto|]. destruct (Z.leb_spec (Z.of_nat (length (rvals q))) i); [eauto|].
  destruct (nth_error (rvals q) (Z.to_nat i)) as [[old u]|] eqn:E; [|eauto].
  destruct (get_type r u) as [t|] eqn:G; [|eauto]. destruct (is_valid t v) as [[]|e|] eqn:V; eauto.
  - left. exists (Z.to_nat i), old, u, t. rewrite Z2Nat.id by lia. auto.
  - destruct (index_known q i); eauto.
Qed.

Lemma set_ret_cases : forall r o q v,
  (set_ret r o q v = (Req (rvals q) (ridx q) v, Ok tt)) \/ (exists e, set_ret r o q v = (q, Throw e)) \/ set_ret r o q v = (q, UB).
Proof.
  intros r o q v. unfold set_ret. destruct (o_ret o) as [p|]; [|eauto]. destruct (get_type r (p_type p)) as [t|]; [|eauto].
  destruct (is_valid t v) as [[]|e|]; eauto.
Qed.

Lemma qstep_failed : forall q x q' a, qstep q x = (q', a) -> a <> Ok tt -> q' = q.
Proof.
  intros q x q' a E N. destruct x; cbn in E.
  - destruct (set_param_cases r q i v) as [(k & old & u & t & _ & _ & _ & _ & X)|[[e X]|X]]; rewrite X in E; congruence.
  - destruct (set_ret_cases r o q v) as [X|[[e X]|X]]; rewrite X in E; congruence.
Qed.

Lemma qstep_frame : forall q x q' a, qstep q x = (q', a) -> ridx q' = ridx q /\ map snd (rvals q') = map snd (rvals q).
Proof.
  intros q x q' a E. destruct x; cbn in E.
  - destruct (set_param_cases r q i v) as [(k & old & u & t & _ & _ & _ & _ & X)|[[e X]|X]]; rewrite X in E; injection E as <- <-; auto.
    cbn. split; [reflexivity|apply put_nth_snd].
  - destruct (set_ret_cases r o q v) as [X|[[e X]|X]]; rewrite X in E; injection E as <- <-; auto.
Qed.

Lemma qrun_frame : forall xs q, ridx (fst (qrun q xs)) = ridx q /\ map snd (rvals (fst (qrun q xs))) = map snd (rvals q).
Proof.
  induction xs as [|x xs IH]; intros q; [auto|]. cbn. destruct (qstep q x) as [q1 a] eqn:E. apply qstep_frame in E as [E1 E2].
  specialize (IH q1). destruct (qrun q1 xs) as [q2 t]. cbn in *. split; [now rewrite <- E1|now rewrite <- E2].
Qed.

Lemma last_cons : forall i x a t v, last_value i t v -> v <> any_new KNone \/ (exists t1 r t2, t = t1 ++ (QSet r i v, Ok tt) :: t2 /\ forall c, In c t2 -> ~ sets i c) ->
  last_value i ((x, a) :: t) v.
Proof.
  intros i x a t v [(t1 & r & t2 & -> & H)|[-> H]] O.
  - left. exists ((x, a) :: t1), r, t2. auto.
  - destruct O as [O|(t1 & r & t2 & -> & H')]; [congruence|]. left. exists ((x, a) :: t1), r, t2. auto.
Qed.

(** The value of a parameter after a history. *)
Lemma qrun_value : forall i xs q v u, nth_error (rvals q) i = Some (v, u) ->
  exists w, nth_error (rvals (fst (qrun q xs))) i = Some (w, u) /\
  ((exists t1 r t2, snd (qrun q xs) = t1 ++ (QSet r (Z.of_nat i) w, Ok tt) :: t2 /\ forall c, In c t2 -> ~ sets (Z.of_nat i) c) \/
   (w = v /\ forall c, In c (snd (qrun q xs)) -> ~ sets (Z.of_nat i) c)).
Proof.
  intros i. induction xs as [|x xs IH]; intros q v u E.
  { exists v. split; [exact E|]. right. split; [reflexivity|intros c []]. }
  cbn. destruct (qstep q x) as [q1 a] eqn:S.
  assert (X : (exists w r, nth_error (rvals q1) i = Some (w, u) /\ x = QSet r (Z.of_nat i) w /\ a = Ok tt) \/
              (nth_error (rvals q1) i = Some (v, u) /\ ~ sets (Z.of_nat i) (x, a))).
  { destruct x as [r j w|r o w]; cbn in S.
    - destruct (set_param_cases r q j w) as [(k & old & u' & t & Ej & N & G & V & X)|[[e X]|X]]; rewrite X in S; injection S as <- <-.
      + cbn [rvals]. destruct (Nat.eq_dec i k) as [->|D].
        * left. exists w, r. rewrite (put_nth_same _ _ _ _ _ E). cbn. subst j. auto.
        * right. rewrite put_nth_other by assumption. split; [assumption|]. intros (r' & v' & Q). injection Q as -> Q ->. lia.
      + right. split; [assumption|]. intros (r' & v' & Q). discriminate Q.
      + right. split; [assumption|]. intros (r' & v' & Q). discriminate Q.
    - right. split; [|intros (r' & v' & Q); discriminate Q].
      destruct (set_ret_cases r o q w) as [X|[[e X]|X]]; rewrite X in S; injection S as <- <-; assumption. }
  destruct X as [(w & r & E1 & -> & ->)|[E1 NS]]; destruct (IH _ _ _ E1) as (w' & E2 & L); destruct (qrun q1 xs) as [q2 t]; cbn in *;
    exists w'; (split; [assumption|]); destruct L as [(t1 & r' & t2 & -> & H)|[-> H]].
  - left. exists ((QSet r (Z.of_nat i) w, Ok tt) :: t1), r', t2. auto.
  - left. exists [], r, t. auto.
  - left. exists ((x, a) :: t1), r', t2. auto.
  - right. split; [reflexivity|]. intros c [<-|I]; auto.
Qed.

Lemma qrun_return : forall xs q,
  ((exists t1 r o t2, snd (qrun q xs) = t1 ++ (QRet r o (rret (fst (qrun q xs))), Ok tt) :: t2 /\ forall c, In c t2 -> ~ returns c) \/
   (rret (fst (qrun q xs)) = rret q /\ forall c, In c (snd (qrun q xs)) -> ~ returns c)).
Proof.
  induction xs as [|x xs IH]; intros q.
  { right. split; [reflexivity|intros c []]. }
  cbn. destruct (qstep q x) as [q1 a] eqn:S.
  assert (X : (exists r o, x = QRet r o (rret q1) /\ a = Ok tt) \/ (rret q1 = rret q /\ ~ returns (x, a))).
  { destruct x as [r j w|r o w]; cbn in S.
    - right. split; [|intros (r' & o' & v' & Q); discriminate Q].
      destruct (set_param_cases r q j w) as [(k & old & u' & t & Ej & N & G & V & X)|[[e X]|X]]; rewrite X in S; injection S as <- <-; reflexivity.
    - destruct (set_ret_cases r o q w) as [X|[[e X]|X]]; rewrite X in S; injection S as <- <-.
      + left. cbn. eauto.
      + right. split; [reflexivity|]. intros (r' & o' & v' & Q). discriminate Q.
      + right. split; [reflexivity|]. intros (r' & o' & v' & Q). discriminate Q. }
  specialize (IH q1). destruct (qrun q1 xs) as [q2 t]; cbn in *.
  destruct IH as [(t1 & r' & o' & t2 & -> & H)|[-> H]].
  - left. exists ((x, a) :: t1), r', o', t2. auto.
  - destruct X as [(r & o & Ex & ->)|[E NS]].
    + left. exists [], r, o, t. rewrite Ex. auto.
    + right. split; [assumption|]. intros c [<-|I]; auto.
Qed.

(** ** The index is a bijection *)

Lemma number_get : forall l i k x, NoDup l -> nth_error l k = Some x -> aget list_eqb x (number i l) = Some (Z.of_nat (i + k)).
Proof.
  intros l i k x N E. apply (aget_In_nodup list_eqb leq).
  { unfold akeys. rewrite number_keys. exact N. }
  clear N. revert i k E. induction l as [|y l IH]; intros i [|k] E; cbn in E; try discriminate.
  - injection E as ->. left. now rewrite Nat.add_0_r.
  - right. replace (i + S k)%nat with (S i + k)%nat by lia. auto.
Qed.

Lemma number_none : forall l i x, ~ In x l -> aget list_eqb x (number i l) = None.
Proof. intros l i x H. apply (aget_None list_eqb leq). unfold akeys. now rewrite number_keys. Qed.
