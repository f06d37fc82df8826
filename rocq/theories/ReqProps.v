(** C43, C44, C68 and C69: requests, marshalling, publication and invocation. *)
From Coq Require Import ZArith List Bool Lia Floats.SpecFloat.
From Verif Require Import Base Text UuidModel UuidProofs Assoc HelperModel HelperSpec HelperProofs PathModel.
From Verif Require Import AnyModel AnySpec AnyProofs FlowModel FlowSpec FlowProofs TypeModel TypeSpec TypeProofs.
From Verif Require Import ReqModel ReqSpec ReqProofs ReqMarshalProofs ReqNestedProofs ReqInvokeProofs.
Import ListNotations.
Local Open Scope Z_scope.
Arguments cast : simpl never.

(** Types and an operation used by the examples: a speed between 0 and 500, a mode, a
    text of at most 4 bytes, a fraction strictly below 1. *)
Definition half : spec_float := S754_finite false 4503599627370496 (-53).
Definition one : spec_float := S754_finite false 4503599627370496 (-52).
Definition ex_types : list top :=
  [ TInt (codes "Speed") 100 0 500 KI32;
    TEnum (codes "Mode") 101 4; TLiteral 101 (codes "OFF") 0; TLiteral 101 (codes "ON") 1;
    TString (codes "Label") 102 4;
    TFloat (codes "Fraction") 103 (S754_zero false) one true false KF64;
    TStruct (codes "Pair") 104;
    TField 104 (SField (codes "a") 100 0 true false false);
    TField 104 (SField (codes "b") 105 4 true false false);
    TArray (codes "Speeds") 105 100 4 2 false ].
Definition ex_r := trun new_registry ex_types.
Definition ex_pubs : list oop :=
  [ ORParam ex_r (codes "speed") 100 PIn; ORParam ex_r (codes "speed") 101 PIn;
    ORParam ex_r (codes "mode") 101 PInOut; ORParam ex_r (codes "text") 102 POut;
    ORParam ex_r (codes "part") 103 PIn; ORParam ex_r (codes "res") 100 PReturn ].
Definition ex_o := orun (Oper (codes "drive") [] None) ex_pubs.
Definition ex_q : request :=
  match create_request 1 ex_r ex_o with Some (Ok q) => q | _ => empty_request end.

Lemma ex_created : create_request 1 ex_r ex_o = Some (Ok ex_q).
Proof. vm_compute. reflexivity. Qed.
Lemma ex_published : published ex_o.
Proof. exists (codes "drive"), ex_pubs. reflexivity. Qed.

(** ** C43 *)

(** The request of an operation exists unless a parameter or the result has no simple type. *)
Theorem C43_request_exists : forall n r o, published o -> Z.of_nat (length (o_params o)) < 2 ^ 31 ->
  (forall p, In p (o_params o) \/ o_ret o = Some p -> get_type r (p_type p) <> None) ->
  ((forall p t, In p (o_params o) \/ o_ret o = Some p -> get_type r (p_type p) = Some t -> ty_kind t <> KNone) /\
   exists q, create_request (S n) r o = Some (Ok q)) \/
  ((exists p t, (In p (o_params o) \/ o_ret o = Some p) /\ get_type r (p_type p) = Some t /\ ty_kind t = KNone) /\
   create_request (S n) r o = None).
Proof.
  intros n r o P L T. unfold create_request.
  destruct (existsb (fun p => kind_none r (p_type p)) (o_params o)) eqn:X.
  { right. split; [|reflexivity]. apply existsb_exists in X as (p & I & K). exists p. unfold kind_none in K.
    destruct (get_type r (p_type p)) as [t|]; [|discriminate]. exists t. apply is_none_iff in K. auto. }
  assert (S1 : forall p, In p (o_params o) -> simple_type r (p_type p)).
  { intros p I. pose proof (existsb_false _ _ _ X p I) as K. cbn in K. unfold kind_none in K. pose proof (T p (or_introl I)) as Tp.
    destruct (get_type r (p_type p)) as [t|] eqn:G; [|congruence]. exists t. split; [assumption|]. intros Z. apply is_none_iff in Z. congruence. }
  assert (Q : exists q, Some (rq_new (S n) r o) = Some (Ok q)).
  { eexists. f_equal. apply rq_new_ok; [apply published_well; assumption|assumption|assumption]. }
  destruct (o_ret o) as [p|] eqn:R; cbn.
  - destruct (kind_none r (p_type p)) eqn:K.
    + right. split; [|reflexivity]. unfold kind_none in K. exists p.
      destruct (get_type r (p_type p)) as [t|]; [|discriminate]. exists t. apply is_none_iff in K. auto.
    + left. split; [|exact Q]. intros p' t [I|I] G.
      * destruct (S1 p' I) as (t' & G' & N). congruence.
      * injection I as <-. unfold kind_none in K. rewrite G in K. intros Z. apply is_none_iff in Z. congruence.
  - left. split; [|exact Q]. intros p' t [I|I] G; [|discriminate]. destruct (S1 p' I) as (t' & G' & N). congruence.
Qed.

Example ex_request_exists :
  length (o_params ex_o) = 4%nat /\ create_request 1 ex_r ex_o = Some (Ok ex_q) /\
  create_request 5 ex_r (orun ex_o [ORParam ex_r (codes "pair") 104 PIn]) = None.
Proof. vm_compute. auto. Qed.

(** GetParameterIndex is a bijection between the names of the parameters and the numbers
    below GetParameterCount, whatever happened to the request since it was created. *)
Theorem C43_index_bijection : forall n r o q xs, published o -> Z.of_nat (length (o_params o)) < 2 ^ 31 ->
  create_request n r o = Some (Ok q) ->
  let q' := fst (qrun q xs) in
  get_count q' = Z.of_nat (length (o_params o)) /\
  get_index q' None = -1 /\
  (forall s, ~ In s (names o) -> get_index q' (Some s) = -1) /\
  (forall s, In s (names o) -> 0 <= get_index q' (Some s) < get_count q') /\
  (forall i, 0 <= i < get_count q' -> exists! s, get_index q' (Some s) = i) /\
  (forall k p, nth_error (o_params o) k = Some p -> get_index q' (Some (p_name p)) = Z.of_nat k).
Proof.
  intros n r o q xs P L C q'. destruct (created n r o q P L C) as [-> _]. pose proof (published_well o P) as [ND _].
  set (q0 := Req _ _ _) in *. destruct (qrun_frame xs q0) as [FI FS]. fold q' in FI, FS.
  assert (Ct : get_count q' = Z.of_nat (length (o_params o))).
  { unfold get_count. assert (X : length (rvals q') = length (o_params o)).
    { rewrite <- (map_length snd), FS. cbn. now rewrite !map_length. }
    rewrite X. apply cast_id. change (2 ^ 31) with 2147483648 in L. unfold of_type. cbn. lia. }
  assert (Nk : forall k p, nth_error (o_params o) k = Some p -> get_index q' (Some (p_name p)) = Z.of_nat k).
  { intros k p E. unfold get_index. rewrite FI. cbn. rewrite (number_get (names o) 0 k (p_name p) ND); [reflexivity|].
    unfold names. now apply map_nth_error. }
  assert (No : forall s, ~ In s (names o) -> get_index q' (Some s) = -1).
  { intros s H. unfold get_index. rewrite FI. cbn. now rewrite number_none. }
  assert (Ys : forall s, In s (names o) -> exists k p, nth_error (o_params o) k = Some p /\ s = p_name p /\ (k < length (o_params o))%nat).
  { intros s I. apply in_map_iff in I as (p & <- & I). apply In_nth_error in I as [k E]. exists k, p. repeat split; auto.
    apply nth_error_Some. congruence. }
  split; [exact Ct|]. split; [reflexivity|]. split; [exact No|]. split; [|split; [|exact Nk]].
  - intros s I. destruct (Ys s I) as (k & p & E & -> & B). rewrite (Nk _ _ E), Ct. lia.
  - intros i B. rewrite Ct in B. destruct (nth_error (o_params o) (Z.to_nat i)) as [p|] eqn:E.
    + exists (p_name p). split; [rewrite (Nk _ _ E); lia|]. intros s S. destruct (in_dec (list_eq_dec Z.eq_dec) s (names o)) as [I|I].
      * destruct (Ys s I) as (k & p' & E' & -> & _). rewrite (Nk _ _ E') in S. subst i. rewrite Nat2Z.id, E' in E. congruence.
      * rewrite (No s I) in S. lia.
    + apply nth_error_None in E. lia.
Qed.

Example ex_index_bijection :
  get_count ex_q = 4 /\ get_index ex_q (Some (codes "mode")) = 1 /\ get_index ex_q (Some (codes "part")) = 3 /\
  get_index ex_q (Some (codes "res")) = -1 /\ get_index ex_q (Some (codes "Speed")) = -1.
Proof. vm_compute. auto. Qed.

Definition param_type (r : reg) (o : oper) (i : Z) (t : ty) : Prop :=
  exists p, 0 <= i /\ nth_error (o_params o) (Z.to_nat i) = Some p /\ get_type r (p_type p) = Some t.

Lemma set_param_at : forall n r o q xs r' i t v, published o -> Z.of_nat (length (o_params o)) < 2 ^ 31 ->
  create_request n r o = Some (Ok q) -> param_type r' o i t ->
  let q' := fst (qrun q xs) in
  exists k, i = Z.of_nat k /\
  set_param r' q' i v = match is_valid t v with
    | Ok true => (Req (put_nth k (fun e => (v, snd e)) (rvals q')) (ridx q') (rret q'), Ok tt)
    | Ok false => (q', Throw RInvalidParameterValue)
    | Throw e => (q', Throw e)
    | UB => (q', UB)
    end.
Proof.
  intros n r o q xs r' i t v P L C (p & I0 & E & G) q'. exists (Z.to_nat i). split; [lia|].
  destruct (C43_index_bijection n r o q xs P L C) as (_ & _ & _ & _ & _ & Nk). fold q' in Nk.
  destruct (created n r o q P L C) as [-> _].
  set (q0 := Req _ _ _) in *. destruct (qrun_frame xs q0) as [FI FS]. fold q' in FI, FS.
  pose proof (published_well o P) as [ND _].
  assert (Ln : length (rvals q') = length (o_params o)).
  { rewrite <- (map_length snd), FS. cbn. now rewrite !map_length. }
  assert (B : (Z.to_nat i < length (o_params o))%nat) by (apply nth_error_Some; congruence).
  assert (N : exists old, nth_error (rvals q') (Z.to_nat i) = Some (old, p_type p)).
  { assert (X : nth_error (map snd (rvals q')) (Z.to_nat i) = Some (p_type p)).
    { rewrite FS. cbn. rewrite map_map. cbn. now apply map_nth_error. }
    destruct (nth_error (rvals q') (Z.to_nat i)) as [[old u]|] eqn:Y.
    - apply (map_nth_error snd) in Y. cbn in Y. rewrite X in Y. injection Y as <-. eauto.
    - apply nth_error_None in Y. lia. }
  destruct N as [old N]. unfold set_param. destruct (Z.ltb_spec i 0); [lia|].
  destruct (Z.leb_spec (Z.of_nat (length (rvals q'))) i); [lia|]. cbn [orb]. rewrite N, G.
  destruct (is_valid t v) as [[]|e|]; try reflexivity.
  replace (index_known q' i) with true; [reflexivity|]. symmetry. unfold index_known. apply existsb_exists.
  exists (p_name p, i). split; [|apply Z.eqb_refl]. rewrite FI. cbn. apply (aget_In list_eqb leq).
  rewrite (number_get (names o) 0 (Z.to_nat i) (p_name p) ND); [cbn; now rewrite Z2Nat.id|].
  unfold names. now apply map_nth_error.
Qed.

(** SetParameterValue takes exactly the values of the type of the parameter; other values
    are refused with an exception.  Missing: values that are NaN, types whose bounds are
    NaN and strings whose declared length is negative, which are all let through. *)
Theorem C43_set_parameter_partial : forall n r o q xs os i t v,
  published o -> Z.of_nat (length (o_params o)) < 2 ^ 31 -> create_request n r o = Some (Ok q) ->
  Forall cpp_args os -> param_type (trun new_registry os) o i t -> any_ok v -> ordinary t v ->
  let q' := fst (qrun q xs) in
  (in_type t v -> exists q'', set_param (trun new_registry os) q' i v = (q'', Ok tt) /\ get_param q'' i = Ok v /\
     forall j, j <> i -> get_param q'' j = get_param q' j) /\
  (~ in_type t v -> exists e, set_param (trun new_registry os) q' i v = (q', Throw e)).
Proof.
  intros n r o q xs os i t v P L C A T V O q'. pose proof T as (p & _ & _ & G). pose proof (reg_std os A _ _ G) as S.
  pose proof (is_valid_iff t v S V O) as X.
  destruct (set_param_at n r o q xs _ i t v P L C T) as (k & -> & E). fold q' in E. split.
  - intros I. apply X in I. rewrite I in E. eexists. split; [exact E|].
    assert (B : exists old u, nth_error (rvals q') k = Some (old, u)).
    { destruct (set_param_cases (trun new_registry os) q' (Z.of_nat k) v) as [(k' & old & u & t' & Q & N & _)|[[e Q]|Q]]; try congruence.
      apply Nat2Z.inj in Q. subst k'. eauto. }
    destruct B as (old & u & N). split.
    + apply (get_param_nth _ _ _ u). cbn. now rewrite (put_nth_same _ _ _ _ _ N).
    + intros j J. unfold get_param. cbn. rewrite put_nth_length. destruct (Z.ltb_spec j 0); cbn; [reflexivity|].
      destruct (Z.leb_spec (Z.of_nat (length (rvals q'))) j); [reflexivity|]. rewrite put_nth_other; [reflexivity|lia].
  - intros I. destruct (is_valid t v) as [[]|e|] eqn:W.
    + exfalso. apply I. now apply X.
    + eauto.
    + eauto.
    + exfalso. clear -W S V. unfold is_valid in W. destruct (negb _) eqn:K; [discriminate|]. apply negb_false_iff, kind_eqb_eq in K.
      destruct t as [nm d]. unfold std, ty_kind in *. cbn in *. destruct d; try discriminate W.
      * destruct S as [Kk _].
        assert (T : exists ty, kind_type (atype v) = Some ty).
        { rewrite <- K. destruct Kk as [<-|[<-|[<-|[<-|[]]]]]; cbn; eauto. }
        destruct T as [ty T]. destruct (any_ok_int v ty V T) as (z & H & B).
        destruct (of_type_dec TI32 z) as [R|R]; [rewrite (get_int_ok v _ ty TI32 z H T B R) in W|rewrite (get_int_throw v _ ty TI32 z H T B R) in W]; discriminate W.
      * unfold any_ok in V. unfold get_f64 in W. rewrite <- K in *. destruct k; try discriminate S; cbn in V, W;
          destruct V as [g Ev]; rewrite Ev in W; discriminate W.
      * assert (T : exists ty, kind_type (atype v) = Some ty).
        { destruct S as [S _]. rewrite <- K. destruct k; try discriminate S; cbn; eauto. }
        destruct T as [ty T]. destruct (any_ok_int v ty V T) as (z & H & B).
        destruct (of_type_dec TI64 z) as [R|R]; [rewrite (get_int_ok v _ ty TI64 z H T B R) in W|rewrite (get_int_throw v _ ty TI64 z H T B R) in W]; discriminate W.
      * unfold any_ok in V. unfold get_str in W. rewrite <- K in *. cbn in V. destruct V as [s Sx]. rewrite Sx in W. discriminate W.
Qed.

(** Values of every kind, accepted and refused. *)
Definition set_at (i : Z) (v : any) : res rexn unit := snd (set_param ex_r ex_q i v).
Example ex_set_parameter :
  Forall cpp_args ex_types /\
  set_at 0 (Any KI32 (PInt 500)) = Ok tt /\ set_at 0 (Any KI32 (PInt 501)) = Throw RInvalidParameterValue /\
  set_at 0 (Any KI64 (PInt 5)) = Throw RInvalidAnyType /\
  set_at 1 (Any KI32 (PInt 1)) = Ok tt /\ set_at 1 (Any KI32 (PInt 2)) = Throw RInvalidParameterValue /\
  set_at 2 (Any KString8 (PStr (Some [1; 2; 3; 4]))) = Ok tt /\
  set_at 2 (Any KString8 (PStr (Some [1; 2; 3; 4; 5]))) = Throw RInvalidParameterValue /\
  set_at 3 (Any KF64 (PFloat half)) = Ok tt /\ set_at 3 (Any KF64 (PFloat one)) = Throw RInvalidParameterValue /\
  set_at 3 (Any KF64 (PFloat (S754_zero false))) = Ok tt /\
  set_at 4 (Any KI32 (PInt 1)) = Throw RInvalidParameterIndex /\ set_at (-1) (Any KI32 (PInt 1)) = Throw RInvalidParameterIndex.
Proof. split; [repeat (constructor; [vm_compute; repeat split; discriminate || exact I|]); constructor|]. vm_compute. repeat split. Qed.

Example ex_set_parameter_meets :
  (exists t, param_type ex_r ex_o 3 t /\ ordinary t (Any KF64 (PFloat half)) /\ in_type t (Any KF64 (PFloat half)) /\ ~ in_type t (Any KF64 (PFloat one))).
Proof.
  eexists. split; [eexists; split; [lia|]; split; vm_compute; reflexivity|]. split; [|split].
  - split; [discriminate|]. split; [discriminate|]. intros f H. injection H as <-. discriminate.
  - split; [reflexivity|]. exists half. split; [reflexivity|]. vm_compute. auto.
  - intros [_ (f & E & _ & H)]. injection E as <-. vm_compute in H. discriminate.
Qed.

(** NaN passes every range check, and a negative length lets every string through. *)
Theorem C43_set_parameter_refuted :
  (exists t v q, param_type ex_r ex_o 3 t /\ ~ in_type t v /\ set_param ex_r ex_q 3 v = (q, Ok tt)) /\
  (exists os, Forall cpp_args os /\ exists t v, get_type (trun new_registry os) 120 = Some t /\ any_ok v /\ ~ in_type t v /\ is_valid t v = Ok true).
Proof.
  split.
  - eexists _, (Any KF64 (PFloat S754_nan)), _. split; [eexists; split; [lia|]; split; vm_compute; reflexivity|]. split; [|vm_compute; reflexivity].
    intros [_ (f & E & H & _)]. injection E as <-. vm_compute in H. destruct H; discriminate.
  - exists [TString (codes "Odd") 120 (-1)]. split; [repeat constructor|].
    exists (Ty (codes "Odd") (DString (-1))), (Any KString8 (PStr (Some [65]))). split; [vm_compute; reflexivity|]. split; [cbn; eauto|]. split; [|vm_compute; reflexivity].
    intros [_ (s & E & H)]. injection E as <-. specialize (H _ eq_refl). cbn in H. lia.
Qed.

(** A call that is not accepted changes nothing, on whatever request. *)
Theorem C43_rejected_changes_nothing : forall q x q' a, qstep q x = (q', a) -> a <> Ok tt -> q' = q.
Proof. exact qstep_failed. Qed.

Example ex_rejected : qstep ex_q (QSet ex_r 0 (Any KI32 (PInt 501))) = (ex_q, Throw RInvalidParameterValue).
Proof. vm_compute. reflexivity. Qed.

(** GetParameterValue gives the last accepted value, or an empty value when there is none;
    GetReturnValue likewise. *)
Theorem C43_last_accepted_value : forall n r o q xs, published o -> Z.of_nat (length (o_params o)) < 2 ^ 31 ->
  create_request n r o = Some (Ok q) ->
  (forall i, 0 <= i < get_count q -> exists v, get_param (fst (qrun q xs)) i = Ok v /\ last_value i (snd (qrun q xs)) v) /\
  (forall i, ~ 0 <= i < get_count q -> get_param (fst (qrun q xs)) i = Throw RInvalidParameterIndex) /\
  (o_ret o <> None -> exists v, get_ret o (fst (qrun q xs)) = Ok v /\ last_return (snd (qrun q xs)) v) /\
  (o_ret o = None -> get_ret o (fst (qrun q xs)) = Throw RVoidOperation).
Proof.
  intros n r o q xs P L C. pose proof (C43_index_bijection n r o q [] P L C) as (Ct & _). cbn in Ct.
  destruct (created n r o q P L C) as [E _]. rewrite Ct.
  assert (Ln : length (rvals (fst (qrun q xs))) = length (o_params o)).
  { rewrite <- (map_length snd), (proj2 (qrun_frame xs q)). subst q. cbn. now rewrite !map_length. }
  split; [|split; [|split]].
  - intros i B. assert (X : exists u, nth_error (rvals q) (Z.to_nat i) = Some (any_new KNone, u)).
    { subst q. cbn. destruct (nth_error (o_params o) (Z.to_nat i)) as [p|] eqn:N; [|apply nth_error_None in N; lia].
      exists (p_type p). now apply (map_nth_error (fun p => (any_new KNone, p_type p))) in N. }
    destruct X as [u X]. destruct (qrun_value (Z.to_nat i) xs q _ _ X) as (w & N & H). rewrite Z2Nat.id in H by lia.
    exists w. split; [|destruct H as [H|H]; [now left|now right]].
    replace i with (Z.of_nat (Z.to_nat i)) by lia. eapply get_param_nth; eauto.
  - intros i B. unfold get_param. rewrite Ln. destruct (Z.ltb_spec i 0); [reflexivity|].
    destruct (Z.leb_spec (Z.of_nat (length (o_params o))) i); [reflexivity|lia].
  - intros R. unfold get_ret. destruct (o_ret o); [|congruence]. eexists. split; [reflexivity|].
    destruct (qrun_return xs q) as [H|[H1 H2]]; [now left|]. right. split; [|assumption]. rewrite H1. now subst q.
  - intros R. unfold get_ret. now rewrite R.
Qed.

Example ex_last_accepted_value :
  let xs := [QSet ex_r 0 (Any KI32 (PInt 7)); QSet ex_r 1 (Any KI32 (PInt 1)); QSet ex_r 0 (Any KI32 (PInt 900));
             QRet ex_r ex_o (Any KI32 (PInt 3)); QRet ex_r ex_o (Any KBool (PBool true))] in
  let q := fst (qrun ex_q xs) in
  get_param q 0 = Ok (Any KI32 (PInt 7)) /\ get_param q 1 = Ok (Any KI32 (PInt 1)) /\ get_param q 2 = Ok (any_new KNone) /\
  get_ret ex_o q = Ok (Any KI32 (PInt 3)).
Proof. vm_compute. auto. Qed.

(** The requests of properties: a setter takes exactly the values of the type at index 0
    and keeps the last one, a getter does so with its return value. *)
Theorem C43_property_requests_partial : forall os p t v w, Forall cpp_args os ->
  get_type (trun new_registry os) (pr_type p) = Some t -> any_ok v -> ordinary t v ->
  let r := trun new_registry os in
  (in_type t v -> preq_set r (Setter p w) 0 v = (Setter p v, Ok tt) /\ preq_get (Setter p v) 0 = Ok v /\
                  preq_set_ret r (Getter p w) v = (Getter p v, Ok tt) /\ preq_ret (Getter p v) = Ok v) /\
  (~ in_type t v -> (forall a, preq_set r (Setter p w) 0 v <> (a, Ok tt)) /\ fst (preq_set r (Setter p w) 0 v) = Setter p w /\
                  (forall a, preq_set_ret r (Getter p w) v <> (a, Ok tt)) /\ fst (preq_set_ret r (Getter p w) v) = Getter p w) /\
  (forall i, i <> 0 -> preq_set r (Setter p w) i v = (Setter p w, Throw RInvalidParameterIndex) /\ preq_get (Setter p w) i = Throw RInvalidParameterIndex) /\
  (forall i, preq_set r (Getter p w) i v = (Getter p w, Throw RInvalidParameterIndex) /\ preq_get (Getter p w) i = Throw RInvalidParameterIndex) /\
  preq_set_ret r (Setter p w) v = (Setter p w, Throw RVoidOperation) /\ preq_ret (Setter p w) = Throw RVoidOperation.
Proof.
  intros os p t v w A G V O r. pose proof (is_valid_iff t v (reg_std os A _ _ G) V O) as X. fold r in G.
  unfold preq_set, preq_set_ret, check_value. rewrite G. cbn [Z.eqb]. split; [|split; [|split; [|split; [|split]]]].
  - intros I. apply X in I. rewrite I. auto.
  - intros I. destruct (is_valid t v) as [[]|e|]; [exfalso; apply I; now apply X|..]; cbn;
      (split; [intros a Q; discriminate Q|]; split; [reflexivity|]; split; [intros a Q; discriminate Q|reflexivity]).
  - intros i N. unfold preq_get. destruct (Z.eqb_spec i 0); [contradiction|]. auto.
  - intros i. auto.
  - reflexivity.
  - reflexivity.
Qed.

(** SetReturnValue takes exactly the values of the return type, which GetReturnValue then
    gives; the parameters are not touched, and a refused value leaves the one held.
    Missing: the values and types [ordinary] leaves out, as for the parameters. *)
Theorem C43_set_return_partial : forall os o q p t v, Forall cpp_args os ->
  let r := trun new_registry os in
  o_ret o = Some p -> get_type r (p_type p) = Some t -> any_ok v -> ordinary t v ->
  (in_type t v -> exists q', set_ret r o q v = (q', Ok tt) /\ get_ret o q' = Ok v /\
     (forall i, get_param q' i = get_param q i) /\ (forall s, get_index q' s = get_index q s) /\ get_count q' = get_count q) /\
  (~ in_type t v -> fst (set_ret r o q v) = q /\ snd (set_ret r o q v) <> Ok tt).
Proof.
  intros os o q p t v A r R G V O. pose proof (is_valid_iff t v (reg_std os A _ _ G) V O) as X. fold r in G.
  unfold set_ret. rewrite R, G. split.
  - intros I. apply X in I. rewrite I. eexists. split; [reflexivity|]. unfold get_ret. rewrite R. repeat split.
  - intros I. destruct (is_valid t v) as [[]|e|]; [exfalso; apply I; now apply X|..]; split; (reflexivity || discriminate).
Qed.

(** An operation without return parameter has no return value. *)
Theorem C43_void_return : forall r o q v, o_ret o = None ->
  set_ret r o q v = (q, Throw RVoidOperation) /\ get_ret o q = Throw RVoidOperation.
Proof. intros r o q v R. unfold set_ret, get_ret. now rewrite R. Qed.

Example ex_set_return :
  let v := Any KI32 (PInt 8) in
  snd (set_ret ex_r ex_o ex_q v) = Ok tt /\ get_ret ex_o (fst (set_ret ex_r ex_o ex_q v)) = Ok v /\
  set_ret ex_r ex_o ex_q (Any KI32 (PInt 501)) = (ex_q, Throw RInvalidReturnValue) /\
  set_ret ex_r (Oper (codes "drive") [] None) ex_q v = (ex_q, Throw RVoidOperation).
Proof. vm_compute. auto. Qed.

Example ex_property_requests :
  let p := MkProp (codes "speed") 100 AReadWrite in
  preq_set ex_r (Setter p (any_new KNone)) 0 (Any KI32 (PInt 8)) = (Setter p (Any KI32 (PInt 8)), Ok tt) /\
  preq_set ex_r (Setter p (any_new KNone)) 0 (Any KI32 (PInt 800)) = (Setter p (any_new KNone), Throw RInvalidParameterValue).
Proof. vm_compute. auto. Qed.

(** The setter of a property answers index 0 for every name, so that its index is not a
    bijection. *)
Theorem C43_setter_index_refuted : forall p v, preq_count (Setter p v) = 1 /\
  preq_index (Setter p v) (Some (codes "speed")) = 0 /\ preq_index (Setter p v) (Some (codes "sped")) = 0 /\ preq_index (Setter p v) None = 0.
Proof. intros p v. repeat split. Qed.

(** The request of a getter has no parameters. *)
Theorem C43_getter_index : forall p v, preq_count (Getter p v) = 0 /\ forall s, preq_index (Getter p v) s = -1.
Proof. intros p v. repeat split. Qed.

(** ** C44 *)

(** A simple argument written into a request and read back is the same argument, and no
    other parameter changes. *)
Theorem C44_simple_round_trip : forall r q s c k v, takes_value r q s k v -> kind_of c k -> value_of c v -> distinct q ->
  exists q', rq_set r q s c k v = (q', Ok tt) /\ rq_get q' s c k = Ok v /\
  (forall d, k <> KNone -> rq_get_default q' s c k d = Ok v) /\
  (forall s' i, s' <> s -> get_index q (Some s') = i -> get_index q' (Some s') = i /\ (i <> -1 -> get_param q' i = get_param q i)).
Proof.
  intros r q s c k v T K V D. destruct (put_field_ok r c k s v q T K V) as (i & u & q' & I & E & F & N & O). exists q'.
  assert (S : rq_set r q s c k v = (q', Ok tt)).
  { unfold rq_set, put_value. rewrite (to_any_ok c k v K V). cbn [of_any]. unfold put_field in E. rewrite (to_any_ok c k v K V) in E. exact E. }
  assert (Tk : forall b, take_value q' s k b = Ok (Any k v)).
  { intros b. unfold take_value. rewrite (frame_index _ _ _ F), I. destruct (Z.eqb_spec (Z.of_nat i) (-1)); [lia|].
    rewrite (get_param_nth _ _ _ _ N). cbn. now rewrite (proj2 (kind_eqb_eq k k) eq_refl). }
  split; [exact S|]. split; [|split].
  - unfold rq_get. rewrite Tk. cbn [bind]. now rewrite (from_any_ok c k v K V).
  - intros d NK. unfold rq_get_default. rewrite Tk. cbn [bind atype]. destruct (is_none k) eqn:Z; [apply is_none_iff in Z; contradiction|].
    now rewrite (from_any_ok c k v K V).
  - intros s' j NS J. split; [now rewrite (frame_index _ _ _ F)|]. intros Nj. unfold get_param.
    assert (Ln : length (rvals q') = length (rvals q)). { destruct F as (_ & F & _). rewrite <- (map_length snd), F. apply map_length. }
    rewrite Ln. destruct (Z.ltb_spec j 0); cbn; [reflexivity|]. destruct (Z.leb_spec (Z.of_nat (length (rvals q))) j); [reflexivity|].
    rewrite O; [reflexivity|]. intros X. apply NS. apply D; [|congruence]. rewrite J, I. lia.
Qed.

Example ex_simple_round_trip :
  takes_value ex_r ex_q (codes "speed") KI32 (PInt 7) /\
  (let q := fst (rq_set ex_r ex_q (codes "speed") (CInt TI32) KI32 (PInt 7)) in
   rq_get q (codes "speed") (CInt TI32) KI32 = Ok (PInt 7) /\
   rq_get_default q (codes "sped") (CInt TI32) KI32 (PInt 9) = Ok (PInt 9) /\
   rq_get q (codes "sped") (CInt TI32) KI32 = Throw RNoParameter /\
   rq_get q (codes "mode") (CInt TI32) KI32 = Throw RInvalidParameterType).
Proof. split; [exists O, (any_new KNone), 100, (Ty (codes "Speed") (DInt KI32 0 500)); vm_compute; auto|]. vm_compute. auto. Qed.

(** A parameter the request does not have is neither read nor written: reading it gives
    the default where there is one and is refused otherwise. *)
Theorem C44_missing_parameter : forall r q s c k v d, get_index q (Some s) = -1 ->
  rq_get q s c k = Throw RNoParameter /\ rq_get_default q s c k d = Ok d /\
  fst (rq_set r q s c k v) = q /\ snd (rq_set r q s c k v) <> Ok tt /\
  (forall a, to_any c k v = Ok a -> snd (rq_set r q s c k v) = Throw RNoParameter).
Proof.
  intros r q s c k v d H. unfold rq_get, rq_get_default, rq_set, take_value, put_value. rewrite H. cbn.
  split; [reflexivity|]. split; [reflexivity|]. destruct (to_any c k v) as [a|e|]; cbn.
  - repeat split; discriminate.
  - repeat split; discriminate.
  - repeat split; discriminate.
Qed.

(** A value of another kind than the one asked for is refused, with or without default. *)
Theorem C44_other_kind : forall q s c k d i w, get_index q (Some s) = i -> 0 <= i -> get_param q i = Ok w -> atype w <> k ->
  rq_get q s c k = Throw RInvalidParameterType /\ rq_get_default q s c k d = Throw RInvalidParameterType.
Proof.
  intros q s c k d i w H P G N. unfold rq_get, rq_get_default, take_value. rewrite H.
  destruct (Z.eqb_spec i (-1)); [lia|]. rewrite G. cbn [bind].
  destruct (kind_eqb (atype w) k) eqn:K; [apply kind_eqb_eq in K; contradiction|]. auto.
Qed.

(** The requests of operations tell different names apart. *)
Theorem C44_created_distinct : forall n r o q xs, published o -> Z.of_nat (length (o_params o)) < 2 ^ 31 ->
  create_request n r o = Some (Ok q) -> distinct (fst (qrun q xs)).
Proof.
  intros n r o q xs P L C a b E N. destruct (C43_index_bijection n r o q xs P L C) as (Ct & _ & No & Ys & Bj & _).
  destruct (in_dec (list_eq_dec Z.eq_dec) a (names o)) as [I|I]; [|rewrite (No a I) in N; congruence].
  destruct (Bj _ (Ys a I)) as (s & _ & U). rewrite <- (U a eq_refl). apply U. now symmetry.
Qed.

Example ex_created_distinct : get_index ex_q (Some (codes "speed")) = 0 /\ get_index ex_q (Some (codes "mode")) = 1.
Proof. vm_compute. auto. Qed.

(** A nested argument written into a request that has a parameter for each of its simple
    values is read back unchanged, into a field of the same type whatever its value; the
    parameters of other names keep their values. *)
Theorem C44_nested_round_trip : forall r q f g nm ign, named f -> proper f -> distinct q ->
  (forall s c k v, carries f nm s c k v -> takes_value r q s k v) -> same_fields g f ->
  exists q', inject r f nm q = (q', Ok tt) /\ extract ign g nm q' = Ok f /\
  (forall s i, (forall c k v, ~ carries f nm s c k v) -> get_index q (Some s) = i -> i <> -1 ->
     get_index q' (Some s) = i /\ get_param q' i = get_param q i).
Proof.
  intros r q f g nm ign N P D T S. rewrite inject_puts. destruct (puts_ok r (leaves f nm) q) as (q' & E & F & O & V).
  - intros s c k v I. apply leaves_carries in I. split; [eauto|]. eapply P; eauto.
  - exact D.
  - intros s [[c k] v] [[c' k'] v'] X Y. apply leaves_carries in X, Y. destruct (carries_once _ _ _ _ _ _ N X _ _ _ Y) as (-> & -> & ->). reflexivity.
  - exists q'. split; [exact E|]. split.
    + apply extract_ok; [exact S|]. intros s c k v C. destruct (P _ _ _ _ _ C) as [K W]. split; [|auto].
      apply leaves_carries in C. destruct (V _ _ _ _ C) as (i & u & I & X). exists i, u. now rewrite (frame_index _ _ _ F).
    + intros s i NC I NI. split; [now rewrite (frame_index _ _ _ F)|]. unfold get_param.
      assert (Ln : length (rvals q') = length (rvals q)). { destruct F as (_ & F & _). rewrite <- (map_length snd), F. apply map_length. }
      rewrite Ln. destruct (Z.ltb_spec i 0); cbn; [reflexivity|]. destruct (Z.leb_spec (Z.of_nat (length (rvals q))) i); [reflexivity|].
      rewrite O; [reflexivity|]. intros (s' & [[c k] v] & X & Y). apply leaves_carries in X.
      assert (s = s') as ->. { apply D; [|congruence]. rewrite I, Y. lia. } exact (NC _ _ _ X).
Qed.

(** Reading an argument from any request gives what [read] says, whether or not the request
    has all its parameters and whatever their kinds; otherwise it raises an exception. *)
Theorem C44_read : forall ign q nm g f, extract ign g nm q = Ok f <-> read ign q nm g f.
Proof. intros. apply extract_read. Qed.

(** A structure with an array in it, and a request with the parameters for it. *)
Definition ex_f : fld := FStr [(codes "a", FSim (CInt TI32) KI32 (PInt 11)); (codes "b", FSArr (CInt TI32) KI32 [PInt 12; PInt 13])].
Definition ex_g : fld := FStr [(codes "a", FSim (CInt TI32) KI32 (PInt 0)); (codes "b", FSArr (CInt TI32) KI32 [PInt 0; PInt 0])].
Definition ex_nq : request :=
  match rq_new 9 ex_r (Oper (codes "op") [Param (codes "x") 100 PIn; Param (codes "pair") 104 PIn] None) with Ok q => q | _ => empty_request end.
(** The value 11, of another kind than the simple field, is converted; the parameters of [b]
    have none yet. *)
Example ex_read :
  let q := fst (put_field ex_r (CInt TI32) KI32 (codes "pair.a") (PInt 11) ex_nq) in
  get_index q (Some (codes "pair.a")) = 1 /\
  read true q (codes "pair") (FStr [(codes "a", FSim (CInt TI64) KI64 (PInt 0)); (codes "c", FSim (CInt TI32) KI32 (PInt 5))])
    (FStr [(codes "a", FSim (CInt TI64) KI64 (PInt 11)); (codes "c", FSim (CInt TI32) KI32 (PInt 5))]) /\
  extract true (FSArr (CInt TI32) KI32 [PInt 7; PInt 8]) (codes "pair.b") q = Throw RInvalidFieldValue.
Proof.
  cbv zeta. split; [vm_compute; reflexivity|]. split; [|vm_compute; reflexivity].
  apply C44_read. vm_compute. reflexivity.
Qed.

Example ex_nested_round_trip :
  get_count ex_nq = 4 /\ get_index ex_nq (Some (codes "pair.b[1]")) = 3 /\
  named ex_f /\ same_fields ex_g ex_f /\
  (forall s c k v, carries ex_f (codes "pair") s c k v -> takes_value ex_r ex_nq s k v) /\
  (let q := fst (inject ex_r ex_f (codes "pair") ex_nq) in
   extract false ex_g (codes "pair") q = Ok ex_f /\ get_param q 0 = Ok (any_new KNone) /\
   extract false ex_g (codes "par") q = Throw RNoParameter /\ extract true ex_g (codes "par") q = Ok ex_g).
Proof.
  split; [vm_compute; reflexivity|]. split; [vm_compute; reflexivity|]. split; [|split; [|split]].
  - constructor.
    + vm_compute. constructor; [intros [X|[]]; discriminate X|]. constructor; [intros []|constructor].
    + intros n x [E|[E|[]]]; injection E as <- <-; (split; [apply vn_ident; [right; vm_compute; split; discriminate|constructor]|]).
      * apply nm_simple.
      * apply nm_sarray.
  - constructor. repeat constructor.
  - intros s c k v C. apply leaves_carries in C. vm_compute in C.
    destruct C as [C|[C|[C|[]]]]; injection C as <- <- <- <-; [exists 1%nat|exists 2%nat|exists 3%nat];
      exists (any_new KNone), 100, (Ty (codes "Speed") (DInt KI32 0 500)); vm_compute; auto.
  - vm_compute. auto.
Qed.

(** The request made for the parameters of an operation has one parameter for each simple
    part of the operation's parameters, in order, with its full name and type. *)
Theorem C44_nested_parameters : forall n r o q, rq_new n r o = Ok q ->
  exists ls, Forall2 (fun p l => parts r (p_name p) (p_type p) l) (o_params o) ls /\
  let l := concat ls in
  map snd (rvals q) = map snd l /\ Forall (fun e => fst e = any_new KNone) (rvals q) /\
  (NoDup (map fst l) -> Z.of_nat (length l) < 2 ^ 31 ->
   get_count q = Z.of_nat (length l) /\
   (forall k s u, nth_error l k = Some (s, u) -> get_index q (Some s) = Z.of_nat k) /\
   (forall s, ~ In s (map fst l) -> get_index q (Some s) = -1)).
Proof.
  intros n r o q E. unfold rq_new in E. apply params_parts in E as (ls & A & ->). exists ls. split; [exact A|].
  cbv zeta. generalize (concat ls). intros l. rewrite add_all_vals. cbn [rvals empty_request app]. rewrite map_map. cbn [snd].
  split; [reflexivity|]. split; [rewrite Forall_map; apply Forall_forall; reflexivity|].
  intros N L. change (2 ^ 31) with limit in L.
  assert (X : ridx (add_all l empty_request) = number 0 (map fst l)).
  { apply (add_all_idx l []); [reflexivity|exact N|]. cbn. now rewrite map_length. }
  split; [|split].
  - unfold get_count. rewrite add_all_vals. cbn [rvals empty_request app]. rewrite map_length. apply cast_id.
    change limit with 2147483648 in L. unfold of_type. cbn. lia.
  - intros k s u K. unfold get_index. rewrite X.
    rewrite (number_get (map fst l) 0 k s N); [reflexivity|]. now rewrite nth_error_map, K.
  - intros s S. unfold get_index. rewrite X. now rewrite number_none.
Qed.

Example ex_nested_parameters :
  (let o := Oper (codes "op") [Param (codes "x") 100 PIn; Param (codes "pair") 104 PIn] None in
   rq_new 9 ex_r o = Ok ex_nq) /\
  map fst (ridx ex_nq) = [codes "x"; codes "pair.a"; codes "pair.b[0]"; codes "pair.b[1]"].
Proof. vm_compute. auto. Qed.

(** ** C68 *)

(** A published operation or property has a name of its own. *)
Theorem C68_one_per_name : forall xs, Forall c_name xs ->
  NoDup (map o_name (pb_ops (brun xs))) /\ Forall valid_name (map o_name (pb_ops (brun xs))) /\
  NoDup (map pr_name (pb_props (brun xs))) /\ Forall valid_name (map pr_name (pb_props (brun xs))) /\
  forall o, In o (pb_ops (brun xs)) -> published o.
Proof. intros xs C. exact (brun_inv xs C). Qed.

(** Publishing a name again empties the operation in its place, a new valid name is added
    at the end, and a refused call changes nothing. *)
Theorem C68_publish_operation : forall b n, ~ In 0 n ->
  (In n (map o_name (pb_ops b)) -> exists b', publish_operation b n = (b', Ok tt) /\
     map o_name (pb_ops b') = map o_name (pb_ops b) /\ find_op n (pb_ops b') = Some (Oper n [] None) /\
     forall m, m <> n -> find_op m (pb_ops b') = find_op m (pb_ops b)) /\
  (~ In n (map o_name (pb_ops b)) -> valid_name n ->
     publish_operation b n = (Publ (pb_ops b ++ [Oper n [] None]) (pb_props b), Ok tt)) /\
  (~ In n (map o_name (pb_ops b)) -> ~ valid_name n -> publish_operation b n = (b, Throw RInvalidObjectName)).
Proof.
  intros b n Z0. unfold publish_operation. split; [|split].
  - intros I. destruct (find_op n (pb_ops b)) as [o|] eqn:F; [|apply find_op_none in F; contradiction].
    apply find_op_some in F as [_ E]. eexists. split; [reflexivity|]. cbn. split; [now apply set_op_names|].
    split.
    + rewrite set_op_find by assumption. rewrite (proj2 (leq n n) eq_refl). unfold op_update. now rewrite E.
    + intros m M. rewrite set_op_find by assumption. destruct (list_eqb m n) eqn:X; [apply leq in X; contradiction|reflexivity].
  - intros I V. rewrite (proj2 (find_op_none _ _) I). destruct (checked_cases n) as [[-> _]|[_ W]]; rewrite (to_nul_id n Z0) in *; [reflexivity|contradiction].
  - intros I V. rewrite (proj2 (find_op_none _ _) I). destruct (checked_cases n) as [[_ W]|[-> _]]; [|reflexivity]. rewrite (to_nul_id n Z0) in W. contradiction.
Qed.

(** Publishing a property again gives it the new type and access in its place, a new valid
    name is added at the end, and a refused call changes nothing. *)
Theorem C68_publish_property : forall r b n u a, ~ In 0 n ->
  (get_type r u = None -> publish_property r b n u a = (b, Throw RTypeNotRegistered)) /\
  (get_type r u <> None -> In n (map pr_name (pb_props b)) -> exists b', publish_property r b n u a = (b', Ok tt) /\
     pb_ops b' = pb_ops b /\ map pr_name (pb_props b') = map pr_name (pb_props b) /\
     find_prop n (pb_props b') = Some (MkProp n u a) /\
     forall m, m <> n -> find_prop m (pb_props b') = find_prop m (pb_props b)) /\
  (get_type r u <> None -> ~ In n (map pr_name (pb_props b)) -> valid_name n ->
     publish_property r b n u a = (Publ (pb_ops b) (pb_props b ++ [MkProp n u a]), Ok tt)) /\
  (get_type r u <> None -> ~ In n (map pr_name (pb_props b)) -> ~ valid_name n ->
     publish_property r b n u a = (b, Throw RInvalidObjectName)).
Proof.
  intros r b n u a Z0. unfold publish_property. split; [intros ->; reflexivity|].
  destruct (get_type r u) as [t|] eqn:G; [|repeat split; intros H; now destruct H]. split; [|split]; intros _.
  - intros I. destruct (find_prop n (pb_props b)) as [p|] eqn:F; [|apply find_prop_none in F; contradiction].
    apply find_prop_some in F as [_ E]. eexists. split; [reflexivity|]. cbn. rewrite E. split; [reflexivity|].
    split; [now apply set_prop_names|]. clear E. revert I. generalize (pb_props b). induction l as [|x l IH]; [intros []|].
    intros I. cbn. destruct (list_eqb n (pr_name x)) eqn:E; cbn.
    + rewrite (proj2 (leq n n) eq_refl). split; [reflexivity|]. intros m M. apply leq in E. subst n.
      destruct (list_eqb m (pr_name x)) eqn:Y; [apply leq in Y; contradiction|reflexivity].
    + rewrite E. destruct IH as [A B]; [destruct I as [I|I]; [rewrite <- I, (proj2 (leq _ _) eq_refl) in E; discriminate|exact I]|].
      split; [exact A|]. intros m M. now rewrite (B m M).
  - intros I V. rewrite (proj2 (find_prop_none _ _) I). destruct (checked_cases n) as [[-> _]|[_ W]]; rewrite (to_nul_id n Z0) in *; [reflexivity|contradiction].
  - intros I V. rewrite (proj2 (find_prop_none _ _) I). destruct (checked_cases n) as [[_ W]|[-> _]]; [|reflexivity]. rewrite (to_nul_id n Z0) in W. contradiction.
Qed.

(** The request created for a name is one for the operation of that name or, if there is
    none, for the property; its operation name is the name asked for. *)
Definition req_name (x : anyreq) : list Z :=
  match x with OfOperation o _ => o_name o | OfProperty x => preq_name x end.
Theorem C68_create_request : forall n r b s x, pb_create n r b (Some s) = Some x ->
  req_name x = s /\
  match x with
  | OfOperation o q => In o (pb_ops b) /\ create_request n r o = Some q
  | OfProperty (Getter p v) => ~ In s (map o_name (pb_ops b)) /\ In p (pb_props b) /\ pr_access p <> AWriteOnly /\ v = any_new KNone
  | OfProperty (Setter p v) => ~ In s (map o_name (pb_ops b)) /\ In p (pb_props b) /\ pr_access p <> AReadOnly /\ v = any_new KNone
  end.
Proof.
  intros n r b s x E. unfold pb_create in E. destruct (find_op s (pb_ops b)) as [o|] eqn:F.
  - destruct (create_request n r o) as [q|] eqn:C; [|discriminate]. injection E as <-. apply find_op_some in F as [I N]. auto.
  - apply find_op_none in F. destruct (strip (codes "get_") s) as [t|] eqn:G.
    + apply strip_app in G. destruct (find_prop t (pb_props b)) as [p|] eqn:P; [|discriminate]. apply find_prop_some in P as [I N].
      destruct (pr_access p) eqn:A; try discriminate; injection E as <-; cbn [req_name preq_name]; (split; [congruence|]);
        repeat (split; [assumption || congruence|]); reflexivity.
    + destruct (strip (codes "set_") s) as [t|] eqn:H; [|discriminate]. apply strip_app in H.
      destruct (find_prop t (pb_props b)) as [p|] eqn:P; [|discriminate]. apply find_prop_some in P as [I N].
      destruct (pr_access p) eqn:A; try discriminate; injection E as <-; cbn [req_name preq_name]; (split; [congruence|]);
        repeat (split; [assumption || congruence|]); reflexivity.
Qed.

(** Every readable property has a get request and every writable one a set request, unless
    an operation has taken that name. *)
Theorem C68_property_requests : forall xs n r p, Forall c_name xs -> In p (pb_props (brun xs)) ->
  (pr_access p <> AWriteOnly -> ~ In (codes "get_" ++ pr_name p) (map o_name (pb_ops (brun xs))) ->
     pb_create n r (brun xs) (Some (codes "get_" ++ pr_name p)) = Some (OfProperty (Getter p (any_new KNone)))) /\
  (pr_access p <> AReadOnly -> ~ In (codes "set_" ++ pr_name p) (map o_name (pb_ops (brun xs))) ->
     pb_create n r (brun xs) (Some (codes "set_" ++ pr_name p)) = Some (OfProperty (Setter p (any_new KNone)))).
Proof.
  intros xs n r p C I. destruct (C68_one_per_name xs C) as (_ & _ & ND & _). set (b := brun xs) in *.
  assert (F : find_prop (pr_name p) (pb_props b) = Some p).
  { clear -ND I. revert ND I. generalize (pb_props b). induction l as [|x l IH]; intros ND I; [destruct I|]. cbn.
    inversion ND as [|? ? NI ND']; subst. destruct (list_eqb (pr_name p) (pr_name x)) eqn:E.
    - destruct I as [->|I]; [reflexivity|]. apply leq in E. exfalso. apply NI. rewrite <- E. now apply in_map.
    - destruct I as [->|I]; [rewrite (proj2 (leq _ _) eq_refl) in E; discriminate|auto]. }
  unfold pb_create. split; intros A H; rewrite (proj2 (find_op_none _ _) H).
  - rewrite strip_ok, F. destruct (pr_access p); congruence.
  - change (strip (codes "get_") (codes "set_" ++ pr_name p)) with (@None (list Z)). cbv iota. rewrite strip_ok, F. destruct (pr_access p); congruence.
Qed.

(** Operations are found under their names. *)
Theorem C68_operation_requests : forall xs n r o, Forall c_name xs -> In o (pb_ops (brun xs)) ->
  pb_create n r (brun xs) (Some (o_name o)) = match create_request n r o with Some q => Some (OfOperation o q) | None => None end.
Proof.
  intros xs n r o C I. destruct (C68_one_per_name xs C) as (ND & _). set (b := brun xs) in *.
  assert (F : find_op (o_name o) (pb_ops b) = Some o).
  { clear -ND I. revert ND I. generalize (pb_ops b). induction l as [|x l IH]; intros ND I; [destruct I|]. cbn.
    inversion ND as [|? ? NI ND']; subst. destruct (list_eqb (o_name o) (o_name x)) eqn:E.
    - destruct I as [->|I]; [reflexivity|]. apply leq in E. exfalso. apply NI. rewrite <- E. now apply in_map.
    - destruct I as [->|I]; [rewrite (proj2 (leq _ _) eq_refl) in E; discriminate|auto]. }
  unfold pb_create. now rewrite F.
Qed.

Definition ex_b : list bop :=
  [ BOperation (codes "drive"); BParameter ex_r (codes "drive") (codes "speed") 100 PIn;
    BProperty ex_r (codes "level") 100 AReadWrite; BProperty ex_r (codes "serial") 100 AReadOnly;
    BOperation (codes "0bad"); BOperation (codes "drive") ].
Example ex_publish_property :
  let b := brun ex_b in
  find_prop (codes "level") (pb_props (fst (publish_property ex_r b (codes "level") 103 AReadOnly))) = Some (MkProp (codes "level") 103 AReadOnly) /\
  publish_property ex_r b (codes "level") 999 AReadOnly = (b, Throw RTypeNotRegistered) /\
  publish_property ex_r b (codes "0") 103 AReadOnly = (b, Throw RInvalidObjectName).
Proof. vm_compute. auto. Qed.

Example ex_publication :
  Forall c_name ex_b /\
  map o_name (pb_ops (brun ex_b)) = [codes "drive"] /\ map pr_name (pb_props (brun ex_b)) = [codes "level"; codes "serial"] /\
  pb_create 3 ex_r (brun ex_b) (Some (codes "drive")) = Some (OfOperation (Oper (codes "drive") [] None) (Ok empty_request)) /\
  pb_create 3 ex_r (brun ex_b) (Some (codes "get_serial")) = Some (OfProperty (Getter (MkProp (codes "serial") 100 AReadOnly) (any_new KNone))) /\
  pb_create 3 ex_r (brun ex_b) (Some (codes "set_serial")) = None /\ pb_create 3 ex_r (brun ex_b) (Some (codes "drives")) = None /\
  pb_create 3 ex_r (brun ex_b) None = None.
Proof.
  split.
  - repeat (constructor; [exact I || (vm_compute; intuition discriminate)|]). constructor.
  - vm_compute. auto 10.
Qed.

(** ** C69 *)

(** Operation::Invoke hands a request of the operation to the component exactly when every
    parameter that is not an output has been given a value; otherwise it throws. *)
Theorem C69_invoke_needs_inputs : forall n r o q xs r', published o -> Z.of_nat (length (o_params o)) < 2 ^ 31 ->
  create_request n r o = Some (Ok q) -> Forall (fun x => later r (call_reg x)) xs -> later r r' ->
  let q' := fst (qrun q xs) in
  ((forall k p, nth_error (o_params o) k = Some p -> p_dir p <> POut -> given (snd (qrun q xs)) (Z.of_nat k)) ->
     invoke r' o true (Some (o_name o)) q' = Ok tt) /\
  (forall k p, nth_error (o_params o) k = Some p -> p_dir p <> POut -> ~ given (snd (qrun q xs)) (Z.of_nat k) ->
     invoke r' o true (Some (o_name o)) q' = Throw RInvalidParameterType).
Proof.
  intros n r o q xs r' P L C LX LR q'. destruct (C43_index_bijection n r o q xs P L C) as (Ct & _ & _ & _ & _ & Nk). fold q' in Ct, Nk.
  destruct (created n r o q P L C) as [E S]. pose proof (published_well o P) as [ND _].
  assert (Lv : length (rvals q) = length (o_params o)) by (subst q; cbn; apply map_length).
  assert (Q0 : forall k p, nth_error (o_params o) k = Some p -> nth_error (rvals q) k = Some (any_new KNone, p_type p)).
  { intros k p N. subst q. cbn. now apply (map_nth_error (fun p => (any_new KNone, p_type p))) in N. }
  assert (T0 : forall i v u, nth_error (rvals q) i = Some (v, u) -> v = any_new KNone /\ exists t, get_type r u = Some t /\ ty_kind t <> KNone).
  { intros i v u N. destruct (nth_error (o_params o) i) as [p|] eqn:X.
    - rewrite (Q0 _ _ X) in N. injection N as <- <-. split; [reflexivity|]. apply S. eapply nth_error_In; eauto.
    - apply nth_error_None in X. assert (nth_error (rvals q) i = None) by (apply nth_error_None; lia). congruence. }
  assert (KO : kinds_ok r q').
  { apply run_kinds; [assumption| |].
    - intros i v u N. destruct (T0 _ _ _ N) as [_ (t & G & _)]. eauto.
    - intros i v u N. left. now destruct (T0 _ _ _ N). }
  assert (I : invoke r' o true (Some (o_name o)) q' = check_inputs r' q' (o_params o)).
  { unfold invoke. rewrite (proj2 (leq _ _) eq_refl), Ct. rewrite Z.mod_small by (split; [lia|change (2 ^ 31) with 2147483648 in L; change (2 ^ 64) with 18446744073709551616; lia]).
    now rewrite Z.eqb_refl. }
  rewrite I.
  assert (V : forall k p, nth_error (o_params o) k = Some p -> exists w t, get_param q' (Z.of_nat k) = Ok w /\ get_type r' (p_type p) = Some t /\
    ((given (snd (qrun q xs)) (Z.of_nat k) -> atype w = ty_kind t) /\ (~ given (snd (qrun q xs)) (Z.of_nat k) -> atype w <> ty_kind t))).
  { intros k p N. destruct (qrun_value k xs q _ _ (Q0 _ _ N)) as (w & Nw & H). fold q' in Nw.
    destruct (S p (nth_error_In _ _ N)) as (t & G & NK). destruct (later_kind _ _ _ _ LR G) as (t' & G' & K').
    exists w, t'. split; [eapply get_param_nth; eauto|]. split; [assumption|]. rewrite K'.
    destruct H as [(t1 & r1 & t2 & X & _)|[-> H]].
    - split.
      + intros _. assert (KW : w <> any_new KNone).
        { intros ->. assert (Bad : forall xs q t1 r1 t2, Forall (fun x => later r (call_reg x)) xs ->
            (forall i v u, nth_error (rvals q) i = Some (v, u) -> exists t, get_type r u = Some t /\ ty_kind t <> KNone) ->
            snd (qrun q xs) <> t1 ++ (QSet r1 (Z.of_nat k) (any_new KNone), Ok tt) :: t2).
          { clear. induction xs as [|x xs IH]; intros q t1 r1 t2 LX T X; [destruct t1; discriminate X|].
            cbn in X. destruct (qstep q x) as [q1 a] eqn:Sx. pose proof (qstep_frame _ _ _ _ Sx) as [_ F].
            inversion LX as [|? ? L1 L2]; subst. specialize (IH q1).
            destruct (qrun q1 xs) as [q2 t] eqn:R. cbn in X. destruct t1 as [|c t1]; cbn in X.
            - injection X as -> -> ->. cbn in Sx.
              destruct (set_param_cases r1 q (Z.of_nat k) (any_new KNone)) as [(k' & old & u' & t0 & Ej & N & G & V & Y)|[[e Y]|Y]]; rewrite Y in Sx; try discriminate.
              apply valid_kind in V. destruct (T _ _ _ N) as (t3 & G3 & N3). destruct (later_kind _ _ _ _ L1 G3) as (t4 & G4 & K4).
              cbn in G4. rewrite G in G4. injection G4 as <-. cbn in V. congruence.
            - injection X as _ ->. apply (IH t1 r1 t2 L2); [|reflexivity]. apply (types_frame q q1); [assumption|]. exact T. }
          eapply Bad; [exact LX| |exact X]. intros i v u Nn. now destruct (T0 _ _ _ Nn). }
        destruct (KO _ _ _ Nw) as [Z|(t0 & G0 & K0)]; [contradiction|]. congruence.
      + intros NG. exfalso. apply NG. exists r1, w. rewrite X. apply in_or_app. right. now left.
    - split.
      + intros (r1 & w & In1). exfalso. apply (H _ In1). exists r1, w. reflexivity.
      + intros _ Z. cbn in Z. congruence. }
  assert (CI : forall p, In p (o_params o) -> p_dir p <> POut -> exists i v t, get_index q' (Some (p_name p)) = i /\ get_param q' i = Ok v /\ get_type r' (p_type p) = Some t).
  { intros p Ip _. apply In_nth_error in Ip as [k N]. destruct (V k p N) as (w & t & A & B & _). exists (Z.of_nat k), w, t. rewrite (Nk _ _ N). auto. }
  destruct (check_inputs_ok r' q' (o_params o) CI) as [A B]. split.
  - intros H. apply A. intros p Ip D. apply In_nth_error in Ip as [k N]. rewrite (Nk _ _ N). destruct (V k p N) as (w & t & X & Y & Z & _).
    exists w, t. split; [assumption|]. split; [assumption|]. apply Z. eapply H; eauto.
  - intros k p N D NG. apply B. intros X. apply A with (p := p) in X; [|eapply nth_error_In; eauto|assumption].
    destruct X as (v & t & X & Y & Z). rewrite (Nk _ _ N) in X. destruct (V k p N) as (w & t' & X' & Y' & _ & W).
    rewrite X in X'. injection X' as <-. rewrite Y in Y'. injection Y' as <-. exact (W NG Z).
Qed.

(** A request for another operation, or for a component that cannot be invoked, is refused. *)
Theorem C69_invoke_wrong_name : forall r o dyn s q,
  s <> Some (o_name o) \/ dyn = false -> invoke r o dyn s q = Throw RInvalidOperationName.
Proof.
  intros r o dyn [s|] q H; [|reflexivity]. unfold invoke. destruct (list_eqb (o_name o) s) eqn:E; [|reflexivity].
  apply leq in E. destruct H as [H| ->]; [congruence|reflexivity].
Qed.

Example ex_invoke :
  let xs := [QSet ex_r 0 (Any KI32 (PInt 7)); QSet ex_r 3 (Any KF64 (PFloat half)); QSet ex_r 1 (Any KI32 (PInt 1))] in
  invoke ex_r ex_o true (Some (codes "drive")) (fst (qrun ex_q xs)) = Ok tt /\
  invoke ex_r ex_o true (Some (codes "drive")) (fst (qrun ex_q (firstn 2 xs))) = Throw RInvalidParameterType /\
  invoke ex_r ex_o true (Some (codes "drives")) (fst (qrun ex_q xs)) = Throw RInvalidOperationName /\
  invoke ex_r (orun ex_o [ORUpdate]) true (Some (codes "drive")) (fst (qrun ex_q xs)) = Throw RInvalidParameterCount.
Proof. vm_compute. auto. Qed.

(** SetValue of a property reaches the component with a valid value only, and GetValue
    gives what the component put into the request. *)
Theorem C69_property_access : forall r p dyn v inv l a, prop_set r p dyn v inv = (l, a) ->
  (l = [Setter p v] /\ a = inv (Setter p v) /\ dyn = true /\ pr_access p <> AReadOnly /\
     exists t, get_type r (pr_type p) = Some t /\ is_valid t v = Ok true) \/
  (l = [] /\ a <> Ok tt).
Proof.
  intros r p dyn v inv l a E. unfold prop_set in E. destruct dyn; cbn [negb orb] in E; [|right; injection E as <- <-; split; [reflexivity|discriminate]].
  assert (X : preq_set r (Setter p (any_new KNone)) 0 v = (Setter p v, Ok tt) /\ (exists t, get_type r (pr_type p) = Some t /\ is_valid t v = Ok true) \/
              exists x e, preq_set r (Setter p (any_new KNone)) 0 v = (x, e) /\ (forall u, e <> Ok u)).
  { unfold preq_set, check_value. cbn. destruct (get_type r (pr_type p)) as [t|].
    - destruct (is_valid t v) as [[]|e|] eqn:V; [left; eauto|right; do 2 eexists; split; [reflexivity|discriminate]..].
    - right; do 2 eexists; split; [reflexivity|discriminate]. }
  destruct (pr_access p) eqn:A.
  2: { right; injection E as <- <-; split; [reflexivity|discriminate]. }
  all: destruct X as [[X T]|(x & e & X & N)]; rewrite X in E;
    [injection E as <- <-; left; split; [reflexivity|]; split; [reflexivity|]; split; [reflexivity|]; split; [discriminate|exact T]
    |right; destruct e as [u|e|]; [exfalso; exact (N u eq_refl)|injection E as <- <-; split; [reflexivity|discriminate]..]].
Qed.

(** ... and it does reach it when the property is writable and the value is valid. *)
Theorem C69_property_set : forall r p v inv t, pr_access p <> AReadOnly -> get_type r (pr_type p) = Some t -> is_valid t v = Ok true ->
  prop_set r p true v inv = ([Setter p v], inv (Setter p v)).
Proof.
  intros r p v inv t A G V. unfold prop_set, preq_set, check_value. cbn. rewrite G, V. destruct (pr_access p); [reflexivity|congruence|reflexivity].
Qed.

(** A component that answers a request for the value of a property with the calls
    SetReturnValue(v), one for each of [vs]. *)
Definition answering (r : reg) (vs : list any) (x : preq) : preq * res rexn unit :=
  (fold_left (fun x v => fst (preq_set_ret r x v)) vs x, Ok tt).

(** GetValue gives the last valid value the component answered, and an empty value when
    there is none; it throws for a property that is write only, and passes on what the
    component throws. *)
Theorem C69_property_get : forall r p t vs, get_type r (pr_type p) = Some t ->
  (pr_access p <> AWriteOnly -> prop_get p true (answering r vs) =
     Ok (last (filter (fun v => match is_valid t v with Ok b => b | _ => false end) vs) (any_new KNone))) /\
  (pr_access p <> AWriteOnly -> forall x e, prop_get p true (fun _ => (x, Throw e)) = Throw e) /\
  (forall dyn inv, pr_access p = AWriteOnly \/ dyn = false -> prop_get p dyn inv = Throw RInvalidAccessKind).
Proof.
  intros r p t vs G. split; [|split].
  - intros A. unfold prop_get, answering.
    assert (X : forall w, preq_ret (fold_left (fun x v => fst (preq_set_ret r x v)) vs (Getter p w)) = Ok (last (filter (fun v => match is_valid t v with Ok b => b | _ => false end) vs) w)).
    { induction vs as [|v vs IH]; intros w; [reflexivity|]. cbn [fold_left filter]. unfold preq_set_ret at 2. unfold check_value. rewrite G.
      destruct (is_valid t v) as [[]|e|]; cbn [fst]; rewrite IH; [|reflexivity..].
      generalize (filter (fun v => match is_valid t v with Ok b => b | _ => false end) vs). intros l. revert v. induction l as [|y l IHl]; intros v; [reflexivity|].
      cbn [last] in *. destruct l; [reflexivity|]. apply (IHl v). }
    specialize (X (any_new KNone)). destruct (pr_access p); [| |congruence]; cbn; rewrite X; reflexivity.
  - intros A x e. unfold prop_get. destruct (pr_access p); [reflexivity|reflexivity|congruence].
  - intros dyn inv [H|H]; unfold prop_get; rewrite H; [now destruct dyn|reflexivity].
Qed.

Example ex_property_access :
  let p := MkProp (codes "speed") 100 AReadWrite in
  prop_set ex_r p true (Any KI32 (PInt 8)) (fun _ => Ok tt) = ([Setter p (Any KI32 (PInt 8))], Ok tt) /\
  prop_set ex_r p true (Any KI32 (PInt 888)) (fun _ => Ok tt) = ([], Throw RInvalidParameterValue) /\
  prop_get p true (fun x => preq_set_ret ex_r x (Any KI32 (PInt 9))) = Ok (Any KI32 (PInt 9)) /\
  prop_get p true (answering ex_r [Any KI32 (PInt 3); Any KI32 (PInt 9); Any KI32 (PInt 999)]) = Ok (Any KI32 (PInt 9)).
Proof. vm_compute. auto. Qed.

Print Assumptions C43_index_bijection.
Print Assumptions C43_set_parameter_partial.
Print Assumptions C44_nested_round_trip.
Print Assumptions C69_invoke_needs_inputs.
