(** Proofs about calls of operations from Python. *)
From Coq Require Import ZArith List Bool Lia.
From Verif Require Import Base Text Assoc UuidModel HelperSpec PathModel AnyModel AnySpec AnyProofs FlowModel TypeModel TypeProofs
  ReqModel ReqSpec ReqProofs ReqMarshalProofs ReqInvokeProofs ReqProps PyModel PySpec PyProofs.
Import ListNotations.
Local Open Scope Z_scope.

Lemma orun_published : forall o, described o -> published o.
Proof. intros o (n & xs & _ & E). now exists n, xs. Qed.

(** The return parameter has a valid name of its own. *)
Definition ret_ok (o : oper) : Prop := forall p, o_ret o = Some p -> valid_name (p_name p) /\ ~ In (p_name p) (names o).

Lemma no_nul : forall n, ~ In 0 n -> to_nul n = n.
Proof. exact to_nul_id. Qed.

Lemma step_ret : forall o x, c_param x -> ret_ok o -> ret_ok (ostep o x).
Proof.
  intros o x C R. destruct x as [r n u d|]; cbn; [|intros p; discriminate].
  cbn in C. unfold publish_parameter. destruct (get_type r u); [|exact R].
  assert (X : forall d, match o_ret o with Some p => list_eqb (p_name p) n | None => false end = false ->
    ret_ok (fst (match mk_param n u d with
               | Ok p => match find_param (p_name p) (o_params o) with
                         | Some _ => (o, Throw RDuplicateName)
                         | None => (Oper (o_name o) (o_params o ++ [p]) (o_ret o), Ok tt)
                         end
               | Throw e => (o, Throw e)
               | UB => (o, UB) end))).
  { intros d' N. destruct (mk_param_cases n u d') as [[-> W]|[-> W]]; [|exact R]. rewrite (no_nul n C) in *. cbn [p_name].
    destruct (find_param n (o_params o)); [exact R|]. intros p E. cbn in E. destruct (R p E) as [V I]. split; [assumption|].
    unfold names. cbn. rewrite map_app, in_app_iff. cbn. rewrite E in N. intros [J|[J|[]]]; [now apply I|].
    subst n. rewrite (proj2 (leq _ _) eq_refl) in N. discriminate. }
  destruct d; try (destruct (match o_ret o with Some p => list_eqb (p_name p) n | None => false end) eqn:N; [exact R|apply X; reflexivity]).
  destruct (o_ret o) eqn:E; [exact R|]. destruct (find_param n (o_params o)) eqn:F; [exact R|].
  destruct (mk_param_cases n u PReturn) as [[-> W]|[-> W]]; [|exact R]. rewrite (no_nul n C) in *.
  intros p Q. cbn in Q. injection Q as <-. cbn. split; [assumption|]. unfold names. cbn. now apply find_param_none.
Qed.

Lemma described_ret : forall o, described o -> ret_ok o.
Proof.
  intros o (n & xs & F & ->).
  assert (X : forall xs o, Forall c_param xs -> ret_ok o -> ret_ok (orun o xs)).
  { clear. induction xs as [|x xs IH]; intros o F W; [exact W|]. cbn. inversion F; subst. apply IH; [assumption|]. now apply step_ret. }
  apply X; [assumption|]. intros p; discriminate.
Qed.

Definition shape (o : oper) (q : request) : Prop := ridx q = number 0 (names o) /\ map snd (rvals q) = map p_type (o_params o).

Lemma shape_length : forall o q, shape o q -> length (rvals q) = length (o_params o).
Proof. intros o q [_ S]. apply (f_equal (@length Z)) in S. now rewrite !map_length in S. Qed.
Lemma shape_nth : forall o q k p, shape o q -> nth_error (o_params o) k = Some p -> exists v, nth_error (rvals q) k = Some (v, p_type p).
Proof.
  intros o q k p [_ S] N. apply (map_nth_error p_type) in N. rewrite <- S in N.
  destruct (nth_error (rvals q) k) as [[v u]|] eqn:E.
  - pose proof (map_nth_error snd _ _ E) as X. rewrite X in N. cbn in N. injection N as ->. eauto.
  - apply nth_error_None in E. assert (nth_error (map snd (rvals q)) k = None) by (apply nth_error_None; now rewrite map_length). congruence.
Qed.
Definition put (q : request) (k : nat) (v : any) : request := Req (put_nth k (fun e => (v, snd e)) (rvals q)) (ridx q) (rret q).
Lemma put_shape : forall o q k v, shape o q -> shape o (put q k v).
Proof. intros o q k v [A B]. split; [assumption|]. cbn. now rewrite put_nth_snd. Qed.
Lemma put_same : forall o q k v p, shape o q -> nth_error (o_params o) k = Some p -> value_at (put q k v) k = Some v.
Proof. intros o q k v p S N. destruct (shape_nth o q k p S N) as (w & E). unfold value_at, put. cbn. now rewrite (put_nth_same _ _ _ _ _ E). Qed.
Lemma put_other : forall q k v j, j <> k -> value_at (put q k v) j = value_at q j.
Proof. intros q k v j N. unfold value_at, put. cbn. now rewrite put_nth_other. Qed.

Lemma suits_one : forall r p a v w, suits r p a v -> suits r p a w -> v = w.
Proof. intros r p a v w (t & G & E & _) (t' & G' & E' & _). congruence. Qed.

Lemma assign_cases : forall r o k p a q, shape o q -> nth_error (o_params o) k = Some p ->
  (exists v, suits r p a v /\ assign r (o_params o) (Z.of_nat k) a q = (put q k v, Ok tt)) \/
  ((forall v, ~ suits r p a v) /\ exists e, assign r (o_params o) (Z.of_nat k) a q = (q, e) /\ e <> Ok tt).
Proof.
  intros r o k p a q S N. unfold assign. rewrite Nat2Z.id, N. destruct (shape_nth o q k p S N) as (old & E). unfold suits.
  destruct (get_type r (p_type p)) as [t|] eqn:G; [|right; split; [intros v (t & X & _); discriminate|eexists; split; [reflexivity|discriminate]]].
  destruct (of_py a (ty_kind t)) as [v|e|] eqn:P;
    [|right; split; [intros v (t' & X & Y & _); injection X as <-; congruence|eexists; split; [reflexivity|discriminate]]..].
  pose proof (shape_length o q S) as L. assert (B : (k < length (o_params o))%nat) by (apply nth_error_Some; congruence).
  unfold set_param. destruct (Z.ltb_spec (Z.of_nat k) 0); [lia|]. destruct (Z.leb_spec (Z.of_nat (length (rvals q))) (Z.of_nat k)); [lia|].
  cbn [orb]. rewrite Nat2Z.id, E, G. destruct (is_valid t v) as [[]|e|] eqn:V.
  - left. exists v. split; [eauto|reflexivity].
  - right. split; [intros w (t' & X & Y & Z); injection X as <-; congruence|].
    destruct (index_known q (Z.of_nat k)); eexists; (split; [reflexivity|discriminate]).
  - right. split; [intros w (t' & X & Y & Z); injection X as <-; congruence|]. eexists; split; [reflexivity|discriminate].
  - right. split; [intros w (t' & X & Y & Z); injection X as <-; congruence|]. eexists; split; [reflexivity|discriminate].
Qed.

Lemma bind_args_cases : forall r o args k q, shape o q -> (k + length args <= length (o_params o))%nat ->
  ((forall j a, nth_error args j = Some a -> exists p v, nth_error (o_params o) (k + j) = Some p /\ suits r p a v) /\
   exists q', bind_args r (o_params o) (Z.of_nat k) args q = (q', Ok tt) /\ shape o q' /\
   (forall j a p v, nth_error args j = Some a -> nth_error (o_params o) (k + j) = Some p -> suits r p a v -> value_at q' (k + j) = Some v) /\
   (forall i, (i < k)%nat \/ (k + length args <= i)%nat -> value_at q' i = value_at q i)) \/
  ((exists j a p, nth_error args j = Some a /\ nth_error (o_params o) (k + j) = Some p /\ forall v, ~ suits r p a v) /\
   exists q' e, bind_args r (o_params o) (Z.of_nat k) args q = (q', e) /\ e <> Ok tt).
Proof.
  intros r o. induction args as [|a args IH]; intros k q S L; cbn [length] in *.
  - left. split; [intros [|j] a E; discriminate E|]. exists q. cbn. split; [reflexivity|]. split; [assumption|]. split; [intros [|j] a p v E; discriminate E|auto].
  - destruct (nth_error (o_params o) k) as [p|] eqn:N; [|apply nth_error_None in N; lia].
    cbn [bind_args]. destruct (assign_cases r o k p a q S N) as [(v & V & ->)|[NV (e & -> & NE)]].
    + replace (Z.of_nat k + 1) with (Z.of_nat (Datatypes.S k)) by lia.
      destruct (IH (Datatypes.S k) (put q k v) (put_shape _ _ _ _ S) ltac:(lia)) as [[A (q' & E & S' & Vs & Os)]|[(j & b & p' & A & B & C) D]].
      * left. split.
        -- intros [|j] b Eb; cbn in Eb; [injection Eb as <-; exists p, v; rewrite Nat.add_0_r; auto|].
           destruct (A j b Eb) as (p' & v' & X & Y). exists p', v'. split; [|assumption]. rewrite <- X. f_equal. lia.
        -- exists q'. split; [assumption|]. split; [assumption|]. split.
           ++ intros [|j] b p' v' Eb Ep W; cbn in Eb.
              ** injection Eb as <-. rewrite Nat.add_0_r in *. rewrite N in Ep. injection Ep as <-. rewrite (suits_one _ _ _ _ _ W V).
                 rewrite Os by lia. exact (put_same o q k v p S N).
              ** replace (k + Datatypes.S j)%nat with (Datatypes.S k + j)%nat in * by lia. eauto.
           ++ intros i I. rewrite Os by lia. apply put_other. lia.
      * right. split; [|exact D]. exists (Datatypes.S j), b, p'. split; [assumption|]. split; [|assumption]. rewrite <- B. f_equal. lia.
    + right. split; [exists O, a, p; rewrite Nat.add_0_r; auto|]. exists q, e. destruct e as [[]| |]; [congruence|auto..].
Qed.

Lemma index_cases : forall o q nm, shape o q -> NoDup (names o) ->
  (~ In nm (names o) /\ get_index q (Some nm) = -1) \/
  (exists k p, nth_error (o_params o) k = Some p /\ p_name p = nm /\ get_index q (Some nm) = Z.of_nat k).
Proof.
  intros o q nm [S _] ND. unfold get_index. rewrite S. destruct (in_dec (list_eq_dec Z.eq_dec) nm (names o)) as [I|I].
  - right. apply In_nth_error in I as (k & E). unfold names in E. destruct (nth_error (o_params o) k) as [p|] eqn:P.
    + pose proof (map_nth_error p_name _ _ P) as X. rewrite X in E. injection E as E. exists k, p. split; [exact P|]. split; [assumption|].
      rewrite (number_get (names o) 0 k nm ND); [reflexivity|]. unfold names. now rewrite X, E.
    + apply nth_error_None in P. assert (X : nth_error (map p_name (o_params o)) k = None) by (apply nth_error_None; now rewrite map_length). congruence.
  - left. split; [assumption|]. now rewrite number_none.
Qed.

Lemma names_nth : forall o j k p p', NoDup (names o) -> nth_error (o_params o) j = Some p -> nth_error (o_params o) k = Some p' -> p_name p = p_name p' -> j = k.
Proof.
  intros o j k p p' ND A B E. apply (map_nth_error p_name) in A, B. rewrite NoDup_nth_error in ND. apply ND.
  - apply nth_error_Some. unfold names. congruence.
  - unfold names. congruence.
Qed.

Lemma bind_kwargs_cases : forall r o n, NoDup (names o) -> forall kws q, shape o q -> NoDup (map fst kws) -> (forall nm a, In (nm, a) kws -> ~ In 0 nm) ->
  ((forall nm a, In (nm, a) kws -> exists k p v, nth_error (o_params o) k = Some p /\ p_name p = nm /\ (n <= k)%nat /\ suits r p a v) /\
   exists q', bind_kwargs r (o_params o) (Z.of_nat n - 1) kws q = (q', Ok tt) /\ shape o q' /\
   (forall a k p v, nth_error (o_params o) k = Some p -> In (p_name p, a) kws -> suits r p a v -> value_at q' k = Some v) /\
   (forall k p, nth_error (o_params o) k = Some p -> ~ In (p_name p) (map fst kws) -> value_at q' k = value_at q k)) \/
  ((exists nm a, In (nm, a) kws /\ forall k p v, nth_error (o_params o) k = Some p -> p_name p = nm -> (n <= k)%nat -> ~ suits r p a v) /\
   exists q' e, bind_kwargs r (o_params o) (Z.of_nat n - 1) kws q = (q', e) /\ e <> Ok tt).
Proof.
  intros r o n ND. induction kws as [|[nm a] kws IH]; intros q S NK NN.
  - left. split; [intros nm a []|]. exists q. cbn. split; [reflexivity|]. split; [assumption|]. split; [intros a k p v _ []|auto].
  - cbn [bind_kwargs]. rewrite (cut_id nm) by exact (NN nm a (or_introl eq_refl)). cbn [map fst] in NK. apply NoDup_cons_iff in NK as [NI NK].
    destruct (index_cases o q nm S ND) as [[I ->]|(k & p & N & E & ->)].
    { right. split; [|exists q, (Throw PyTypeError); cbn; split; [reflexivity|discriminate]]. exists nm, a. split; [now left|].
      intros k p v N E _ _. apply I. subst nm. unfold names. apply in_map. eapply nth_error_In; eauto. }
    destruct (Z.eqb_spec (Z.of_nat k) (-1)); [lia|]. destruct (Z.leb_spec (Z.of_nat k) (Z.of_nat n - 1)).
    { right. split; [|exists q, (Throw PyTypeError); split; [reflexivity|discriminate]]. exists nm, a. split; [now left|].
      intros k' p' v N' E' L _. assert (k' = k) by (eapply (names_nth o k' k p' p ND); eauto; congruence). lia. }
    destruct (assign_cases r o k p a q S N) as [(v & V & ->)|[NV (e & -> & NE)]].
    + destruct (IH (put q k v) (put_shape _ _ _ _ S) NK (fun m b I => NN m b (or_intror I))) as [[A (q' & B & S' & Vs & Os)]|[(m & b & C & D) F]].
      * left. split; [intros m b [X|X]; [injection X as <- <-; exists k, p, v; split; [assumption|]; split; [assumption|]; split; [lia|assumption]|exact (A m b X)]|].
        exists q'. split; [assumption|]. split; [assumption|]. split.
        -- intros b j p' w N' [X|X] W; [|eauto]. injection X as X1 X2. subst b.
           assert (j = k) by (eapply (names_nth o j k p' p ND); eauto; congruence). subst j. rewrite N in N'. injection N' as <-.
           rewrite (suits_one _ _ _ _ _ W V). rewrite (Os k p N) by (rewrite E; exact NI). exact (put_same o q k v p S N).
        -- intros j p' N' NJ. cbn in NJ. rewrite (Os j p' N') by tauto. apply put_other. intros ->. rewrite N in N'. injection N' as <-. apply NJ. left. now symmetry.
      * right. split; [|exact F]. exists m, b. split; [now right|exact D].
    + right. split.
      * exists nm, a. split; [now left|]. intros k' p' w N' E' L W. assert (k' = k) by (eapply (names_nth o k' k p' p ND); eauto; congruence). subst k'. rewrite N in N'. injection N' as <-. exact (NV w W).
      * exists q, e. destruct e as [[]| |]; [congruence|auto..].
Qed.

(** * The invocation *)

Lemma value_get : forall o q k p v, shape o q -> nth_error (o_params o) k = Some p -> value_at q k = Some v -> get_param q (Z.of_nat k) = Ok v.
Proof.
  intros o q k p v S N E. unfold value_at in E. destruct (nth_error (rvals q) k) as [[w u]|] eqn:X; [|discriminate]. injection E as <-.
  exact (get_param_nth _ _ _ _ X).
Qed.
Lemma value_some : forall o q k p, shape o q -> nth_error (o_params o) k = Some p -> exists v, value_at q k = Some v.
Proof. intros o q k p S N. destruct (shape_nth o q k p S N) as (v & E). exists v. unfold value_at. now rewrite E. Qed.

Lemma shape_index : forall o q k p, shape o q -> NoDup (names o) -> nth_error (o_params o) k = Some p -> get_index q (Some (p_name p)) = Z.of_nat k.
Proof.
  intros o q k p S ND N. destruct (index_cases o q (p_name p) S ND) as [[I _]|(j & p' & N' & E & ->)].
  - exfalso. apply I. unfold names. apply in_map. eapply nth_error_In; eauto.
  - now rewrite (names_nth o j k p' p ND N' N E).
Qed.

Lemma invoke_cases : forall r o q, shape o q -> NoDup (names o) -> Z.of_nat (length (o_params o)) < 2 ^ 31 ->
  (forall p, In p (o_params o) -> simple_type r (p_type p)) ->
  (invoke r o true (Some (o_name o)) q = Ok tt <->
   forall k p, nth_error (o_params o) k = Some p -> p_dir p <> POut -> exists v t, value_at q k = Some v /\ get_type r (p_type p) = Some t /\ atype v = ty_kind t).
Proof.
  intros r o q S ND L T.
  assert (I : invoke r o true (Some (o_name o)) q = check_inputs r q (o_params o)).
  { unfold invoke. rewrite (proj2 (leq _ _) eq_refl). unfold get_count. rewrite (shape_length o q S).
    rewrite cast_id by (unfold of_type; cbn; change (2 ^ 31) with 2147483648 in L; lia).
    rewrite Z.mod_small by (split; [lia|change (2 ^ 31) with 2147483648 in L; change (2 ^ 64) with 18446744073709551616; lia]). now rewrite Z.eqb_refl. }
  rewrite I.
  assert (X : forall p, In p (o_params o) -> p_dir p <> POut -> exists i v t, get_index q (Some (p_name p)) = i /\ get_param q i = Ok v /\ get_type r (p_type p) = Some t).
  { intros p Ip _. destruct (T p Ip) as (t & G & _). apply In_nth_error in Ip as (k & N). destruct (value_some o q k p S N) as (v & V).
    exists (Z.of_nat k), v, t. split; [now apply (shape_index o)|]. split; [|assumption]. eapply value_get; eauto. }
  rewrite (proj1 (check_inputs_ok r q (o_params o) X)). split.
  - intros H k p N D. destruct (H p (nth_error_In _ _ N) D) as (v & t & A & B & C). rewrite (shape_index o q k p S ND N) in A.
    destruct (value_some o q k p S N) as (w & W). rewrite (value_get o q k p w S N W) in A. injection A as <-. eauto.
  - intros H p Ip D. apply In_nth_error in Ip as (k & N). destruct (H k p N D) as (v & t & A & B & C). exists v, t.
    rewrite (shape_index o q k p S ND N). split; [eapply value_get; eauto|auto].
Qed.

Definition filled (r : reg) (o : oper) (args : list pyval) (kws : list (list Z * pyval)) (q : request) : Prop :=
  forall k p, nth_error (o_params o) k = Some p ->
    (forall a v, argument_of args kws k (p_name p) a -> suits r p a v -> value_at q k = Some v) /\
    ((forall a, ~ argument_of args kws k (p_name p) a) -> value_at q k = Some (any_new KNone)).

Lemma assoc_one : forall (kws : list (list Z * pyval)) nm a b, NoDup (map fst kws) -> In (nm, a) kws -> In (nm, b) kws -> a = b.
Proof.
  induction kws as [|[m c] kws IH]; intros nm a b ND A B; [destruct A|]. cbn in ND. apply NoDup_cons_iff in ND as [NI ND].
  destruct A as [A|A], B as [B|B]; try congruence; [| |eauto]; exfalso; apply NI.
  - injection A as -> ->. now apply (in_map fst) in B.
  - injection B as -> ->. now apply (in_map fst) in A.
Qed.

Lemma argument_dec : forall args kws k nm, {a | argument_of args kws k nm a} + {forall a, ~ argument_of args kws k nm a}.
Proof.
  intros args kws k nm. destruct (nth_error args k) as [a|] eqn:E.
  - left. exists a. now constructor.
  - assert (D : {a | In (nm, a) kws} + {forall a, ~ In (nm, a) kws}).
    { clear. induction kws as [|[m b] kws IH]; [right; intros a []|]. destruct (list_eq_dec Z.eq_dec m nm) as [->|N].
      - left. exists b. now left.
      - destruct IH as [(a & I)|H]; [left; exists a; now right|]. right. intros a [X|X]; [congruence|exact (H a X)]. }
    destruct D as [(a & I)|H].
    + left. exists a. apply by_name; [now apply nth_error_None|assumption].
    + right. intros a X. inversion X; subst; [congruence|]. eapply H; eauto.
Qed.

Lemma call_cases : forall n r o q0 args kws inv, described o -> Z.of_nat (length (o_params o)) < 2 ^ 31 ->
  create_request n r o = Some (Ok q0) -> NoDup (map fst kws) -> (forall nm a, In (nm, a) kws -> ~ In 0 nm) ->
  (good_call r o args kws /\ exists q, shape o q /\ rret q = any_new KNone /\ filled r o args kws q /\
     py_call n r o true args kws inv = ([q], match inv q with
       | (_, Throw e) => Throw (PySmp e)
       | (_, UB) => UB
       | (q', Ok _) => results o q'
       end)) \/
  (~ good_call r o args kws /\ exists x, py_call n r o true args kws inv = ([], x) /\ forall y, x <> Ok y).
Proof.
  intros n r o q0 args kws inv P L C NK NN. pose proof (orun_published o P) as P'.
  destruct (created n r o q0 P' L C) as [Q0 T]. pose proof (published_well o P') as [ND _].
  assert (S0 : shape o q0). { subst q0. split; [reflexivity|]. cbn. rewrite map_map. reflexivity. }
  assert (V0 : forall k p, nth_error (o_params o) k = Some p -> value_at q0 k = Some (any_new KNone)).
  { intros k p N. subst q0. unfold value_at. cbn. now rewrite (map_nth_error (fun p => (any_new KNone, p_type p)) _ _ N). }
  assert (R0 : rret q0 = any_new KNone) by (subst q0; reflexivity).
  unfold py_call. rewrite C. destruct (Z.ltb_spec (Z.of_nat (length (o_params o))) (Z.of_nat (length args))) as [B|B].
  { right. split; [intros (X & _); lia|]. eexists; split; [reflexivity|discriminate]. }
  destruct (bind_args_cases r o args 0 q0 S0 ltac:(lia)) as [[A (q1 & E1 & S1 & V1 & O1)]|[(j & a & p & N1 & N2 & NS) (q1 & e & E1 & NE)]];
    cbn [Z.of_nat] in E1; rewrite E1.
  2: { right. split; [|destruct e as [[]|x|]; [congruence|eexists; split; [reflexivity|discriminate]..]].
       intros (_ & _ & X & _). destruct (X j p a N2 (by_position _ _ _ _ _ N1)) as (v & W). exact (NS v W). }
  destruct (bind_kwargs_cases r o (length args) ND kws q1 S1 NK NN) as [[A2 (q2 & E2 & S2 & V2 & O2)]|[(nm & a & I & NS) (q2 & e & E2 & NE)]]; rewrite E2.
  2: { right. split; [|destruct e as [[]|x|]; [congruence|eexists; split; [reflexivity|discriminate]..]].
       intros (_ & X & Y & _). destruct (X nm a I) as (k & p & N & En & Lk). destruct (Y k p a N) as (v & W); [subst nm; now apply by_name|]. exact (NS k p v N En Lk W). }
  assert (R : forall ps i l q q' e, bind_args r ps i l q = (q', e) -> rret q' = rret q).
  { clear. intros ps i l. revert i. induction l as [|a l IH]; intros i q q' e E; cbn in E; [injection E as <- <-; reflexivity|].
    assert (X : rret (fst (assign r ps i a q)) = rret q).
    { unfold assign. destruct (nth_error ps (Z.to_nat i)); [|reflexivity]. destruct (get_type r _); [|reflexivity]. destruct (of_py a _) as [v| |]; try reflexivity.
      destruct (set_param_cases r q i v) as [(k & old & u & tt' & _ & _ & _ & _ & X)|[[x X]|X]]; rewrite X; reflexivity. }
    destruct (assign r ps i a q) as [q1 [u|x|]]; cbn in X; [rewrite <- X; eauto|injection E as <- <-; exact X..]. }
  assert (R2 : forall ps i l q q' e, bind_kwargs r ps i l q = (q', e) -> rret q' = rret q).
  { clear. intros ps i l. induction l as [|[nm a] l IH]; intros q q' e E; cbn [bind_kwargs] in E; [injection E as <- <-; reflexivity|]. cbv zeta in E.
    destruct (_ =? -1); [injection E as <- <-; reflexivity|]. destruct (_ <=? i); [injection E as <- <-; reflexivity|].
    set (k := get_index q (Some (cut nm))) in *.
    assert (X : rret (fst (assign r ps k a q)) = rret q).
    { unfold assign. destruct (nth_error ps (Z.to_nat k)); [|reflexivity]. destruct (get_type r _); [|reflexivity]. destruct (of_py a _) as [v| |]; try reflexivity.
      destruct (set_param_cases r q k v) as [(j & old & u & tt' & _ & _ & _ & _ & X)|[[x X]|X]]; rewrite X; reflexivity. }
    destruct (assign r ps k a q) as [q1 [u|x|]]; cbn in X; [rewrite <- X; eauto|injection E as <- <-; exact X..]. }
  apply R in E1. apply R2 in E2. clear R R2.
  assert (F : filled r o args kws q2).
  { intros k p N. split.
    - intros a v G W. inversion G as [? X|? X Y]; subst.
      + rewrite (O2 k p N). { exact (V1 k a p v X N W). }
        intros I. apply in_map_iff in I as ((nm & b) & J & I). cbn in J. subst nm. destruct (A2 _ _ I) as (k' & p' & v' & N' & E' & L' & _).
        assert (k' = k) by exact (names_nth o k' k p' p ND N' N E'). subst k'. assert (k < length args)%nat by (apply nth_error_Some; congruence). lia.
      + exact (V2 a k p v N Y W).
    - intros H. rewrite (O2 k p N).
      + rewrite O1; [exact (V0 k p N)|]. right. cbn. destruct (nth_error args k) as [a|] eqn:X; [destruct (H a (by_position _ _ _ _ _ X))|now apply nth_error_None].
      + intros I. apply in_map_iff in I as ((nm & b) & J & I). cbn in J. subst nm. destruct (A2 _ _ I) as (k' & p' & v' & N' & E' & L' & _).
        assert (k' = k) by exact (names_nth o k' k p' p ND N' N E'). subst k'. exact (H b (by_name _ _ _ _ b L' I)). }
  assert (SU : forall k p a, nth_error (o_params o) k = Some p -> argument_of args kws k (p_name p) a -> exists v, suits r p a v).
  { intros k p a N G. inversion G as [? X|? X Y]; subst.
    - destruct (A k a X) as (p' & v & N' & W). cbn in N'. rewrite N in N'. injection N' as <-. eauto.
    - destruct (A2 _ _ Y) as (k' & p' & v & N' & E' & _ & W). assert (k' = k) by exact (names_nth o k' k p' p ND N' N E'). subst k'. rewrite N in N'. injection N' as <-. eauto. }
  pose proof (invoke_cases r o q2 S2 ND L T) as I.
  assert (GC : invoke r o true (Some (o_name o)) q2 = Ok tt <-> good_call r o args kws).
  { rewrite I. split.
    - intros H. split; [lia|]. split; [intros nm a J; destruct (A2 _ _ J) as (k & p & v & N & E & Lk & _); eauto|]. split; [assumption|].
      intros k p N D. destruct (argument_dec args kws k (p_name p)) as [(a & G)|NG]; [eauto|]. exfalso.
      destruct (H k p N D) as (v & t & X & G & K). rewrite (proj2 (F k p N) NG) in X. injection X as <-.
      destruct (T p (nth_error_In _ _ N)) as (t' & G' & K'). rewrite G in G'. injection G' as <-. cbn in K. congruence.
    - intros (_ & _ & _ & H) k p N D. destruct (H k p N D) as (a & G). destruct (SU k p a N G) as (v & W). exists v.
      destruct W as (t & Gt & Wt & Vt). exists t. split; [|split; [assumption|exact (valid_kind _ _ _ Vt)]].
      apply (proj1 (F k p N) a v G). exists t. auto. }
  destruct (invoke r o true (Some (o_name o)) q2) as [[]|e|] eqn:IV.
  - left. split; [now apply GC|]. exists q2. split; [assumption|]. split; [congruence|]. split; [assumption|].
    destruct (inv q2) as [q' [u|e|]]; reflexivity.
  - right. split; [intros G; apply GC in G; discriminate|]. eexists; split; [reflexivity|discriminate].
  - right. split; [intros G; apply GC in G; discriminate|]. eexists; split; [reflexivity|discriminate].
Qed.

(** * The results *)

Lemma aset_spec : forall (n : list Z) (x : pyval) ns, NoDup (map fst ns) -> ~ In n (map fst ns) -> setattr n x ns = ns ++ [(n, x)].
Proof.
  intros n x. unfold setattr. induction ns as [|[m y] ns IH]; intros ND NI; [reflexivity|]. cbn in *. apply NoDup_cons_iff in ND as [_ ND].
  destruct (list_eqb n m) eqn:E; [apply leq in E; subst m; tauto|]. now rewrite IH by tauto.
Qed.

Lemma collect_spec : forall o q, shape o q -> NoDup (names o) -> forall ps d ns none, o_params o = d ++ ps ->
  NoDup (map fst ns) -> NoDup (map (fun p => py_name (p_name p)) ps) -> (forall p, In p ps -> ~ In (py_name (p_name p)) (map fst ns)) ->
  (exists xs, Forall2 (fun p x => exists k v, nth_error (o_params o) k = Some p /\ value_at q k = Some v /\ to_py v = Ok x)
                      (filter (fun p => match p_dir p with PIn => false | _ => true end) ps) xs /\
     collect q ps ns none = Ok (ns ++ combine (map (fun p => py_name (p_name p)) (filter (fun p => match p_dir p with PIn => false | _ => true end) ps)) xs,
                                 none && match filter (fun p => match p_dir p with PIn => false | _ => true end) ps with [] => true | _ => false end)) \/
  (exists k p v, nth_error (o_params o) k = Some p /\ p_dir p <> PIn /\ value_at q k = Some v /\ (forall x, to_py v <> Ok x) /\ forall z, collect q ps ns none <> Ok z).
Proof.
  intros o q S ND. induction ps as [|p ps IH]; intros d ns none D NN NP DJ.
  - left. exists []. split; [constructor|]. cbn. now rewrite app_nil_r, andb_true_r.
  - assert (D' : o_params o = (d ++ [p]) ++ ps) by (rewrite <- app_assoc; exact D). cbn [map] in NP. apply NoDup_cons_iff in NP as [NI NP].
    assert (N : nth_error (o_params o) (length d) = Some p) by (rewrite D, nth_error_app2, Nat.sub_diag by lia; reflexivity).
    destruct (value_some o q _ p S N) as (v & V).
    assert (Cases : (p_dir p = PIn) \/ (p_dir p <> PIn)) by (destruct (p_dir p); (left; reflexivity) || (right; discriminate)).
    destruct Cases as [Dp|Dp].
    + cbn [collect filter]. rewrite Dp. apply (IH (d ++ [p])); try assumption. intros p' I. apply DJ. now right.
    + assert (CE : collect q (p :: ps) ns none = bind (to_py v) (fun x => collect q ps (setattr (py_name (p_name p)) x ns) false)).
      { cbn [collect]. rewrite (shape_index o q _ p S ND N), (value_get o q _ p v S N V). destruct (p_dir p); congruence. }
      assert (FE : filter (fun p => match p_dir p with PIn => false | _ => true end) (p :: ps) = p :: filter (fun p => match p_dir p with PIn => false | _ => true end) ps).
      { cbn [filter]. destruct (p_dir p); congruence. }
      rewrite CE, FE. destruct (to_py v) as [x|e|] eqn:Y.
      2-3: right; exists (length d), p, v; (split; [assumption|]); (split; [assumption|]); (split; [assumption|]); (split; [congruence|]); discriminate.
      cbn [bind]. pose proof (DJ p (or_introl eq_refl)) as NJ. rewrite aset_spec by assumption.
      destruct (IH (d ++ [p]) (ns ++ [(py_name (p_name p), x)]) false D') as [(xs & F & ->)|(k & p' & v' & A)].
      * rewrite map_app. cbn. now apply NoDup_snoc.
      * assumption.
      * intros p' I. rewrite map_app, in_app_iff. cbn. intros [J|[J|[]]]; [exact (DJ p' (or_intror I) J)|].
        apply NI. rewrite J. apply (in_map (fun p => py_name (p_name p))). exact I.
      * left. exists (x :: xs). split; [constructor; [exists (length d), v; auto|assumption]|]. cbn [combine map]. rewrite <- app_assoc. cbn. now rewrite andb_false_r.
      * right. exists k, p', v'. exact A.
Qed.

Lemma names_nodup : forall o, well o -> NoDup (map (fun p => py_name (p_name p)) (o_params o)).
Proof.
  intros o [ND V]. unfold names in *. rewrite <- (map_map p_name py_name). revert ND V. generalize (map p_name (o_params o)). clear.
  induction l as [|a l IH]; intros ND V; [constructor|]. cbn. apply NoDup_cons_iff in ND as [NI ND]. inversion V; subst. constructor; [|auto].
  intros I. apply in_map_iff in I as (b & E & I). rewrite Forall_forall in *. assert (b = a) by (apply py_name_inj; auto). subst b. contradiction.
Qed.

Lemma combine_in : forall A B (l : list A) (m : list B) (R : A -> B -> Prop) (f : A -> list Z), Forall2 R l m ->
  forall n x, In (n, x) (combine (map f l) m) -> exists a, In a l /\ n = f a /\ R a x.
Proof.
  intros A B l m R f F. induction F as [|a b l m H F IH]; intros n x I; [destruct I|]. cbn in I. destruct I as [I|I].
  - injection I as <- <-. exists a. cbn. auto.
  - destruct (IH _ _ I) as (c & C). exists c. cbn. tauto.
Qed.
Lemma in_combine_of : forall A B (l : list A) (m : list B) (R : A -> B -> Prop) (f : A -> list Z), Forall2 R l m ->
  forall a, In a l -> exists x, In (f a, x) (combine (map f l) m) /\ R a x.
Proof.
  intros A B l m R f F. induction F as [|a b l m H F IH]; intros c I; [destruct I|]. destruct I as [->|I].
  - exists b. cbn. auto.
  - destruct (IH _ I) as (x & X). exists x. cbn. tauto.
Qed.
Lemma combine_fst : forall A B (l : list A) (m : list B) (R : A -> B -> Prop) (f : A -> list Z), Forall2 R l m -> map fst (combine (map f l) m) = map f l.
Proof. intros A B l m R f F. induction F as [|a b l m H F IH]; [reflexivity|]. cbn. now rewrite IH. Qed.

Lemma NoDup_filter_map : forall A (f : A -> list Z) (g : A -> bool) l, NoDup (map f l) -> NoDup (map f (filter g l)).
Proof.
  intros A f g. induction l as [|a l IH]; intros ND; [constructor|]. cbn in *. apply NoDup_cons_iff in ND as [NI ND].
  destruct (g a); [|auto]. cbn. constructor; [|auto]. intros I. apply NI. apply in_map_iff in I as (b & E & I). apply filter_In in I as [I _].
  rewrite <- E. now apply in_map.
Qed.

Lemma nodup_both : forall (l m : list (list Z)), NoDup l -> NoDup m -> (forall n, In n l -> ~ In n m) -> NoDup (l ++ m).
Proof.
  induction l as [|a l IH]; intros m A B D; [exact B|]. cbn. apply NoDup_cons_iff in A as [NA A]. constructor.
  - rewrite in_app_iff. intros [X|X]; [tauto|]. exact (D a (or_introl eq_refl) X).
  - apply IH; [assumption..|]. intros n I. apply D. now right.
Qed.

Definition showable_all (o : oper) (q : request) : Prop :=
  (o_ret o <> None -> exists x, to_py (rret q) = Ok x) /\
  (forall k p v, nth_error (o_params o) k = Some p -> p_dir p <> PIn -> value_at q k = Some v -> exists x, to_py v = Ok x).

Lemma results_spec : forall o q, described o -> shape o q ->
  (showable_all o q -> (o_ret o = None /\ (forall p, In p (o_params o) -> p_dir p = PIn) /\ results o q = Ok None) \/
     ((o_ret o <> None \/ exists p, In p (o_params o) /\ p_dir p <> PIn) /\ exists ns, results o q = Ok (Some ns) /\ answer o q ns)) /\
  (~ showable_all o q -> forall x, results o q <> Ok x).
Proof.
  intros o q P S. pose proof (orun_published o P) as P'. pose proof (published_well o P') as W. pose proof (described_ret o P) as RO.
  pose proof W as [ND VN]. set (out := fun p => match p_dir p with PIn => false | _ => true end).
  assert (OUT : forall p, out p = true <-> p_dir p <> PIn) by (intros p; unfold out; destruct (p_dir p); split; congruence).
  pose proof (names_nodup o W) as NP.
  set (pre := match o_ret o with
        | None => Ok ([], true)
        | Some p => match get_ret o q with
                    | Ok v => bind (to_py v) (fun x => Ok (setattr (py_name (p_name p)) x [], false))
                    | Throw e => Throw (PySmp e)
                    | UB => UB
                    end
        end : res pexn (list (list Z * pyval) * bool)).
  assert (Pre : (exists ns none, pre = Ok (ns, none) /\ NoDup (map fst ns) /\ none = match o_ret o with None => true | _ => false end /\
             (forall n x, In (n, x) ns <-> exists p, o_ret o = Some p /\ n = py_name (p_name p) /\ to_py (rret q) = Ok x) /\
             (forall p, In p (o_params o) -> ~ In (py_name (p_name p)) (map fst ns)) /\ (o_ret o <> None -> exists x, to_py (rret q) = Ok x)) \/
          ((exists p, o_ret o = Some p) /\ (forall x, to_py (rret q) <> Ok x) /\ forall z, pre <> Ok z)).
  { subst pre. unfold get_ret. destruct (o_ret o) as [p|] eqn:E.
    - destruct (to_py (rret q)) as [x|e|] eqn:X.
      2-3: right; split; [eauto|]; split; [discriminate|discriminate].
      left. exists [(py_name (p_name p), x)], false. cbn. split; [reflexivity|]. split; [repeat constructor; intros []|]. split; [reflexivity|].
      split; [|split].
      + intros n y. split; [intros [I|[]]; injection I as <- <-; exists p; auto|]. intros (p' & Q & -> & Y). injection Q as <-. injection Y as <-. now left.
      + intros p' I [J|[]]. destruct (RO p E) as [V NI]. apply NI. assert (p_name p = p_name p').
        { apply py_name_inj; [assumption| |assumption]. rewrite Forall_forall in VN. apply VN. unfold names. now apply in_map. }
        rewrite H. unfold names. now apply in_map.
      + intros _. eauto.
    - left. exists [], true. split; [reflexivity|]. split; [constructor|]. split; [reflexivity|]. split; [|split; [intros ? ? []|congruence]].
      intros n x. split; [intros []|intros (p & X & _); discriminate]. }
  assert (Rs : results o q = bind pre (fun '(ns, none) => bind (collect q (o_params o) ns none) (fun '(ns, none) => Ok (if none then None else Some ns)))) by reflexivity.
  destruct Pre as [(ns & none & E & NN & Nn & AN & DJ & SR)|((p & E) & NX & NZ)].
  2: { split.
       - intros [H _]. destruct (H ltac:(congruence)) as (x & X). destruct (NX x X).
       - intros _ x. rewrite Rs. destruct pre as [z|e|]; [destruct (NZ z eq_refl)|discriminate..]. }
  rewrite Rs, E. cbn [bind].
  destruct (collect_spec o q S ND (o_params o) [] ns none eq_refl NN NP DJ) as [(xs & F & C)|(k & p & v & N & D & V & NX & C)].
  2: { split.
       - intros [_ H]. destruct (H k p v N D V) as (x & X). destruct (NX x X).
       - intros _ x. destruct (collect q (o_params o) ns none) as [z|e|]; [destruct (C z eq_refl)|discriminate..]. }
  fold out in F, C. rewrite C. cbn [bind]. split.
  2: { intros H. exfalso. apply H. split; [assumption|]. intros k p v N D V.
       destruct (in_combine_of _ _ _ _ _ (fun p => py_name (p_name p)) F p) as (x & _ & k' & v' & N' & V' & X).
       { apply filter_In. split; [eapply nth_error_In; eauto|now apply OUT]. }
       assert (k' = k) by exact (names_nth o k' k p p ND N' N eq_refl). subst k'. rewrite V in V'. injection V' as <-. eauto. }
  intros _. destruct (filter out (o_params o)) as [|p0 l0] eqn:FO.
  - inversion F; subst xs. cbn. rewrite app_nil_r, andb_true_r.
    assert (AI : forall p, In p (o_params o) -> p_dir p = PIn).
    { intros p I. destruct (p_dir p) eqn:D; try reflexivity; exfalso;
        assert (X : In p (filter out (o_params o))) by (apply filter_In; split; [assumption|]; apply OUT; congruence); rewrite FO in X; destruct X. }
    destruct (o_ret o) as [pr|] eqn:R; subst none.
    + right. split; [left; discriminate|]. exists ns. split; [reflexivity|]. split; [assumption|]. intros n x. rewrite AN, R. split; [now left|].
      intros [H|(k & p & v & N & D & _)]; [exact H|]. rewrite (AI p (nth_error_In _ _ N)) in D. congruence.
    + left. auto.
  - right. rewrite andb_false_r. split.
    { right. exists p0. assert (X : In p0 (filter out (o_params o))) by (rewrite FO; now left). apply filter_In in X as [X1 X2]. apply OUT in X2. auto. }
    eexists. split; [reflexivity|]. rewrite <- FO in *. split.
    + rewrite map_app, (combine_fst _ _ _ _ _ _ F). apply nodup_both; [assumption|now apply NoDup_filter_map|].
      intros n I J. apply in_map_iff in J as (p & <- & J). apply filter_In in J as [J _]. exact (DJ p J I).
    + intros n x. rewrite in_app_iff, AN. split.
      * intros [H|H]; [now left|]. right. destruct (combine_in _ _ _ _ _ _ F _ _ H) as (p & I & -> & k & v & N & V & X). apply filter_In in I as [_ D]. apply OUT in D. exists k, p, v. auto 8.
      * intros [H|(k & p & v & N & D & -> & V & X)]; [now left|]. right.
        destruct (in_combine_of _ _ _ _ _ (fun p => py_name (p_name p)) F p) as (y & Iy & k' & v' & N' & V' & Y).
        { apply filter_In. split; [eapply nth_error_In; eauto|now apply OUT]. }
        assert (k' = k) by exact (names_nth o k' k p p ND N' N eq_refl). subst k'. rewrite V in V'. injection V' as <-. rewrite X in Y. injection Y as <-. exact Iy.
Qed.
