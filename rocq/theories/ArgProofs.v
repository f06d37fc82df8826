From Verif Require Import Base UuidModel AnyModel AnySpec AnyProofs HelperModel FlowModel FlowSpec FlowProofs ArgModel ArgSpec.
From Coq Require Import ZArith List Bool Lia.
Import ListNotations.
Local Open Scope Z_scope.

Lemma existsb_In x l : existsb (Z.eqb x) l = true <-> In x l.
Proof. rewrite existsb_exists. split; [intros (y & A & B); apply Z.eqb_eq in B; now subst|intros H; exists x; split; [exact H|apply Z.eqb_refl]]. Qed.

Definition good (g : sinks) (s : port) (subs : list Z) : Prop :=
  ssorted subs /\ forall x, In x subs -> pkind (g x) = pkind s.

Lemma step_good g s subs o : good g s subs -> good g s (fst (step g s subs o)).
Proof.
  intros [A B]. destruct o as [x|x|v]; cbn; [| |now split].
  - destruct (kind_eqb (pkind (g x)) (pkind s)) eqn:K; cbn; [|now split]. apply kind_eqb_eq in K.
    destruct (existsb (Z.eqb x) subs); cbn; [now split|]. split; [now apply sins_sorted|].
    intros y Hy. apply in_sins in Hy as [->|Hy]; auto.
  - destruct (existsb (Z.eqb x) subs); cbn; [|now split]. split; [now apply sdel_sorted|].
    intros y Hy. apply in_sdel_incl in Hy. auto.
Qed.

Lemma run_cons g s subs o os : fst (run g s subs (o :: os)) = fst (run g s (fst (step g s subs o)) os).
Proof. cbn. destruct (step g s subs o) as [s1 x]. cbn. destruct (run g s s1 os). reflexivity. Qed.

Lemma run_good g s os : forall subs, good g s subs -> good g s (fst (run g s subs os)).
Proof. induction os as [|o os IH]; intros subs H; [exact H|]. rewrite run_cons. apply IH, step_good, H. Qed.

Lemma run_subs g s os x : forall subs, good g s subs ->
  (In x (fst (run g s subs os)) <->
   subscribed_after (fun y => kind_eqb (pkind (g y)) (pkind s)) os x (existsb (Z.eqb x) subs) = true).
Proof.
  induction os as [|o os IH]; intros subs H.
  - cbn. now rewrite existsb_In.
  - rewrite run_cons, IH by now apply step_good. destruct H as [A B]. destruct o as [y|y|v]; cbn [subscribed_after step fst]; [| |tauto].
    + destruct (kind_eqb (pkind (g y)) (pkind s)) eqn:K; cbn [negb].
      * destruct (existsb (Z.eqb y) subs) eqn:E; cbn [fst].
        -- destruct (Z.eqb_spec x y) as [->|N]; cbn; [rewrite K, E; tauto|tauto].
        -- assert (X : existsb (Z.eqb x) (sins y subs) = (if (x =? y) && kind_eqb (pkind (g x)) (pkind s) then true else existsb (Z.eqb x) subs)).
           { destruct (Z.eqb_spec x y) as [->|N]; cbn.
             - rewrite K. apply existsb_In, in_sins. now left.
             - apply eq_true_iff_eq. rewrite !existsb_In, in_sins. tauto. }
           rewrite X. tauto.
      * cbn [fst]. destruct (Z.eqb_spec x y) as [->|N]; cbn; [rewrite K|]; tauto.
    + destruct (existsb (Z.eqb y) subs) eqn:E; cbn [fst].
      * assert (X : existsb (Z.eqb x) (sdel y subs) = (if x =? y then false else existsb (Z.eqb x) subs)).
        { apply eq_true_iff_eq. rewrite existsb_In, in_sdel by assumption. destruct (Z.eqb_spec x y) as [->|N]; [split; [tauto|discriminate]|rewrite existsb_In; tauto]. }
        rewrite X. tauto.
      * destruct (Z.eqb_spec x y) as [->|N]; [rewrite E|]; tauto.
Qed.

Lemma emit_all g a f : forall l done, (forall x, In x l -> notify (g x) a = Ok (f x)) ->
  emit_to g a l done = Emitted (done ++ map (fun x => (x, f x)) l).
Proof.
  induction l as [|x l IH]; intros done H; cbn; [now rewrite app_nil_r|].
  rewrite (H x (or_introl eq_refl)). rewrite IH by (intros y Hy; apply H; now right). now rewrite <- app_assoc.
Qed.

Lemma argument_ok s v : declared_well s -> emits s v -> exists p, argument s v = Ok (Any (pkind s) p) /\ (p = match ptype s with EVoid => PNothing | _ => v end).
Proof.
  intros D E. destruct s as [[| |c] k]; unfold argument, pkind, declared_well, emits in *; cbn [ptype pgiven] in *.
  - eauto.
  - subst. destruct E as [t ->]. cbn. eauto.
  - exists v. split; [|reflexivity]. now apply to_any_ok.
Qed.

Lemma kind_type_inj_val c c' k : kind_of c k -> kind_of c' k -> c = c' \/ exists n m, c = CStr n /\ c' = CStr m.
Proof.
  destruct c, c'; cbn; intros A B; subst; try discriminate; try (left; congruence); auto; right; eauto.
Qed.

Lemma notify_ok s t v : declared_well s -> declared_well t -> pkind s = pkind t -> emits s v ->
  notify t (Any (pkind s) (match ptype s with EVoid => PNothing | _ => v end)) = Ok (as_received (ptype t) v).
Proof.
  intros D1 D2 K E. destruct s as [ts ks], t as [tt kt]. unfold notify, pkind, declared_well, emits, as_received in *; cbn [ptype pgiven] in *.
  destruct tt as [| |c'].
  - destruct ts as [| |c]; cbn [atype]; [reflexivity| |].
    + subst. discriminate.
    + subst. destruct c; cbn in D1; discriminate.
  - subst. destruct ts as [| |c]; [discriminate| |].
    + subst ks. destruct E as [t ->]. reflexivity.
    + subst ks. destruct c; cbn in D1; try discriminate. cbn in E. destruct v as [| | | | |[l|]]; try contradiction. reflexivity.
  - destruct ts as [| |c].
    + subst. destruct c'; cbn in D2; discriminate.
    + subst. destruct E as [t ->]. destruct c'; cbn in D2; try discriminate. cbn. destruct t; reflexivity.
    + subst. destruct (kind_type_inj_val c c' kt D1 D2) as [<-|(n & m & -> & ->)].
      * rewrite from_any_ok by assumption. cbn. destruct c; try reflexivity. cbn in E. destruct v as [| | | | |[l|]]; try contradiction. now rewrite firstn_all2.
      * cbn in D1, E. subst. destruct v as [| | | | |[l|]]; try contradiction. reflexivity.
Qed.

Lemma delivered g s os v : declared_well s -> emits s v -> (forall x, declared_well (g x)) ->
  let subs := fst (run g s [] os) in
  snd (step g s subs (Emit v)) = Emitted (map (fun x => (x, as_received (ptype (g x)) v)) subs).
Proof.
  intros D E G subs. assert (H : good g s subs) by (apply run_good; split; [constructor|intros x []]).
  cbn. destruct (argument_ok s v D E) as (p & -> & ->). rewrite (emit_all g _ (fun x => as_received (ptype (g x)) v)); [reflexivity|].
  intros x Hx. apply notify_ok; auto. symmetry. now apply H.
Qed.

Lemma emit_stop g a : forall l done out, emit_to g a l done = Failed out ->
  exists l1 x l2 ys, l = l1 ++ x :: l2 /\ out = done ++ combine l1 ys /\ length ys = length l1 /\ notify (g x) a = Throw InvalidAnyType.
Proof.
  induction l as [|x l IH]; intros done out H; cbn in H; [discriminate|].
  destruct (notify (g x) a) as [y|[]|] eqn:N; [| |discriminate].
  - destruct (IH _ _ H) as (l1 & z & l2 & ys & -> & -> & L & T). exists (x :: l1), z, l2, (y :: ys). cbn. rewrite <- app_assoc. cbn. repeat split; auto.
  - injection H as <-. exists [], x, l, []. cbn. rewrite app_nil_r. auto.
Qed.

Lemma integer_sink p k u t v : ptype p = EVal (CInt t) -> kind_type k = Some u -> of_type u v ->
  (of_type t v -> notify p (Any k (PInt v)) = Ok (RVal (PInt v))) /\
  (~ of_type t v -> notify p (Any k (PInt v)) = Throw InvalidAnyType).
Proof.
  intros P K U. unfold notify. rewrite P. cbn [from_any]. split; intros T.
  - now rewrite (get_int_ok (Any k (PInt v)) k u t v) by (try assumption; now split).
  - now rewrite (get_int_throw (Any k (PInt v)) k u t v) by (try assumption; now split).
Qed.

Lemma integer_source s c v u : ptype s = EVal (CInt c) -> of_type c v -> kind_type (pkind s) = Some u ->
  (of_type u v -> argument s (PInt v) = Ok (Any (pkind s) (PInt v))) /\
  (~ of_type u v -> argument s (PInt v) = Throw InvalidAnyType).
Proof.
  intros P C K. unfold argument. rewrite P. unfold to_any. cbn [to_arg set_payload]. split; intros U.
  - now rewrite (set_int_ok c (pkind s) u v) by assumption.
  - now rewrite (set_int_throw c (pkind s) u v) by assumption.
Qed.
