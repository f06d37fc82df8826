(** Lemmas about names, string copies, ancestors and field equivalence. *)
From Verif Require Import Base HelperModel HelperSpec.

Lemma isdigit_ok c : isdigit c = true <-> digit c.
Proof. unfold isdigit, digit. rewrite andb_true_iff, !Z.leb_le. tauto. Qed.
Lemma isalpha_ok c : isalpha c = true <-> letter c.
Proof. unfold isalpha, letter. rewrite orb_true_iff, !andb_true_iff, !Z.leb_le. tauto. Qed.
Lemma isalnum_ok c : isalnum c = true <-> letter c \/ digit c.
Proof. unfold isalnum. rewrite orb_true_iff, isalpha_ok, isdigit_ok. tauto. Qed.

Lemma skip_while_spec p l a b : skip_while p l = Some (a, b) ->
  l = a ++ b /\ Forall (fun c => p c = true) a /\ exists c r, b = c :: r /\ p c = false.
Proof.
  revert a b. induction l as [|c l IH]; cbn; intros a b H; [discriminate|].
  destruct (p c) eqn:E.
  - destruct (skip_while p l) as [[a' b']|]; [|discriminate]. injection H as <- <-.
    destruct (IH _ _ eq_refl) as (-> & F & X). auto.
  - injection H as <- <-. repeat split; auto. eauto.
Qed.

Lemma skip_while_stops p s c r : p c = false -> exists a b, skip_while p (s ++ c :: r) = Some (a, b).
Proof.
  intros E. induction s as [|x s (a & b & IH)]; cbn; [rewrite E; eauto|].
  destruct (p x); [rewrite IH|]; eauto.
Qed.

Lemma skip_while_exact p a c r : Forall (fun x => p x = true) a -> p c = false ->
  skip_while p (a ++ c :: r) = Some (a, c :: r).
Proof.
  intros F E. induction F as [|x a H F IH]; cbn; [now rewrite E|]. now rewrite H, IH.
Qed.

Lemma c_str_ok block s : cstring block s -> c_str block = Some s.
Proof.
  intros [[r ->] N]. unfold c_str. rewrite skip_while_exact; [reflexivity| |reflexivity].
  apply Forall_forall. intros x I. destruct (Z.eqb_spec x 0) as [->|]; [contradiction|reflexivity].
Qed.

Lemma cstring_unique block s s' : cstring block s -> cstring block s' -> s = s'.
Proof. intros H H'. apply c_str_ok in H, H'. congruence. Qed.

Lemma app_nul_split s r a b : s ++ 0 :: r = a ++ b -> ~ In 0 a -> exists t, s = a ++ t /\ b = t ++ 0 :: r.
Proof.
  revert s. induction a as [|x a IH]; cbn; intros s E N; [eauto|].
  destruct s as [|y s]; cbn in E; injection E as E1 E; subst; [tauto|].
  destruct (IH s E) as (t & -> & ->); [tauto|]. eauto.
Qed.

Lemma forall_no_nul p a : Forall (fun c => p c = true) a -> p 0 = false -> ~ In 0 a.
Proof. intros F E I. rewrite Forall_forall in F. apply F in I. congruence. Qed.

Lemma valid_ident_inv c s : letter c -> valid_name (c :: s) -> Forall (fun x => letter x \/ digit x \/ x = 95) s.
Proof. intros L H. inversion H; subst; [assumption|]. unfold letter in L. lia. Qed.

Lemma check_end_ok p t r : ~ In 0 t -> check_end p (t ++ 0 :: r) = match t with [] => Ok p | _ :: _ => Throw (BadEnd p) end.
Proof.
  destruct t as [|c t]; cbn; [reflexivity|]. intros N.
  destruct (Z.eqb_spec c 0) as [->|]; [tauto|reflexivity].
Qed.

Lemma check_name_ok block s : cstring block s ->
  (check_name (Some block) = Ok s /\ valid_name s) \/ (exists e, check_name (Some block) = Throw e) /\ ~ valid_name s.
Proof.
  intros C. pose proof (c_str_ok _ _ C) as CS. destruct C as [[r ->] N]. cbn [check_name].
  destruct s as [|c s]; cbn [app].
  { right. split; [cbn; eauto|]. inversion 1. }
  cbn [app] in CS. destruct (isalpha c) eqn:A.
  - assert (exists a b, skip_while (fun x => isalnum x || (x =? 95)) (s ++ 0 :: r) = Some (a, b)) as (a & b & E)
      by now apply skip_while_stops.
    rewrite E. apply skip_while_spec in E. destruct E as (E & F & d & b' & -> & D).
    apply app_nul_split in E; [|now apply (forall_no_nul _ _ F)]. destruct E as (t & -> & E).
    rewrite E. rewrite check_end_ok.
    2:{ intros I. apply N. right. apply in_or_app. auto. }
    apply isalpha_ok in A. destruct t as [|x t].
    + left. rewrite app_nil_r. split; [reflexivity|]. constructor; [assumption|].
      eapply Forall_impl; [|exact F]. cbn. intros y. rewrite orb_true_iff, isalnum_ok, Z.eqb_eq. tauto.
    + right. split; [eauto|]. intros V. apply valid_ident_inv in V; [|assumption].
      apply Forall_app in V as [_ V]. injection E as -> _. inversion V; subst.
      apply orb_false_iff in D as [D1 D2]. apply Z.eqb_neq in D2.
      destruct (isalnum x) eqn:Y; [discriminate|]. assert (~ (letter x \/ digit x)) by (rewrite <- isalnum_ok; congruence). tauto.
  - assert (NA : ~ letter c) by (rewrite <- isalpha_ok; congruence). destruct (Z.eqb_spec c 91) as [->|NB].
    + destruct s as [|d s]; cbn [app].
      { right. split; [cbn; eauto|]. inversion 1; subst; [now apply NA|]. destruct s; discriminate. }
      destruct (isdigit d) eqn:D.
      * assert (exists a b, skip_while isdigit (s ++ 0 :: r) = Some (a, b)) as (a & b & E)
          by now apply skip_while_stops.
        rewrite E. apply skip_while_spec in E. destruct E as (E & F & e & b' & -> & Y).
        apply app_nul_split in E; [|now apply (forall_no_nul _ _ F)]. destruct E as (t & -> & E).
        destruct (Z.eqb_spec e 93) as [->|NE].
        -- destruct t as [|x t]; cbn in E; [discriminate|]. injection E as <- ->.
           rewrite check_end_ok.
           2:{ intros I. apply N. right. right. apply in_or_app. cbn. auto. }
           destruct t as [|y t].
           ++ left. split; [reflexivity|]. apply (vn_index (d :: a)); [discriminate|].
              constructor; [now apply isdigit_ok|]. eapply Forall_impl; [|exact F]. intros ? H; now apply isdigit_ok.
           ++ right. split; [eauto|]. intros V. inversion V; subst; [now apply NA|].
              destruct s as [|z s]; [congruence|]. cbn in H. injection H as -> H.
              assert (H2 : Forall digit s) by (inversion H1; assumption).
              (* s ++ [93] = a ++ 93 :: y :: t with a digits *)
              assert (X : exists u, s = a ++ 93 :: u).
              { destruct (exists_last (l := y :: t)) as (u & w & U); [discriminate|]. rewrite U in H.
                replace (a ++ 93 :: u ++ [w]) with ((a ++ 93 :: u) ++ [w]) in H by (now rewrite <- app_assoc).
                apply app_inj_tail in H as [-> _]. eauto. }
              destruct X as [u ->]. apply Forall_app in H2 as [_ H2]. inversion H2; subst. unfold digit in *. lia.
        -- right. split; [eauto|]. intros V. inversion V; subst; [now apply NA|].
           destruct s as [|z s]; [congruence|]. cbn in H. injection H as -> H.
           inversion H1; subst.
           (* first non digit of s ++ [93] is 93 *)
           assert (X : skip_while isdigit ((s ++ [93]) ++ 0 :: r) = Some (s, [93] ++ 0 :: r)).
           { rewrite <- app_assoc. apply skip_while_exact; [|reflexivity].
             eapply Forall_impl; [|eassumption]. intros ? ?; now apply isdigit_ok. }
           rewrite H in X. rewrite <- app_assoc, <- E in X. rewrite skip_while_exact in X; [|assumption|assumption].
           injection X as _ X. congruence.
      * right. split; [eauto|]. intros V. inversion V; subst; [now apply NA|].
        destruct s0 as [|z s0]; [congruence|]. cbn in H. injection H as -> H. inversion H1; subst.
        apply isdigit_ok in H4. congruence.
    + right. rewrite CS. split; [eauto|]. inversion 1; subst; [contradiction|lia].
Qed.

(** * CopyString *)
Lemma poke_app a c r v : poke (length a) v (a ++ c :: r) = Some (a ++ v :: r).
Proof. induction a as [|x a IH]; cbn; [reflexivity|]. now rewrite IH. Qed.
Lemma poke_short i v m : (length m <= i)%nat -> poke i v m = None.
Proof.
  revert i. induction m as [|c m IH]; cbn; intros i H; [now destruct i|]. destruct i as [|i]; [lia|].
  cbn. now rewrite IH by lia.
Qed.
Lemma copy_bytes_app s m : (length s <= length m)%nat -> copy_bytes s m = Some (s ++ skipn (length s) m).
Proof.
  revert m. induction s as [|c s IH]; cbn; intros m H; [reflexivity|]. destruct m as [|d m]; cbn in *; [lia|].
  now rewrite IH by lia.
Qed.
Lemma copy_bytes_short s m : (length m < length s)%nat -> copy_bytes s m = None.
Proof.
  revert m. induction s as [|c s IH]; cbn; intros m H; [lia|]. destruct m as [|d m]; cbn in *; [reflexivity|].
  now rewrite IH by lia.
Qed.

Lemma copy_string_ok dst size block s : cstring block s ->
  (Nat.min size (length s) < length dst)%nat ->
  copy_string dst size (Some block) = Some (firstn size s ++ 0 :: skipn (S (length (firstn size s))) dst).
Proof.
  intros C H. cbn [copy_string]. rewrite (c_str_ok _ _ C).
  replace (firstn (Nat.min size (length s)) s) with (firstn size s).
  2:{ destruct (Nat.le_ge_cases size (length s)).
      - now rewrite Nat.min_l by assumption.
      - rewrite Nat.min_r by assumption. rewrite !firstn_all2 by lia. reflexivity. }
  assert (L : length (firstn size s) = Nat.min size (length s)) by apply firstn_length.
  rewrite copy_bytes_app by lia. rewrite <- L.
  assert (X : exists c, skipn (length (firstn size s)) dst = c :: skipn (S (length (firstn size s))) dst).
  { assert (G : (length (firstn size s) < length dst)%nat) by lia. revert G. generalize (length (firstn size s)) as k. clear.
    induction dst as [|c dst IH]; cbn; intros k G; [lia|]. destruct k as [|k]; [cbn; eauto|].
    destruct (IH k) as [d E]; [lia|]. cbn; eauto. }
  destruct X as [c ->]. apply poke_app.
Qed.

Lemma copy_string_overrun dst size block s : cstring block s ->
  (length dst <= Nat.min size (length s))%nat -> copy_string dst size (Some block) = None.
Proof.
  intros C H. cbn [copy_string]. rewrite (c_str_ok _ _ C).
  assert (L : length (firstn (Nat.min size (length s)) s) = Nat.min size (length s)) by (rewrite firstn_length; lia).
  destruct (Nat.eq_dec (length dst) (Nat.min size (length s))) as [E|E].
  - rewrite copy_bytes_app by lia. apply poke_short. rewrite app_length, skipn_length. lia.
  - now rewrite copy_bytes_short by lia.
Qed.

Lemma firstn_longest n (s : list Z) : longest_prefix (firstn n s) s n.
Proof.
  split; [|split].
  - exists (skipn n s). symmetry. apply firstn_skipn.
  - rewrite firstn_length. lia.
  - intros q r -> H. rewrite firstn_length, app_length. lia.
Qed.

(** * IsAncestor *)
Section Ancestors.
  Context {A : Type} (eqb : A -> A -> bool) (eqb_ok : forall a b, eqb a b = true <-> a = b) (parent : A -> option A).

  Lemma is_ancestor_sound n : forall a o b, is_ancestor eqb parent n (Some a) (Some o) = Some b ->
    (b = true <-> ancestor_or_self parent a o).
  Proof.
    induction n as [|n IH]; cbn; intros a o b H; [discriminate|].
    destruct (eqb o a) eqn:E.
    - injection H as <-. apply eqb_ok in E. subst. split; [constructor|reflexivity].
    - assert (NE : o <> a) by (intros ->; rewrite (proj2 (eqb_ok a a) eq_refl) in E; discriminate).
      destruct (parent o) as [p|] eqn:P.
      + rewrite (IH a p b H). split; [intros X; now apply (aos_up _ _ _ p)|].
        inversion 1; subst; [contradiction|congruence].
      + destruct n; cbn in H; injection H as <-; (split; [discriminate|]; inversion 1; subst; [contradiction|congruence]).
  Qed.

  (** The loop ends when every parent chain is finite: [rank] decreases towards the root. *)
  Lemma is_ancestor_ends (rank : A -> nat) (R : forall o p, parent o = Some p -> (rank p < rank o)%nat) n :
    forall a o, (rank o < n)%nat -> is_ancestor eqb parent n (Some a) (Some o) <> None.
  Proof.
    induction n as [|n IH]; intros a o H; [lia|]. cbn. destruct (eqb o a); [discriminate|].
    destruct (parent o) as [p|] eqn:P; [|destruct n; discriminate]. apply IH. pose proof (R _ _ P). lia.
  Qed.
End Ancestors.

(** * AreEquivalent *)
Fixpoint eqv_list (l l' : list field) : bool :=
  match l, l' with
  | x :: r, y :: r' => are_equivalent x y && eqv_list r r'
  | _, _ => true
  end.
Lemma eqv_array l b : are_equivalent (FArray l) b =
  match b with FArray l' => (length l' =? length l)%nat && eqv_list l l' | _ => false end.
Proof. reflexivity. Qed.
Lemma eqv_struct l b : are_equivalent (FStruct l) b =
  match b with FStruct l' => (length l' =? length l)%nat && eqv_list l l' | _ => false end.
Proof. reflexivity. Qed.

Definition any_kind (k k' : Z) : Prop := True.

Section FieldInd.
  Variable P : field -> Prop.
  Hypothesis HS : forall k, P (FSimple k).
  Hypothesis HA : forall n k, P (FSimpleArray n k).
  Hypothesis HR : forall l, Forall P l -> P (FArray l).
  Hypothesis HT : forall l, Forall P l -> P (FStruct l).
  Hypothesis HO : P FOther.
  Fixpoint field_ind2 (f : field) : P f :=
    match f with
    | FSimple k => HS k
    | FSimpleArray n k => HA n k
    | FArray l => HR l ((fix go l : Forall P l := match l with [] => Forall_nil _ | x :: r => Forall_cons x (field_ind2 x) (go r) end) l)
    | FStruct l => HT l ((fix go l : Forall P l := match l with [] => Forall_nil _ | x :: r => Forall_cons x (field_ind2 x) (go r) end) l)
    | FOther => HO
    end.
End FieldInd.

Lemma eqv_list_ok l l' : Forall (fun x => forall b, are_equivalent x b = true <-> same_shape any_kind x b) l ->
  (length l' =? length l)%nat && eqv_list l l' = true <-> Forall2 (same_shape any_kind) l l'.
Proof.
  intros F. revert l'. induction F as [|x l H F IH]; intros [|y l']; cbn.
  - split; [constructor|reflexivity].
  - split; [discriminate|inversion 1].
  - split; [discriminate|inversion 1].
  - specialize (IH l'). rewrite andb_true_iff in *. rewrite andb_true_iff, H.
    split.
    + intros (L & S1 & S2). constructor; [assumption|]. now apply IH.
    + intros X. inversion X as [|? ? ? ? X1 X2]; subst. apply IH in X2. tauto.
Qed.

Lemma are_equivalent_ok a : forall b, are_equivalent a b = true <-> same_shape any_kind a b.
Proof.
  induction a as [k|n k|l IH|l IH|] using field_ind2; intros b.
  - destruct b; cbn; try (split; [discriminate|inversion 1]). rewrite Z.eqb_eq.
    split; [intros ->; constructor|inversion 1; reflexivity].
  - destruct b; cbn; try (split; [discriminate|inversion 1]). rewrite andb_true_iff, !Z.eqb_eq.
    split; [intros [-> _]; constructor; exact I|inversion 1; subst; split; reflexivity].
  - rewrite eqv_array. destruct b; try (split; [discriminate|inversion 1]). rewrite eqv_list_ok by assumption.
    split; [constructor; assumption|inversion 1; assumption].
  - rewrite eqv_struct. destruct b; try (split; [discriminate|inversion 1]). rewrite eqv_list_ok by assumption.
    split; [constructor; assumption|inversion 1; assumption].
  - cbn. split; [discriminate|inversion 1].
Qed.

Lemma shape_refl (rk : Z -> Z -> Prop) a : (forall k, rk k k) -> known a -> same_shape rk a a.
Proof.
  intros R. induction a as [k|n k|l IH|l IH|] using field_ind2; intros K; inversion K; subst.
  - constructor.
  - constructor. apply R.
  - constructor. induction IH; inversion H0; subst; constructor; [auto|]. apply IHIH; [now constructor|assumption].
  - constructor. induction IH; inversion H0; subst; constructor; [auto|]. apply IHIH; [now constructor|assumption].
Qed.

Lemma Forall2_sym_in {A} (P : A -> A -> Prop) l : Forall (fun x => forall y, P x y -> P y x) l ->
  forall l', Forall2 P l l' -> Forall2 P l' l.
Proof. induction 1; intros l' X; inversion X; subst; constructor; auto. Qed.
Lemma Forall2_trans_in {A} (P : A -> A -> Prop) l : Forall (fun x => forall y z, P x y -> P y z -> P x z) l ->
  forall l' l'', Forall2 P l l' -> Forall2 P l' l'' -> Forall2 P l l''.
Proof. induction 1; intros l' l'' X Y; inversion X; subst; inversion Y; subst; constructor; eauto. Qed.

Lemma shape_sym (rk : Z -> Z -> Prop) a : (forall k k', rk k k' -> rk k' k) -> forall b, same_shape rk a b -> same_shape rk b a.
Proof.
  intros R. induction a as [k|n k|l IH|l IH|] using field_ind2; intros b H; inversion H; subst; constructor; auto.
  all: now apply Forall2_sym_in.
Qed.

Lemma shape_trans (rk : Z -> Z -> Prop) a : (forall k k' k'', rk k k' -> rk k' k'' -> rk k k'') ->
  forall b c, same_shape rk a b -> same_shape rk b c -> same_shape rk a c.
Proof.
  intros R. induction a as [k|n k|l IH|l IH|] using field_ind2; intros b c H H'; inversion H; subst; inversion H'; subst;
    constructor; eauto.
  all: eapply Forall2_trans_in; eassumption.
Qed.

Lemma Forall2_known {A} (P : A -> A -> Prop) (Q : A -> Prop) l : Forall (fun x => forall y, P x y -> Q x) l ->
  forall l', Forall2 P l l' -> Forall Q l.
Proof. induction 1; intros l' X; inversion X; subst; constructor; eauto. Qed.

Lemma shape_known (rk : Z -> Z -> Prop) a : forall b, same_shape rk a b -> known a.
Proof.
  induction a as [k|n k|l IH|l IH|] using field_ind2; intros b H; inversion H; subst; constructor.
  all: eapply Forall2_known; eassumption.
Qed.
