From Coq Require Import ZArith List Bool Lia Floats.SpecFloat.
From Verif Require Import Base UuidModel UuidProofs AnyModel AnySpec.
Import ListNotations.
Local Open Scope Z_scope.

Lemma tmin_range : forall t, tmin t = fst (type_range t).
Proof. intros []; reflexivity. Qed.
Lemma tmax_range : forall t, tmax t = snd (type_range t).
Proof. intros []; reflexivity. Qed.

Lemma width : forall t, tmin t + 2 ^ bits t = tmax t + 1.
Proof. intros []; reflexivity. Qed.

Lemma cast_id : forall t v, of_type t v -> cast t v = v.
Proof.
  intros t v H. unfold of_type in H. rewrite <- tmin_range, <- tmax_range in H.
  unfold cast. pose proof (width t).
  rewrite Z.mod_small; lia.
Qed.

Lemma cast_of_type : forall t v, of_type t (cast t v).
Proof.
  intros t v. unfold of_type. rewrite <- tmin_range, <- tmax_range.
  unfold cast. pose proof (width t).
  assert (0 < 2 ^ bits t) by (destruct t; reflexivity).
  pose proof (Z.mod_pos_bound (v - tmin t) (2 ^ bits t)). lia.
Qed.

Lemma of_type_unsigned : forall t v,
  of_type t v -> 0 <= v -> of_type (make_unsigned t) v.
Proof. intros [] v; unfold of_type; simpl; lia. Qed.

Lemma cmp_less_spec : forall T U t u,
  of_type T t -> of_type U u -> cmp_less T U t u = (t <? u).
Proof.
  intros T U t u HT HU. unfold cmp_less.
  destruct (Bool.eqb _ _) eqn:E; [reflexivity|].
  destruct (is_signed T) eqn:ET.
  - assert (0 <= u) by (destruct U; unfold of_type in *; simpl in *; try discriminate; lia).
    destruct (t <? 0) eqn:Ht; [symmetry; apply Z.ltb_lt; apply Z.ltb_lt in Ht; lia|].
    apply Z.ltb_ge in Ht. rewrite cast_id by now apply of_type_unsigned. reflexivity.
  - assert (0 <= t) by (destruct T; unfold of_type in *; simpl in *; try discriminate; lia).
    destruct (u <? 0) eqn:Hu; [symmetry; apply Z.ltb_ge; apply Z.ltb_lt in Hu; lia|].
    apply Z.ltb_ge in Hu. rewrite cast_id by now apply of_type_unsigned. reflexivity.
Qed.

Lemma of_type_min : forall t, of_type t (tmin t).
Proof. intros []; unfold of_type; simpl; unfold tmin; simpl; lia. Qed.
Lemma of_type_max : forall t, of_type t (tmax t).
Proof. intros []; unfold of_type; simpl; unfold tmax; simpl; lia. Qed.

Lemma in_range_spec : forall T U v,
  of_type U v -> (in_range T U v = true <-> of_type T v).
Proof.
  intros T U v H. unfold in_range, cmp_less_equal, cmp_greater.
  rewrite !cmp_less_spec by auto using of_type_min, of_type_max.
  rewrite andb_true_iff, !negb_true_iff, !Z.ltb_ge.
  unfold of_type. rewrite <- tmin_range, <- tmax_range. tauto.
Qed.

Lemma convert_ok : forall T U v,
  of_type U v -> of_type T v -> convert_integral T U v = Ok v.
Proof.
  intros T U v HU HT. unfold convert_integral.
  rewrite (proj2 (in_range_spec T U v HU) HT). simpl. now rewrite cast_id.
Qed.

Lemma convert_throw : forall T U v,
  of_type U v -> ~ of_type T v -> convert_integral T U v = Throw InvalidAnyType.
Proof.
  intros T U v HU HT. unfold convert_integral.
  destruct (in_range T U v) eqn:E; [|reflexivity].
  now apply in_range_spec in E.
Qed.

Ltac weaken := unfold of_type in *; simpl in *; lia.

Lemma set_int_ok : forall u k t v,
  of_type u v -> kind_type k = Some t -> of_type t v ->
  set_int u k v = Ok (PInt v).
Proof.
  intros u k t v Hu Hk Ht.
  destruct k; simpl in Hk; try discriminate; injection Hk as <-;
    destruct u; simpl; unfold put, chk;
    first [ now rewrite cast_id by assumption
          | now rewrite convert_ok by assumption ].
Qed.

Lemma set_int_throw : forall u k t v,
  of_type u v -> kind_type k = Some t -> ~ of_type t v ->
  set_int u k v = Throw InvalidAnyType.
Proof.
  intros u k t v Hu Hk Ht.
  destruct k; simpl in Hk; try discriminate; injection Hk as <-;
    destruct u; simpl; unfold put, chk;
    first [ now rewrite convert_throw by assumption
          | exfalso; apply Ht; weaken ].
Qed.

Lemma get_int_ok : forall a k u t v,
  holds a k v -> kind_type k = Some u -> of_type u v -> of_type t v ->
  get_int t a = Ok v.
Proof.
  intros a k u t v [E1 E2] Hk Hu Ht. unfold get_int. rewrite E1, E2.
  destruct k; simpl in Hk; try discriminate; injection Hk as <-;
    destruct t; simpl; unfold ld, ck;
    first [ now rewrite cast_id by assumption
          | now rewrite convert_ok by assumption ].
Qed.

Lemma get_int_throw : forall a k u t v,
  holds a k v -> kind_type k = Some u -> of_type u v -> ~ of_type t v ->
  get_int t a = Throw InvalidAnyType.
Proof.
  intros a k u t v [E1 E2] Hk Hu Ht. unfold get_int. rewrite E1, E2.
  destruct k; simpl in Hk; try discriminate; injection Hk as <-;
    destruct t; simpl; unfold ld, ck;
    first [ now rewrite convert_throw by assumption
          | exfalso; apply Ht; weaken ].
Qed.

Lemma get_int_other : forall a t,
  kind_type (atype a) = None -> get_int t a = Throw InvalidAnyType.
Proof.
  intros [k p] t H. unfold get_int. simpl in *.
  destruct k; simpl in H; try discriminate; destruct t, p; reflexivity.
Qed.

Lemma release_ok : forall a, any_ok a -> any_ok (release a).
Proof.
  intros [k p]. unfold release. simpl. destruct k; auto.
  intros _. unfold any_ok. simpl. eauto.
Qed.

Lemma new_ok : forall k, any_ok (any_new k).
Proof.
  intros []; unfold any_ok; simpl; eauto;
    exists 0; split; auto; weaken.
Qed.

Lemma chk_payload : forall t u v p, chk t u v = Ok p -> exists w, p = PInt w /\ of_type t w.
Proof.
  intros t u v p. unfold chk, convert_integral. destruct (negb _); simpl; intros E;
    [discriminate|]. injection E as <-. eexists; split; [reflexivity|apply cast_of_type].
Qed.

Lemma put_payload : forall t v p, put t v = Ok p -> exists w, p = PInt w /\ of_type t w.
Proof.
  intros t v p E. injection E as <-. eexists; split; [reflexivity|apply cast_of_type].
Qed.

Lemma chkf_payload : forall r p, chkf r = Ok p -> exists f, p = PFloat f.
Proof. intros [f|e|] p E; simpl in E; try discriminate. injection E as <-. eauto. Qed.

Lemma set_payload_ok : forall k g p, set_payload k g = Ok p -> any_ok (Any k p).
Proof.
  intros k g p E. unfold any_ok. simpl.
  destruct g as [u v|b|c|s|f|f]; simpl in E.
  - destruct u, k; simpl in *; try discriminate;
      first [ now eapply put_payload, E | now eapply chk_payload, E
            | now eapply chkf_payload, E | now injection E as <-; eauto ].
  - destruct k; try discriminate. injection E as <-. simpl. eauto.
  - destruct k; try discriminate. injection E as <-. simpl. eauto.
  - destruct k; try discriminate. injection E as <-. simpl. eauto.
  - destruct k; try discriminate; injection E as <-; simpl; eauto.
  - destruct k; try discriminate; simpl;
      first [ now eapply chkf_payload, E | now injection E as <-; eauto ].
Qed.

Lemma set_value_any_ok : forall a k g, any_ok a -> any_ok (fst (set_value a k g)).
Proof.
  intros a k g H. unfold set_value. destruct (set_payload k g) eqn:E; simpl.
  - eapply set_payload_ok, E.
  - now apply release_ok.
  - now apply release_ok.
Qed.

Lemma any_step_ok : forall a o, any_ok a -> op_ok o -> any_ok (any_step a o).
Proof.
  intros a [k g| | | |b] H Ho; simpl.
  - now apply set_value_any_ok.
  - destruct a as [k p]. unfold move_string. simpl.
    destruct k, p; simpl; auto. unfold any_ok; simpl; eauto.
  - apply new_ok.
  - apply new_ok.
  - exact Ho.
Qed.

Lemma any_run_ok : forall l a, any_ok a -> Forall op_ok l -> any_ok (any_run a l).
Proof.
  induction l as [|o l IH]; intros a H F; [exact H|].
  inversion F as [|? ? F1 F2]. subst. simpl. apply IH; [|assumption].
  now apply any_step_ok.
Qed.

Lemma any_ok_int : forall a t,
  any_ok a -> kind_type (atype a) = Some t ->
  exists v, holds a (atype a) v /\ of_type t v.
Proof.
  intros a t H E. unfold any_ok in H. rewrite E in H.
  destruct H as (v & H1 & H2). exists v. split; [split; auto|exact H2].
Qed.

Lemma of_type_dec : forall t v, {of_type t v} + {~ of_type t v}.
Proof.
  intros t v. unfold of_type.
  destruct (Z_le_dec (fst (type_range t)) v), (Z_le_dec v (snd (type_range t)));
    [left; lia|right; lia|right; lia|right; lia].
Qed.

(** Equality of two objects of integral kinds. *)
Lemma any_eq_int : forall a b t v u w,
  kind_type (atype a) = Some t -> holds a (atype a) v -> of_type t v ->
  kind_type (atype b) = Some u -> holds b (atype b) w -> of_type u w ->
  any_eq a b = Ok (v =? w).
Proof.
  intros a b t v u w Ka Ha Ta Kb Hb Tb.
  assert (E : catch_false (eq_int t v b) = Ok (v =? w)).
  { unfold eq_int. destruct (of_type_dec t w) as [Y|N].
    - rewrite (get_int_ok b _ u t w Hb Kb Tb Y). reflexivity.
    - rewrite (get_int_throw b _ u t w Hb Kb Tb N). simpl.
      destruct (v =? w) eqn:E; [|reflexivity].
      apply Z.eqb_eq in E. now subst. }
  destruct Ha as [_ Ha]. unfold any_eq. rewrite Ha.
  destruct (atype a); simpl in Ka; try discriminate; injection Ka as <-; exact E.
Qed.

Lemma any_eq_int_other : forall a b t v,
  kind_type (atype a) = Some t -> holds a (atype a) v ->
  kind_type (atype b) = None -> any_eq a b = Ok false.
Proof.
  intros a b t v Ka [_ Ha] Kb.
  assert (E : forall t, catch_false (eq_int t v b) = Ok false).
  { intros t'. unfold eq_int. now rewrite get_int_other. }
  unfold any_eq. rewrite Ha.
  destruct (atype a); simpl in Ka; try discriminate; apply E.
Qed.

(** * Floating point conversions *)

Lemma convert_float_int_back : forall of_int U v f,
  of_type U v -> convert_float_int of_int U v = Ok f -> trunc f = Some v.
Proof.
  intros of_int U v f Hv. unfold convert_float_int, int_of_float.
  destruct (trunc (of_int v)) as [w|] eqn:T; [|discriminate].
  destruct (_ && (w <=? _)) eqn:R; [|discriminate].
  destruct (is_signed U && negb _) eqn:O; [discriminate|].
  destruct (negb (cast _ _ =? _)) eqn:N; [discriminate|]. intros E. injection E as <-.
  rewrite T. f_equal. apply negb_false_iff, Z.eqb_eq in N.
  apply andb_true_iff in R. destruct R as [R1 R2].
  apply Z.leb_le in R1, R2. unfold of_type in Hv.
  rewrite <- tmin_range, <- tmax_range in Hv.
  assert (P : 0 < 2 ^ bits U) by (destruct U; reflexivity).
  pose proof (width U) as W.
  unfold cast in N.
  assert (M : (v - w - tmin U) mod 2 ^ bits U = (0 - tmin U) mod 2 ^ bits U).
  { rewrite (Z.mod_small (0 - tmin U)); [lia|]. split.
    - destruct U; unfold tmin; simpl; lia.
    - destruct U; unfold tmin; simpl; lia. }
  assert (D : (2 ^ bits U | v - w)).
  { apply Z.mod_divide; [lia|].
    replace (v - w) with ((v - w - tmin U) - (0 - tmin U)) by lia.
    rewrite Zminus_mod, M, Z.sub_diag. apply Z.mod_0_l. lia. }
  destruct D as [q D]. remember (2 ^ bits U) as n eqn:En. clear En M N O.
  assert (q = 0) by (assert (- n < q * n < n) by lia; nia). lia.
Qed.
