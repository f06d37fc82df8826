From Coq Require Import ZArith List Bool Lia.
From Verif Require Import Base UuidModel UuidProofs PathModel AnyModel AnySpec PyModel PySpec PyProofs AttrModel AttrSpec.
Import ListNotations.
Local Open Scope Z_scope.

Lemma loc_eqb_refl c : loc_eqb c c = true.
Proof. unfold loc_eqb. destruct (list_eq_dec Nat.eq_dec c c); [reflexivity|contradiction]. Qed.
Lemma loc_eqb_neq a b : a <> b -> loc_eqb a b = false.
Proof. intros N. unfold loc_eqb. destruct (list_eq_dec Nat.eq_dec a b); [contradiction|reflexivity]. Qed.

Lemma put_same w c a : w_val (put_val w c a) c = a.
Proof. cbn. now rewrite loc_eqb_refl. Qed.
Lemma put_only w c a : only c w (put_val w c a).
Proof. unfold only. split; [reflexivity|]. split; [reflexivity|]. split; [reflexivity|]. split; [reflexivity|]. intros x N. cbn. now rewrite loc_eqb_neq. Qed.
Lemma only_refl c w : only c w w.
Proof. unfold only. tauto. Qed.

Lemma of_py_exact k t z : kind_type k = Some t ->
  (of_type t z /\ of_py (PyInt z) k = Ok (Any k (PInt z))) \/ (~ of_type t z /\ of_py (PyInt z) k = Throw PyCastError).
Proof.
  intros K. rewrite (of_py_int k t _ K) by discriminate. destruct (load_int_cases t z) as [[H ->]|[H ->]]; cbn [bind].
  - left. split; [exact H|exact (mk_own k t z K H)].
  - right. now split.
Qed.

(** One assignment of an integer. *)
Lemma assign_number item w o name c t z : resolve (w_tree w) o name = Some c -> number w c t ->
  (takes w c t z /\ exists w', assign item w o name (AVal (PyInt z)) = Ok w' /\ only c w w' /\ is w' c z /\ number w' c t) \/
  (~ takes w c t z /\ exists e, assign item w o name (AVal (PyInt z)) = Throw e).
Proof.
  intros R ((k & K & KT & AT) & AO & n & cs & N). unfold assign, set_by_name. rewrite R, K.
  destruct (of_py_exact k t z KT) as [[T E]|[T E]].
  2:{ right. split; [intros (X & _); contradiction|]. exists (Convert PyCastError).
      destruct N as [N|N]; rewrite N; unfold converted; rewrite E; reflexivity. }
  assert (B : forall w', w' = put_val w c (Any k (PInt z)) -> only c w w' /\ is w' c z /\ number w' c t).
  { intros w' ->. split; [apply put_only|]. split; [unfold is; now rewrite put_same|].
    split; [|split].
    - exists k. split; [exact K|]. split; [exact KT|]. now rewrite put_same.
    - rewrite put_same. unfold any_ok. cbn [atype aval]. rewrite KT. now exists z.
    - exists n, cs. exact N. }
  destruct N as [N|N]; rewrite N; unfold converted; rewrite E; cbn [bind].
  - assert (P : ~ property w c) by (intros (n' & cs' & X); congruence).
    unfold set_field. cbn [atype aval]. destruct (w_literal w c z) eqn:L.
    + left. split; [split; [exact T|]; split; [auto|contradiction]|]. exists (put_val w c (Any k (PInt z))).
      split; [now destruct k|]. now apply B.
    + assert (D : k = KI32 \/ k <> KI32) by (destruct k; (now left) || (right; discriminate)). destruct D as [->|D].
      * right. split; [|now exists InvalidFieldValue]. intros (_ & X & _). rewrite X in L; [discriminate|now exists n, cs|exact K].
      * left. split; [split; [exact T|]; split; [intros _ X; congruence|contradiction]|].
        exists (put_val w c (Any k (PInt z))). split; [destruct k; congruence || reflexivity|]. now apply B.
  - assert (P : ~ field w c) by (intros (n' & cs' & X); congruence).
    unfold set_property. destruct (w_access w c) eqn:A.
    + left. split; [split; [exact T|]; split; [contradiction|intros _; congruence]|]. eexists. split; [reflexivity|]. now apply B.
    + right. split; [|now exists InvalidAccessKind]. intros (_ & _ & X). apply X; [now exists n, cs|exact A].
    + left. split; [split; [exact T|]; split; [contradiction|intros _; congruence]|]. eexists. split; [reflexivity|]. now apply B.
Qed.

Lemma number_value w c t : number w c t -> exists z, is w c z /\ of_type t z /\
  value w c = if match node_at (w_tree w) c with Some (Node (KLeaf Property) _ _) => true | _ => false end
              then match w_access w c with WriteOnly => Throw InvalidAccessKind | _ => Ok (PyInt z) end
              else Ok (PyInt z).
Proof.
  intros ((k & K & KT & AT) & AO & n & cs & N). unfold any_ok in AO. rewrite AT, KT in AO. destruct AO as (z & E & T).
  exists z. split; [exact E|]. split; [exact T|].
  assert (V : to_py (w_val w c) = Ok (PyInt z)).
  { destruct (w_val w c) as [k' p]. cbn in *. subst. now apply (to_py_int k t z). }
  unfold value. rewrite K, V. destruct N as [N|N]; rewrite N; reflexivity.
Qed.

Lemma in_methods name l : existsb (list_eqb name) l = true <-> In name l.
Proof.
  rewrite existsb_exists. split.
  - intros (x & I & E). apply list_eqb_eq in E. now subst.
  - intros I. exists name. split; [exact I|]. now apply list_eqb_eq.
Qed.

Lemma augment_number m item w o name c t f n x : resolve (w_tree w) o name = Some c -> number w c t -> is w c x ->
  item = true \/ ~ In name (m o) -> (property w c -> w_access w c <> WriteOnly) ->
  augment m item w o name f n = match f x n with Some r => assign item w o name (AVal (PyInt r)) | None => Throw TypeError end.
Proof.
  intros R N I M A. unfold augment, lookup.
  assert (G : negb item && existsb (list_eqb name) (m o) = false).
  { destruct M as [->|M]; [reflexivity|]. apply andb_false_iff. right. apply not_true_iff_false. intros X.
    now apply in_methods in X. }
  rewrite G, R. cbn [bind]. destruct (number_value w c t N) as (z & Iz & _ & V). unfold is in *. rewrite I in Iz. injection Iz as <-.
  assert (V' : value w c = Ok (PyInt x)).
  { rewrite V. destruct (node_at (w_tree w) c) as [[k' n' cs']|] eqn:E; [|reflexivity].
    destruct k' as [| |[]| | | | |]; try reflexivity.
    destruct (w_access w c) eqn:Q; try reflexivity. exfalso. apply A; [now exists n', cs'|reflexivity]. }
  now rewrite V'.
Qed.

(** Worlds that differ in the values of integers only. *)
Definition alike (w w' : world) : Prop :=
  w_tree w' = w_tree w /\ w_kind w' = w_kind w /\ w_access w' = w_access w /\ w_literal w' = w_literal w /\
  forall c t, number w' c t <-> number w c t.

Lemma alike_refl w : alike w w.
Proof. unfold alike. firstorder. Qed.

Lemma only_alike w w' c t : only c w w' -> number w c t -> number w' c t -> alike w w'.
Proof.
  intros (T & K & A & L & V) N N'. unfold alike. repeat (split; [assumption|]). intros x u.
  destruct (list_eq_dec Nat.eq_dec x c) as [->|D].
  - split; intros X; destruct X as ((k1 & E1 & F1 & G1) & _); [rewrite K in E1|];
      destruct N as ((k & E & F & G) & O & n & cs & Z); destruct N' as ((k' & E' & F' & G') & O' & n' & cs' & Z').
    + assert (k1 = k) by congruence. subst. assert (u = t) by congruence. subst. split; [eexists; eauto|]. split; [exact O|]. now exists n, cs.
    + assert (k1 = k) by congruence. subst. assert (u = t) by congruence. subst. split; [eexists; eauto|]. split; [exact O'|]. now exists n', cs'.
  - unfold number. rewrite (V x D), K, T. reflexivity.
Qed.

Lemma takes_alike w w' c t z : alike w w' -> (takes w' c t z <-> takes w c t z).
Proof. intros (T & K & A & L & _). unfold takes, field, property. rewrite T, K, A, L. reflexivity. Qed.
Lemma alike_trans a b c : alike a b -> alike b c -> alike a c.
Proof.
  intros (T & K & A & L & N) (T' & K' & A' & L' & N'). unfold alike.
  split; [congruence|]. split; [congruence|]. split; [congruence|]. split; [congruence|].
  intros x t. rewrite N'. apply N.
Qed.
Lemma alike_sym a b : alike a b -> alike b a.
Proof.
  intros (T & K & A & L & N). unfold alike. split; [congruence|]. split; [congruence|]. split; [congruence|]. split; [congruence|].
  intros x t. symmetry. apply N.
Qed.

Lemma lookup_object m item w o name c : resolve (w_tree w) o name = Some c -> item = true \/ ~ In name (m o) ->
  lookup m item w o name = Ok (Object c).
Proof.
  intros R M. unfold lookup. rewrite R. destruct M as [->|M]; [reflexivity|].
  destruct (existsb (list_eqb name) (m o)) eqn:X; [now apply in_methods in X|]. now rewrite andb_false_r.
Qed.
Lemma value_readable w c t x : number w c t -> is w c x -> (property w c -> w_access w c <> WriteOnly) -> value w c = Ok (PyInt x).
Proof.
  intros N I A. destruct (number_value w c t N) as (z & Iz & _ & V). unfold is in *. rewrite I in Iz. injection Iz as <-.
  rewrite V. destruct (node_at (w_tree w) c) as [[k' n' cs']|] eqn:E; [|reflexivity].
  destruct k' as [| |[]| | | | |]; try reflexivity.
  destruct (w_access w c) eqn:Q; try reflexivity. exfalso. apply A; [now exists n', cs'|reflexivity].
Qed.

Lemma eval_means w0 m w v e z : alike w0 w -> shows w v -> means w0 m v e z ->
  exists x, eval m w e = Ok x /\ operand w x = Ok z /\ match e with Op _ _ _ => x = PNum z | _ => True end.
Proof.
  intros A H M. induction M as [z|item o name c t R N M W|f a b x y z Ma IHa Mb IHb F]; cbn [eval].
  - exists (PNum z). now split.
  - assert (N1 := N). apply (proj2 (proj2 (proj2 (proj2 A)))) in N1. assert (RT : w_tree w = w_tree w0) by apply A.
    rewrite (lookup_object m item w o name c); [|now rewrite RT|exact M]. cbn [bind]. exists (PElem c). split; [reflexivity|].
    split; [|exact I]. cbn [operand]. rewrite (value_readable w c t (v c) N1 (H c t N1)); [reflexivity|].
    unfold property in *. rewrite RT. destruct A as (_ & _ & A & _). rewrite A. exact W.
  - destruct IHa as (p & -> & P & _), IHb as (q & -> & Q & _). cbn [bind]. rewrite P, Q. cbn [bind]. rewrite F.
    exists (PNum z). now split.
Qed.

Lemma exec_refines w0 m w v s v1 : alike w0 w -> shows w v -> effect w0 m v s v1 ->
  (exists w1, exec m w s = Ok w1 /\ alike w0 w1 /\ shows w1 v1) \/ (exists e, exec m w s = Throw e) /\ forall c, v1 c = v c.
Proof.
  intros A H E. assert (RT : w_tree w = w_tree w0) by apply A.
  assert (ST : forall item o name c t z v1, resolve (w_tree w0) o name = Some c -> number w0 c t -> takes w0 c t z ->
             v1 c = z -> (forall x, x <> c -> v1 x = v x) ->
             exists w1, assign item w o name (AVal (PyInt z)) = Ok w1 /\ alike w0 w1 /\ shows w1 v1).
  { intros item o name c t z v1' R N T V V'. apply (proj2 (proj2 (proj2 (proj2 A)))) in N as N1.
    rewrite <- RT in R. destruct (assign_number item w o name c t z R N1) as [(T1 & w1 & E1 & O1 & I1 & N2)|(T1 & _)].
    2:{ exfalso. apply T1. now apply (takes_alike w0 w). }
    exists w1. split; [exact E1|]. assert (A1 := only_alike w w1 c t O1 N1 N2). split; [now apply (alike_trans w0 w w1)|].
    intros x u X. destruct (list_eq_dec Nat.eq_dec x c) as [->|D]; [now rewrite V|]. rewrite (V' x D). unfold is.
    destruct O1 as (_ & _ & _ & _ & O1). rewrite (O1 x D). apply (H x u). now apply A1. }
  assert (NT : forall item o name c t z, resolve (w_tree w0) o name = Some c -> number w0 c t -> ~ takes w0 c t z ->
             exists e, assign item w o name (AVal (PyInt z)) = Throw e).
  { intros item o name c t z R N T. apply (proj2 (proj2 (proj2 (proj2 A)))) in N as N1.
    rewrite <- RT in R. destruct (assign_number item w o name c t z R N1) as [(T1 & _)|(_ & X)]; [|exact X].
    exfalso. apply T. now apply (takes_alike w0 w). }
  inversion E as [a1 a2 item o name c t z R N T V V'|a1 item o name c t z R N T|
                  a1 a2 item o name c t f n z R N T M W F V V'|a1 item o name c t f n R N T|
                  a1 item o name x R|a1 item o name f n R|
                  a1 a2 item o name c t f a b z R N M T V V'|a1 item o name c t f a b z R N M T|
                  a1 item o name f a b x y Ma Mb F|a1 item o name f a b z R M]; subst; cbn [exec].
  - left. eapply ST; eauto.
  - right. split; [|reflexivity]. eapply NT; eauto.
  - apply (proj2 (proj2 (proj2 (proj2 A)))) in N as N1. assert (R1 := R). rewrite <- RT in R1.
    left. rewrite (augment_number m item w o name c t f n (v c) R1 N1 (H c t N1) M).
    + rewrite F. eapply ST; eauto.
    + unfold property in *. rewrite RT. destruct A as (_ & _ & A & _). rewrite A. exact W.
  - apply (proj2 (proj2 (proj2 (proj2 A)))) in N as N1. assert (R1 := R). rewrite <- RT in R1.
    right. split; [|reflexivity]. destruct (number_value w c t N1) as (z & Iz & _ & Vz).
    assert (Ez : z = v1 c) by (assert (X := H c t N1); unfold is in *; rewrite Iz in X; now injection X). subst z.
    unfold augment, lookup. destruct (negb item && existsb (list_eqb name) (m o)) eqn:G; [now exists TypeError|].
    rewrite R1. cbn [bind]. rewrite Vz.
    destruct T as [T|[(-> & T)|((pn & pcs & T) & W)]].
    + assert (Q : exists e, bind (Ok (PyInt (v1 c)) : res aexn pyval) (fun p => match p with
                | PyInt x => match f x n with Some r => assign item w o name (AVal (PyInt r)) | None => Throw TypeError end
                | _ => Throw TypeError end) = Throw e).
      { cbn [bind]. destruct (f (v1 c) n) as [r|] eqn:F; [|now exists TypeError]. eapply NT; eauto. }
      destruct (match node_at (w_tree w) c with Some (Node (KLeaf Property) _ _) => true | _ => false end); [|exact Q].
      destruct (w_access w c); [exact Q|exact Q|now exists InvalidAccessKind].
    + apply in_methods in T. rewrite T in G. discriminate.
    + rewrite RT, T. destruct A as (_ & _ & A & _). rewrite A, W. now exists InvalidAccessKind.
  - right. split; [|reflexivity]. unfold assign, set_by_name. rewrite RT, R. now exists (error item).
  - right. split; [|reflexivity]. unfold augment, lookup. rewrite RT, R.
    destruct (negb item && existsb (list_eqb name) (m o)); [now exists TypeError|now exists (error item)].
  - left. destruct (eval_means w0 m w v _ _ A H M) as (x & Ex & _ & X). subst x. unfold calculate. rewrite Ex. cbn [bind].
    eapply ST; eauto.
  - right. split; [|reflexivity]. destruct (eval_means w0 m w v1 _ _ A H M) as (x & Ex & _ & X). subst x. unfold calculate. rewrite Ex. cbn [bind].
    eapply NT; eauto.
  - right. split; [|reflexivity]. destruct (eval_means w0 m w v1 _ _ A H Ma) as (p & Ep & P & _), (eval_means w0 m w v1 _ _ A H Mb) as (q & Eq & Q & _).
    unfold calculate. cbn [eval]. rewrite Ep, Eq. cbn [bind]. rewrite P, Q. cbn [bind]. rewrite F. now exists TypeError.
  - right. split; [|reflexivity]. destruct (eval_means w0 m w v1 _ _ A H M) as (x & Ex & _ & X). subst x. unfold calculate. rewrite Ex. cbn [bind].
    unfold assign, set_by_name. rewrite RT, R. now exists (error item).
Qed.

Lemma shows_ext w v v' : (forall c, v' c = v c) -> shows w v -> shows w v'.
Proof. intros E S c t N. rewrite E. now apply (S c t). Qed.

Lemma script_refines w0 m l : forall v v2, effects w0 m v l v2 -> forall w, alike w0 w -> shows w v ->
  exists w2, script m w l = Ok w2 /\ alike w0 w2 /\ shows w2 v2.
Proof.
  intros v v2 E. induction E as [v|v s v1 l v2 E1 E IH]; intros w A H; [exists w; now split|].
  cbn [script]. destruct (exec_refines w0 m w v s v1 A H E1) as [(w1 & -> & A1 & H1)|((e & ->) & X)]; [now apply IH|].
  apply IH; [exact A|]. now apply (shows_ext w v).
Qed.

(** What can come out of an assignment. *)
Lemma assign_same item w o name c : resolve (w_tree w) o name = Some c -> assign item w o name (AObj c) = Ok w.
Proof. intros R. unfold assign, set_by_name. rewrite R, loc_eqb_refl. reflexivity. Qed.

Lemma assign_changes item w o name v w' : assign item w o name v = Ok w' ->
  exists c, resolve (w_tree w) o name = Some c /\ only c w w'.
Proof.
  unfold assign, set_by_name. destruct (resolve (w_tree w) o name) as [c|]; [|discriminate]. intros E. exists c. split; [reflexivity|].
  destruct (match v with AObj c' => loc_eqb c c' | AVal _ => false end); [injection E as <-; apply only_refl|].
  assert (F : forall a w1, set_field w c a = Ok w1 -> only c w w1).
  { intros [k p] w1. unfold set_field. cbn [atype aval]. intros X.
    assert (D : only c w (put_val w c (Any k p))) by apply put_only.
    destruct k; try (injection X as <-; exact D). destruct p as [|z| | | |]; try (injection X as <-; exact D).
    destruct (w_literal w c z); [injection X as <-; exact D|discriminate]. }
  assert (P : forall a w1, set_property w c a = Ok w1 -> only c w w1).
  { intros a w1. unfold set_property. destruct (w_access w c); try discriminate; intros X; injection X as <-; apply put_only. }
  destruct (node_at (w_tree w) c) as [[k n cs]|]; [|discriminate E].
  destruct k as [| |[]| | | | |]; destruct (w_kind w c) as [kk|]; try discriminate E.
  - destruct (converted w v kk) as [a| |]; cbn [bind] in E; try discriminate E.
    destruct (set_property w c a) as [w1| |] eqn:S; cbn [bind] in E; try discriminate E. injection E as <-. eapply P; eauto.
  - destruct (converted w v kk) as [a| |]; cbn [bind] in E; try discriminate E.
    destruct (set_field w c a) as [w1| |] eqn:S; cbn [bind] in E; try discriminate E. injection E as <-. eapply F; eauto.
Qed.

Lemma assign_copy item w o name c d k : resolve (w_tree w) o name = Some c -> field w c -> field w d -> c <> d ->
  w_kind w c = Some k -> w_kind w d = Some k -> atype (w_val w d) = k -> any_ok (w_val w d) ->
  (k = KI32 -> forall z, is w d z -> w_literal w c z = true) ->
  assign item w o name (AObj d) = Ok (put_val w c (w_val w d)).
Proof.
  intros R (n & cs & N) (n' & cs' & N') D K K' T O X. unfold assign, set_by_name. rewrite R, (loc_eqb_neq _ _ D), N, K.
  unfold converted. rewrite N', K', <- T, (field_copy _ O). cbn [bind]. unfold set_field.
  destruct (atype (w_val w d)) eqn:Q; try reflexivity. destruct (aval (w_val w d)) as [|z| | | |] eqn:P; try reflexivity.
  rewrite (X (eq_sym T) z P). reflexivity.
Qed.
