(** Lemmas about paths. *)
From Verif Require Import Base HelperModel HelperSpec HelperProofs UuidModel UuidProofs PathModel PathSpec.

(** * Decimal numbers *)
Lemma digits_value_app l c r acc : Forall (fun x => isdigit x = true) l -> isdigit c = false ->
  digits_value acc (l ++ c :: r) = (length l, fold_left (fun a x => a * 10 + (x - 48)) l acc).
Proof.
  intros F E. revert acc. induction F as [|x l H F IH]; cbn; intros acc; [now rewrite E|].
  now rewrite H, IH.
Qed.

Lemma decimal_n_spec n : forall v acc, 0 <= v < 10 ^ Z.of_nat n -> (0 < n)%nat ->
  exists d, decimal_n n v acc = d ++ acc /\ Forall (fun x => isdigit x = true) d /\ d <> [] /\
    forall a, fold_left (fun a x => a * 10 + (x - 48)) d a = a * 10 ^ Z.of_nat (length d) + v.
Proof.
  induction n as [|n IH]; intros v acc H N; [lia|]. cbn [decimal_n]. destruct (Z.ltb_spec v 10).
  - exists [48 + v]. repeat split; try discriminate.
    + constructor; [|constructor]. apply isdigit_ok. unfold digit. lia.
    + intros a. cbn [fold_left length]. change (10 ^ Z.of_nat 1) with 10. lia.
  - destruct n as [|n]; [cbn in H; lia|].
    destruct (IH (v / 10) ((48 + v mod 10) :: acc)) as (d & E & F & D & V).
    { rewrite Nat2Z.inj_succ, Z.pow_succ_r in H by lia. split; [apply Z.div_pos; lia|].
      apply Z.div_lt_upper_bound; lia. }
    { lia. }
    exists (d ++ [48 + v mod 10]). rewrite E. repeat split.
    + now rewrite <- app_assoc.
    + apply Forall_app. split; [assumption|]. constructor; [|constructor]. apply isdigit_ok. unfold digit.
      pose proof (Z.mod_pos_bound v 10). lia.
    + destruct d; discriminate.
    + intros a. rewrite fold_left_app. cbn [fold_left]. rewrite V, app_length. cbn [length].
      rewrite Nat2Z.inj_add, Z.pow_add_r by lia. cbn [Z.of_nat Z.pow Z.pow_pos Pos.iter].
      pose proof (Z.div_mod v 10 ltac:(lia)). change (10 ^ Z.of_nat 1) with 10. lia.
Qed.

Lemma pow10_big k : Z.of_nat k < 10 ^ Z.of_nat (S k).
Proof.
  induction k as [|k IH]; [reflexivity|].
  rewrite (Nat2Z.inj_succ (S k)), Z.pow_succ_r by lia. lia.
Qed.

Lemma decimal_spec i : exists d, decimal i = d /\ Forall (fun x => isdigit x = true) d /\ d <> [] /\
  fold_left (fun a x => a * 10 + (x - 48)) d 0 = Z.of_nat i.
Proof.
  destruct (decimal_n_spec (S i) (Z.of_nat i) []) as (d & E & F & D & V); [|lia|].
  - split; [lia|apply pow10_big].
  - exists d. unfold decimal. rewrite E, app_nil_r. repeat split; auto. rewrite V. lia.
Qed.

Lemma isdigit_sep x : isdigit x = true ->
  (x =? 45) = false /\ (x =? 43) = false /\ (x =? 47) = false /\ (x =? 46) = false /\ (x =? 91) = false /\ isspace x = false.
Proof.
  rewrite isdigit_ok. unfold digit, isspace. intros H.
  repeat split; rewrite ?orb_false_iff, ?andb_false_iff, ?Z.eqb_neq, ?Z.leb_gt; lia.
Qed.

Lemma stoll_decimal i r : Z.of_nat i <= i64_max ->
  stoll (decimal i ++ 93 :: r) = Some (Z.of_nat i, length (decimal i)).
Proof.
  intros H. destruct (decimal_spec i) as (d & -> & F & D & V). destruct d as [|c d]; [congruence|].
  inversion F as [|? ? Hc F']; subst. unfold stoll. destruct (isdigit_sep c Hc) as (E1 & E2 & _ & _ & _ & E3).
  cbn [app drop_spaces]. rewrite E3, E1, E2.
  change (c :: d ++ 93 :: r) with ((c :: d) ++ 93 :: r).
  rewrite digits_value_app by (assumption || reflexivity). rewrite V. cbn [length].
  replace (in_i64 (Z.of_nat i)) with true; [reflexivity|]. symmetry. apply in_i64_spec. split; [|assumption].
  unfold i64_min. pose proof (Z.pow_pos_nonneg 2 63). lia.
Qed.

Lemma item_index_ok i n : (i < n)%nat -> Z.of_nat n <= i64_max -> item_index (item_name i) n = Some i.
Proof.
  intros H B. unfold item_index, item_name. rewrite app_comm_cons, last_last. cbn [app].
  change ((91 =? 91) && (93 =? 93)) with true. cbv iota. rewrite stoll_decimal by lia.
  cbn [length]. rewrite app_length. cbn [length].
  replace (length (decimal i) + 2 =? S (length (decimal i) + 1))%nat with true by (symmetry; apply Nat.eqb_eq; lia).
  replace (Z.of_nat i <? 0) with false by (symmetry; apply Z.ltb_ge; lia).
  replace ((0 <=? Z.of_nat i) && (Z.of_nat i <? Z.of_nat n)) with true.
  2:{ symmetry. rewrite andb_true_iff, Z.leb_le, Z.ltb_lt. lia. }
  now rewrite Nat2Z.id.
Qed.

(** * Segments *)
(** What may follow a segment. *)
Definition boundary (l : list Z) : Prop :=
  match l with
  | [] => True
  | c :: r => c = 47 \/ c = 91 \/ (c = 46 /\ forall d r', r = d :: r' -> d <> 46)
  end.

Definition plain (c : Z) : Prop := c <> 46 /\ c <> 47 /\ c <> 91.

Lemma scan_plain s l : Forall plain s -> boundary l -> scan_segment (s ++ l) = (s, l).
Proof.
  intros F B. induction F as [|c s (H1 & H2 & H3) F IH]; cbn [app].
  - destruct l as [|c r]; [reflexivity|]. cbn in B. cbn [scan_segment].
    destruct B as [->|[->|[-> B]]]; [reflexivity|reflexivity|]. cbn.
    destruct r as [|d r]; [reflexivity|]. specialize (B d r eq_refl). now apply Z.eqb_neq in B as ->.
  - cbn [scan_segment]. apply Z.eqb_neq in H1 as ->, H2 as ->, H3 as ->. cbn. now rewrite IH.
Qed.

Lemma valid_plain_tail s : valid_name s -> exists c r, s = c :: r /\ (plain c \/ c = 91) /\ Forall plain r /\ c <> 95.
Proof.
  intros [c r L F|r N F].
  - exists c, r. split; [reflexivity|]. split.
    { left. unfold plain, letter in *. lia. } split; [|unfold letter in L; lia].
    eapply Forall_impl; [|exact F]. cbn. unfold plain, letter, digit. intros x. lia.
  - exists 91, (r ++ [93]). split; [reflexivity|]. split; [auto|]. split; [|lia].
    apply Forall_app. split; [|repeat constructor; lia].
    eapply Forall_impl; [|exact F]. cbn. unfold plain, digit. intros x. lia.
Qed.

Lemma first_segment_name s l : valid_name s -> boundary l -> first_segment (s ++ l) = (s, l).
Proof.
  intros V B. destruct (valid_plain_tail s V) as (c & r & -> & [P|P] & F & _); cbn [app first_segment].
  - destruct P as (P1 & P2 & P3). apply Z.eqb_neq in P3 as P4. rewrite P4. change (c :: r ++ l) with ((c :: r) ++ l).
    apply scan_plain; [constructor; [repeat split; assumption|assumption]|assumption].
  - subst c. cbn. now rewrite scan_plain.
Qed.

Lemma skip_name sep s l : valid_name s -> skip_seps sep (s ++ l) = (sep, s ++ l).
Proof.
  intros V. destruct (valid_plain_tail s V) as (c & r & -> & P & _). cbn [app skip_seps].
  assert (c <> 47 /\ c <> 46) as [H1 H2] by (unfold plain in P; lia).
  apply Z.eqb_neq in H1 as ->, H2 as ->. reflexivity.
Qed.

Definition render (x : Z * list Z) : list Z := if fst x =? 0 then snd x else fst x :: snd x.
Definition good_step (x : Z * list Z) : Prop :=
  valid_name (snd x) /\ (fst x = 47 \/ fst x = 46 \/ (fst x = 0 /\ exists r, snd x = 91 :: r)).

Lemma name_not_dot s l : valid_name s -> exists c r, s ++ l = c :: r /\ c <> 46.
Proof. intros V. destruct (valid_plain_tail s V) as (c & r & -> & P & _). exists c, (r ++ l). split; [reflexivity|]. unfold plain in P. lia. Qed.

Lemma render_boundary st l : Forall good_step st -> boundary l -> boundary (flat_map render st ++ l).
Proof.
  intros F B. destruct F as [|[sep s] st [V H] F]; [assumption|]. cbn [flat_map fst snd] in *. unfold render. cbn [fst snd].
  destruct H as [->|[->|[-> [r ->]]]]; cbn; [auto| |auto].
  right. right. split; [reflexivity|]. intros d r' E. destruct (name_not_dot s (flat_map render st ++ l) V) as (c & r'' & E2 & X).
  rewrite <- app_assoc in E. change (s ++ flat_map render st ++ l = d :: r') in E. congruence.
Qed.

Lemma next_step sep s l : good_step (sep, s) -> boundary l -> next_segment (render (sep, s) ++ l) = (sep, s, l).
Proof.
  intros [V H] B. cbn [fst snd] in *. unfold next_segment, render. cbn [fst snd].
  destruct H as [->|[->|[-> [r E]]]].
  - cbn [Z.eqb Pos.eqb app skip_seps]. rewrite skip_name by assumption. now rewrite first_segment_name.
  - cbn [Z.eqb Pos.eqb app skip_seps]. destruct (name_not_dot s l V) as (c & r & E & X). rewrite E.
    apply Z.eqb_neq in X as ->. rewrite <- E, skip_name by assumption. now rewrite first_segment_name.
  - cbn [Z.eqb]. rewrite skip_name by assumption. now rewrite first_segment_name.
Qed.

Lemma valid_nonempty s : valid_name s -> s <> [].
Proof. intros [? ? ? ?|? ? ?]; discriminate. Qed.

Lemma segments_n_render st n : Forall good_step st -> (length (flat_map render st) <= n)%nat ->
  segments_n n (flat_map render st) = st.
Proof.
  intros F. revert n. induction F as [|[sep s] st H F IH]; intros n L.
  - destruct n; reflexivity.
  - cbn [flat_map] in *. rewrite app_length in L.
    assert (N : s <> []) by (apply valid_nonempty, H).
    assert (R : (0 < length (render (sep, s)))%nat).
    { unfold render. cbn. destruct (sep =? 0); [|cbn; lia]. destruct s; [congruence|cbn; lia]. }
    destruct n as [|n]; [lia|]. cbn [segments_n].
    rewrite next_step; [|assumption|].
    2:{ rewrite <- (app_nil_r (flat_map render st)). now apply render_boundary. }
    destruct s as [|c s]; [congruence|]. rewrite IH by lia. reflexivity.
Qed.

Lemma segments_render st : Forall good_step st -> segments (flat_map render st) = st.
Proof. intros F. unfold segments. now apply segments_n_render. Qed.

(** The path of an object, step by step. *)
Definition step_sep (kp k : kind) : Z :=
  match kp with
  | KSim => 47
  | _ => match k with KComp _ => 47 | _ => match kp with KArray => 0 | _ => 46 end end
  end.
Fixpoint steps (root : tree) (o : loc) : list (Z * list Z) :=
  match o with
  | [] => []
  | i :: p =>
      match node_at root p, node_at root (i :: p) with
      | Some tp, Some t => steps root p ++ [(step_sep (kind_of tp) (kind_of t), name_of t)]
      | _, _ => []
      end
  end.

Lemma node_parent root i p t : node_at root (i :: p) = Some t ->
  exists tp, node_at root p = Some tp /\ nth_error (children tp) i = Some t.
Proof. cbn. destruct (node_at root p) as [tp|]; [eauto|discriminate]. Qed.

Lemma steps_good root : good_tree root -> forall o t, node_at root o = Some t -> Forall good_step (steps root o).
Proof.
  intros [R G]. induction o as [|i p IH]; intros t H; [constructor|].
  destruct (node_parent _ _ _ _ H) as (tp & P & C). cbn [steps]. rewrite P, H. apply Forall_app. split; [eauto|].
  constructor; [|constructor]. pose proof (nth_error_In _ _ C) as I. pose proof (G _ _ P) as GN.
  split; cbn [fst snd]; [now apply (g_names _ GN)|].
  pose proof (g_kinds _ GN _ I) as K. unfold step_sep.
  destruct (kind_of tp) eqn:KT; auto.
  - destruct (kind_of t); auto.
  - destruct (kind_of t); auto.
  - destruct (kind_of t); auto.
  - destruct (kind_of t); auto.
  - rewrite (g_items _ GN KT _ _ C). destruct (kind_of t); auto; right; right; split; auto; unfold item_name; eauto.
  - destruct (kind_of t); auto.
  - destruct (kind_of t); auto.
Qed.

Lemma kind_of_root_only root : good_tree root -> forall i p t, node_at root (i :: p) = Some t -> kind_of t <> KSim.
Proof.
  intros [R G] i p t H. destruct (node_parent _ _ _ _ H) as (tp & P & C). apply nth_error_In in C.
  pose proof (g_kinds _ (G _ _ P) _ C) as K. intros E. rewrite E in K. destruct (kind_of tp); cbn in K; try contradiction; discriminate.
Qed.

Lemma get_path_steps root : good_tree root -> forall o t, node_at root o = Some t -> o <> [] ->
  get_path root o = flat_map render (steps root o).
Proof.
  intros GT. pose proof GT as [R G]. induction o as [|i p IH]; intros t H N; [congruence|].
  destruct (node_parent _ _ _ _ H) as (tp & P & C). cbn [steps get_path]. rewrite P, H.
  rewrite flat_map_app. cbn [flat_map]. rewrite app_nil_r.
  destruct p as [|j p].
  - cbn in P. injection P as <-. rewrite R. cbn. now rewrite R.
  - rewrite (IH tp P) by discriminate. f_equal.
    pose proof (kind_of_root_only _ GT _ _ _ P) as NS. unfold render, step_sep. cbn [fst snd].
    destruct (kind_of tp) eqn:KT; try congruence; destruct (kind_of t); reflexivity.
Qed.

(** * Lookups in a node with unique names *)
Lemma named_ok n t : named n t = true <-> name_of t = n.
Proof. unfold named. apply list_eqb_eq. Qed.

Lemma find_pos_some {A} (f : A -> bool) l i : find_pos f l = Some i -> exists x, nth_error l i = Some x /\ f x = true.
Proof.
  revert i. induction l as [|x l IH]; cbn; intros i H; [discriminate|].
  destruct (f x) eqn:E; [injection H as <-; cbn; eauto|].
  destruct (find_pos f l) as [j|]; [|discriminate]. injection H as <-. cbn. auto.
Qed.
Lemma find_pos_none {A} (f : A -> bool) l : find_pos f l = None <-> forall x, In x l -> f x = false.
Proof.
  induction l as [|x l IH]; cbn; [split; [intros _ y []|reflexivity]|].
  destruct (f x) eqn:E.
  - split; [discriminate|]. intros H. rewrite H in E by auto. discriminate.
  - destruct (find_pos f l) as [n|].
    + split; [discriminate|]. intros H. assert (X : Some n = None) by (apply IH; auto). discriminate.
    + split; [|reflexivity]. intros _ y [<-|I]; [assumption|]. now apply IH.
Qed.

Lemma unique_pos {A B} (g : A -> bool) (nm : A -> B) l i j x y :
  NoDup (map nm (filter g l)) -> nth_error l i = Some x -> nth_error l j = Some y ->
  g x = true -> g y = true -> nm x = nm y -> i = j.
Proof.
  revert i j. induction l as [|z l IH]; intros i j N Hi Hj Gx Gy E; [destruct i; discriminate|].
  cbn in N. destruct i as [|i], j as [|j]; cbn in Hi, Hj; [reflexivity| | |].
  - injection Hi as ->. rewrite Gx in N. cbn in N. inversion N; subst. exfalso. apply H1.
    apply in_map_iff. exists y. split; [now symmetry|]. apply filter_In. split; [now apply nth_error_In in Hj|assumption].
  - injection Hj as ->. rewrite Gy in N. cbn in N. inversion N; subst. exfalso. apply H1.
    apply in_map_iff. exists x. split; [assumption|]. apply filter_In. split; [now apply nth_error_In in Hi|assumption].
  - f_equal. eapply IH; try eassumption. destruct (g z); [now inversion N|assumption].
Qed.

Lemma lookup_unique (f : tree -> bool) cs i t : NoDup (map name_of (filter addressable cs)) ->
  (forall x, In x cs -> f x = true -> addressable x = true) ->
  nth_error cs i = Some t -> addressable t = true ->
  find_pos (fun x => f x && named (name_of t) x) cs = if f t then Some i else None.
Proof.
  intros N FA C A. destruct (find_pos _ cs) as [j|] eqn:E.
  - apply find_pos_some in E. destruct E as (x & C' & E). apply andb_true_iff in E as [E1 E2]. apply named_ok in E2.
    assert (j = i).
    { eapply (unique_pos addressable name_of cs j i x t); try eassumption. apply FA; [|assumption]. now apply nth_error_In in C'. }
    subst j. assert (x = t) by congruence. subst. now rewrite E1.
  - destruct (f t) eqn:F; [|reflexivity]. exfalso. rewrite find_pos_none in E.
    specialize (E t (nth_error_In _ _ C)). cbn in E. rewrite F in E. cbn in E.
    rewrite (proj2 (named_ok _ t) eq_refl) in E. discriminate.
Qed.

Lemma leaf_addressable c x : is_leaf c x = true -> addressable x = true.
Proof. unfold is_leaf, addressable. now destruct (kind_of x). Qed.
Lemma field_addressable x : is_field (kind_of x) = true -> addressable x = true.
Proof. unfold addressable. now destruct (kind_of x). Qed.
Lemma held_addressable c x : held_by c x = true -> addressable x = true.
Proof. unfold held_by, addressable. now destruct (kind_of x). Qed.

Section Child.
  Context (tp t : tree) (i : nat) (GN : good_node tp) (C : nth_error (children tp) i = Some t) (A : addressable t = true).

  Lemma leaf_child_at c : leaf_child c (name_of t) tp = if is_leaf c t then Some i else None.
  Proof. unfold leaf_child. apply lookup_unique; auto; [apply GN|intros; eapply leaf_addressable; eassumption]. Qed.
  Lemma field_child_at : field_child (name_of t) tp = if is_field (kind_of t) then Some i else None.
  Proof.
    unfold field_child. apply (lookup_unique (fun x => is_field (kind_of x))); auto; [apply GN|].
    intros. now apply field_addressable.
  Qed.
  Lemma comp_in_at c : comp_in c (name_of t) tp = if held_by c t then Some i else None.
  Proof. unfold comp_in. apply lookup_unique; auto; [apply GN|intros; eapply held_addressable; eassumption]. Qed.

  Lemma comp_child_at : comp_child (name_of t) tp = match kind_of t with KComp _ => Some i | _ => None end.
  Proof.
    unfold comp_child.
    assert (X : forall l, first_some (fun c => comp_in (name_of c) (name_of t) tp) l =
                          if existsb (fun c => held_by (name_of c) t) l then Some i else None).
    { induction l as [|c l IH]; cbn; [reflexivity|]. rewrite comp_in_at.
      destruct (held_by (name_of c) t); cbn; [reflexivity|apply IH]. }
    rewrite X. destruct (kind_of t) eqn:K.
    2:{ destruct (g_held _ GN t container (nth_error_In _ _ C) K) as (k & I1 & I2 & I3).
        replace (existsb _ _) with true; [reflexivity|]. symmetry. apply existsb_exists. exists k. split.
        - apply filter_In. split; [assumption|]. unfold is_cont. now rewrite I2.
        - unfold held_by. rewrite K. apply list_eqb_eq. now symmetry. }
    all: replace (existsb _ _) with false; [reflexivity|]; symmetry; apply not_true_iff_false; intros Y;
      apply existsb_exists in Y; destruct Y as (k & _ & Y); unfold held_by in Y; rewrite K in Y; discriminate.
  Qed.
End Child.

Lemma valid_not_dotdot s : valid_name s -> list_eqb s dotdot = false.
Proof.
  intros V. apply not_true_iff_false. intros E. apply list_eqb_eq in E. subst. unfold dotdot in V.
  inversion V as [? ? L|? ? ?]; unfold letter in *; lia.
Qed.

Lemma no_underscore k o t s x : valid_name s -> by_underscore k o t s x = x.
Proof.
  intros V. destruct (valid_plain_tail s V) as (c & r & -> & _ & _ & N). cbn.
  apply Z.eqb_neq in N as ->. reflexivity.
Qed.

(** Going down to an addressable child: the result of the rest of the path, when there is
    one, is the result. *)
Lemma one_segment_child root k o tp i t x : good_node tp -> nth_error (children tp) i = Some t -> addressable t = true ->
  k (is_field (kind_of t)) (i :: o) = Some x ->
  one_segment root k (is_field (kind_of tp)) o tp (step_sep (kind_of tp) (kind_of t)) (name_of t) = Some x.
Proof.
  intros GN C A K. pose proof (nth_error_In _ _ C) as I. pose proof (g_names _ GN _ I) as V.
  pose proof (g_kinds _ GN _ I) as AL. unfold one_segment. rewrite valid_not_dotdot by assumption.
  destruct (is_field (kind_of tp)) eqn:FT.
  - unfold by_field. destruct (kind_of tp) eqn:KT; try discriminate; cbn in AL; try contradiction.
    + rewrite (field_child_at _ _ _ GN C A), AL. cbn. now rewrite AL in K.
    + rewrite (g_items _ GN KT _ _ C). rewrite item_index_ok.
      * cbn. now rewrite AL in K.
      * apply nth_error_Some. congruence.
      * apply GN.
  - rewrite no_underscore by assumption. unfold by_member.
    destruct (kind_of tp) eqn:KT; try discriminate; cbn in AL; try (destruct (kind_of t); contradiction).
    + (* simulator *) destruct (kind_of t) eqn:KC; try contradiction; [|unfold addressable in A; rewrite KC in A; discriminate].
      cbn [orelse step_sep]. unfold by_component. rewrite KT. cbn [Z.eqb Pos.eqb orb andb is_composite].
      rewrite (comp_child_at _ _ _ GN C A), KC. cbn [go]. cbn [is_field] in K. rewrite K. reflexivity.
    + rewrite !(leaf_child_at _ _ _ GN C A). unfold is_leaf.
      unfold by_invocation. rewrite !(leaf_child_at _ _ _ GN C A). unfold is_leaf.
      rewrite (field_child_at _ _ _ GN C A).
      destruct (kind_of t) as [|cn|lf| | | | |ts] eqn:KC; try contradiction.
      * cbn [go orelse is_field]. unfold by_component. rewrite KT. cbn [step_sep Z.eqb Pos.eqb orb andb is_composite].
        rewrite (comp_child_at _ _ _ GN C A), KC. cbn [go]. cbn [is_field] in K. now rewrite K.
      * cbn [is_field] in K. destruct lf; cbn [go orelse is_field]; rewrite K; reflexivity.
      * cbn [is_field] in *. cbn [go orelse]. now rewrite K.
      * cbn [is_field] in *. cbn [go orelse]. now rewrite K.
      * cbn [is_field] in *. cbn [go orelse]. now rewrite K.
      * unfold addressable in A. rewrite KC in A. discriminate.
      * unfold addressable in A. rewrite KC in A. discriminate.
Qed.

Lemma steps_cons root i p tp t : node_at root p = Some tp -> node_at root (i :: p) = Some t ->
  steps root (i :: p) = steps root p ++ [(step_sep (kind_of tp) (kind_of t), name_of t)].
Proof. intros P H. cbn [steps]. now rewrite P, H. Qed.

(** Every ancestor of an addressable object is addressable in a good tree. *)
Lemma parent_addressable root : good_tree root -> forall i p t tp, node_at root (i :: p) = Some t ->
  node_at root p = Some tp -> addressable tp = true.
Proof.
  intros [R G] i p t tp H P. destruct (node_parent _ _ _ _ H) as (tp' & P' & C). assert (tp' = tp) by congruence. subst.
  apply nth_error_In in C. pose proof (g_kinds _ (G _ _ P) _ C) as K. unfold addressable.
  destruct (kind_of tp); cbn in K; try reflexivity; destruct (kind_of t); contradiction.
Qed.

Lemma res_steps root : good_tree root -> forall o t rest x, node_at root o = Some t -> addressable t = true ->
  res_segs root (is_field (kind_of t)) o rest = Some x ->
  res_segs root false [] (steps root o ++ rest) = Some x.
Proof.
  intros GT. induction o as [|i p IH]; intros t rest x H A K.
  - cbn in H. injection H as <-. cbn [steps app]. now rewrite (proj1 GT) in K.
  - destruct (node_parent _ _ _ _ H) as (tp & P & C). rewrite (steps_cons _ _ _ _ _ P H), <- app_assoc. cbn [app].
    apply (IH tp); [assumption|eapply parent_addressable; eassumption|].
    cbn [res_segs]. rewrite P. apply one_segment_child with (i := i); auto. now apply (proj2 GT p).
Qed.

Lemma resolve_path root o t : good_tree root -> node_at root o = Some t -> addressable t = true ->
  resolve root [] (get_path root o) = Some o.
Proof.
  intros GT H A. unfold resolve. destruct o as [|i p].
  - cbn. rewrite (proj1 GT). reflexivity.
  - rewrite (get_path_steps root GT _ _ H) by discriminate.
    rewrite segments_render by (eapply steps_good; eassumption).
    rewrite <- (app_nil_r (steps _ _)). now apply (res_steps root GT _ t).
Qed.

(** Containers and references, with the underscore. *)
Lemma segments_underscore root o n : good_tree root -> (exists t, node_at root o = Some t) -> o <> [] -> valid_name n ->
  (forall c r, n = c :: r -> c <> 91) ->
  segments (get_path root o ++ 47 :: 95 :: n) = steps root o ++ [(47, 95 :: n)].
Proof.
  intros GT [t H] NE V NB. rewrite (get_path_steps root GT _ _ H NE).
  pose proof (steps_good _ GT _ _ H) as F. revert F. generalize (steps root o) as st. intros st F.
  unfold segments. remember (length (flat_map render st ++ 47 :: 95 :: n)) as m eqn:E.
  assert (L : (length (flat_map render st ++ (47 :: 95 :: n)%Z) <= m)%nat) by lia. clear E. revert m L.
  destruct (valid_plain_tail n V) as (c & r & E & [P|P] & FP & _); [|exfalso; exact (NB c r E P)].
  assert (PN : Forall plain n) by (subst n; now constructor).
  induction F as [|[sep s] st G F IH]; intros m L.
  - cbn [flat_map app] in *. cbn [length] in L. destruct m as [|m]; [lia|]. cbn [segments_n].
    replace (next_segment (47 :: 95 :: n)) with (47, 95 :: n, @nil Z).
    { destruct m; reflexivity. }
    unfold next_segment. cbn [skip_seps Z.eqb Pos.eqb]. unfold first_segment. cbn [Z.eqb Pos.eqb].
    rewrite <- (app_nil_r (95 :: n)) at 2. rewrite scan_plain; [reflexivity| |exact I].
    constructor; [unfold plain; lia|assumption].
  - cbn [flat_map] in *. rewrite <- app_assoc in *. rewrite app_length in L.
    assert (N : s <> []) by (apply valid_nonempty, G).
    assert (R : (0 < length (render (sep, s)))%nat).
    { unfold render. cbn. destruct (sep =? 0); [|cbn; lia]. destruct s; [congruence|cbn; lia]. }
    destruct m as [|m]; [lia|]. cbn [segments_n].
    rewrite next_step; [|assumption|apply render_boundary; [assumption|cbn; auto]].
    destruct s as [|a s]; [congruence|]. rewrite IH by lia. reflexivity.
Qed.

(** * Composition *)
Lemma one_segment_none root k k' fld o t sep seg : (forall f c, k f c = None -> k' f c = None) ->
  one_segment root k fld o t sep seg = None -> one_segment root k' fld o t sep seg = None.
Proof.
  intros K. unfold one_segment.
  assert (G : forall f o c x x', go k f o c x = None -> (x = None -> x' = None) -> go k' f o c x' = None).
  { intros f p c x x' H X. destruct c; cbn in *; auto. }
  assert (O : forall a b a' b' : option loc, orelse a b = None -> (a = None -> a' = None) -> (b = None -> b' = None) -> orelse a' b' = None).
  { intros [a|] b a' b' H HA HB; [discriminate|]. rewrite HA by reflexivity. cbn in *. auto. }
  destruct (list_eqb seg dotdot); [destruct (parent_of o); auto|]. destruct fld.
  - unfold by_field. destruct (kind_of t); auto; intros H; eapply G; eauto.
  - assert (M : by_member k o t seg = None -> by_member k' o t seg = None).
    { unfold by_member, by_invocation. destruct (kind_of t); auto.
      intros H. eapply G; [exact H|]. clear H. intros H. eapply G; [exact H|]. clear H. intros H. eapply G; [exact H|].
      clear H. intros H. eapply O; [exact H| |].
      - intros X. eapply G; [exact X|]. clear X. intros X. eapply G; [exact X|]. auto.
      - intros X. eapply G; [exact X|]. clear X. intros X. eapply G; [exact X|]. auto. }
    assert (C : by_component root k o t sep seg = None -> by_component root k' o t sep seg = None).
    { unfold by_component. destruct (_ && _); auto. intros H. eapply O; [exact H| |].
      - intros X. eapply G; [exact X|]. auto.
      - destruct (ref_target root seg t); auto. }
    unfold by_underscore. destruct seg as [|c n].
    + intros H. eapply O; [exact H|exact M|exact C].
    + destruct (_ && _).
      * intros H. eapply G; [exact H|]. clear H. intros H. eapply G; [exact H|]. clear H. intros H. eapply O; [exact H|exact M|exact C].
      * intros H. eapply O; [exact H|exact M|exact C].
Qed.

(** A path that leads nowhere leads nowhere when extended. *)
Lemma res_none root p q : forall fld o, res_segs root fld o p = None -> res_segs root fld o (p ++ q) = None.
Proof.
  induction p as [|[sep seg] p IH]; intros fld o H; [discriminate|]. cbn [res_segs app] in *.
  destruct (node_at root o) as [t|]; [|reflexivity]. eapply one_segment_none; [|exact H]. cbn. intros f c. apply IH.
Qed.

(** The overload used at the end: the results of the two continuations correspond. *)
Section Compose.
  Context (root : tree) (TY : typed_tree root) (q : list (Z * list Z)).
  Notation isf := (fun o => match node_at root o with Some t => is_field (kind_of t) | None => false end).
  Definition flag_ok (f : bool) (o : loc) : Prop := f = true -> isf o = true.

  Lemma one_segment_compose k k' fld o t sep seg m x :
    node_at root o = Some t -> flag_ok fld o -> isf m = false ->
    (forall f c, k f c = None -> k' f c = None) ->
    (forall f c, flag_ok f c -> k f c = Some m -> k' f c = Some x) ->
    one_segment root k fld o t sep seg = Some m -> one_segment root k' fld o t sep seg = Some x.
  Proof.
    intros N FO NF KN KS.
    assert (FI : forall i c, nth_error (children t) i = Some c -> is_field (kind_of c) = true -> flag_ok true (i :: o)).
    { intros i c E F _. cbn. now rewrite N, E. }
    assert (FF : forall c, flag_ok false c) by (intros c; unfold flag_ok; discriminate).
    assert (G : forall c y y', go k false o c y = Some m -> (y = Some m -> y' = Some x) -> go k' false o c y' = Some x).
    { intros c y y' H Y. destruct c; cbn in *; auto. }
    assert (GN : forall c y y', go k false o c y = None -> (y = None -> y' = None) -> go k' false o c y' = None).
    { intros c y y' H Y. destruct c; cbn in *; auto. }
    assert (FC : field_child seg t = None \/ (exists i, field_child seg t = Some i /\ flag_ok true (i :: o))).
    { destruct (field_child seg t) as [i|] eqn:E; [|auto]. right. exists i. split; [reflexivity|].
      apply find_pos_some in E. destruct E as (c & E & F). apply andb_true_iff in F as [F _]. eauto. }
    assert (O : forall a b a' b' : option loc, orelse a b = Some m -> (a = None -> a' = None) -> (a = Some m -> a' = Some x) ->
                (b = Some m -> b' = Some x) -> orelse a' b' = Some x).
    { intros [a|] b a' b' H HN HA HB; cbn in H.
      - injection H as ->. now rewrite HA.
      - rewrite HN by reflexivity. cbn. auto. }
    unfold one_segment. destruct (list_eqb seg dotdot).
    { destruct (parent_of o); [|discriminate]. auto. }
    destruct fld.
    - unfold by_field. specialize (FO eq_refl). cbv beta in FO. rewrite N in FO.
      destruct (kind_of t) eqn:K; try discriminate.
      + destruct FC as [->|(i & -> & F)]; cbn; [discriminate|]. auto.
      + destruct (item_index seg (length (children t))) as [i|] eqn:E; [|discriminate]. cbn.
        intros H. apply KS; [|exact H].
        destruct (nth_error (children t) i) as [c|] eqn:C.
        * apply (FI i c C). apply (TY o t N); [now rewrite K|]. now apply nth_error_In in C.
        * exfalso. apply nth_error_None in C. unfold item_index in E. destruct seg as [|z r]; [discriminate|].
          destruct (_ && _); [|discriminate]. destruct (stoll r) as [[v pos]|]; [|discriminate].
          destruct (_ =? _)%nat; [|discriminate]. destruct ((0 <=? _) && _) eqn:B; [|discriminate].
          injection E as <-. apply andb_true_iff in B as [B1 B2]. apply Z.leb_le in B1. apply Z.ltb_lt in B2. lia.
    - assert (MN : by_member k o t seg = None -> by_member k' o t seg = None).
      { intros H. assert (X := one_segment_none root k k' false o t 46 seg KN). 
        unfold by_member, by_invocation in *. destruct (kind_of t); auto.
        intros. eapply GN; [exact H|]. clear H. intros H. eapply GN; [exact H|]. clear H. intros H. eapply GN; [exact H|].
        clear H. intros H. destruct (go k false o (leaf_child Operation seg t) _) eqn:E; [discriminate|]. cbn in H.
        rewrite (GN _ _ (go k' false o (leaf_child Property seg t) None) E).
        2:{ intros Y. eapply GN; [exact Y|]. auto. }
        cbn. eapply GN; [exact H|]. clear H. intros H. destruct (field_child seg t); cbn in *; auto. }
      assert (MS : by_member k o t seg = Some m -> by_member k' o t seg = Some x).
      { unfold by_member, by_invocation. destruct (kind_of t) eqn:K; try discriminate.
        - intros H. eapply G; [exact H|]. clear H. intros H. eapply G; [exact H|]. clear H. intros H.
          eapply G; [exact H|]. clear H. intros H. eapply O; [exact H| | |].
          + intros Y. eapply GN; [exact Y|]. clear Y. intros Y. eapply GN; [exact Y|]. auto.
          + intros Y. eapply G; [exact Y|]. clear Y. intros Y. eapply G; [exact Y|]. discriminate.
          + intros Y. eapply G; [exact Y|]. clear Y. intros Y.
            destruct FC as [E|(i & E & F)]; rewrite E in *; cbn in *; [discriminate|]. auto.
        - apply KS. intros _. now rewrite N, K.
        - apply KS. intros _. now rewrite N, K.
        - apply KS. intros _. now rewrite N, K. }
      assert (CS : by_component root k o t sep seg = Some m -> by_component root k' o t sep seg = Some x).
      { unfold by_component. destruct (_ && _); [|discriminate]. intros H. eapply O; [exact H| | |].
        - intros Y. eapply GN; [exact Y|]. auto.
        - intros Y. eapply G; [exact Y|]. discriminate.
        - destruct (ref_target root seg t); [auto|discriminate]. }
      unfold by_underscore. destruct seg as [|c n].
      + intros H. eapply O; [exact H|exact MN|exact MS|exact CS].
      + destruct (_ && _).
        * intros H. eapply G; [exact H|]. clear H. intros H. eapply G; [exact H|]. clear H. intros H.
          eapply O; [exact H|exact MN|exact MS|exact CS].
        * intros H. eapply O; [exact H|exact MN|exact MS|exact CS].
  Qed.

  Lemma res_compose m x : isf m = false -> res_segs root false m q = Some x ->
    forall p fld o, flag_ok fld o -> res_segs root fld o p = Some m -> res_segs root fld o (p ++ q) = Some x.
  Proof.
    intros NF Q. induction p as [|[sep seg] p IH]; intros fld o FO H.
    - cbn in H. injection H as <-. cbn [app]. destruct fld; [|assumption]. specialize (FO eq_refl). cbv beta in *. congruence.
    - cbn [res_segs app] in *. destruct (node_at root o) as [t|] eqn:N; [|discriminate].
      revert H. eapply one_segment_compose; eauto. cbn. intros f c. apply res_none.
  Qed.
End Compose.

(** * Paths put end to end *)
Lemma skip_init q : forall s, s <> 0 ->
  skip_seps s q = let (s', l) := skip_seps 0 q in ((if s' =? 0 then s else s'), l).
Proof.
  assert (X : forall q s s' l, skip_seps s q = (s', l) -> s <> 0 -> s' <> 0).
  { induction q0 as [|c r IH]; cbn; intros s s' l H N; [congruence|].
    destruct (c =? 47); [eapply IH; [exact H|lia]|].
    destruct (c =? 46); [|congruence]. destruct r as [|d r]; [cbn in H; injection H as <- _; lia|].
    destruct (d =? 46); [congruence|]. eapply IH; [exact H|lia]. }
  destruct q as [|c r]; intros s N; cbn [skip_seps]; [reflexivity|].
  assert (Y : forall c, c <> 0 -> skip_seps c r = (let (s', l) := skip_seps c r in (if s' =? 0 then s else s', l))).
  { intros k K. destruct (skip_seps k r) as [s' l] eqn:E. apply X in E; [|assumption]. now apply Z.eqb_neq in E as ->. }
  destruct (c =? 47); [apply Y; lia|]. destruct (c =? 46); [|reflexivity].
  destruct r as [|d r]; [apply Y; lia|]. destruct (d =? 46); [reflexivity|]. apply Y; lia.
Qed.

Lemma skip_app q p : forall s s' l, skip_seps s p = (s', l) ->
  skip_seps s (p ++ 47 :: q) = match l with [] => skip_seps 47 q | _ => (s', l ++ 47 :: q) end.
Proof.
  induction p as [|c r IH]; cbn [app skip_seps]; intros s s' l H.
  - injection H as <- <-. reflexivity.
  - destruct (c =? 47) eqn:E1; [now apply IH|]. destruct (c =? 46) eqn:E2.
    + destruct r as [|d r].
      * cbn in H. injection H as <- <-. reflexivity.
      * destruct (d =? 46) eqn:E3.
        -- injection H as <- <-. cbn [app]. now rewrite E3.
        -- cbn [app] in *. rewrite E3. now apply IH.
    + injection H as <- <-. reflexivity.
Qed.

Lemma dots_app q l : forall a b, take_dots l = (a, b) -> take_dots (l ++ 47 :: q) = (a, b ++ 47 :: q).
Proof.
  induction l as [|c r IH]; cbn; intros a b H; [injection H as <- <-; reflexivity|].
  destruct (c =? 46); [|injection H as <- <-; reflexivity].
  destruct (take_dots r) as [a' b']. injection H as <- <-. now rewrite (IH _ _ eq_refl).
Qed.
Lemma scan_app q l : forall a b, scan_segment l = (a, b) -> scan_segment (l ++ 47 :: q) = (a, b ++ 47 :: q).
Proof.
  induction l as [|c r IH]; intros a b H; [cbn in H; injection H as <- <-; reflexivity|].
  cbn [app scan_segment] in *. destruct (c =? 46).
  - destruct r as [|d r]; cbn [app] in *.
    + injection H as <- <-. reflexivity.
    + destruct (d =? 46); [|injection H as <- <-; reflexivity].
      destruct (take_dots r) as [a' b'] eqn:E. injection H as <- <-. now rewrite (dots_app q _ _ _ E).
  - destruct ((c =? 47) || (c =? 91)); [injection H as <- <-; reflexivity|].
    destruct (scan_segment r) as [a' b']. injection H as <- <-. now rewrite (IH _ _ eq_refl).
Qed.
Lemma first_app q l : l <> [] -> forall a b, first_segment l = (a, b) -> first_segment (l ++ 47 :: q) = (a, b ++ 47 :: q).
Proof.
  destruct l as [|c r]; [congruence|]. intros _ a b H. unfold first_segment in *. cbn [app].
  destruct (c =? 91); [|now apply (scan_app q (c :: r))].
  destruct (scan_segment r) as [a' b'] eqn:E. injection H as <- <-. now rewrite (scan_app q _ _ _ E).
Qed.

Lemma dots_split l : forall a b, take_dots l = (a, b) -> l = a ++ b.
Proof.
  induction l as [|c r IH]; cbn; intros a b H; [injection H as <- <-; reflexivity|].
  destruct (c =? 46); [|injection H as <- <-; reflexivity].
  destruct (take_dots r) as [a' b']. injection H as <- <-. cbn. now rewrite (IH _ _ eq_refl) at 1.
Qed.
Lemma scan_split l : forall a b, scan_segment l = (a, b) -> l = a ++ b.
Proof.
  induction l as [|c r IH]; intros a b H; [cbn in H; injection H as <- <-; reflexivity|].
  cbn [scan_segment] in H. destruct (c =? 46).
  - destruct r as [|d r]; [injection H as <- <-; reflexivity|].
    destruct (d =? 46); [|injection H as <- <-; reflexivity].
    destruct (take_dots r) as [a' b'] eqn:E. injection H as <- <-. cbn. now rewrite (dots_split _ _ _ E) at 1.
  - destruct ((c =? 47) || (c =? 91)); [injection H as <- <-; reflexivity|].
    destruct (scan_segment r) as [a' b']. injection H as <- <-. cbn. now rewrite (IH _ _ eq_refl) at 1.
Qed.
Lemma first_split l a b : first_segment l = (a, b) -> l = a ++ b.
Proof.
  destruct l as [|c r]; cbn [first_segment]; intros H; [injection H as <- <-; reflexivity|].
  destruct (c =? 91); [|now apply scan_split in H].
  destruct (scan_segment r) as [a' b'] eqn:E. injection H as <- <-. cbn. now rewrite (scan_split _ _ _ E) at 1.
Qed.
Lemma skip_length l : forall s s' r, skip_seps s l = (s', r) -> (length r <= length l)%nat.
Proof.
  induction l as [|c l IH]; cbn [skip_seps]; intros s s' r H; [injection H as <- <-; lia|].
  cbn [length]. destruct (c =? 47); [apply IH in H; lia|].
  destruct (c =? 46).
  - destruct l as [|d l]; [apply IH in H; lia|]. destruct (d =? 46); [injection H as <- <-; cbn; lia|apply IH in H; lia].
  - injection H as <- <-. cbn. lia.
Qed.

Lemma skip_stop l : forall s s' c r, skip_seps s l = (s', c :: r) ->
  c <> 47 /\ (c = 46 -> exists r', r = 46 :: r').
Proof.
  induction l as [|x l IH]; cbn [skip_seps]; intros s s' c r H; [discriminate|].
  destruct (Z.eqb_spec x 47); [eauto|]. destruct (Z.eqb_spec x 46).
  - destruct l as [|d l]; [eauto|]. destruct (Z.eqb_spec d 46); [|eauto].
    injection H as <- <- <-. subst. split; [lia|]. intros _. eauto.
  - injection H as <- <- <-. split; congruence.
Qed.

(** A segment is empty only at the end of the path. *)
Lemma first_nonempty l s s' l' b : skip_seps s l = (s', l') -> first_segment l' = ([], b) -> l' = [].
Proof.
  destruct l' as [|c r]; [reflexivity|]. intros H F. apply skip_stop in H as [H1 H2]. cbn [first_segment] in F.
  destruct (Z.eqb_spec c 91); [destruct (scan_segment r); discriminate|].
  cbn [scan_segment] in F. destruct (Z.eqb_spec c 46).
  - destruct (H2 e) as [r' ->]. cbn in F. destruct (take_dots r'); discriminate.
  - apply Z.eqb_neq in H1, n. rewrite H1, n in F. cbn in F. destruct (scan_segment r); discriminate.
Qed.

Lemma next_length p sep seg rest : next_segment p = (sep, seg, rest) -> (length seg + length rest <= length p)%nat.
Proof.
  unfold next_segment. destruct (skip_seps 0 p) as [s l] eqn:E. destruct (first_segment l) as [a b] eqn:F.
  intros [= <- <- <-]. apply skip_length in E. apply first_split in F. subst l. rewrite app_length in E. lia.
Qed.

Lemma segments_fuel n : forall m p, (length p <= n)%nat -> (length p <= m)%nat -> segments_n n p = segments_n m p.
Proof.
  assert (Z0 : forall m, segments_n m [] = []) by (destruct m; reflexivity).
  induction n as [|n IH]; intros m p H H'.
  - destruct p; [|cbn in H; lia]. now rewrite Z0.
  - destruct m as [|m]; [destruct p; [now rewrite Z0|cbn in H'; lia]|].
    cbn [segments_n]. destruct (next_segment p) as [[sep seg] rest] eqn:E. apply next_length in E.
    destruct seg as [|c seg]; [reflexivity|]. f_equal. cbn in E. apply IH; lia.
Qed.

Definition relabel (l : list (Z * list Z)) : list (Z * list Z) :=
  match l with [] => [] | (sep, seg) :: r => ((if sep =? 0 then 47 else sep), seg) :: r end.

Lemma next_app p q : next_segment (p ++ 47 :: q) =
  match next_segment p with
  | (sep, seg, rest) =>
      match seg with
      | [] => match next_segment q with (sep', seg', rest') => ((if sep' =? 0 then 47 else sep'), seg', rest') end
      | _ => (sep, seg, rest ++ 47 :: q)
      end
  end.
Proof.
  unfold next_segment. destruct (skip_seps 0 p) as [s l] eqn:E. rewrite (skip_app q p _ _ _ E).
  destruct l as [|c l].
  - cbn [first_segment]. rewrite (skip_init q 47) by lia. destruct (skip_seps 0 q) as [s' l'].
    now destruct (first_segment l').
  - destruct (first_segment (c :: l)) as [a b] eqn:F.
    rewrite (first_app q (c :: l) ltac:(discriminate) _ _ F).
    destruct a as [|z a]; [|reflexivity]. apply (first_nonempty p 0 s) in F; [discriminate|assumption].
Qed.

Lemma segments_app p q : segments (p ++ 47 :: q) = segments p ++ relabel (segments q).
Proof.
  assert (X : forall n p, (length p <= n)%nat -> segments_n (n + S (length q)) (p ++ 47 :: q) = segments_n n p ++ relabel (segments q)).
  { assert (B : segments_n (S (length q)) (47 :: q) = relabel (segments q)).
    { cbn [segments_n]. change (47 :: q) with ([] ++ 47 :: q). rewrite next_app. cbn [next_segment skip_seps first_segment].
      unfold segments. destruct (next_segment q) as [[s g] r] eqn:E.
      destruct q as [|c q].
      - cbn in E. injection E as <- <- <-. reflexivity.
      - cbn [length]. cbn [segments_n]. rewrite E. destruct g as [|z g]; [reflexivity|]. cbn [relabel]. f_equal.
        apply next_length in E. cbn in E. change (segments_n (S (length q)) r = segments_n (length q) r). apply segments_fuel; lia. }
    induction n as [|n IH]; intros p0 H.
    - destruct p0; [|cbn in H; lia]. exact B.
    - cbn [Nat.add]. cbn [segments_n]. rewrite next_app.
      destruct (next_segment p0) as [[s g] r] eqn:E. pose proof (next_length _ _ _ _ E) as L.
      destruct g as [|z g].
      + unfold segments. destruct (next_segment q) as [[s' g'] r'] eqn:E'. pose proof (next_length _ _ _ _ E') as L'.
        destruct g' as [|z' g'].
        * cbn [app]. destruct q as [|c q]; [reflexivity|]. cbn [length segments_n]. rewrite E'. reflexivity.
        * destruct q as [|c q]; [cbn in E'; discriminate|]. cbn [length]. cbn [app segments_n]. rewrite E'.
          cbn [relabel]. f_equal. cbn in L'. apply segments_fuel; lia.
      + cbn [app]. f_equal. cbn in L. apply IH. lia. }
  unfold segments at 1. rewrite app_length. cbn [length]. apply X. lia.
Qed.

Lemma res_relabel root fld o l : res_segs root fld o (relabel l) = res_segs root fld o l.
Proof.
  destruct l as [|[sep seg] l]; [reflexivity|]. cbn [relabel res_segs]. destruct (node_at root o) as [t|]; [|reflexivity].
  unfold one_segment, by_component. destruct (Z.eqb_spec sep 0) as [->|N]; [reflexivity|]. apply Z.eqb_neq in N. now rewrite N.
Qed.

(** * Exact composition when names are unique and there are no references *)
Section Single.
  Context (root : tree) (GT : good_tree root) (NR : no_references root).

  Lemma no_ref_target o t seg : node_at root o = Some t -> ref_target root seg t = None.
  Proof.
    intros N. unfold ref_target.
    assert (X : forall l, (forall c, In c l -> In c (children t)) ->
      first_some (fun r => match kind_of r with KRef ts => find (fun o => list_eqb (name_at root o) seg) ts | _ => None end) l = None).
    { induction l as [|c l IH]; intros H; [reflexivity|]. cbn. destruct (kind_of c) eqn:K; try (apply IH; intros; apply H; cbn; auto).
      destruct (In_nth_error _ _ (H c (or_introl eq_refl))) as [i E].
      rewrite (NR (i :: o) c targets); [|cbn; now rewrite N|assumption]. cbn. apply IH. intros; apply H; cbn; auto. }
    apply X. intros c I. now apply filter_In in I.
  Qed.

  Definition called (k : cont) (r : option (bool * loc)) : option loc :=
    match r with Some (f, c) => k f c | None => None end.

  Lemma one_segment_single fld o t sep seg : node_at root o = Some t ->
    flag_ok root fld o ->
    exists r, (forall k, one_segment root k fld o t sep seg = called k r) /\
              (forall f c, r = Some (f, c) -> flag_ok root f c).
  Proof.
    intros N FO. pose proof (proj2 GT o t N) as GN. unfold one_segment.
    assert (FF : forall c, flag_ok root false c) by (intros c; unfold flag_ok; discriminate).
    assert (FI : forall i, field_child seg t = Some i -> flag_ok root true (i :: o)).
    { intros i E _. apply find_pos_some in E. destruct E as (c & E & F). apply andb_true_iff in F as [F _]. cbn. now rewrite N, E. }
    destruct (list_eqb seg dotdot).
    { destruct (parent_of o) as [p|]; [exists (Some (false, p))|exists None]; split; try reflexivity; intros f c [= <- <-]; auto. }
    destruct fld.
    { unfold by_field. specialize (FO eq_refl). cbv beta in FO. rewrite N in FO.
      destruct (kind_of t) eqn:K; try discriminate.
      - exists None; split; [reflexivity|discriminate].
      - destruct (field_child seg t) as [i|] eqn:E; cbn; [exists (Some (true, i :: o))|exists None]; split; try reflexivity; try discriminate.
        intros f c [= <- <-]. auto.
      - destruct (item_index seg (length (children t))) as [i|] eqn:E; cbn; [exists (Some (true, i :: o))|exists None]; split; try reflexivity; try discriminate.
        intros f c [= <- <-] _. cbn. rewrite N.
        destruct (nth_error (children t) i) as [c|] eqn:C.
        + pose proof (g_kinds _ GN c (nth_error_In _ _ C)) as A. rewrite K in A. exact A.
        + exfalso. apply nth_error_None in C. unfold item_index in E. destruct seg as [|z r]; [discriminate|].
          destruct (_ && _); [|discriminate]. destruct (stoll r) as [[v pos]|]; [|discriminate].
          destruct (_ =? _)%nat; [|discriminate]. destruct ((0 <=? _) && _) eqn:B; [|discriminate].
          injection E as <-. apply andb_true_iff in B as [B1 B2]. apply Z.leb_le in B1. apply Z.ltb_lt in B2. lia. }
    assert (M : exists r, (forall k, orelse (by_member k o t seg) (by_component root k o t sep seg) = called k r) /\
                          (forall f c, r = Some (f, c) -> flag_ok root f c)).
    { unfold by_member, by_component. destruct (kind_of t) eqn:K.
      - (* simulator *) rewrite (no_ref_target o t seg N). destruct (_ && _).
        + destruct (comp_child seg t) as [i|]; cbn; [exists (Some (false, i :: o))|exists None]; split; intros; cbn.
          * now destruct (k false (i :: o)).
          * injection H as <- <-. auto.
          * reflexivity.
          * discriminate.
        + exists None. split; [reflexivity|discriminate].
      - (* component *)
        destruct (find_pos (fun x => addressable x && named seg x) (children t)) as [i|] eqn:E.
        + apply find_pos_some in E. destruct E as (c & C & E). apply andb_true_iff in E as [A E]. apply named_ok in E. subst seg.
          unfold by_invocation. rewrite !(leaf_child_at _ _ _ GN C A), (field_child_at _ _ _ GN C A), (comp_child_at _ _ _ GN C A).
          rewrite (no_ref_target o t _ N). unfold is_leaf. cbn [is_composite]. rewrite andb_true_r.
          destruct (kind_of c) as [|cn|lf| | | | |ts] eqn:KC; cbn [go orelse is_field].
          * exists None. split; [|discriminate]. intros k. now destruct (_ || _).
          * destruct (_ || _); [exists (Some (false, i :: o))|exists None]; split; intros; cbn.
            -- now destruct (k false (i :: o)).
            -- injection H as <- <-; auto.
            -- reflexivity.
            -- discriminate.
          * exists (Some (false, i :: o)). split; [|intros f' c' [= <- <-]; auto].
            intros k. destruct lf; cbn [go orelse called]; destruct (k false (i :: o)); cbn; try reflexivity; now destruct (_ || _).
          * exists (Some (true, i :: o)). split; [|intros f' c' [= <- <-] _; cbn; now rewrite N, C, KC].
            intros k. cbn [called]. destruct (k true (i :: o)); cbn; [reflexivity|]. now destruct (_ || _).
          * exists (Some (true, i :: o)). split; [|intros f' c' [= <- <-] _; cbn; now rewrite N, C, KC].
            intros k. cbn [called]. destruct (k true (i :: o)); cbn; [reflexivity|]. now destruct (_ || _).
          * exists (Some (true, i :: o)). split; [|intros f' c' [= <- <-] _; cbn; now rewrite N, C, KC].
            intros k. cbn [called]. destruct (k true (i :: o)); cbn; [reflexivity|]. now destruct (_ || _).
          * unfold addressable in A. rewrite KC in A. discriminate.
          * unfold addressable in A. rewrite KC in A. discriminate.
        + rewrite find_pos_none in E.
          assert (L : forall f : tree -> bool, (forall x, f x = true -> addressable x = true) ->
                      find_pos (fun x => f x && named seg x) (children t) = None).
          { intros f Hf. apply find_pos_none. intros x I. specialize (E x I). cbn in E.
            destruct (f x) eqn:F; [|reflexivity]. rewrite (Hf _ F) in E. exact E. }
          assert (LL : forall c, leaf_child c seg t = None) by (intros c; apply L; intros; eapply leaf_addressable; eassumption).
          assert (LF : field_child seg t = None) by (apply (L (fun x => is_field (kind_of x))); intros; now apply field_addressable).
          assert (LC : comp_child seg t = None).
          { unfold comp_child. induction (filter is_cont (children t)) as [|c l IH]; [reflexivity|]. cbn.
            unfold comp_in at 1. rewrite L; [assumption|]. intros; eapply held_addressable; eassumption. }
          unfold by_invocation. rewrite !LL, LF, LC, (no_ref_target o t _ N). exists None. split; [|discriminate].
          intros k. cbn. now destruct (_ && _).
      - exists None. split; [|discriminate]. intros k. cbn. now rewrite andb_false_r.
      - exists (Some (true, o)). split; [|intros f c [= <- <-] _; now rewrite N, K].
        intros k. cbn. rewrite andb_false_r. now destruct (k true o).
      - exists (Some (true, o)). split; [|intros f c [= <- <-] _; now rewrite N, K].
        intros k. cbn. rewrite andb_false_r. now destruct (k true o).
      - exists (Some (true, o)). split; [|intros f c [= <- <-] _; now rewrite N, K].
        intros k. cbn. rewrite andb_false_r. now destruct (k true o).
      - exists None. split; [|discriminate]. intros k. cbn. now rewrite andb_false_r.
      - exists None. split; [|discriminate]. intros k. cbn. now rewrite andb_false_r. }
    unfold by_underscore. destruct seg as [|c n]; [exact M|].
    destruct (_ && _); [|exact M].
    destruct (cont_child n t) as [i|]; cbn [go].
    - exists (Some (false, i :: o)). split; [reflexivity|]. intros f c' [= <- <-]; auto.
    - destruct (ref_child n t) as [i|]; cbn [go]; [|exact M].
      exists (Some (false, i :: o)). split; [reflexivity|]. intros f c' [= <- <-]; auto.
  Qed.

  Lemma res_single p : forall fld o, flag_ok root fld o ->
    exists r, (forall q, res_segs root fld o (p ++ q) = match r with Some (f, m) => res_segs root f m q | None => None end) /\
              (forall f m, r = Some (f, m) -> flag_ok root f m).
  Proof.
    induction p as [|[sep seg] p IH]; intros fld o FO.
    - exists (Some (fld, o)). split; [reflexivity|]. intros f m [= <- <-]; assumption.
    - cbn [app res_segs]. destruct (node_at root o) as [t|] eqn:N.
      + destruct (one_segment_single fld o t sep seg N FO) as ([[f c]|] & E & F).
        * destruct (IH f c (F f c eq_refl)) as (r & E' & F'). exists r. split; [|assumption].
          intros q. rewrite E. cbn. apply E'.
        * exists None. split; [|discriminate]. intros q. rewrite E. reflexivity.
      + exists None. split; [reflexivity|discriminate].
  Qed.
End Single.
