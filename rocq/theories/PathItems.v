(** Proofs about the indexes of arrays and the order of the lookups in paths. *)
From Verif Require Import Base Text HelperModel HelperSpec UuidModel PathModel PathSpec PathProofs.
From Verif Require UuidProofs.
From Coq Require Import ZArith List Bool Lia.
Import ListNotations.
Local Open Scope Z_scope.

Lemma scan_all : forall s, Forall not_separator s -> scan_segment s = (s, []).
Proof.
  induction s as [|c s IH]; intros F; [reflexivity|]. inversion F as [|? ? (A & B & C) Fs]; subst. cbn.
  destruct (Z.eqb_spec c 46); [contradiction|]. destruct (Z.eqb_spec c 47); [contradiction|]. destruct (Z.eqb_spec c 91); [contradiction|].
  cbn. now rewrite IH.
Qed.
Lemma one_name : forall c s, (not_separator c \/ c = 91) -> Forall not_separator s -> segments (c :: s) = [(0, c :: s)].
Proof.
  intros c s C F. unfold segments. cbn [length segments_n].
  assert (N : next_segment (c :: s) = (0, c :: s, [])).
  { unfold next_segment. assert (K : skip_seps 0 (c :: s) = (0, c :: s)).
    { cbn. destruct (Z.eqb_spec c 47); [destruct C as [(A & B & D)|C]; lia|]. destruct (Z.eqb_spec c 46); [destruct C as [(A & B & D)|C]; lia|reflexivity]. }
    rewrite K. unfold first_segment. destruct (Z.eqb_spec c 91) as [E|E].
    - now rewrite scan_all.
    - destruct C as [C|C]; [|contradiction]. rewrite scan_all by (now constructor). reflexivity. }
  rewrite N. f_equal. destruct (length s); reflexivity.
Qed.

Lemma drop_spec : forall l n b, drop_spaces l = (n, b) -> exists ws, l = ws ++ b /\ length ws = n /\ Forall blank ws.
Proof.
  induction l as [|c l IH]; intros n b E; cbn in E.
  - injection E as <- <-. now exists [].
  - destruct (isspace c) eqn:S.
    + destruct (drop_spaces l) as [n' b'] eqn:D. injection E as <- <-. destruct (IH _ _ eq_refl) as (ws & -> & L & F).
      exists (c :: ws). split; [reflexivity|]. split; [cbn; lia|]. constructor; [|assumption]. unfold isspace in S. unfold blank.
      apply orb_true_iff in S. destruct S as [S|S]; [left; now apply Z.eqb_eq|right]. apply andb_true_iff in S. lia.
    + injection E as <- <-. now exists [].
Qed.
Lemma drop_run : forall ws b, Forall blank ws -> match b with c :: _ => isspace c = false | [] => True end -> drop_spaces (ws ++ b) = (length ws, b).
Proof.
  induction ws as [|c ws IH]; intros b F H; cbn.
  - destruct b as [|c b]; [reflexivity|]. cbn. now rewrite H.
  - inversion F as [|? ? Fc Fw]; subst. assert (S : isspace c = true).
    { unfold isspace. destruct Fc as [->|Fc]; [reflexivity|]. apply orb_true_iff. right. apply andb_true_iff. lia. }
    rewrite S, IH by assumption. reflexivity.
Qed.

Lemma digit_iff : forall c, isdigit c = true <-> 48 <= c <= 57.
Proof. intros c. unfold isdigit. rewrite andb_true_iff. lia. Qed.

Lemma digits_spec : forall l acc n v, digits_value acc l = (n, v) -> exists ds r, l = ds ++ r /\ length ds = n /\ Forall (fun c => 48 <= c <= 57) ds /\
  v = fold_left (fun a c => a * 10 + (c - 48)) ds acc.
Proof.
  induction l as [|c l IH]; intros acc n v E; cbn in E.
  - injection E as <- <-. now exists [], [].
  - destruct (isdigit c) eqn:D.
    + destruct (digits_value (acc * 10 + (c - 48)) l) as [n' v'] eqn:Q. injection E as <- <-. destruct (IH _ _ _ Q) as (ds & r & -> & L & F & V).
      exists (c :: ds), r. split; [reflexivity|]. split; [cbn; lia|]. split; [|exact V]. constructor; [now apply digit_iff|assumption].
    + injection E as <- <-. now exists [], (c :: l).
Qed.
Lemma digits_run : forall ds r acc, Forall (fun c => 48 <= c <= 57) ds -> match r with c :: _ => isdigit c = false | [] => True end ->
  digits_value acc (ds ++ r) = (length ds, fold_left (fun a c => a * 10 + (c - 48)) ds acc).
Proof.
  induction ds as [|c ds IH]; intros r acc F H; cbn.
  - destruct r as [|c r]; [reflexivity|]. cbn. now rewrite H.
  - inversion F as [|? ? Fc Fd]; subst. apply digit_iff in Fc. rewrite Fc, IH by assumption. reflexivity.
Qed.

Lemma app_prefix : forall (a b c d : list Z), a ++ b = c ++ d -> length a = length c -> a = c.
Proof. induction a as [|x a IH]; intros b [|y c] d E L; try discriminate; [reflexivity|]. cbn in *. injection E as -> E. f_equal. eapply IH; eauto. Qed.

Lemma stoll_denotes : forall s v, stoll (s ++ [93]) = Some (v, length s) <-> denotes s v /\ in_i64 v = true.
Proof.
  intros s v. split.
  - unfold stoll. destruct (drop_spaces (s ++ [93])) as [w l1] eqn:D. destruct (drop_spec _ _ _ D) as (ws & E1 & Lw & Fw).
    set (X := match l1 with c :: r => if c =? 45 then (1%nat, true, r) else if c =? 43 then (1%nat, false, r) else (0%nat, false, l1) | [] => (0%nat, false, l1) end).
    assert (HX : exists sg, l1 = sg ++ snd X /\ length sg = fst (fst X) /\ (sg = [] \/ sg = [43] \/ sg = [45]) /\ (snd (fst X) = true <-> sg = [45])).
    { unfold X. destruct l1 as [|c l1]; cbn; [exists []; cbn; intuition discriminate|].
      destruct (Z.eqb_spec c 45) as [->|N]; [exists [45]; cbn; tauto|]. destruct (Z.eqb_spec c 43) as [->|N2]; [exists [43]; cbn; intuition discriminate|].
      exists []; cbn; intuition discriminate. }
    destruct X as [[sl neg] l2]. cbn [fst snd] in HX. destruct HX as (sg & E2 & Ls & Hs & Hn).
    destruct (digits_value 0 l2) as [d x] eqn:Q. destruct (digits_spec _ _ _ _ Q) as (ds & r & E3 & Ld & Fd & Vx).
    destruct d as [|d]; [discriminate|]. destruct (in_i64 (if neg then - x else x)) eqn:R; [|discriminate]. intros E. injection E as Ev Ep.
    split; [|now rewrite <- Ev]. exists ws, sg, ds.
    assert (P : ws ++ sg ++ ds = s).
    { apply (app_prefix _ r _ [93]); [|rewrite !app_length; lia]. rewrite E1, E2, E3, <- !app_assoc. reflexivity. }
    split; [now symmetry|]. split; [assumption|]. split; [assumption|]. split; [assumption|]. split; [intros ->; discriminate|].
    rewrite <- Ev. unfold decimal_value. rewrite <- Vx. destruct neg.
    + rewrite (proj1 Hn eq_refl). destruct (list_eq_dec Z.eq_dec [45] [45]); [reflexivity|congruence].
    + destruct (list_eq_dec Z.eq_dec sg [45]) as [e|e]; [|reflexivity]. apply Hn in e. discriminate.
  - intros [(ws & sg & ds & -> & Fw & Hs & Fd & Nd & Hv) R]. unfold stoll.
    assert (D1 : match ds with c :: _ => isspace c = false /\ c <> 45 /\ c <> 43 | [] => False end).
    { destruct ds as [|c ds]; [congruence|]. inversion Fd as [|? ? Fc _]; subst. unfold isspace. split; [|lia].
      apply orb_false_iff. split; [lia|apply andb_false_iff; lia]. }
    rewrite <- !app_assoc. rewrite drop_run; [|assumption|].
    2: { destruct Hs as [->|[->| ->]]; [|reflexivity|reflexivity]. destruct ds as [|c ds]; [contradiction|]. cbn. apply D1. }
    assert (X : match sg ++ ds ++ [93] with c :: r => if c =? 45 then (1%nat, true, r) else if c =? 43 then (1%nat, false, r) else (0%nat, false, sg ++ ds ++ [93]) | [] => (0%nat, false, sg ++ ds ++ [93]) end
      = (length sg, if list_eq_dec Z.eq_dec sg [45] then true else false, ds ++ [93])).
    { destruct Hs as [->|[->| ->]]; [|reflexivity|reflexivity]. destruct ds as [|c ds]; [contradiction|]. cbn. destruct D1 as (_ & A & B).
      destruct (Z.eqb_spec c 45); [contradiction|]. destruct (Z.eqb_spec c 43); [contradiction|]. reflexivity. }
    rewrite X. rewrite (digits_run ds [93] 0 Fd eq_refl). destruct ds as [|c ds]; [congruence|]. cbn [length].
    assert (V : (if (if list_eq_dec Z.eq_dec sg [45] then true else false) then - fold_left (fun a c0 => a * 10 + (c0 - 48)) (c :: ds) 0 else fold_left (fun a c0 => a * 10 + (c0 - 48)) (c :: ds) 0) = v).
    { rewrite Hv. unfold decimal_value. now destruct (list_eq_dec Z.eq_dec sg [45]). }
    rewrite V, R. f_equal. f_equal. rewrite !app_length. cbn. lia.
Qed.

Lemma item_denotes : forall s size i, Z.of_nat size <= i64_max ->
  (item_index (91 :: s ++ [93]) size = Some i <-> exists v, denotes s v /\ designates v size i).
Proof.
  intros s size i Hs. cbn [item_index]. change (91 =? 91) with true. rewrite app_comm_cons, last_last. change (93 =? 93) with true. cbn [andb].
  split.
  - destruct (stoll (s ++ [93])) as [[v pos]|] eqn:S; [|discriminate]. destruct (Nat.eqb_spec (pos + 2) (length ((91 :: s) ++ [93]))) as [L|L]; [|discriminate].
    cbn in L. rewrite app_length in L. cbn in L. assert (pos = length s) by lia. subst pos. apply stoll_denotes in S. destruct S as [D R].
    set (k := if v <? 0 then Z.of_nat size + v else v). destruct ((0 <=? k) && (k <? Z.of_nat size)) eqn:K; [|discriminate]. intros E. injection E as <-.
    apply andb_true_iff in K. exists v. split; [assumption|]. unfold designates. destruct (Z.ltb_spec v 0) as [N|N]; unfold k in *.
    + destruct (Z.ltb_spec v 0); [|lia]. lia.
    + destruct (Z.ltb_spec v 0); [lia|]. lia.
  - intros (v & D & Li & Hi). assert (R : in_i64 v = true).
    { apply in_i64_spec. unfold i64_max, i64_min in *. lia. }
    rewrite (proj2 (stoll_denotes s v) (conj D R)). cbn. rewrite app_length. cbn.
    destruct (Nat.eqb_spec (length s + 2) (S (length s + 1))) as [_|L]; [|lia].
    destruct (Z.ltb_spec v 0) as [N|N].
    + destruct ((0 <=? Z.of_nat size + v) && (Z.of_nat size + v <? Z.of_nat size)) eqn:K; [f_equal; lia|]. apply andb_false_iff in K. lia.
    + destruct ((0 <=? v) && (v <? Z.of_nat size)) eqn:K; [f_equal; lia|]. apply andb_false_iff in K. lia.
Qed.

(** * The order of the lookups *)
Lemma find_first : forall (f : kind -> bool) n t i, first_child f n t i -> find_pos (fun x => f (kind_of x) && named n x) (children t) = Some i.
Proof.
  intros f n t i (c & N & Fc & Nm & First). revert i N First. induction (children t) as [|x l IH]; intros i N First; [destruct i; discriminate|]. cbn.
  destruct i as [|i].
  - cbn in N. injection N as ->. rewrite Fc. cbn. rewrite (proj2 (named_ok n c) Nm). reflexivity.
  - destruct (f (kind_of x) && named n x) eqn:E.
    + apply andb_true_iff in E. destruct E as [E1 E2]. apply named_ok in E2. exfalso. exact (First 0%nat x ltac:(lia) eq_refl E1 E2).
    + rewrite (IH i N); [reflexivity|]. intros j d Lj Nd. exact (First (S j) d ltac:(lia) Nd).
Qed.
Lemma find_none : forall (f : kind -> bool) n t, no_child f n t -> find_pos (fun x => f (kind_of x) && named n x) (children t) = None.
Proof.
  intros f n t H. apply find_pos_none. intros x I. destruct (f (kind_of x)) eqn:E; [|reflexivity]. cbn. destruct (named n x) eqn:Q; [|reflexivity].
  apply named_ok in Q. exfalso. exact (H x I E Q).
Qed.

Definition class_of (c : leaf) : kind -> bool := fun k => match k, c with
                  | KLeaf Sink, Sink | KLeaf Source, Source | KLeaf Entry, Entry
                  | KLeaf Operation, Operation | KLeaf Property, Property | KLeaf Failure, Failure => true
                  | _, _ => false end.
Lemma leaf_child_class : forall c n t, leaf_child c n t = find_pos (fun x => class_of c (kind_of x) && named n x) (children t).
Proof. reflexivity. Qed.

Lemma lookup_order : forall root o t cn n k f i, node_at root o = Some t -> kind_of t = KComp cn ->
  n <> [] -> hd 0 n <> 95 -> Forall not_separator n -> nth_error member_classes k = Some f -> first_child f n t i ->
  (forall j g, (j < k)%nat -> nth_error member_classes j = Some g -> no_child g n t) ->
  resolve root o n = Some (i :: o).
Proof.
  intros root o t cn n k f i H K N0 U F Hk Fc No. unfold resolve. destruct n as [|c n]; [congruence|]. inversion F as [|? ? Hc Fn]; subst.
  rewrite one_name by auto. cbn [res_segs]. rewrite H. unfold one_segment.
  assert (ND : list_eqb (c :: n) dotdot = false).
  { destruct Hc as (A & _). cbn. destruct (Z.eqb_spec c 46); [contradiction|reflexivity]. }
  rewrite ND. cbn [by_underscore]. cbn in U. destruct (Z.eqb_spec c 95); [contradiction|]. cbn [andb]. unfold by_member. rewrite K.
  assert (Fd : field_child (c :: n) t = find_pos (fun x => is_field (kind_of x) && named (c :: n) x) (children t)) by reflexivity.
  assert (L : forall j d, (j < k)%nat -> nth_error [Sink; Source; Entry; Operation; Property; Failure] j = Some d -> leaf_child d (c :: n) t = None).
  { intros j d Lj Nj. rewrite leaf_child_class. apply find_none. apply (No j _ Lj).
    unfold member_classes. rewrite nth_error_app1 by (apply nth_error_Some; rewrite nth_error_map, Nj; discriminate). rewrite nth_error_map, Nj. reflexivity. }
  unfold by_invocation. apply find_first in Fc.
  destruct k as [|[|[|[|[|[|[|k]]]]]]]; try (destruct k; discriminate);
    cbn in Hk; injection Hk as <-;
    repeat match goal with |- context [leaf_child ?d (c :: n) t] =>
      first [rewrite (L 0%nat d ltac:(lia) eq_refl)|rewrite (L 1%nat d ltac:(lia) eq_refl)|rewrite (L 2%nat d ltac:(lia) eq_refl)|rewrite (L 3%nat d ltac:(lia) eq_refl)
            |rewrite (L 4%nat d ltac:(lia) eq_refl)|rewrite (L 5%nat d ltac:(lia) eq_refl)|rewrite leaf_child_class; unfold class_of; rewrite Fc] end; cbn [go orelse res_segs]; try reflexivity.
  rewrite Fd, Fc. reflexivity.
Qed.

Lemma first_some_filter : forall {B} (f : tree -> option B) p before k after b, p k = true -> f k = Some b ->
  (forall c, In c before -> p c = true -> f c = None) -> first_some f (filter p (before ++ k :: after)) = Some b.
Proof.
  intros B f p before k after b P K N. induction before as [|c before IH]; cbn.
  - rewrite P. cbn. now rewrite K.
  - assert (IH' := IH (fun c I => N c (or_intror I))). destruct (p c) eqn:E; [|exact IH']. cbn. now rewrite (N c (or_introl eq_refl) E).
Qed.
Lemma first_some_none : forall {B} (f : tree -> option B) p l, (forall c, In c l -> p c = true -> f c = None) -> first_some f (filter p l) = None.
Proof.
  intros B f p l N. induction l as [|c l IH]; cbn; [reflexivity|]. assert (IH' := IH (fun c I => N c (or_intror I))).
  destruct (p c) eqn:E; [|exact IH']. cbn. now rewrite (N c (or_introl eq_refl) E).
Qed.
Lemma is_cont_kind c : is_cont c = true <-> kind_of c = KCont.
Proof. unfold is_cont. split; [destruct (kind_of c); (reflexivity || discriminate)|now intros ->]. Qed.

Lemma component_lookup : forall root o t cn n, node_at root o = Some t -> kind_of t = KComp cn ->
  n <> [] -> hd 0 n <> 95 -> Forall not_separator n -> (forall g, In g member_classes -> no_child g n t) ->
  resolve root o n = match comp_child n t with Some i => Some (i :: o) | None => ref_target root n t end.
Proof.
  intros root o t cn n H K N0 U F No. unfold resolve. destruct n as [|c n]; [congruence|]. inversion F as [|? ? Hc Fn]; subst.
  rewrite one_name by auto. cbn [res_segs]. rewrite H. unfold one_segment.
  assert (ND : list_eqb (c :: n) dotdot = false).
  { destruct Hc as (A & _). cbn. destruct (Z.eqb_spec c 46); [contradiction|reflexivity]. }
  rewrite ND. cbn [by_underscore]. cbn in U. destruct (Z.eqb_spec c 95); [contradiction|]. cbn [andb]. unfold by_member. rewrite K.
  assert (Fd : field_child (c :: n) t = None).
  { apply (find_none is_field). apply No. unfold member_classes. cbn. tauto. }
  assert (L : forall d, leaf_child d (c :: n) t = None).
  { intros d. rewrite leaf_child_class. apply find_none. apply No. unfold member_classes. apply in_or_app. left. apply (in_map class_of). destruct d; cbn; tauto. }
  unfold by_invocation. rewrite !L, Fd. cbn [go orelse]. unfold by_component. rewrite K. cbn [Z.eqb is_composite orb andb].
  destruct (comp_child (c :: n) t) as [i|]; [reflexivity|]. cbn [go orelse]. destruct (ref_target root (c :: n) t); reflexivity.
Qed.

Lemma comp_in_none c n t : no_child (held c) n t -> comp_in c n t = None.
Proof. intros H. exact (find_none (held c) n t H). Qed.

Lemma called_name root x n : n <> [] -> list_eqb (name_at root x) n = true <-> has_name root x n.
Proof.
  intros N. rewrite (UuidProofs.list_eqb_eq (name_at root x) n). unfold name_at, has_name. destruct (node_at root x) as [d|].
  - split; [eauto|]. intros (d' & E & <-). now injection E as <-.
  - split; [congruence|]. intros (d' & E & _). discriminate.
Qed.

Lemma components_order : forall root o t cn n, node_at root o = Some t -> kind_of t = KComp cn ->
  n <> [] -> hd 0 n <> 95 -> Forall not_separator n -> (forall g, In g member_classes -> no_child g n t) ->
  (forall before k after i, children t = before ++ k :: after -> kind_of k = KCont -> first_child (held (name_of k)) n t i ->
     (forall c, In c before -> kind_of c = KCont -> no_child (held (name_of c)) n t) -> resolve root o n = Some (i :: o)) /\
  (forall before r after ts1 x ts2, (forall c, In c (children t) -> kind_of c = KCont -> no_child (held (name_of c)) n t) ->
     children t = before ++ r :: after -> kind_of r = KRef (ts1 ++ x :: ts2) ->
     has_name root x n -> (forall y, In y ts1 -> ~ has_name root y n) ->
     (forall c ts y, In c before -> kind_of c = KRef ts -> In y ts -> ~ has_name root y n) -> resolve root o n = Some x).
Proof.
  intros root o t cn n H K N0 U F No. pose proof (component_lookup root o t cn n H K N0 U F No) as R. split.
  - intros before k after i C KK Fc Nb. rewrite R. unfold comp_child. rewrite C.
    rewrite (first_some_filter _ is_cont before k after i); [reflexivity|now apply is_cont_kind| |].
    + exact (find_first _ n t i Fc).
    + intros c I P. apply comp_in_none, Nb; [exact I|now apply is_cont_kind].
  - intros before r after ts1 x ts2 Nc C KR Cx N1 Nb. rewrite R. unfold comp_child.
    rewrite first_some_none; [|intros c I P; apply comp_in_none, Nc; [exact I|now apply is_cont_kind]].
    assert (FN : forall ts, (forall y, In y ts -> ~ has_name root y n) -> find (fun o => list_eqb (name_at root o) n) ts = None).
    { induction ts as [|y ts IH]; intros Ny; [reflexivity|]. cbn. destruct (list_eqb (name_at root y) n) eqn:E.
      - apply (called_name root y n N0) in E. destruct (Ny y (or_introl eq_refl) E).
      - apply IH. intros z I. apply Ny. now right. }
    unfold ref_target. rewrite C. apply first_some_filter.
    + unfold is_ref. now rewrite KR.
    + rewrite KR. clear KR. induction ts1 as [|y ts1 IH]; cbn.
      * now rewrite (proj2 (called_name root x n N0) Cx).
      * destruct (list_eqb (name_at root y) n) eqn:E.
        -- apply (called_name root y n N0) in E. destruct (N1 y (or_introl eq_refl) E).
        -- apply IH. intros z I. apply N1. now right.
    + intros c I _. destruct (kind_of c) eqn:KC; try reflexivity. apply FN. intros y Iy. exact (Nb c _ y I KC Iy).
Qed.

Lemma reference_by_underscore : forall root o t n i, node_at root o = Some t -> is_composite (kind_of t) = true ->
  Forall not_separator n -> no_child container n t -> first_child reference n t i ->
  resolve root o (95 :: n) = Some (i :: o).
Proof.
  intros root o t n i H K F Nc Fr. unfold resolve. rewrite one_name; [|unfold not_separator; lia|exact F].
  cbn [res_segs]. rewrite H. unfold one_segment. replace (list_eqb (95 :: n) dotdot) with false by reflexivity.
  cbn [by_underscore Z.eqb Pos.eqb]. rewrite K. cbn [andb].
  assert (E1 : cont_child n t = None) by exact (find_none container n t Nc).
  assert (E2 : ref_child n t = Some i) by exact (find_first reference n t i Fr).
  rewrite E1, E2. reflexivity.
Qed.
