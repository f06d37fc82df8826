(** Proofs about collections, containers and references. *)
From Verif Require Import Base UuidModel UuidProofs EventModel EventSpec EventProofs Assoc CollModel CollSpec.

Lemma erase_without x l : erase x l = without x l.
Proof. induction l as [|y l IH]; cbn; [reflexivity|]. rewrite IH, (Z.eqb_sym y x). reflexivity. Qed.

Lemma holds_In x l : holds x l = true <-> In x l.
Proof. apply mem_In. Qed.

Lemma without_In x y l : In x (without y l) -> In x l.
Proof.
  induction l as [|z l IH]; cbn; [tauto|]. destruct (Z.eqb_spec z y); cbn; tauto.
Qed.
Lemma without_not x l : NoDup l -> ~ In x (without x l).
Proof.
  induction 1 as [|y l Hy N IH]; cbn; [tauto|]. destruct (Z.eqb_spec y x) as [->|Hne]; [exact Hy|].
  cbn. intros [E|E]; [congruence|tauto].
Qed.
Lemma without_length x l : In x l -> length l = S (length (without x l)).
Proof.
  induction l as [|y l IH]; cbn; [tauto|]. destruct (Z.eqb_spec y x) as [->|Hne]; [reflexivity|].
  intros [E|E]; [congruence|]. cbn. now rewrite (IH E).
Qed.
Lemma without_length_le x l : (length (without x l) <= length l)%nat.
Proof. induction l as [|y l IH]; cbn; [lia|]. destruct (y =? x); cbn; lia. Qed.
Lemma without_other x y l : x <> y -> In x l -> In x (without y l).
Proof.
  intros Hne. induction l as [|z l IH]; cbn; [tauto|]. destruct (Z.eqb_spec z y) as [->|Hz]; cbn; intuition congruence.
Qed.
Lemma without_split x l : In x l -> exists a b, l = a ++ x :: b /\ without x l = a ++ b /\ ~ In x a.
Proof.
  induction l as [|y l IH]; cbn; [tauto|]. intros H. destruct (Z.eqb_spec y x) as [->|Hne].
  - exists [], l. cbn. tauto.
  - destruct H as [->|H]; [congruence|]. destruct (IH H) as (a & b & -> & -> & N).
    exists (y :: a), b. cbn. repeat split. intuition.
Qed.

Lemma NoDup_app_remove_r {A} (a b : list A) : NoDup (a ++ b) -> NoDup a.
Proof.
  induction a as [|x a IH]; cbn; [constructor|]. intros N. inversion N as [|? ? H N']; subst. constructor; [|now apply IH].
  intros I. apply H. apply in_app_iff. auto.
Qed.
Lemma NoDup_app_remove_l {A} (a b : list A) : NoDup (a ++ b) -> NoDup b.
Proof. induction a as [|x a IH]; cbn; [auto|]. intros N. inversion N; subst. auto. Qed.

(** ** find_name *)
Lemma find_name_first nm n l : first_named nm n l (find_name nm n l).
Proof.
  induction l as [|e l IH]; cbn; [tauto|]. destruct (list_eqb n (nm e)) eqn:E.
  - apply list_eqb_eq in E. exists [], l. cbn. repeat split; [congruence|tauto].
  - assert (Hne : nm e <> n). { intros X. rewrite X in E. assert (list_eqb n n = true) by now apply list_eqb_eq. congruence. }
    destruct (find_name nm n l) as [e'|]; cbn in IH |- *.
    + destruct IH as (a & b & -> & Hn & Ha). exists (e :: a), b. cbn. repeat split; [exact Hn|].
      intros e'' [->|I]; auto.
    + intros e' [->|I]; auto.
Qed.

Lemma first_the nm n l r : NoDup (map nm l) -> first_named nm n l r -> the_named nm n l r.
Proof.
  intros N. destruct r as [e|]; cbn; [|tauto]. intros (a & b & -> & Hn & Ha). repeat split.
  - apply in_app_iff. cbn. tauto.
  - exact Hn.
  - intros e' I Hn'. apply in_app_iff in I. cbn in I. destruct I as [I|[->|I]]; [exfalso; now apply (Ha e' I)|reflexivity|].
    rewrite map_app in N. cbn in N. apply NoDup_remove_2 in N. exfalso. apply N.
    apply in_app_iff. right. rewrite Hn, <- Hn'. now apply in_map.
Qed.

Lemma find_name_none nm n l : is_some (find_name nm n l) = false <-> ~ In n (map nm l).
Proof.
  pose proof (find_name_first nm n l) as F. destruct (find_name nm n l) as [e|]; cbn in *.
  - destruct F as (a & b & -> & Hn & _). split; [discriminate|]. intros H. exfalso. apply H.
    rewrite map_app, in_app_iff. cbn. auto.
  - split; [|reflexivity]. intros _ H. apply in_map_iff in H. destruct H as (e & Hn & I). exact (F e I Hn).
Qed.

Lemma at_index_ok i l : the_index i l (coll_at_index i l).
Proof.
  unfold coll_at_index. destruct (Nat.ltb_spec i (length l)) as [H|H]; [|exact H].
  destruct (nth_error l i) as [e|] eqn:E.
  - apply nth_error_split in E. destruct E as (a & b & -> & L). cbn. exists a, b. auto.
  - apply nth_error_None in E. lia.
Qed.

Lemma nth_error_seq {A} (l : list A) : map (nth_error l) (seq 0 (length l)) = map Some l.
Proof.
  induction l as [|x l IH]; cbn; [reflexivity|]. f_equal. rewrite <- seq_shift, map_map. exact IH.
Qed.
Lemma iterate_own l : iterate (fun i => coll_at_index i l) (coll_size l) = map Some l.
Proof.
  unfold iterate, coll_size, coll_at_index. rewrite <- nth_error_seq. apply map_ext_in. intros i I.
  apply in_seq in I. destruct (Nat.ltb_spec i (length l)); [reflexivity|lia].
Qed.

(** ** Collections *)
Lemma coll_run_app nm ob dup l a b :
  coll_run nm ob dup l (a ++ b) =
  let '(l1, t1) := coll_run nm ob dup l a in
  let '(l2, t2) := coll_run nm ob dup l1 b in (l2, t1 ++ t2).
Proof.
  revert l. induction a as [|o a IH]; intros l; cbn.
  - destruct (coll_run nm ob dup l b). reflexivity.
  - destruct (coll_step nm ob dup o l) as [l1 r]. rewrite IH.
    destruct (coll_run nm ob dup l1 a) as [l2 t2]. destruct (coll_run nm ob dup l2 b) as [l3 t3]. reflexivity.
Qed.

Lemma coll_step_effect nm ob dup o l :
  fst (coll_step nm ob dup o l) = coll_effect l (o, snd (coll_step nm ob dup o l)).
Proof.
  destruct o as [e|e|]; cbn; [| |reflexivity].
  - unfold coll_add. destruct (ob e); [|reflexivity]. destruct (negb dup && _); reflexivity.
  - unfold coll_remove. destruct (ob e); [|reflexivity]. destruct (holds e l); cbn; [apply erase_without|reflexivity].
Qed.

Lemma coll_run_effect nm ob dup os l :
  fst (coll_run nm ob dup l os) = fold_left coll_effect (snd (coll_run nm ob dup l os)) l.
Proof.
  revert l. induction os as [|o os IH]; intros l; cbn; [reflexivity|].
  pose proof (coll_step_effect nm ob dup o l) as E. destruct (coll_step nm ob dup o l) as [l1 r]. cbn in E.
  specialize (IH l1). destruct (coll_run nm ob dup l1 os) as [l2 t]. cbn in *. now rewrite <- E.
Qed.

Lemma NoDup_map_without {B} (f : Z -> B) x l : NoDup (map f l) -> NoDup (map f (without x l)).
Proof.
  induction l as [|y l IH]; cbn; [auto|]. intros N. inversion N as [|? ? Hy N']; subst.
  destruct (y =? x); [exact N'|]. cbn. constructor; [|now apply IH].
  intros I. apply Hy. apply in_map_iff in I. destruct I as (z & Hz & I). apply in_map_iff. exists z. split; [exact Hz|].
  now apply without_In in I.
Qed.

Lemma coll_step_nodup nm ob o l : NoDup (map nm l) -> NoDup (map nm (fst (coll_step nm ob false o l))).
Proof.
  intros N. destruct o as [e|e|]; cbn; [| |constructor].
  - unfold coll_add. destruct (ob e); [|exact N]. cbn. destruct (is_some _) eqn:E; [exact N|]. cbn.
    rewrite map_app. cbn. apply NoDup_snoc; [exact N|]. now apply find_name_none.
  - unfold coll_remove. destruct (ob e); [|exact N]. destruct (holds e l); [|exact N]. cbn. rewrite erase_without.
    now apply NoDup_map_without.
Qed.
Lemma coll_run_nodup nm ob os l : NoDup (map nm l) -> NoDup (map nm (fst (coll_run nm ob false l os))).
Proof.
  revert l. induction os as [|o os IH]; intros l N; cbn; [exact N|].
  pose proof (coll_step_nodup nm ob o l N) as N1. destruct (coll_step nm ob false o l) as [l1 r]. cbn in N1.
  specialize (IH l1 N1). destruct (coll_run nm ob false l1 os) as [l2 t]. exact IH.
Qed.

(** ** Delegating collections *)
Lemma deleg_index d l i : deleg_at_index i d l = coll_at_index i (d ++ l).
Proof.
  unfold deleg_at_index, coll_at_index, coll_size. rewrite app_length.
  destruct (Nat.ltb_spec i (length d)) as [H|H].
  - destruct (Nat.ltb_spec i (length d + length l)); [|lia]. symmetry. now apply nth_error_app1.
  - destruct (Nat.ltb_spec (i - length d) (length l)), (Nat.ltb_spec i (length d + length l)); try lia; [|reflexivity].
    symmetry. now apply nth_error_app2.
Qed.
Lemma find_name_app nm n d l : find_name nm n (d ++ l) = match find_name nm n d with Some e => Some e | None => find_name nm n l end.
Proof. induction d as [|e d IH]; cbn; [reflexivity|]. destruct (list_eqb n (nm e)); auto. Qed.
Lemma deleg_name nm n d l : deleg_at_name nm n d l = coll_at_name nm n (d ++ l).
Proof. destruct n as [n|]; cbn; [|reflexivity]. symmetry. apply find_name_app. Qed.

(** ** Bounds *)
Lemma to_size_nonneg z : 0 <= z -> in_i64 z = true -> to_size z = z.
Proof. intros H I. unfold to_size. apply Z.mod_small. apply andb_true_iff in I. unfold i64_min, i64_max in I. lia. Qed.
Lemma to_size_neg z : z < 0 -> in_i64 z = true -> to_size z = z + 2 ^ 64.
Proof.
  intros H I. apply andb_true_iff in I. unfold to_size, i64_min, i64_max in *. symmetry. apply Z.mod_unique with (-1); lia.
Qed.

(** ** Containers *)
Lemma set_nth_same {A} k (a : A) l : (k < length l)%nat -> nth_error (set_nth k a l) k = Some a.
Proof. revert k. induction l as [|x l IH]; intros [|k] H; cbn in *; try lia; [reflexivity|]. apply IH. lia. Qed.
Lemma set_nth_other {A} k j (a : A) l : j <> k -> nth_error (set_nth k a l) j = nth_error l j.
Proof. revert k j. induction l as [|x l IH]; intros [|k] [|j] H; cbn; try congruence. apply IH. congruence. Qed.
Lemma set_nth_length {A} k (a : A) l : length (set_nth k a l) = length l.
Proof. revert k. induction l as [|x l IH]; intros [|k]; cbn; auto. Qed.
Lemma set_nth_split {A} k (a b : A) l :
  nth_error l k = Some a -> exists l1 l2, l = l1 ++ a :: l2 /\ length l1 = k /\ set_nth k b l = l1 ++ b :: l2.
Proof.
  revert k. induction l as [|x l IH]; intros [|k] H; cbn in *; try discriminate.
  - injection H as ->. exists [], l. auto.
  - destruct (IH k H) as (l1 & l2 & -> & L & E). exists (x :: l1), l2. cbn. rewrite E, L. auto.
Qed.

Lemma check_composite_ok nm n cs : check_composite nm n cs = false <-> ~ In n (map nm (concat (map comps cs))).
Proof.
  unfold check_composite. induction cs as [|c cs IH]; cbn; [tauto|].
  rewrite orb_false_iff, IH, find_name_none, map_app, in_app_iff. tauto.
Qed.

Record KInv (w : world) (bounds : list (Z * Z)) (s : compo) (tr : list (contop * contres)) : Prop := {
  k_bounds : map (fun c => (lower c, upper c)) (conts s) = bounds;
  k_names : NoDup (map (wname w) (all_comps s));
  k_upper : forall k ct, nth_error (conts s) k = Some ct -> Z.of_nat (length (comps ct)) <= to_size (upper ct);
  k_held : forall k ct, nth_error (conts s) k = Some ct -> comps ct = contained k tr;
  k_none : forall k, nth_error (conts s) k = None -> contained k tr = [];
  k_live : forall c, In c (freed s) -> ~ In c (all_comps s);
  k_ok : forall k ct c, nth_error (conts s) k = Some ct -> In c (comps ct) -> wparent w c = true /\ wtype w k c = true;
}.

Lemma contained_snoc k tr e : contained k (tr ++ [e]) = cont_effect k (contained k tr) e.
Proof. unfold contained. rewrite fold_left_app. reflexivity. Qed.

Lemma cont_failed w o s : snd (cont_step w o s) <> KDone -> fst (cont_step w o s) = s.
Proof.
  destruct o as [k c [[]|] clash|k c th]; cbn; [unfold cont_add|unfold cont_add|unfold cont_add|unfold cont_delete];
    destruct (nth_error (conts s) k); try reflexivity;
    repeat match goal with |- context [if ?b then _ else _] => destruct b end; cbn; congruence.
Qed.

Lemma inv_failed w bounds s tr o r : KInv w bounds s tr -> r <> KDone -> KInv w bounds s (tr ++ [(o, r)]).
Proof.
  intros V H. assert (E : forall k, contained k (tr ++ [(o, r)]) = contained k tr).
  { intros k. rewrite contained_snoc. destruct o, r; cbn; congruence. }
  constructor; try apply V.
  - intros k ct. rewrite E. apply V.
  - intros k. rewrite E. apply V.
Qed.

Lemma add_done w k c fl cl s s' : cont_add w k c fl cl s = (s', KDone) ->
  exists ct, nth_error (conts s) k = Some ct /\ ~ In c (freed s) /\ wtype w k c = true /\
    Z.of_nat (length (comps ct)) < to_size (upper ct) /\
    ~ In (wname w c) (map (wname w) (all_comps s)) /\ fl = None /\ cl = false /\ wparent w c = true /\
    s' = Compo (set_nth k (Cont (lower ct) (upper ct) (comps ct ++ [c])) (conts s)) (freed s).
Proof.
  unfold cont_add. destruct (nth_error (conts s) k) as [ct|]; [|discriminate].
  destruct (holds c (freed s)) eqn:E1; [discriminate|].
  destruct (wtype w k c) eqn:E2; cbn [negb]; [|discriminate].
  destruct (Z.leb_spec (to_size (upper ct)) (Z.of_nat (length (comps ct)))) as [|E3]; [discriminate|].
  destruct (check_composite (wname w) (wname w c) (conts s)) eqn:E4; [discriminate|].
  destruct fl as [[]|]; [discriminate|discriminate|].
  destruct cl; [discriminate|]. destruct (wparent w c) eqn:E5; cbn [negb]; [|discriminate].
  intros E. injection E as <-. exists ct. repeat split; auto.
  - intros I. apply holds_In in I. congruence.
  - now apply check_composite_ok.
Qed.

Lemma delete_done w k c th s s' : cont_delete w k c th s = (s', KDone) ->
  exists ct, nth_error (conts s) k = Some ct /\ ~ In c (freed s) /\ wtype w k c = true /\ In c (comps ct) /\
    to_size (lower ct) < Z.of_nat (length (comps ct)) /\ th = false /\
    s' = Compo (set_nth k (Cont (lower ct) (upper ct) (without c (comps ct))) (conts s)) (c :: freed s).
Proof.
  unfold cont_delete. destruct (nth_error (conts s) k) as [ct|]; [|discriminate].
  destruct (holds c (freed s)) eqn:E1; [discriminate|].
  destruct (wtype w k c) eqn:E2; cbn [andb negb]; [|discriminate].
  destruct (holds c (comps ct)) eqn:E3; cbn [negb]; [|discriminate].
  destruct (Z.leb_spec (Z.of_nat (length (comps ct))) (to_size (lower ct))) as [|E4]; [discriminate|].
  destruct th; [discriminate|]. intros E. injection E as <-. rewrite erase_without. exists ct. repeat split; auto.
  - intros I. apply holds_In in I. congruence.
  - now apply holds_In.
Qed.

Lemma all_split l1 ct l2 (f : list Z) :
  concat (map comps (l1 ++ Cont (lower ct) (upper ct) f :: l2)) = concat (map comps l1) ++ f ++ concat (map comps l2).
Proof. rewrite map_app, concat_app. reflexivity. Qed.

Lemma NoDup_insert {A} (a b : list A) x : NoDup (a ++ b) -> ~ In x (a ++ b) -> NoDup (a ++ x :: b).
Proof.
  intros N H. apply NoDup_Add with (a := x) (l := a ++ b); [apply Add_app|]. auto.
Qed.

Lemma nth_error_lt {A} (l : list A) k a : nth_error l k = Some a -> (k < length l)%nat.
Proof. intros H. apply nth_error_Some. congruence. Qed.

Lemma step_inv w bounds o s tr :
  KInv w bounds s tr -> KInv w bounds (fst (cont_step w o s)) (tr ++ [(o, snd (cont_step w o s))]).
Proof.
  intros V. assert (D : snd (cont_step w o s) = KDone \/ snd (cont_step w o s) <> KDone).
  { destruct (snd (cont_step w o s)); auto; right; discriminate. }
  destruct D as [D|D]; [|rewrite (cont_failed w o s D); now apply inv_failed].
  destruct (cont_step w o s) as [s' r] eqn:E. cbn in *. subst r.
  destruct o as [k c cl|k c th]; cbn in E.
  - apply add_done in E. destruct E as (ct & Ek & F & Ht & U & Nm & -> & -> & Hp & ->).
    pose proof (nth_error_lt _ _ _ Ek) as Lk.
    destruct (set_nth_split k ct (Cont (lower ct) (upper ct) (comps ct ++ [c])) (conts s) Ek) as (l1 & l2 & Es & L1 & Es').
    assert (All : all_comps s = concat (map comps l1) ++ comps ct ++ concat (map comps l2)).
    { unfold all_comps. rewrite Es, map_app, concat_app. reflexivity. }
    assert (All' : concat (map comps (set_nth k (Cont (lower ct) (upper ct) (comps ct ++ [c])) (conts s)))
                   = (concat (map comps l1) ++ comps ct) ++ c :: concat (map comps l2)).
    { rewrite Es', all_split. rewrite <- !app_assoc. reflexivity. }
    constructor; cbn.
    + rewrite <- (k_bounds w bounds s tr V), Es', Es, !map_app. reflexivity.
    + unfold all_comps; cbn. rewrite All', map_app. cbn. apply NoDup_insert.
      * pose proof (k_names w bounds s tr V) as N. rewrite All in N. rewrite !map_app in *. now rewrite <- app_assoc.
      * rewrite All in Nm. rewrite !map_app in *. now rewrite <- app_assoc.
    + intros j cj Ej. destruct (Nat.eq_dec j k) as [->|Hne].
      * rewrite set_nth_same in Ej by exact Lk. injection Ej as <-. cbn. rewrite app_length. cbn. lia.
      * rewrite set_nth_other in Ej by exact Hne. now apply (k_upper w bounds s tr V) in Ej.
    + intros j cj Ej. rewrite contained_snoc. cbn. destruct (Nat.eqb_spec k j) as [<-|Hne].
      * rewrite set_nth_same in Ej by exact Lk. injection Ej as <-. cbn. f_equal. now apply (k_held w bounds s tr V).
      * rewrite set_nth_other in Ej by congruence. now apply (k_held w bounds s tr V).
    + intros j Ej. rewrite contained_snoc. cbn. apply nth_error_None in Ej. rewrite set_nth_length in Ej.
      destruct (Nat.eqb_spec k j) as [<-|Hne]; [lia|]. apply (k_none w bounds s tr V). now apply nth_error_None.
    + intros x I. unfold all_comps; cbn. rewrite All', in_app_iff. cbn. pose proof (k_live w bounds s tr V x I) as Lv.
      rewrite All, app_assoc, in_app_iff in Lv. intros [H|[<-|H]]; [tauto|contradiction|tauto].
    + intros j cj x Ej I. destruct (Nat.eq_dec j k) as [->|Hne].
      * rewrite set_nth_same in Ej by exact Lk. injection Ej as <-. cbn in I. apply in_app_iff in I. cbn in I.
        destruct I as [I|[<-|[]]]; [now apply (k_ok w bounds s tr V k ct)|auto].
      * rewrite set_nth_other in Ej by exact Hne. now apply (k_ok w bounds s tr V j cj).
  - apply delete_done in E. destruct E as (ct & Ek & F & Ht & Hc & U & -> & ->).
    pose proof (nth_error_lt _ _ _ Ek) as Lk.
    destruct (set_nth_split k ct (Cont (lower ct) (upper ct) (without c (comps ct))) (conts s) Ek) as (l1 & l2 & Es & L1 & Es').
    destruct (without_split c (comps ct) Hc) as (a & b & Hab & Hw & _).
    assert (All : all_comps s = (concat (map comps l1) ++ a) ++ c :: (b ++ concat (map comps l2))).
    { unfold all_comps. rewrite Es, map_app, concat_app. cbn. rewrite Hab, <- !app_assoc. reflexivity. }
    assert (All' : concat (map comps (set_nth k (Cont (lower ct) (upper ct) (without c (comps ct))) (conts s)))
                   = (concat (map comps l1) ++ a) ++ (b ++ concat (map comps l2))).
    { rewrite Es', all_split, Hw, <- !app_assoc. reflexivity. }
    pose proof (k_names w bounds s tr V) as N. rewrite All, map_app in N. cbn in N.
    constructor; cbn.
    + rewrite <- (k_bounds w bounds s tr V), Es', Es, !map_app. reflexivity.
    + unfold all_comps; cbn. rewrite All', map_app. now apply NoDup_remove_1 in N.
    + intros j cj Ej. destruct (Nat.eq_dec j k) as [->|Hne].
      * rewrite set_nth_same in Ej by exact Lk. injection Ej as <-. cbn.
        pose proof (k_upper w bounds s tr V k ct Ek). pose proof (without_length_le c (comps ct)). lia.
      * rewrite set_nth_other in Ej by exact Hne. now apply (k_upper w bounds s tr V) in Ej.
    + intros j cj Ej. rewrite contained_snoc. cbn. destruct (Nat.eqb_spec k j) as [<-|Hne].
      * rewrite set_nth_same in Ej by exact Lk. injection Ej as <-. cbn. f_equal. now apply (k_held w bounds s tr V).
      * rewrite set_nth_other in Ej by congruence. now apply (k_held w bounds s tr V).
    + intros j Ej. rewrite contained_snoc. cbn. apply nth_error_None in Ej. rewrite set_nth_length in Ej.
      destruct (Nat.eqb_spec k j) as [<-|Hne]; [lia|]. apply (k_none w bounds s tr V). now apply nth_error_None.
    + intros x I. unfold all_comps; cbn. rewrite All'. destruct I as [<-|I].
      * apply NoDup_remove_2 in N. intros H. apply N. rewrite <- map_app. now apply in_map.
      * pose proof (k_live w bounds s tr V x I) as Lv. rewrite All in Lv. rewrite !in_app_iff in *. cbn in Lv.
        rewrite ?in_app_iff in Lv. tauto.
    + intros j cj x Ej I. destruct (Nat.eq_dec j k) as [->|Hne].
      * rewrite set_nth_same in Ej by exact Lk. injection Ej as <-. cbn in I. apply without_In in I.
        now apply (k_ok w bounds s tr V k ct).
      * rewrite set_nth_other in Ej by exact Hne. now apply (k_ok w bounds s tr V j cj).
Qed.

Lemma init_inv w bounds : KInv w bounds (compo_init bounds) [].
Proof.
  assert (A : all_comps (compo_init bounds) = []).
  { unfold all_comps, compo_init. cbn. induction bounds; cbn; auto. }
  assert (Em : forall k ct, nth_error (conts (compo_init bounds)) k = Some ct -> comps ct = []).
  { intros k ct E. cbn in E. apply nth_error_In, in_map_iff in E. destruct E as (b & <- & _). reflexivity. }
  constructor.
  - cbn. rewrite map_map. cbn. erewrite map_ext; [apply map_id|]. now intros [].
  - rewrite A. constructor.
  - intros k ct E. rewrite (Em k ct E). cbn. apply Z.mod_pos_bound. lia.
  - intros k ct E. now rewrite (Em k ct E).
  - reflexivity.
  - intros c [].
  - intros k ct c E I. rewrite (Em k ct E) in I. destruct I.
Qed.

Lemma run_inv w bounds os s tr :
  KInv w bounds s tr -> KInv w bounds (fst (cont_run w s os)) (tr ++ snd (cont_run w s os)).
Proof.
  revert s tr. induction os as [|o os IH]; intros s tr V; cbn; [now rewrite app_nil_r|].
  pose proof (step_inv w bounds o s tr V) as V1. destruct (cont_step w o s) as [s1 r]. cbn in V1.
  specialize (IH s1 _ V1). destruct (cont_run w s1 os) as [s2 t]. cbn in *. now rewrite <- app_assoc in IH.
Qed.

Lemma reach_kinv w bounds os :
  KInv w bounds (fst (cont_run w (compo_init bounds) os)) (snd (cont_run w (compo_init bounds) os)).
Proof. exact (run_inv w bounds os _ _ (init_inv w bounds)). Qed.

(** ** References *)
Lemma filter_without c l : filter (fun x => negb (x =? c)) (without c l) = filter (fun x => negb (x =? c)) l.
Proof.
  induction l as [|y l IH]; cbn; [reflexivity|]. destruct (Z.eqb_spec y c) as [->|Hne]; cbn; [reflexivity|].
  destruct (Z.eqb_spec y c); cbn; [contradiction|]. now rewrite IH.
Qed.
Lemma filter_absent c l : ~ In c l -> filter (fun x => negb (x =? c)) l = l.
Proof.
  induction l as [|y l IH]; cbn; [reflexivity|]. intros H. destruct (Z.eqb_spec y c) as [->|Hne]; cbn; [tauto|]. f_equal. tauto.
Qed.
Lemma erase_all_ok fuel c l : (length l <= fuel)%nat -> erase_all fuel c l = filter (fun x => negb (x =? c)) l.
Proof.
  revert l. induction fuel as [|fuel IH]; intros l H; cbn.
  - destruct l; [reflexivity|cbn in H; lia].
  - destruct (holds c l) eqn:E.
    + apply holds_In in E. rewrite erase_without, IH, filter_without; [reflexivity|].
      pose proof (without_length c l E). lia.
    + symmetry. apply filter_absent. intros I. apply holds_In in I. congruence.
Qed.

Record FInv (typ : Z -> bool) (up : Z) (l : list Z) (tr : list (refop * refres)) : Prop := {
  f_upper : Z.of_nat (length l) <= to_size up;
  f_held : l = referenced tr;
  f_type : forall c, In c l -> typ c = true;
}.
Lemma filter_length_le {A} (p : A -> bool) l : (length (filter p l) <= length l)%nat.
Proof. induction l as [|x l IH]; cbn; [lia|]. destruct (p x); cbn; lia. Qed.

Lemma ref_step_effect typ lo up o l : (forall c, In c l -> typ c = true) ->
  fst (ref_step typ lo up o l) = ref_effect l (o, snd (ref_step typ lo up o l)).
Proof.
  intros T. destruct o as [c|c|c]; cbn.
  - destruct (to_size up <=? _); [reflexivity|]. destruct (typ c); reflexivity.
  - destruct (negb _); [reflexivity|]. destruct (Z.of_nat (length l) <=? _); [reflexivity|]. cbn. apply erase_without.
  - destruct (typ c) eqn:E; [apply erase_all_ok; lia|]. symmetry. apply filter_absent. intros I. apply T in I. congruence.
Qed.

Lemma ref_step_inv typ lo up o l tr : FInv typ up l tr ->
  FInv typ up (fst (ref_step typ lo up o l)) (tr ++ [(o, snd (ref_step typ lo up o l))]).
Proof.
  intros V. constructor.
  - pose proof (f_upper typ up l tr V) as U. destruct o as [c|c|c]; cbn.
    + destruct (Z.leb_spec (to_size up) (Z.of_nat (length l))); [exact U|]. destruct (typ c); cbn; [rewrite app_length; cbn; lia|exact U].
    + destruct (negb _); [exact U|]. destruct (Z.of_nat (length l) <=? _); [exact U|]. cbn. rewrite erase_without.
      pose proof (without_length_le c l). lia.
    + destruct (typ c); [|exact U]. rewrite erase_all_ok by lia.
      pose proof (filter_length_le (fun x => negb (x =? c)) l). lia.
  - unfold referenced. rewrite fold_left_app. cbn. fold (referenced tr). rewrite <- (f_held typ up l tr V).
    apply ref_step_effect. apply V.
  - intros x. rewrite ref_step_effect by apply V. pose proof (f_type typ up l tr V) as T. destruct o as [c|c|c]; cbn.
    + destruct (to_size up <=? _); [apply T|]. destruct (typ c) eqn:E; cbn; [|apply T].
      rewrite in_app_iff. cbn. intros [I|[<-|[]]]; auto.
    + destruct (negb _); [apply T|]. destruct (Z.of_nat (length l) <=? _); [apply T|]. cbn. intros I. apply without_In in I. auto.
    + intros I. apply filter_In in I. now apply T.
Qed.
Lemma ref_run_inv typ lo up os l tr : FInv typ up l tr ->
  FInv typ up (fst (ref_run typ lo up l os)) (tr ++ snd (ref_run typ lo up l os)).
Proof.
  revert l tr. induction os as [|o os IH]; intros l tr V; cbn; [now rewrite app_nil_r|].
  pose proof (ref_step_inv typ lo up o l tr V) as V1. destruct (ref_step typ lo up o l) as [l1 r]. cbn in V1.
  specialize (IH l1 _ V1). destruct (ref_run typ lo up l1 os) as [l2 t]. cbn in *. now rewrite <- app_assoc in IH.
Qed.
Lemma reach_finv typ lo up os : FInv typ up (fst (ref_run typ lo up [] os)) (snd (ref_run typ lo up [] os)).
Proof.
  apply (ref_run_inv typ lo up os [] []). constructor; [cbn; apply Z.mod_pos_bound; lia|reflexivity|intros c []].
Qed.
