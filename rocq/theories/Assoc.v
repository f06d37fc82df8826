(** Association maps with an arbitrary key type: std::unordered_map, and std::map
    where the order of the keys plays no role.  Elements are kept in order of
    insertion, which no theorem relies on. *)
From Verif Require Import Base.

Section Assoc.
  Context {K A : Type} (eqb : K -> K -> bool).
  Definition assoc := list (K * A).

  (** m.find(k) *)
  Fixpoint aget (k : K) (m : assoc) : option A :=
    match m with
    | [] => None
    | (k', a) :: r => if eqb k k' then Some a else aget k r
    end.

  (** m.try_emplace(k, a) *)
  Definition atry (k : K) (a : A) (m : assoc) : assoc :=
    match aget k m with Some _ => m | None => m ++ [(k, a)] end.

  (** m[k] = a *)
  Fixpoint aset (k : K) (a : A) (m : assoc) : assoc :=
    match m with
    | [] => [(k, a)]
    | (k', a') :: r => if eqb k k' then (k', a) :: r else (k', a') :: aset k a r
    end.

  (** m.erase(k) *)
  Fixpoint adel (k : K) (m : assoc) : assoc :=
    match m with
    | [] => []
    | (k', a') :: r => if eqb k k' then r else (k', a') :: adel k r
    end.

  Definition akeys (m : assoc) : list K := map fst m.
End Assoc.

Lemma NoDup_snoc {A} (l : list A) x : NoDup l -> ~ In x l -> NoDup (l ++ [x]).
Proof.
  intros N H. induction N as [|y l Hy N IH]; cbn; [repeat constructor; auto|].
  constructor.
  - rewrite in_app_iff. cbn in *. intros [I|[->|[]]]; tauto.
  - apply IH. cbn in H. tauto.
Qed.

Section AssocFacts.
  Context {K A : Type} (eqb : K -> K -> bool) (eqb_ok : forall a b, eqb a b = true <-> a = b).
  Notation get := (aget (A := A) eqb).

  Lemma eqb_refl k : eqb k k = true.
  Proof. now apply eqb_ok. Qed.
  Lemma eqb_ne a b : a <> b -> eqb a b = false.
  Proof. intros H. destruct (eqb a b) eqn:E; [|reflexivity]. apply eqb_ok in E. contradiction. Qed.
  Lemma eqb_cases a b : (eqb a b = true /\ a = b) \/ (eqb a b = false /\ a <> b).
  Proof.
    destruct (eqb a b) eqn:E; [left; split; [reflexivity|now apply eqb_ok]|].
    right. split; [reflexivity|]. intros ->. rewrite eqb_refl in E. discriminate.
  Qed.

  Lemma aget_app k m m' : get k (m ++ m') = match get k m with Some a => Some a | None => get k m' end.
  Proof. induction m as [|[x a] m IH]; cbn; [reflexivity|]. now destruct (eqb k x). Qed.

  Lemma aget_In k a m : get k m = Some a -> In (k, a) m.
  Proof.
    induction m as [|[x b] m IH]; cbn; [discriminate|].
    destruct (eqb_cases k x) as [[-> ->]|[-> _]]; [intros [= ->]; auto|auto].
  Qed.

  Lemma aget_None k m : get k m = None <-> ~ In k (akeys m).
  Proof.
    induction m as [|[x b] m IH]; cbn; [tauto|].
    destruct (eqb_cases k x) as [[-> ->]|[-> H]]; [split; [discriminate|tauto]|].
    rewrite IH. split; [intros X [Y|Y]; [congruence|tauto]|tauto].
  Qed.

  Lemma aget_In_nodup k a m : NoDup (akeys m) -> In (k, a) m -> get k m = Some a.
  Proof.
    induction m as [|[x b] m IH]; cbn; [tauto|]. intros N [H|H].
    - injection H as -> ->. now rewrite eqb_refl.
    - inversion N; subst. destruct (eqb_cases k x) as [[-> ->]|[-> _]]; [|auto].
      exfalso. apply H2. now apply (in_map fst) in H.
  Qed.

  Lemma aget_aset_same k a m : get k (aset eqb k a m) = Some a.
  Proof.
    induction m as [|[x b] m IH]; cbn; [now rewrite eqb_refl|].
    destruct (eqb_cases k x) as [[E ->]|[E _]]; rewrite E; cbn; [now rewrite eqb_refl|].
    now rewrite E.
  Qed.

  Lemma aget_aset_other k k' a m : k <> k' -> get k (aset eqb k' a m) = get k m.
  Proof.
    intros H. induction m as [|[x b] m IH]; cbn; [now rewrite eqb_ne|].
    destruct (eqb_cases k' x) as [[E ->]|[E _]]; rewrite E; cbn; [now rewrite !eqb_ne|].
    now rewrite IH.
  Qed.

  Lemma akeys_aset k (a : A) (m : assoc) : akeys (aset eqb k a m) = if existsb (eqb k) (akeys m) then akeys m else akeys m ++ [k].
  Proof.
    unfold akeys. induction m as [|[x b] m IH]; cbn; [reflexivity|].
    destruct (eqb k x) eqn:E; cbn; [reflexivity|]. rewrite IH.
    now destruct (existsb (eqb k) (map fst m)).
  Qed.

  Lemma aset_nodup k (a : A) (m : assoc) : NoDup (akeys m) -> NoDup (akeys (aset eqb k a m)).
  Proof.
    intros N. rewrite akeys_aset. destruct (existsb (eqb k) (akeys m)) eqn:E; [assumption|].
    apply NoDup_snoc; [assumption|]. intros I.
    assert (existsb (eqb k) (akeys m) = true) by (apply existsb_exists; exists k; split; [assumption|apply eqb_refl]).
    congruence.
  Qed.

  Lemma aget_adel_same k (m : @assoc K A) : NoDup (akeys m) -> get k (adel eqb k m) = None.
  Proof.
    induction m as [|[x b] m IH]; cbn; [reflexivity|]. intros N. inversion N; subst.
    destruct (eqb_cases k x) as [[-> ->]|[E _]]; [now apply aget_None|].
    rewrite E. cbn. rewrite E. auto.
  Qed.

  Lemma aget_adel_other k k' m : k <> k' -> get k (adel eqb k' m) = get k m.
  Proof.
    intros H. induction m as [|[x b] m IH]; cbn; [reflexivity|].
    destruct (eqb_cases k' x) as [[E ->]|[E _]]; rewrite E; cbn; [now rewrite eqb_ne|].
    now rewrite IH.
  Qed.

  Lemma akeys_adel_In k k' m : In k (akeys (adel (A := A) eqb k' m)) -> In k (akeys m).
  Proof.
    induction m as [|[x b] m IH]; cbn; [tauto|]. destruct (eqb k' x); cbn; tauto.
  Qed.

  Lemma adel_nodup k (m : @assoc K A) : NoDup (akeys m) -> NoDup (akeys (adel (A := A) eqb k m)).
  Proof.
    induction m as [|[x b] m IH]; cbn; [auto|]. intros N. inversion N; subst.
    destruct (eqb k x); [assumption|]. cbn. constructor; [|auto].
    intros I. apply akeys_adel_In in I. contradiction.
  Qed.

  Lemma aget_atry k k' a m :
    get k (atry eqb k' a m) = match get k m with
                              | Some b => Some b
                              | None => if eqb k k' then Some a else None
                              end.
  Proof.
    unfold atry. destruct (get k' m) eqn:E.
    - destruct (get k m) eqn:E2; [reflexivity|].
      destruct (eqb_cases k k') as [[-> ->]|[-> _]]; [congruence|reflexivity].
    - rewrite aget_app. cbn. reflexivity.
  Qed.

  Lemma atry_nodup k (a : A) (m : assoc) : NoDup (akeys m) -> NoDup (akeys (atry eqb k a m)).
  Proof.
    intros N. unfold atry. destruct (get k m) eqn:E; [assumption|].
    unfold akeys. rewrite map_app. apply NoDup_snoc; [assumption|]. now apply aget_None in E.
  Qed.
End AssocFacts.
