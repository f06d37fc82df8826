(** Proofs about cstring. *)
From Coq Require Import ZArith List Bool Arith Lia.
From Verif Require Import Base HelperModel CstrModel CstrSpec.
Import ListNotations.
Local Open Scope nat_scope.

Lemma upd_same : forall A (f : nat -> A) k a, upd f k a k = a.
Proof. intros. unfold upd. now rewrite Nat.eqb_refl. Qed.
Lemma upd_other : forall A (f : nat -> A) k a x, x <> k -> upd f k a x = f x.
Proof. intros A f k a x N. unfold upd. destruct (Nat.eqb_spec x k); [contradiction|reflexivity]. Qed.
Lemma put_same : forall a i t, put a i t i = t.
Proof. intros. unfold put. now rewrite Nat.eqb_refl. Qed.
Lemma put_other : forall a i t x, x <> i -> put a i t x = a x.
Proof. intros a i t x N. unfold put. destruct (Nat.eqb_spec x i); [contradiction|reflexivity]. Qed.

Lemma c_str_before : forall l, c_str l = if existsb (Z.eqb 0) l then Some (before_nul l) else None.
Proof.
  unfold c_str. induction l as [|c l IH]; [reflexivity|]. cbn [skip_while existsb before_nul].
  rewrite (Z.eqb_sym 0 c). destruct (c =? 0)%Z; cbn [negb orb]; [reflexivity|].
  destruct (skip_while (fun c : Z => negb (c =? 0)%Z) l) as [[x y]|]; destruct (existsb (Z.eqb 0) l); congruence.
Qed.

Lemma nul_end : forall t, existsb (Z.eqb 0) (t ++ [0%Z]) = true.
Proof. intros t. rewrite existsb_app. cbn. apply orb_true_r. Qed.
Lemma before_nul_end : forall t, before_nul (t ++ [0%Z]) = before_nul t.
Proof. induction t as [|c t IH]; [reflexivity|]. cbn. destruct (c =? 0)%Z; [reflexivity|now rewrite IH]. Qed.
Lemma before_nul_twice : forall t, before_nul (before_nul t) = before_nul t.
Proof. induction t as [|c t IH]; [reflexivity|]. cbn. destruct (c =? 0)%Z eqn:E; [reflexivity|]. cbn. now rewrite E, IH. Qed.

(** What an object holds agrees with its text. *)
Definition holds (s : cs) (o : option (option nat)) (t : option (option (list Z))) : Prop :=
  match o, t with
  | None, None => True
  | Some None, Some None => True
  | Some (Some p), Some (Some t) => exists b, heap s p = Some (b ++ [0%Z]) /\ before_nul b = t
  | _, _ => False
  end.

Record inv (s : cs) (a : texts) : Prop := Inv {
  inv_holds : forall i, holds s (objs s i) (a i);
  inv_one : forall i j p, objs s i = Some (Some p) -> objs s j = Some (Some p) -> i = j;
  inv_owned : forall p, heap s p <> None -> exists i, objs s i = Some (Some p);
  inv_fresh : forall p, next s <= p -> heap s p = None
}.

Lemma inv_init : inv cs_init no_texts.
Proof. constructor; cbn; [intros i; exact I|discriminate|intros p H; now destruct H|reflexivity]. Qed.

Lemma holds_live : forall s a i p, inv s a -> objs s i = Some (Some p) -> exists b, heap s p = Some (b ++ [0%Z]) /\ a i = Some (Some (before_nul b)).
Proof.
  intros s a i p V E. pose proof (inv_holds s a V i) as H. rewrite E in H. cbn in H. destruct (a i) as [[t|]|]; try contradiction.
  destruct H as (b & H & <-). eauto.
Qed.
Lemma live_fresh : forall s a i p, inv s a -> objs s i = Some (Some p) -> p < next s.
Proof.
  intros s a i p V E. destruct (holds_live s a i p V E) as (b & H & _). destruct (Nat.lt_ge_cases p (next s)) as [|L]; [assumption|].
  rewrite (inv_fresh s a V p L) in H. discriminate.
Qed.

Lemma none_iff : forall s a i, inv s a -> objs s i = None <-> a i = None.
Proof. intros s a i V. pose proof (inv_holds s a V i) as H. unfold holds in H. destruct (objs s i) as [[p|]|], (a i) as [[t|]|]; split; intros E; try discriminate; try contradiction; reflexivity. Qed.

Lemma read_told : forall s a v t, inv s a -> told a v = Some t -> cread v s = Ok t.
Proof.
  intros s a [|b|j] t V H; cbn in *; [discriminate| |].
  - rewrite c_str_before. destruct (existsb (Z.eqb 0) b); congruence.
  - destruct (a j) as [[u|]|] eqn:A; try discriminate. injection H as <-. pose proof (inv_holds s a V j) as H. rewrite A in H.
    unfold holds in H. destruct (objs s j) as [[p|]|]; try contradiction. destruct H as (b & -> & <-). rewrite c_str_before, nul_end, before_nul_end. reflexivity.
Qed.

(** Deleting what an object holds. *)
Lemma delete_ok : forall s a i o, inv s a -> objs s i = Some o -> exists s1, cdelete o s = Ok s1 /\ objs s1 = objs s /\ next s1 = next s /\
  (forall p, heap s1 p = if match o with Some q => p =? q | None => false end then None else heap s p).
Proof.
  intros s a i [p|] V E; cbn.
  - destruct (holds_live s a i p V E) as (b & -> & _). eexists. split; [reflexivity|]. cbn. split; [reflexivity|]. split; [reflexivity|]. intros q. unfold upd. reflexivity.
  - exists s. auto.
Qed.

(** Writing a fresh copy of [t] to object i, whose former block, if any, has gone. *)
Lemma fresh_ok : forall s a i s1 b, inv s a ->
  objs s1 = objs s -> next s1 = next s ->
  (forall p, heap s1 p = if match objs s i with Some (Some q) => p =? q | _ => false end then None else heap s p) ->
  inv (set_obj i (Some (Some (next s1))) (CS (upd (heap s1) (next s1) (Some (b ++ [0%Z]))) (S (next s1)) (objs s1)))
      (put a i (Some (Some (before_nul b)))).
Proof.
  intros s a i s1 b V EO EN EH. rewrite EN. constructor; cbn [objs heap next set_obj]; rewrite ?EO.
  - intros j. destruct (Nat.eq_dec j i) as [->|N].
    + rewrite upd_same, put_same. exists b. split; [|reflexivity]. cbn [heap set_obj]. apply upd_same.
    + rewrite upd_other, put_other by assumption. pose proof (inv_holds s a V j) as H. destruct (objs s j) as [[p|]|] eqn:E; try exact H.
      destruct (holds_live s a j p V E) as (c & Hc & Ha). rewrite Ha. exists c. split; [|reflexivity].
      pose proof (live_fresh s a j p V E). cbn [heap set_obj]. rewrite upd_other by lia. rewrite EH. destruct (objs s i) as [[q|]|] eqn:Ei; try exact Hc.
      destruct (Nat.eqb_spec p q) as [->|]; [|exact Hc]. exfalso. apply N. exact (inv_one s a V j i q E Ei).
  - intros j k p Ej Ek. unfold upd in Ej, Ek. destruct (Nat.eqb_spec j i) as [->|Nj], (Nat.eqb_spec k i) as [->|Nk]; try reflexivity.
    + injection Ej as <-. pose proof (live_fresh s a k _ V Ek). lia.
    + injection Ek as <-. pose proof (live_fresh s a j _ V Ej). lia.
    + exact (inv_one s a V j k p Ej Ek).
  - intros p H. unfold upd in H. destruct (Nat.eqb_spec p (next s)) as [EP|N].
    + exists i. rewrite upd_same. congruence.
    + rewrite EH in H. destruct (objs s i) as [[q|]|] eqn:Ei.
      * destruct (Nat.eqb_spec p q) as [EQ|Nq]; [now destruct H|]. destruct (inv_owned s a V p H) as [j Ej]. exists j. rewrite upd_other; [exact Ej|]. congruence.
      * destruct (inv_owned s a V p H) as [j Ej]. exists j. rewrite upd_other; [exact Ej|]. congruence.
      * destruct (inv_owned s a V p H) as [j Ej]. exists j. rewrite upd_other; [exact Ej|]. congruence.
  - intros p H. rewrite upd_other by lia. rewrite EH. rewrite (inv_fresh s a V p) by lia. destruct (match objs s i with Some (Some q) => p =? q | _ => false end); reflexivity.
Qed.

Lemma from_ok : forall s a i v t fail, inv s a -> a i = None -> told a v = Some t ->
  snd (from_source i v fail s) <> UB /\
  inv (fst (from_source i v fail s)) (if fail then a else put a i (Some (Some t))).
Proof.
  intros s a i v t fail V N T. unfold from_source. rewrite (read_told s a v t V T). cbn [bind]. unfold ccopy. destruct fail; cbn [fst snd].
  - split; [discriminate|exact V].
  - split; [discriminate|]. pose proof (fresh_ok s a i s t V eq_refl eq_refl) as F. rewrite (proj2 (none_iff s a i V) N) in F. specialize (F (fun p => eq_refl)).
    replace (before_nul t) with t in F; [exact F|]. destruct v as [|b|j]; cbn in T; [discriminate| |].
    + destruct (existsb (Z.eqb 0) b); [|discriminate]. injection T as <-. now rewrite before_nul_twice.
    + destruct (a j) as [[u|]|] eqn:A; try discriminate. injection T as <-. pose proof (inv_holds s a V j) as H. rewrite A in H. unfold holds in H.
      destruct (objs s j) as [[p|]|]; try contradiction. destruct H as (c & _ & <-). now rewrite before_nul_twice.
Qed.

Lemma told_plain : forall s a v t, inv s a -> told a v = Some t -> before_nul t = t.
Proof.
  intros s a v t V T. destruct v as [|b|j]; cbn in T; [discriminate| |].
  - destruct (existsb (Z.eqb 0) b); [|discriminate]. injection T as <-. now rewrite before_nul_twice.
  - destruct (a j) as [[u|]|] eqn:A; try discriminate. injection T as <-. pose proof (inv_holds s a V j) as H. rewrite A in H. unfold holds in H.
    destruct (objs s j) as [[p|]|]; try contradiction. destruct H as (c & _ & <-). now rewrite before_nul_twice.
Qed.

Lemma set_ok : forall s a i v t, inv s a -> a i <> None -> told a v = Some t -> v <> SOf i ->
  snd (set_source i v false s) <> UB /\ inv (fst (set_source i v false s)) (put a i (Some (Some t))).
Proof.
  intros s a i v t V N T NI. unfold set_source. destruct (objs s i) as [o|] eqn:E; [|now apply (none_iff s a i V) in E].
  destruct (delete_ok s a i o V E) as (s1 & -> & EO & EN & EH).
  assert (R : cread v s1 = Ok t).
  { destruct v as [|b|j]; cbn in *; [discriminate| |].
    - rewrite c_str_before. destruct (existsb (Z.eqb 0) b); congruence.
    - destruct (a j) as [[u|]|] eqn:A; try discriminate. injection T as <-. pose proof (inv_holds s a V j) as H. rewrite A in H. unfold holds in H.
      rewrite EO. destruct (objs s j) as [[p|]|] eqn:Ej; try contradiction. destruct H as (b & H & <-). rewrite EH.
      replace (match o with Some q => p =? q | None => false end) with false.
      + rewrite H, c_str_before, nul_end, before_nul_end. reflexivity.
      + destruct o as [q|]; [|reflexivity]. symmetry. apply Nat.eqb_neq. intros ->. apply NI. f_equal. exact (inv_one s a V j i q Ej E). }
  rewrite R. cbn [bind ccopy fst snd]. split; [discriminate|].
  pose proof (fresh_ok s a i s1 t V EO EN) as F. rewrite E in F. specialize (F EH). rewrite (told_plain s a v t V T) in F. exact F.
Qed.

Lemma inv_ext : forall s a b, inv s a -> (forall i, b i = a i) -> inv s b.
Proof. intros s a b V E. constructor; [intros i; rewrite E; apply (inv_holds s a V)|apply (inv_one s a V)|apply (inv_owned s a V)|apply (inv_fresh s a V)]. Qed.

(** Moving from j to i. *)
Lemma move_ok : forall s a i j o s1, inv s a -> objs s j = Some o ->
  objs s1 = objs s -> next s1 = next s ->
  (forall p, heap s1 p = if match objs s i with Some (Some q) => p =? q | _ => false end then None else heap s p) ->
  inv (set_obj j (Some None) (set_obj i (Some o) s1)) (put (put a i (a j)) j (Some None)).
Proof.
  intros s a i j o s1 V E EO EN EH. constructor; cbn [objs heap next set_obj]; rewrite ?EO.
  - intros k. destruct (Nat.eq_dec k j) as [->|Nj]; [rewrite upd_same, put_same; exact I|]. rewrite upd_other, put_other by assumption.
    destruct (Nat.eq_dec k i) as [->|Ni].
    + rewrite upd_same, put_same. pose proof (inv_holds s a V j) as H. rewrite E in H. destruct o as [p|]; [|exact H].
      cbn [holds] in *. destruct (a j) as [[t|]|]; try contradiction. destruct H as (b & H & Hb). exists b. split; [|exact Hb].
      cbn [heap set_obj]. rewrite EH. destruct (objs s i) as [[q|]|] eqn:Ei; try exact H. destruct (Nat.eqb_spec p q) as [->|]; [|exact H].
      exfalso. apply Nj. exact (inv_one s a V i j q Ei E).
    + rewrite upd_other, put_other by assumption. pose proof (inv_holds s a V k) as H. destruct (objs s k) as [[p|]|] eqn:Ek; try exact H.
      cbn [holds] in *. destruct (a k) as [[t|]|]; try contradiction. destruct H as (b & H & Hb). exists b. split; [|exact Hb].
      cbn [heap set_obj]. rewrite EH. destruct (objs s i) as [[q|]|] eqn:Ei; try exact H. destruct (Nat.eqb_spec p q) as [->|]; [|exact H].
      exfalso. apply Ni. exact (inv_one s a V k i q Ek Ei).
  - intros x y p Ex Ey. unfold upd in Ex, Ey.
    destruct (Nat.eqb_spec x j) as [->|Nx]; [discriminate|]. destruct (Nat.eqb_spec y j) as [->|Ny]; [discriminate|].
    destruct (Nat.eqb_spec x i) as [->|Nxi], (Nat.eqb_spec y i) as [->|Nyi]; try reflexivity.
    + injection Ex as ->. exfalso. apply Ny. exact (inv_one s a V y j p Ey E).
    + injection Ey as ->. exfalso. apply Nx. exact (inv_one s a V x j p Ex E).
    + exact (inv_one s a V x y p Ex Ey).
  - intros p H. rewrite EH in H. assert (H' : heap s p <> None) by (destruct (match objs s i with Some (Some q) => p =? q | _ => false end); [now destruct H|exact H]).
    destruct (inv_owned s a V p H') as [k Ek]. destruct (Nat.eq_dec k i) as [->|Ni].
    { rewrite Ek, Nat.eqb_refl in H. now destruct H. }
    destruct (Nat.eq_dec k j) as [->|Nj].
    + exists i. rewrite upd_other by congruence. rewrite upd_same. congruence.
    + exists k. now rewrite !upd_other.
  - intros p H. rewrite EN in H. rewrite EH, (inv_fresh s a V p H). destruct (match objs s i with Some (Some q) => p =? q | _ => false end); reflexivity.
Qed.

Lemma self_move_ok : forall s a i o s1, inv s a -> objs s i = Some o ->
  objs s1 = objs s -> next s1 = next s ->
  (forall p, heap s1 p = if match o with Some q => p =? q | _ => false end then None else heap s p) ->
  forall d, d = None \/ d = Some None ->
  inv (set_obj i d s1) (put a i (match d with Some _ => Some None | None => None end)).
Proof.
  intros s a i o s1 V E EO EN EH d D. constructor; cbn [objs heap next set_obj]; rewrite ?EO.
  - intros k. destruct (Nat.eq_dec k i) as [->|Ni]; [rewrite upd_same, put_same; destruct D as [->| ->]; exact I|]. rewrite upd_other, put_other by assumption.
    pose proof (inv_holds s a V k) as H. destruct (objs s k) as [[p|]|] eqn:Ek; try exact H.
    cbn [holds] in *. destruct (a k) as [[t|]|]; try contradiction. destruct H as (b & H & Hb). exists b. split; [|exact Hb].
    cbn [heap set_obj]. rewrite EH. destruct o as [q|]; try exact H. destruct (Nat.eqb_spec p q) as [->|]; [|exact H].
    exfalso. apply Ni. exact (inv_one s a V k i q Ek E).
  - intros x y p Ex Ey. unfold upd in Ex, Ey. destruct (Nat.eqb_spec x i) as [->|Nx]; [destruct D as [->| ->]; discriminate|].
    destruct (Nat.eqb_spec y i) as [->|Ny]; [destruct D as [->| ->]; discriminate|]. exact (inv_one s a V x y p Ex Ey).
  - intros p H. rewrite EH in H. assert (H' : heap s p <> None) by (destruct (match o with Some q => p =? q | _ => false end); [now destruct H|exact H]).
    destruct (inv_owned s a V p H') as [k Ek]. destruct (Nat.eq_dec k i) as [->|Ni].
    { rewrite E in Ek. injection Ek as ->. rewrite Nat.eqb_refl in H. now destruct H. }
    exists k. now rewrite upd_other.
  - intros p H. rewrite EN in H. rewrite EH, (inv_fresh s a V p H). destruct (match o with Some q => p =? q | _ => false end); reflexivity.
Qed.

Lemma step_ok : forall s a o, inv s a -> careful a o -> snd (cstep s o) <> UB /\ inv (fst (cstep s o)) (expected a o).
Proof.
  intros s a o V C. destruct o as [i v fail|i b n fail|i j fail|i j|i j fail|i j|i v fail|i]; cbn [cstep careful expected] in *.
  - destruct C as [N T]. rewrite (proj2 (none_iff s a i V) N). destruct (told a v) as [t|] eqn:E; [|contradiction]. exact (from_ok s a i v t fail V N E).
  - destruct C as [N L]. rewrite (proj2 (none_iff s a i V) N). destruct (Nat.ltb_spec (length b) n); [lia|]. unfold ccopy. destruct fail; cbn [fst snd].
    + split; [discriminate|exact V].
    + split; [discriminate|]. pose proof (fresh_ok s a i s (firstn n b) V eq_refl eq_refl) as F. rewrite (proj2 (none_iff s a i V) N) in F. exact (F (fun p => eq_refl)).
  - destruct C as [N T]. rewrite (proj2 (none_iff s a i V) N). destruct (told a (SOf j)) as [t|] eqn:E; [|contradiction].
    pose proof (from_ok s a i (SOf j) t fail V N E) as F. cbn in E. destruct (a j) as [[u|]|] eqn:A; try discriminate. injection E as ->.
    destruct (objs s j) eqn:Oj; [exact F|]. apply (none_iff s a j V) in Oj. congruence.
  - destruct C as [N T]. pose proof (proj2 (none_iff s a i V) N) as Oi. rewrite Oi. destruct (objs s j) as [o|] eqn:E; [|now apply (none_iff s a j V) in E].
    cbn [fst snd]. split; [discriminate|]. apply (move_ok s a i j o s V E eq_refl eq_refl). intros p. now rewrite Oi.
  - destruct C as (N & T & ->). destruct (told a (SOf j)) as [t|] eqn:E; [|contradiction]. pose proof E as E'. cbn in E'.
    destruct (a j) as [[u|]|] eqn:A; try discriminate. injection E' as ->.
    destruct (objs s j) as [oj|] eqn:Oj; [|apply (none_iff s a j V) in Oj; congruence].
    destruct (Nat.eqb_spec i j) as [->|NE].
    + cbn [fst snd]. split; [discriminate|]. apply (inv_ext s a); [exact V|]. intros k. unfold put. destruct (Nat.eqb_spec k j) as [->|]; congruence.
    + apply (set_ok s a i (SOf j) t V N E). congruence.
  - destruct C as [N M]. destruct (objs s i) as [oi|] eqn:Oi; [|now apply (none_iff s a i V) in Oi].
    destruct (objs s j) as [oj|] eqn:Oj; [|now apply (none_iff s a j V) in Oj].
    destruct (delete_ok s a i oi V Oi) as (s1 & -> & EO & EN & EH). cbn [fst snd]. split; [discriminate|].
    apply (move_ok s a i j oj s1 V Oj EO EN). intros p. rewrite Oi. apply EH.
  - destruct C as (N & T & NI & ->). destruct (told a v) as [t|] eqn:E; [|contradiction]. exact (set_ok s a i v t V N E NI).
  - destruct (objs s i) as [oi|] eqn:Oi; [|now apply (none_iff s a i V) in Oi].
    destruct (delete_ok s a i oi V Oi) as (s1 & -> & EO & EN & EH). cbn [fst snd]. split; [discriminate|].
    exact (self_move_ok s a i oi s1 V Oi EO EN EH None (or_introl eq_refl)).
Qed.

Lemma run_ok : forall ops s a, inv s a -> careful_program a ops -> exists s', crun s ops = Some s' /\ inv s' (outcome a ops).
Proof.
  induction ops as [|o ops IH]; intros s a V C; [exists s; split; [reflexivity|exact V]|]. destruct C as [C0 C]. cbn [crun outcome fold_left].
  destruct (step_ok s a o V C0) as [N V']. destruct (cstep s o) as [s1 [u|e|]]; cbn [fst snd] in *; [apply IH; assumption..|now destruct N].
Qed.
