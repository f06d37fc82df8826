(** Proofs about breakpoints on disk. *)
From Coq Require Import ZArith List Bool Lia.
From Verif Require Import Base AnyModel FieldStoreModel FieldStoreSpec FieldStoreProofs SimModel BrkModel BrkSpec.
Import ListNotations.
Local Open Scope nat_scope.

(** * The calls of the writer make up the bytes *)
Definition agrees (w : wr) (r : res sexn (list Z)) : Prop :=
  forall b, r = Ok b -> snd w = None /\ concat (fst w) = b.

Lemma ag_one : forall b, agrees (one b) (Ok b).
Proof. intros b b' E. injection E as <-. split; [reflexivity|]. simpl. apply app_nil_r. Qed.
Lemma ag_none : agrees none (Ok []).
Proof. intros b E. injection E as <-. split; reflexivity. Qed.
Lemma ag_then : forall w1 w2 r1 r2, agrees w1 r1 -> agrees w2 r2 ->
  agrees (wthen w1 w2) (bind r1 (fun a => bind r2 (fun b => Ok (a ++ b)))).
Proof.
  intros w1 w2 [a|e|] [b|e'|] A1 A2 x E; simpl in E; try discriminate E. injection E as <-.
  destruct (A1 a eq_refl) as [N1 C1]. destruct (A2 b eq_refl) as [N2 C2].
  unfold wthen. rewrite N1. simpl. rewrite N2, concat_app, C1, C2. split; reflexivity.
Qed.
Lemma ag_eq : forall w r r', agrees w r -> r = r' -> agrees w r'.
Proof. intros w r r' A <-. exact A. Qed.
Lemma ag_flag : forall m f, agrees (w_flag m f) (Ok (store_flag m f)).
Proof. intros m [a|]; simpl; [apply ag_one|apply ag_none]. Qed.

Section Loops.
Variable m : mem.
Fixpoint writes_all (l : list ftree) : wr :=
  match l with [] => none | x :: r => wthen (writes m x) (writes_all r) end.
Fixpoint writes_objs (l : list obj) : wr :=
  match l with [] => none | x :: r => wthen (one kCONTAINER) (wthen (writes_obj m x) (writes_objs r)) end.
End Loops.

Lemma ag_all : forall m l, Forall (fun t => agrees (writes m t) (store m t)) l ->
  agrees (writes_all m l) (store_all m l).
Proof.
  intros m l F. induction F as [|x l Hx F IH]; [apply ag_none|]. simpl. now apply ag_then.
Qed.

Lemma ag_field : forall m t, agrees (writes m t) (store m t).
Proof.
  intros m t.
  induction t as [st a n fo fa|st a n fa|st l fa F|st l fa F|st a k len|st a i n|st l F|st l F|st l F|st l F|st a k n]
    using ftree_ind2; destruct st; try apply ag_none.
  - eapply ag_eq; [exact (ag_then _ _ _ _ (ag_one _) (ag_then _ _ _ _ (ag_flag m fo) (ag_flag m fa)))|]. reflexivity.
  - eapply ag_eq; [exact (ag_then _ _ _ _ (ag_one _) (ag_flag m fa))|]. reflexivity.
  - change (agrees (wthen (writes_all m l) (w_flag m fa)) (bind (store_all m l) (fun b => Ok (b ++ store_flag m fa)))).
    eapply ag_eq; [exact (ag_then _ _ _ _ (ag_all m l F) (ag_flag m fa))|]. reflexivity.
  - change (agrees (wthen (writes_all m l) (w_flag m fa)) (bind (store_all m l) (fun b => Ok (b ++ store_flag m fa)))).
    eapply ag_eq; [exact (ag_then _ _ _ _ (ag_all m l F) (ag_flag m fa))|]. reflexivity.
  - simpl. destruct (simple_size k len); [apply ag_one|intros b E; discriminate E].
  - apply ag_one.
  - exact (ag_all m l F).
  - exact (ag_all m l F).
  - exact (ag_all m l F).
  - exact (ag_all m l F).
  - simpl. destruct (kind_size k); [apply ag_one|intros b E; discriminate E].
Qed.

Lemma ag_fields : forall m l, agrees (writes_fields m l) (store_fields m l).
Proof.
  intros m l. induction l as [|x l IH]; [apply ag_none|]. simpl.
  eapply ag_eq; [exact (ag_then _ _ _ _ (ag_one kFIELD) (ag_then _ _ _ _ (ag_field m x) IH))|].
  simpl. destruct (store m x); simpl; [|reflexivity..]. destruct (store_fields m l); reflexivity.
Qed.

Lemma ag_obj : forall m o, agrees (writes_obj m o) (store_obj m o).
Proof.
  intros m o. induction o as [p fs cs IH] using obj_ind2.
  assert (A1 : agrees (match p with None => none | Some p => wthen (one kPERSIST) (one (p_store p m)) end) (Ok (store_own m p))).
  { destruct p as [q|]; [|apply ag_none].
    eapply ag_eq; [exact (ag_then _ _ _ _ (ag_one kPERSIST) (ag_one (p_store q m)))|reflexivity]. }
  assert (A2 : agrees (match fs with None => none | Some l => wthen (one kCOMPONENT) (writes_fields m l) end) (store_fs m fs)).
  { destruct fs as [l|]; [|apply ag_none].
    eapply ag_eq; [exact (ag_then _ _ _ _ (ag_one kCOMPONENT) (ag_fields m l))|].
    simpl. destruct (store_fields m l); reflexivity. }
  assert (A3 : agrees (match cs with None => none | Some l => wthen (one kCOMPOSITE) (writes_objs m l) end) (store_cs m cs)).
  { destruct cs as [l|]; [|apply ag_none]. specialize (IH l eq_refl).
    assert (A : agrees (writes_objs m l) (store_objs m l)).
    { clear - IH. induction IH as [|x l Hx F I]; [apply ag_none|]. cbn [writes_objs store_objs].
      eapply ag_eq; [exact (ag_then _ _ _ _ (ag_one kCONTAINER) (ag_then _ _ _ _ Hx I))|].
      simpl. destruct (store_obj m x); simpl; [|reflexivity..]. destruct (store_objs m l); reflexivity. }
    eapply ag_eq; [exact (ag_then _ _ _ _ (ag_one kCOMPOSITE) A)|].
    simpl. destruct (store_objs m l); reflexivity. }
  rewrite store_obj_eq.
  assert (E : writes_obj m (Obj p fs cs) =
    wthen (match p with None => none | Some p => wthen (one kPERSIST) (one (p_store p m)) end)
      (wthen (match fs with None => none | Some l => wthen (one kCOMPONENT) (writes_fields m l) end)
             (match cs with None => none | Some l => wthen (one kCOMPOSITE) (writes_objs m l) end)))
    by (destruct p, fs, cs; reflexivity).
  rewrite E.
  eapply ag_eq; [exact (ag_then _ _ _ _ A1 (ag_then _ _ _ _ A2 A3))|].
  simpl. destruct (store_fs m fs); simpl; [|reflexivity..]. destruct (store_cs m cs); reflexivity.
Qed.

(** * The stream *)
Definition pre (a b : list Z) : Prop := exists r, b = a ++ r.

Lemma growing_pre : forall b f T, pre (f ++ b) T -> Forall (fun g => pre g T) (growing f b).
Proof.
  induction b as [|x b IH]; intros f T (r & E); simpl; [constructor|].
  assert (E' : T = (f ++ [x]) ++ b ++ r) by (rewrite E, <- !app_assoc; reflexivity).
  constructor; [exists (b ++ r); exact E'|]. apply IH. exists r. rewrite <- app_assoc. exact E'.
Qed.
Lemma growing_last : forall b f d, last (f :: growing f b) d = f ++ b.
Proof.
  induction b as [|x b IH]; intros f d; simpl; [now rewrite app_nil_r|].
  specialize (IH (f ++ [x]) d). simpl in IH. rewrite IH, <- app_assoc. reflexivity.
Qed.
Lemma last_app2 : forall A (l r : list A) x d, last (l ++ x :: r) d = last (x :: r) d.
Proof.
  induction l as [|y l IH]; intros r x d; [reflexivity|]. simpl app. specialize (IH r x d).
  destruct (l ++ x :: r) as [|z q] eqn:E; [destruct l; discriminate E|]. simpl. exact IH.
Qed.
Lemma last_split : forall A (l : list A) d, l <> [] -> exists r, l = r ++ [last l d].
Proof. intros A l d N. exists (removelast l). now apply app_removelast_last. Qed.

Definition inv (s : stream) (T : list Z) (R : nat) : Prop :=
  pre (o_file s ++ o_buffer s) T /\ Forall (fun f => pre f T) (o_seen s) /\
  o_seen s <> [] /\ last (o_seen s) [] = o_file s /\ o_room s + length (o_file s) = R.

Lemma hand_ok : forall n s T R, inv s T R -> forall s1 ok, hand n s = (s1, ok) ->
  inv s1 T R /\ o_file s1 ++ o_buffer s1 = o_file s ++ o_buffer s /\
  (ok = true -> length (o_buffer s1) = length (o_buffer s) - n) /\
  (ok = false -> R < length (o_file s ++ o_buffer s)).
Proof.
  intros n s T R (P & F & N & L & Q) s1 ok H. unfold hand in H.
  set (n' := Nat.min n (length (o_buffer s))) in *. set (k := Nat.min n' (o_room s)) in *.
  injection H as <- <-. simpl.
  assert (Lk : length (firstn k (o_buffer s)) = k) by (rewrite firstn_length; lia).
  split; [|split; [|split]].
  - split; [|split; [|split; [|split]]]; simpl.
    + rewrite <- app_assoc, firstn_skipn. exact P.
    + apply Forall_app. split; [exact F|]. apply growing_pre. destruct P as (r & E). exists (skipn k (o_buffer s) ++ r).
      rewrite E, <- !app_assoc. f_equal. rewrite app_assoc, firstn_skipn. reflexivity.
    + intros E. apply app_eq_nil in E as [E _]. contradiction.
    + destruct (last_split _ (o_seen s) [] N) as (q & E). rewrite L in E. rewrite E, <- app_assoc.
      change ([o_file s] ++ growing (o_file s) (firstn k (o_buffer s))) with (o_file s :: growing (o_file s) (firstn k (o_buffer s))).
      rewrite last_app2. apply growing_last.
    + rewrite app_length, Lk. lia.
  - rewrite <- app_assoc, firstn_skipn. reflexivity.
  - intros E. apply Nat.eqb_eq in E. rewrite skipn_length. lia.
  - intros E. apply Nat.eqb_neq in E. rewrite app_length. lia.
Qed.

Lemma write_all_ok : forall e l i s T R, inv s T R -> pre (o_file s ++ o_buffer s ++ concat l) T ->
  forall s1 x, write_all e i l s = (s1, x) -> inv s1 T R /\
  match x with
  | None => o_file s1 ++ o_buffer s1 = o_file s ++ o_buffer s ++ concat l
  | Some x => x = CannotStore /\ R < length T
  end.
Proof.
  intros e l. induction l as [|b l IH]; intros i s T R V P s1 x H; cbn [write_all] in H.
  - injection H as <- <-. split; [exact V|]. simpl. now rewrite app_nil_r.
  - set (s0 := Stream (o_file s) (o_buffer s ++ b) (o_room s) (o_seen s)) in *.
    assert (V0 : inv s0 T R).
    { destruct V as (_ & F & N & L & Q). split; [|now split]. destruct P as (r & E). exists (concat l ++ r).
      simpl. rewrite E. simpl. rewrite <- !app_assoc. reflexivity. }
    destruct (hand (e_flush e i) s0) as [s2 ok] eqn:Eh.
    destruct (hand_ok _ _ _ _ V0 _ _ Eh) as (V2 & E2 & _ & Hf).
    destruct ok.
    + simpl in E2. assert (E3 : o_file s2 ++ o_buffer s2 ++ concat l = o_file s ++ o_buffer s ++ concat (b :: l)).
      { rewrite app_assoc, E2, <- !app_assoc. reflexivity. }
      destruct (IH (S i) s2 T R V2) with (s1 := s1) (x := x) as (V1 & C); [rewrite E3; exact P|exact H|].
      split; [exact V1|]. destruct x; [exact C|]. rewrite C. exact E3.
    + injection H as <- <-. split; [exact V2|]. split; [reflexivity|].
      specialize (Hf eq_refl). destruct V0 as ((r & ->) & _). rewrite app_length. lia.
Qed.

(** * The file *)
Lemma put_same : forall d f k, d_file (put_file d f k) d = Some f.
Proof. intros. simpl. now rewrite Nat.eqb_refl. Qed.
Lemma put_other : forall d d' f k, d' <> d -> d_file (put_file d f k) d' = d_file k d'.
Proof. intros d d' f k N. simpl. apply Nat.eqb_neq in N. now rewrite N. Qed.

(** The states of the disk during a Store. *)
Definition written (d : nat) (T : list Z) (k0 k : disk) : Prop :=
  (forall d', d' <> d -> d_file k d' = d_file k0 d') /\
  (d_file k d = d_file k0 d \/ exists f, d_file k d = Some f /\ pre f T).

Lemma last_map : forall A B (f : A -> B) l d d', l <> [] -> last (map f l) d' = f (last l d).
Proof.
  induction l as [|x l IH]; intros d d' N; [contradiction|]. destruct l as [|y l]; [reflexivity|].
  change (last (map f (y :: l)) d' = f (last (y :: l) d)). apply IH. discriminate.
Qed.

Lemma last_on : forall d k k0 l, l <> [] ->
  last (k :: map (fun f => put_file d f k) l) k0 = put_file d (last l []) k.
Proof.
  intros d k k0 l N. rewrite <- (last_map _ _ (fun f => put_file d f k) l [] k0 N).
  destruct l; [contradiction|]. reflexivity.
Qed.

Lemma save_ok : forall e w k d T, concat (fst w) = T -> snd w = None ->
  let s := save e w k d in
  Forall (written d T k) (sv_disks s) /\
  match sv_exn s with
  | None => (d_dir k d = true \/ e_mkdir e = true) /\ e_open e = true /\
            exists f, d_file (last (sv_disks s) k) d = Some f /\ pre f T /\ (length T <= e_room e -> f = T)
  | Some Filesystem => d_dir k d = false /\ e_mkdir e = false /\ sv_disks s = []
  | Some (Smp x) => x = CannotStore /\ (d_dir k d = true \/ e_mkdir e = true) /\
                    (e_open e = false /\ d_file (last (sv_disks s) k) = d_file k \/
                     e_open e = true /\ e_room e < length T)
  end.
Proof.
  intros e w k d T C Nw. unfold save.
  assert (W1 : written d T k (make_dir d k)) by (split; [reflexivity|left; reflexivity]).
  destruct (negb (d_dir k d) && negb (e_mkdir e)) eqn:G.
  { apply andb_true_iff in G as [G1 G2]. apply negb_true_iff in G1, G2. simpl. split; [constructor|now split]. }
  assert (D : d_dir k d = true \/ e_mkdir e = true).
  { destruct (d_dir k d); [now left|]. destruct (e_mkdir e); [now right|discriminate G]. }
  destruct (e_open e) eqn:Eo; simpl negb; cbv iota.
  2: { simpl. split; [constructor; [exact W1|constructor]|]. split; [reflexivity|]. split; [exact D|]. left. now split. }
  set (s0 := Stream [] [] (e_room e) [[]]).
  assert (V0 : inv s0 T (e_room e)).
  { split; [exists T; reflexivity|]. split; [constructor; [exists T; reflexivity|constructor]|]. simpl.
    split; [discriminate|]. split; [reflexivity|lia]. }
  destruct (write_all e 0 (fst w) s0) as [s1 x] eqn:Ew.
  assert (P0 : pre (o_file s0 ++ o_buffer s0 ++ concat (fst w)) T) by (exists []; simpl; rewrite app_nil_r; now symmetry).
  destruct (write_all_ok e (fst w) 0 s0 T (e_room e) V0 P0 s1 x Ew) as (V1 & Cx).
  destruct (hand (length (o_buffer s1)) s1) as [s2 ok] eqn:Eh.
  destruct (hand_ok _ _ _ _ V1 _ _ Eh) as (V2 & E2 & Hl & Hf).
  assert (W : Forall (written d T k) (make_dir d k :: map (fun f => put_file d f (make_dir d k)) (o_seen s2))).
  { constructor; [exact W1|]. apply Forall_map. destruct V2 as (_ & F & _). eapply Forall_impl; [|exact F].
    intros f P. split.
    - intros d' N. now rewrite put_other.
    - right. exists f. split; [apply put_same|exact P]. }
  simpl. split; [exact W|]. destruct x as [x|].
  - simpl. destruct Cx as [-> R]. split; [reflexivity|]. split; [exact D|]. right. now split.
  - rewrite Nw. simpl option_map. cbv iota. split; [exact D|]. split; [reflexivity|].
    destruct V2 as (P2 & F2 & N2 & L2 & R2).
    assert (EL : last (make_dir d k :: map (fun f => put_file d f (make_dir d k)) (o_seen s2)) k
                 = put_file d (o_file s2) (make_dir d k)).
    { rewrite last_on by exact N2. now rewrite L2. }
    simpl in EL. simpl. rewrite EL. exists (o_file s2). split; [apply put_same|]. split.
    + destruct P2 as (r & E). exists (o_buffer s2 ++ r). now rewrite E, <- app_assoc.
    + intros R. simpl in Cx. rewrite C in Cx. destruct ok.
      * specialize (Hl eq_refl). assert (B : o_buffer s2 = []) by (apply length_zero_iff_nil; lia).
        rewrite B, app_nil_r in E2. congruence.
      * specialize (Hf eq_refl). rewrite Cx in Hf. lia.
Qed.

(** * Restoring from a disk *)
Lemma restore_from : forall root k d m r,
  bstep root (World Standby m k) (ORestore d r) =
  match d_file k d with
  | Some f =>
      if r then
        match restore_obj m root f with
        | (m, Ok _) => (World Standby m k, Done)
        | (m, Throw x) => (World Restoring m k, Raised (Smp x))
        | (m, UB) => (World Restoring m k, Raised (Smp CannotRestore))
        end
      else (World Restoring m k, Raised (Smp CannotRestore))
  | None => (World Restoring m k, Raised (Smp CannotRestore))
  end.
Proof. reflexivity. Qed.

Lemma same_file : forall root k k' d, d_file k' d = d_file k d -> same_breakpoint root k k' d.
Proof.
  intros root k k' d E now r. rewrite !restore_from, E. destruct (d_file k d) as [f|]; [|reflexivity].
  destruct r; [|reflexivity]. destruct (restore_obj now root f) as [m1 [q|x|]]; reflexivity.
Qed.

Lemma whole_gives : forall own root, sound_tree own root -> forall m b k d,
  store_obj m root = Ok b -> d_file k d = Some b -> gives_back own root k d m.
Proof.
  intros own root S m b k d E F now. rewrite restore_from, F.
  destruct (obj_back own root S m) as (b' & E' & H). rewrite E in E'. injection E' as <-.
  destruct (H now []) as (m' & R & B). rewrite app_nil_r in R. rewrite R. exists m'. split; [reflexivity|].
  split; intros x Hx; destruct (B x) as (B1 & B2 & _); auto.
Qed.

Lemma prefix_refused : forall own root, sound_tree own root -> alert root -> forall m b k d s r,
  store_obj m root = Ok b -> b = s ++ r -> r <> [] -> d_file k d = Some s -> refuses root k d.
Proof.
  intros own root S A m b k d s r E Eb N F now. rewrite restore_from, F.
  destruct (obj_short own root S A m b now s r E Eb N) as (m' & R). rewrite R. now exists m'.
Qed.

Lemma tree_stores : forall own root, sound_tree own root -> forall m, exists b, store_obj m root = Ok b.
Proof. intros own root S m. destruct (obj_back own root S m) as (b & E & _). now exists b. Qed.

Lemma in_last : forall A (l : list A) d, last l d = d \/ In (last l d) l.
Proof.
  intros A l d. destruct l as [|x l]; [now left|]. right.
  rewrite (app_removelast_last d (l := x :: l)) at 2 by discriminate. apply in_or_app. right. now left.
Qed.

Lemma firstn_In : forall A (l : list A) n x, In x (firstn n l) -> In x l.
Proof.
  intros A l n x H. rewrite <- (firstn_skipn n l). apply in_or_app. now left.
Qed.

Lemma written_cases : forall own root, sound_tree own root -> alert root -> forall m b k0 k d,
  store_obj m root = Ok b -> written d b k0 k ->
  (forall d', d' <> d -> same_breakpoint root k0 k d') /\
  (same_breakpoint root k0 k d \/ gives_back own root k d m \/ refuses root k d).
Proof.
  intros own root S A m b k0 k d E [W1 W2]. split.
  - intros d' N. apply same_file. now apply W1.
  - destruct W2 as [W2|(f & F & r & Er)]; [left; now apply same_file|right].
    destruct r as [|z r].
    + left. rewrite app_nil_r in Er. subst f. now apply (whole_gives own root S m b k d).
    + right. eapply (prefix_refused own root S A); [exact E|exact Er|discriminate|exact F].
Qed.

Lemma written_refl : forall d b k, written d b k k.
Proof. intros. split; [reflexivity|now left]. Qed.

(** One operation: what it writes. *)
Lemma step_disk : forall own root, sound_tree own root -> forall w a d, spares d a ->
  d_file (w_disk (fst (bstep root w a))) d = d_file (w_disk w) d.
Proof.
  intros own root S w a d H. destruct a as [d' e|d' r|m|m|d' e i m]; simpl in *; try reflexivity.
  - unfold do_store. destruct (is_standby (w_state w)); [|reflexivity].
    destruct (tree_stores own root S (w_mem w)) as (b & E). destruct (ag_obj _ _ b E) as [N C].
    destruct (save_ok e _ (w_disk w) d' b C N) as (F & _).
    assert (W : written d' b (w_disk w) (last (sv_disks (save e (writes_obj (w_mem w) root) (w_disk w) d')) (w_disk w))).
    { destruct (in_last _ (sv_disks (save e (writes_obj (w_mem w) root) (w_disk w) d')) (w_disk w)) as [->|I];
        [apply written_refl|]. rewrite Forall_forall in F. now apply F. }
    destruct (sv_exn _); simpl; apply W; congruence.
  - unfold do_restore. destruct (is_standby (w_state w)); [|reflexivity]. destruct (d_file (w_disk w) d'); [|reflexivity].
    destruct r; [|reflexivity]. destruct (restore_obj (w_mem w) root l) as [m1 [q|x|]]; reflexivity.
  - destruct (is_standby (w_state w)); [|reflexivity]. simpl.
    destruct (tree_stores own root S (w_mem w)) as (b & E). destruct (ag_obj _ _ b E) as [N C].
    destruct (save_ok e _ (w_disk w) d' b C N) as (F & _). unfold after.
    destruct (in_last _ (firstn i (sv_disks (save e (writes_obj (w_mem w) root) (w_disk w) d'))) (w_disk w)) as [->|I];
      [reflexivity|]. apply firstn_In in I. rewrite Forall_forall in F. apply F; [exact I|congruence].
Qed.

Lemma steps_disk : forall own root, sound_tree own root -> forall l w d, Forall (spares d) l ->
  d_file (w_disk (bsteps root w l)) d = d_file (w_disk w) d.
Proof.
  intros own root S l. induction l as [|a l IH]; intros w d F; [reflexivity|].
  inversion F as [|a0 l0 H F']; subst. unfold bsteps. simpl. change (fold_left _ l ?x) with (bsteps root x l).
  rewrite IH by exact F'. now apply (step_disk own root S).
Qed.

Lemma store_kept : forall own root, sound_tree own root -> forall w d e,
  w_state w = Standby -> healthy root w d e ->
  exists w1, bstep root w (OStore d e) = (w1, Done) /\ w_state w1 = Standby /\ w_mem w1 = w_mem w /\
    forall l, Forall (spares d) l -> gives_back own root (w_disk (bsteps root w1 l)) d (w_mem w).
Proof.
  intros own root S w d e St (D & O & b & E & L). simpl. unfold do_store. rewrite St. simpl.
  destruct (ag_obj _ _ b E) as [N C].
  destruct (save_ok e _ (w_disk w) d b C N) as (F & X).
  destruct (sv_exn (save e (writes_obj (w_mem w) root) (w_disk w) d)) as [[x|]|].
  - destruct X as (_ & _ & [[X _]|[_ X]]); [congruence|lia].
  - destruct X as (X1 & X2 & _). destruct D; congruence.
  - destruct X as (_ & _ & f & Ef & _ & Hf). specialize (Hf L). subst f.
    eexists. split; [reflexivity|]. split; [reflexivity|]. split; [reflexivity|].
    intros l Fl. apply (whole_gives own root S _ b); [exact E|].
    rewrite (steps_disk own root S) by exact Fl. exact Ef.
Qed.

Lemma die_cases : forall own root, sound_tree own root -> alert root -> forall w d e i m,
  let k := w_disk (fst (bstep root w (ODie d e i m))) in
  (forall d', d' <> d -> same_breakpoint root (w_disk w) k d') /\
  (same_breakpoint root (w_disk w) k d \/ gives_back own root k d (w_mem w) \/ refuses root k d).
Proof.
  intros own root S A w d e i m. destruct (tree_stores own root S (w_mem w)) as (b & E). cbv zeta.
  apply (written_cases own root S A (w_mem w) b); [exact E|].
  simpl. destruct (is_standby (w_state w)); [|apply written_refl]. simpl.
  destruct (ag_obj _ _ b E) as [N C]. destruct (save_ok e _ (w_disk w) d b C N) as (F & _). unfold after.
  destruct (in_last _ (firstn i (sv_disks (save e (writes_obj (w_mem w) root) (w_disk w) d))) (w_disk w)) as [->|I];
    [apply written_refl|]. apply firstn_In in I. rewrite Forall_forall in F. now apply F.
Qed.

Lemma store_cases : forall own root, sound_tree own root -> alert root -> forall w d e,
  let k := w_disk (fst (bstep root w (OStore d e))) in
  (forall d', d' <> d -> same_breakpoint root (w_disk w) k d') /\
  (same_breakpoint root (w_disk w) k d \/ gives_back own root k d (w_mem w) \/ refuses root k d).
Proof.
  intros own root S A w d e. destruct (tree_stores own root S (w_mem w)) as (b & E). cbv zeta.
  apply (written_cases own root S A (w_mem w) b); [exact E|].
  simpl. unfold do_store. destruct (is_standby (w_state w)); [|apply written_refl].
  destruct (ag_obj _ _ b E) as [N C]. destruct (save_ok e _ (w_disk w) d b C N) as (F & _).
  assert (W : written d b (w_disk w) (last (sv_disks (save e (writes_obj (w_mem w) root) (w_disk w) d)) (w_disk w))).
  { destruct (in_last _ (sv_disks (save e (writes_obj (w_mem w) root) (w_disk w) d)) (w_disk w)) as [->|I];
      [apply written_refl|]. rewrite Forall_forall in F. now apply F. }
  destruct (sv_exn _); exact W.
Qed.

Lemma store_reasons : forall own root, sound_tree own root -> forall w d e, w_state w = Standby ->
  let (w1, o) := bstep root w (OStore d e) in
  w_mem w1 = w_mem w /\
  match o with
  | Ignored => False
  | Done => w_state w1 = Standby /\ (d_dir (w_disk w) d = true \/ e_mkdir e = true) /\ e_open e = true
  | Raised Filesystem =>
      w_state w1 = Storing /\ d_dir (w_disk w) d = false /\ e_mkdir e = false /\ w_disk w1 = w_disk w
  | Raised (Smp x) =>
      w_state w1 = Storing /\ x = CannotStore /\
      (e_open e = false /\ d_file (w_disk w1) = d_file (w_disk w) \/
       exists bytes, store_obj (w_mem w) root = Ok bytes /\ e_room e < length bytes)
  end.
Proof.
  intros own root S w d e St. simpl. unfold do_store. rewrite St. simpl.
  destruct (tree_stores own root S (w_mem w)) as (b & E). destruct (ag_obj _ _ b E) as [N C].
  destruct (save_ok e _ (w_disk w) d b C N) as (F & X).
  destruct (sv_exn (save e (writes_obj (w_mem w) root) (w_disk w) d)) as [[x|]|]; simpl.
  - destruct X as (-> & D & [[O K]|[O R]]); repeat split; [left; now split|right; now exists b].
  - destruct X as (X1 & X2 & X3). rewrite X3. repeat split; assumption.
  - destruct X as (D & O & _). repeat split; assumption.
Qed.

(** When the stream holds nothing back, nothing is lost unnoticed. *)
Lemma write_all_eager : forall e l i s, (forall j, length (o_buffer s ++ concat l) <= e_flush e j) ->
  o_buffer s = [] -> forall s1, write_all e i l s = (s1, None) -> o_buffer s1 = [].
Proof.
  intros e l. induction l as [|b l IH]; intros i s H B s1 W; cbn [write_all] in W.
  - injection W as <-. exact B.
  - destruct (hand (e_flush e i) (Stream (o_file s) (o_buffer s ++ b) (o_room s) (o_seen s))) as [s2 ok] eqn:Eh.
    destruct ok; [|discriminate W].
    assert (B2 : o_buffer s2 = []).
    { unfold hand in Eh. injection Eh as <- Ek. simpl in *. apply Nat.eqb_eq in Ek.
      apply length_zero_iff_nil. rewrite skipn_length, Ek.
      specialize (H i). rewrite B in *. simpl in *. rewrite app_length in H. lia. }
    apply (IH (S i) s2) in W; [exact W| |exact B2]. intros j. specialize (H j). rewrite B2.
    rewrite B in H. simpl in *. rewrite app_length in H. lia.
Qed.

Lemma save_eager : forall e w k d T, concat (fst w) = T -> snd w = None ->
  (forall j, length T <= e_flush e j) -> sv_exn (save e w k d) = None ->
  d_file (last (sv_disks (save e w k d)) k) d = Some T.
Proof.
  intros e w k d T C Nw H X. destruct (save_ok e w k d T C Nw) as (_ & Y). rewrite X in Y.
  destruct Y as (D & O & f & Ef & P & _). rewrite Ef. f_equal.
  revert Ef X. unfold save.
  destruct (negb (d_dir k d) && negb (e_mkdir e)); [discriminate|]. rewrite O. simpl negb. cbv iota.
  set (s0 := Stream [] [] (e_room e) [[]]).
  assert (V0 : inv s0 T (e_room e)).
  { split; [exists T; reflexivity|]. split; [constructor; [exists T; reflexivity|constructor]|]. simpl.
    split; [discriminate|]. split; [reflexivity|lia]. }
  destruct (write_all e 0 (fst w) s0) as [s1 x] eqn:Ew.
  assert (P0 : pre (o_file s0 ++ o_buffer s0 ++ concat (fst w)) T) by (exists []; simpl; rewrite app_nil_r; now symmetry).
  destruct (write_all_ok e (fst w) 0 s0 T (e_room e) V0 P0 s1 x Ew) as (V1 & Cx).
  destruct (hand (length (o_buffer s1)) s1) as [s2 ok] eqn:Eh.
  destruct (hand_ok _ _ _ _ V1 _ _ Eh) as (V2 & E2 & Hl & Hf).
  destruct x as [x|]; [simpl; discriminate|]. intros Ef _.
  assert (B1 : o_buffer s1 = []).
  { apply (write_all_eager e (fst w) 0 s0); [|reflexivity|exact Ew]. intros j. simpl. rewrite C. apply H. }
  simpl in Cx. rewrite B1, app_nil_r, C in Cx.
  rewrite B1, app_nil_r, Cx in E2.
  assert (B2 : o_buffer s2 = []).
  { unfold hand in Eh. rewrite B1 in Eh. injection Eh as <- _. reflexivity. }
  rewrite B2, app_nil_r in E2.
  destruct V2 as (P2 & F2 & N2 & L2 & R2). cbn [sv_disks] in Ef.
  rewrite last_on in Ef by exact N2. rewrite L2, put_same in Ef. congruence.
Qed.

Lemma store_eager : forall own root, sound_tree own root -> forall w d e w1,
  bstep root w (OStore d e) = (w1, Done) ->
  (forall bytes j, store_obj (w_mem w) root = Ok bytes -> length bytes <= e_flush e j) ->
  forall l, Forall (spares d) l -> gives_back own root (w_disk (bsteps root w1 l)) d (w_mem w).
Proof.
  intros own root S w d e w1 B H l Fl. destruct (tree_stores own root S (w_mem w)) as (b & E).
  apply (whole_gives own root S _ b); [exact E|]. rewrite (steps_disk own root S) by exact Fl.
  simpl in B. unfold do_store in B. destruct (is_standby (w_state w)); [|discriminate B].
  destruct (ag_obj _ _ b E) as [N C].
  pose proof (save_eager e _ (w_disk w) d b C N (fun j => H b j E)) as Y.
  destruct (sv_exn _); [discriminate B|]. injection B as <-. simpl. now apply Y.
Qed.

Lemma stuck : forall root l w, w_state w <> Standby -> Forall goes_on l ->
  w_state (bsteps root w l) = w_state w /\ w_disk (bsteps root w l) = w_disk w.
Proof.
  intros root l. induction l as [|a l IH]; intros w N F; [split; reflexivity|].
  inversion F as [|a0 l0 H F']; subst. unfold bsteps. simpl. change (fold_left _ l ?x) with (bsteps root x l).
  assert (E : w_state (fst (bstep root w a)) = w_state w /\ w_disk (fst (bstep root w a)) = w_disk w).
  { assert (G : is_standby (w_state w) = false) by (destruct (w_state w); try reflexivity; contradiction).
    destruct a; simpl in *; try contradiction; unfold do_store, do_restore; rewrite ?G; split; reflexivity. }
  destruct E as [E1 E2]. destruct (IH (fst (bstep root w a))) as [I1 I2]; [congruence|exact F'|].
  split; congruence.
Qed.

(** * Directories *)
Lemma save_dirs : forall e w k d k', In k' (sv_disks (save e w k d)) ->
  d_dir k' d = true /\ forall d', d' <> d -> d_dir k' d' = d_dir k d'.
Proof.
  assert (M : forall k d, d_dir (make_dir d k) d = true /\ forall d', d' <> d -> d_dir (make_dir d k) d' = d_dir k d').
  { intros k d. simpl. rewrite Nat.eqb_refl. split; [reflexivity|]. intros d' N.
    apply Nat.eqb_neq in N. now rewrite N. }
  intros e w k d k'. unfold save.
  destruct (negb (d_dir k d) && negb (e_mkdir e)); [intros []|].
  destruct (negb (e_open e)); [intros [<-|[]]; apply M|].
  destruct (write_all e 0 (fst w) _) as [s1 x]. destruct (hand (length (o_buffer s1)) s1) as [s2 ok].
  cbn [sv_disks]. intros [<-|I]; [apply M|]. apply in_map_iff in I as (f & <- & _). apply M.
Qed.

Lemma save_some : forall e w k d, sv_exn (save e w k d) <> Some Filesystem -> sv_disks (save e w k d) <> [].
Proof.
  intros e w k d. unfold save.
  destruct (negb (d_dir k d) && negb (e_mkdir e)); [intros N; exfalso; apply N; reflexivity|].
  destruct (negb (e_open e)); [discriminate|].
  destruct (write_all e 0 (fst w) _) as [s1 x]. destruct (hand (length (o_buffer s1)) s1) as [s2 ok]. discriminate.
Qed.

Lemma store_dirs : forall root w d e, w_state w = Standby ->
  let (w1, o) := bstep root w (OStore d e) in
  (forall d', d' <> d -> d_dir (w_disk w1) d' = d_dir (w_disk w) d') /\
  (o <> Raised Filesystem -> d_dir (w_disk w1) d = true).
Proof.
  intros root w d e St. simpl. unfold do_store. rewrite St. simpl.
  set (s := save e (writes_obj (w_mem w) root) (w_disk w) d).
  assert (A : forall d', d' <> d -> d_dir (last (sv_disks s) (w_disk w)) d' = d_dir (w_disk w) d').
  { intros d' N. destruct (in_last _ (sv_disks s) (w_disk w)) as [->|I]; [reflexivity|].
    now apply (save_dirs _ _ _ _ _ I). }
  assert (B : sv_exn s <> Some Filesystem -> d_dir (last (sv_disks s) (w_disk w)) d = true).
  { intros N. assert (X := save_some _ _ _ _ N). fold s in X.
    destruct (sv_disks s) as [|k0 l] eqn:E; [contradiction|].
    assert (I : In (last (k0 :: l) (w_disk w)) (sv_disks s)).
    { rewrite E. clear. revert k0. induction l as [|k1 l IH]; intros k0; [now left|]. right. apply IH. }
    exact (proj1 (save_dirs _ _ _ _ _ I)). }
  destruct (sv_exn s) as [x|]; (split; [exact A|]); intros N; apply B; congruence.
Qed.

Lemma last_prefix : forall (A : Type) (l : list A) i (k : A), last (firstn i l) k = k \/ In (last (firstn i l) k) l.
Proof.
  intros A l i k. destruct (in_last _ (firstn i l) k) as [E|I]; [now left|right].
  assert (J := in_or_app (firstn i l) (skipn i l) _ (or_introl I)). now rewrite firstn_skipn in J.
Qed.

Lemma dirs_step : forall root w a d, d_dir (w_disk w) d = true -> d_dir (w_disk (fst (bstep root w a))) d = true.
Proof.
  intros root w a d D.
  assert (A : forall d0 e k', In k' (sv_disks (save e (writes_obj (w_mem w) root) (w_disk w) d0)) -> d_dir k' d = true).
  { intros d0 e k' I. destruct (save_dirs _ _ _ _ _ I) as [I1 I2].
    destruct (Nat.eq_dec d d0) as [->|N]; [exact I1|now rewrite I2]. }
  destruct a as [d0 e|d0 r|m|m|d0 e i m]; simpl.
  - unfold do_store. destruct (is_standby (w_state w)); [|exact D].
    assert (L : d_dir (last (sv_disks (save e (writes_obj (w_mem w) root) (w_disk w) d0)) (w_disk w)) d = true).
    { destruct (in_last _ (sv_disks (save e (writes_obj (w_mem w) root) (w_disk w) d0)) (w_disk w)) as [->|I];
        [exact D|]. eapply A; exact I. }
    destruct (sv_exn _); exact L.
  - unfold do_restore. destruct (is_standby (w_state w)); [|exact D].
    destruct (d_file (w_disk w) d0); [|exact D]. destruct r; [|exact D].
    destruct (restore_obj (w_mem w) root l) as [m [x| x|]]; exact D.
  - exact D.
  - exact D.
  - destruct (is_standby (w_state w)); [|exact D]. unfold after. simpl.
    destruct (last_prefix _ (sv_disks (save e (writes_obj (w_mem w) root) (w_disk w) d0)) i (w_disk w)) as [->|I];
      [exact D|]. eapply A; exact I.
Qed.

Lemma dirs_stay : forall root l w d, d_dir (w_disk w) d = true -> d_dir (w_disk (bsteps root w l)) d = true.
Proof.
  intros root l. induction l as [|a l IH]; intros w d D; [exact D|]. apply IH. now apply dirs_step.
Qed.

Lemma there_no_failure : forall root w d e, d_dir (w_disk w) d = true ->
  snd (bstep root w (OStore d e)) <> Raised Filesystem.
Proof.
  intros root w d e D. simpl. unfold do_store. destruct (is_standby (w_state w)); [|discriminate].
  assert (X : sv_exn (save e (writes_obj (w_mem w) root) (w_disk w) d) <> Some Filesystem).
  { unfold save. rewrite D. cbn [negb andb]. destruct (negb (e_open e)); [discriminate|].
    destruct (write_all e 0 (fst _) _) as [s1 x]. destruct (hand (length (o_buffer s1)) s1) as [s2 ok].
    cbn [sv_exn]. destruct (match x with Some x => Some x | None => _ end); discriminate. }
  destruct (sv_exn _) as [x|]; [|discriminate]. intros E. apply X. cbn in E. congruence.
Qed.
