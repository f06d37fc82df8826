(** Proofs about the time keeper used by several threads. *)
From Coq Require Import Permutation.
From Verif Require Import Base Assoc EventProofs ConcSpec ConcModel ConcProofs ClockSpec ClockModel.

(** * The program counters *)

Definition p_open (pc : kpc) : option kop :=
  match pc with
  | PFlag t m => Some (KSetSim t m)
  | PSet b => Some (if b then KOpen else KClose)
  | PAcq (JOp o) _ _ _ => Some o
  | PAcq (JCheck t m) _ _ _ | PAcq (JWrite t m) _ _ _ => Some (KSetSim t m)
  | PWrite _ _ _ => None
  | PRel _ (inl (JOp o)) => Some o
  | PRel _ (inl (JCheck t m)) | PRel _ (inl (JWrite t m)) => Some (KSetSim t m)
  | PRel _ (inr _) => None
  end.

Definition p_closed (pc : kpc) (o : kop) (x : kout) : Prop :=
  match pc with
  | PWrite _ _ y => y = x
  | PRel _ (inr y) => y = x
  | _ => False
  end.

Definition locking (o : kop) : Prop := match o with KOpen | KClose | KSetSim _ _ => False | _ => True end.
Definition good_job (j : job) : Prop := match j with JOp o => locking o | _ => True end.

Definition pend (pc : kpc) : list (klock * Z) := match pc with PWrite ws _ _ => ws | _ => [] end.

Lemma klock_eqb_ok a b : klock_eqb a b = true <-> a = b.
Proof. destruct a, b; cbn; split; congruence. Qed.

Lemma klock_refl l : klock_eqb l l = true.
Proof. now destruct l. Qed.

Section Compiled.
Variables rorder worder : job -> list klock.
Variable defer : list (nat * kpc) -> nat -> klock -> bool.
Hypothesis readers : forall j, Permutation (rorder j) (reads j).
Hypothesis writers : forall j, Permutation (worder j) (writes j).

Notation requests := (requests rorder worder).
Notation krun_call := (krun_call rorder worder defer).
Notation kstep_conc := (kstep_conc rorder worder defer).
Notation krun_conc := (krun_conc rorder worder defer).

(** The shape of a call in progress. *)
Definition shape (pc : kpc) : Prop :=
  match pc with
  | PFlag _ _ | PSet _ => True
  | PAcq j held _ todo => good_job j /\ rev held ++ todo = requests j
  | PWrite ws held _ => NoDup (map fst ws) /\ forall l z, In (l, z) ws -> In (Wr l) held
  | PRel _ (inl j) => exists t m, j = JWrite t m
  | PRel _ (inr _) => True
  end.

Definition touches (l : klock) (pc : kpc) : Prop := In (Rd l) (held_by pc) \/ In (Wr l) (held_by pc).

(** Nobody else holds a lock held exclusively. *)
Definition exclusive (calls : list (nat * kpc)) : Prop :=
  forall k k' pc pc' l, aget Nat.eqb k calls = Some pc -> aget Nat.eqb k' calls = Some pc' ->
    In (Wr l) (held_by pc) -> touches l pc' -> k = k'.

Record Struct (s : kstate) : Prop := {
  t_shape : forall k pc, aget Nat.eqb k (k_calls s) = Some pc -> shape pc;
  t_excl : exclusive (k_calls s);
}.

Lemma aget_in (k : nat) (pc : kpc) calls : aget Nat.eqb k calls = Some pc -> In (k, pc) calls.
Proof.
  induction calls as [|[k' p] calls IH]; cbn; [discriminate|].
  destruct (Nat.eqb_spec k k') as [->|]; [|auto]. intros X. injection X as ->. now left.
Qed.

Lemma holds_write_spec l pc : holds_write l pc = true <-> In (Wr l) (held_by pc).
Proof.
  unfold holds_write. rewrite existsb_exists. split.
  - intros (r & I & H). apply andb_true_iff in H. destruct H as [W E]. apply klock_eqb_ok in E.
    destruct r; cbn in *; [discriminate|now subst].
  - intros I. exists (Wr l). split; [exact I|]. cbn. apply klock_refl.
Qed.

Lemma holds_any_spec l pc : holds_any l pc = true <-> touches l pc.
Proof.
  unfold holds_any, touches. rewrite existsb_exists. split.
  - intros (r & I & E). apply klock_eqb_ok in E. destruct r; cbn in *; subst; auto.
  - intros [I|I]; eexists; (split; [exact I|]); cbn; apply klock_refl.
Qed.

Lemma excl_less (k : nat) pc pc' calls : exclusive calls -> aget Nat.eqb k calls = Some pc ->
  (forall r, In r (held_by pc') -> In r (held_by pc)) -> exclusive (aset Nat.eqb k pc' calls).
Proof.
  intros X E H. intros a b p q l A B W T. rewrite get_aset in A, B.
  destruct (Nat.eqb_spec a k) as [->|], (Nat.eqb_spec b k) as [->|]; try reflexivity.
  - injection A as <-. apply (X k b pc q l); auto.
  - injection B as <-. apply (X a k p pc l); auto. unfold touches in *. destruct T; auto.
  - now apply (X a b p q l).
Qed.

Lemma excl_take (k : nat) pc pc' r calls : exclusive calls -> aget Nat.eqb k calls = Some pc ->
  held_by pc' = r :: held_by pc -> can_take defer calls k r = true -> exclusive (aset Nat.eqb k pc' calls).
Proof.
  intros X E H C. intros a b p q l A B W T. rewrite get_aset in A, B.
  assert (none : forall k' p', aget Nat.eqb k' calls = Some p' ->
     match r with Rd l => ~ In (Wr l) (held_by p') | Wr l => ~ touches l p' end).
  { intros k' p' I. apply aget_in in I. destruct r as [l'|l']; cbn in C.
    - apply andb_true_iff in C. destruct C as [C _]. apply negb_true_iff in C. intros W'. apply holds_write_spec in W'.
      assert (existsb (fun c => holds_write l' (snd c)) calls = true); [|congruence].
      apply existsb_exists. now exists (k', p').
    - apply negb_true_iff in C. intros W'. apply holds_any_spec in W'.
      assert (existsb (fun c => holds_any l' (snd c)) calls = true); [|congruence].
      apply existsb_exists. now exists (k', p'). }
  destruct (Nat.eqb_spec a k) as [->|], (Nat.eqb_spec b k) as [->|]; try reflexivity.
  - injection A as <-. rewrite H in W. destruct W as [->|W]; [|now apply (X k b pc q l)].
    exfalso. now apply (none b q B).
  - injection B as <-. unfold touches in T. rewrite H in T. pose proof (none a p A) as N.
    destruct T as [[->|T]|[->|T]].
    + now apply N in W.
    + apply (X a k p pc l); auto. now left.
    + exfalso. apply N. now right.
    + apply (X a k p pc l); auto. now right.
  - now apply (X a b p q l).
Qed.

Lemma excl_begin calls (k : nat) pc : exclusive calls -> aget Nat.eqb k calls = None -> held_by pc = [] ->
  exclusive (calls ++ [(k, pc)]).
Proof.
  intros X N H. intros a b p q l A B W T. rewrite (aget_app Nat.eqb) in A, B. cbn in A, B.
  destruct (aget Nat.eqb a calls) as [p'|] eqn:Ea.
  - injection A as ->. destruct (aget Nat.eqb b calls) as [q'|] eqn:Eb.
    + injection B as ->. now apply (X a b p q l).
    + destruct (b =? k)%nat; [|discriminate]. injection B as <-. unfold touches in T. rewrite H in T. destruct T as [[]|[]].
  - destruct (a =? k)%nat; [|discriminate]. injection A as <-. rewrite H in W. destruct W.
Qed.

Lemma excl_end calls (k : nat) : exclusive calls -> NoDup (akeys calls) -> exclusive (adel Nat.eqb k calls).
Proof.
  intros X N a b p q l A B W T. rewrite get_adel in A, B by exact N.
  destruct (a =? k)%nat; [discriminate|]. destruct (b =? k)%nat; [discriminate|]. now apply (X a b p q l).
Qed.

(** * The calls and the order of their effects *)

Section Order.
Variable ok : khist -> korder -> nat -> kop -> kout -> Prop.
Hypothesis ok_mono : forall tr e L k o x, next_event tr e -> In (Inv k o) tr -> ok tr L k o x -> ok (tr ++ [e]) L k o x.

Definition KI (s : kstate) : Prop := KInv p_open p_closed ok (k_calls s) (k_next s) (k_hist s) (k_done s).

(** The call and the result that take effect at the next step of a call. *)
Definition kcommits (pc : kpc) (s : kstate) : option (kop * kout) :=
  match pc with
  | PFlag t m => if k_changing s then None else Some (KSetSim t m, KDone)
  | PSet b => Some (if b then KOpen else KClose, KDone)
  | PAcq (JOp o) _ vals [] => Some (o, snd (compute o (fun l => val l vals)))
  | PAcq (JCheck t m) _ vals [] =>
      if (t <? val LSim vals) || (t >? m) then Some (KSetSim t m, KInvalid) else None
  | PAcq (JWrite t m) _ _ [] => Some (KSetSim t m, KDone)
  | _ => None
  end.

Lemma kbegin_open o : p_open (kbegin rorder worder o) = Some o.
Proof. destruct o; reflexivity. Qed.

Lemma kbegin_held o : held_by (kbegin rorder worder o) = [].
Proof. destruct o; reflexivity. Qed.

Lemma kbegin_shape o : shape (kbegin rorder worder o).
Proof. destruct o; cbn; auto. Qed.

Lemma KI_goto s k pc pc' : KI s -> aget Nat.eqb k (k_calls s) = Some pc -> p_open pc' = p_open pc ->
  (p_open pc = None -> forall o x, p_closed pc o x -> p_closed pc' o x) -> KI (k_goto k pc' None s).
Proof. intros K E O C. unfold KI. cbn. now apply (K_silent p_open p_closed ok (k_calls s) _ _ _ k pc). Qed.

Lemma KI_commit s k pc pc' o x : KI s -> aget Nat.eqb k (k_calls s) = Some pc -> p_open pc = Some o ->
  p_open pc' = None -> p_closed pc' o x -> ok (k_hist s) (k_done s) k o x -> KI (k_goto k pc' (Some (o, x)) s).
Proof. intros K E O C H R. unfold KI. cbn. now apply (K_commit p_open p_closed ok (k_calls s) _ _ _ k pc). Qed.

Lemma KI_run s k pc : KI s -> aget Nat.eqb k (k_calls s) = Some pc ->
  (forall o x, kcommits pc s = Some (o, x) -> ok (k_hist s) (k_done s) k o x) ->
  KI (krun_call k pc s).
Proof.
  intros K E C. destruct pc as [t m|b|j held vals todo|ws held x|held next]; cbn [ClockModel.krun_call].
  - cbn [kcommits] in C. destruct (k_changing s).
    + now apply (KI_goto s k (PFlag t m)).
    + apply (KI_commit s k (PFlag t m)); auto. reflexivity.
  - assert (H : KI (k_goto k (PRel [] (inr KDone)) (Some (if b then KOpen else KClose, KDone)) s)).
    { apply (KI_commit s k (PSet b)); auto. reflexivity. }
    exact H.
  - destruct todo as [|r todo].
    + destruct j as [o|t m|t m]; cbn [kcommits] in C.
      * destruct (compute o (fun l => val l vals)) as [ws x] eqn:Q. cbn [snd] in C.
        apply (KI_commit s k (PAcq (JOp o) held vals [])); auto. reflexivity.
      * destruct ((t <? val LSim vals) || (t >? m)).
        -- apply (KI_commit s k (PAcq (JCheck t m) held vals [])); auto. reflexivity.
        -- now apply (KI_goto s k (PAcq (JCheck t m) held vals [])).
      * apply (KI_commit s k (PAcq (JWrite t m) held vals [])); auto. reflexivity.
    + destruct j as [o|t m|t m]; cbn [ClockModel.krun_call]; destruct (can_take defer (k_calls s) k r); try exact K;
        (eapply KI_goto; [exact K|exact E|reflexivity|discriminate]).
  - destruct ws as [|[l z] ws].
    + now apply (KI_goto s k (PWrite [] held x)).
    + assert (H : KI (k_goto k (PWrite ws held x) None s)) by (now apply (KI_goto s k (PWrite ((l, z) :: ws) held x))).
      destruct l; exact H.
  - destruct held as [|r held].
    + destruct next as [j|x].
      * destruct j; (eapply KI_goto; [exact K|exact E|reflexivity|discriminate]).
      * unfold KI. cbn. apply (K_return p_open p_closed ok ok_mono (k_calls s) _ _ _ k (PRel [] (inr x))); auto.
    + destruct next as [j|x]; [destruct j|]; (eapply KI_goto; [exact K|exact E|reflexivity|]); try discriminate. auto.
Qed.

Lemma KI_begin s o : KI s -> KI (kstep_conc (Begin o) s).
Proof. intros K. unfold KI. cbn. apply (K_begin p_open p_closed ok ok_mono); [exact K|apply kbegin_open]. Qed.

Lemma KI_fresh s : KI s -> aget Nat.eqb (k_next s) (k_calls s) = None.
Proof.
  intros K. destruct (aget Nat.eqb (k_next s) (k_calls s)) as [pc|] eqn:E; [|reflexivity].
  destruct (proj1 (k_live _ _ _ _ _ _ _ K (k_next s)) (ex_intro _ pc E)) as (o & I & _).
  apply (k_lt _ _ _ _ _ _ _ K) in I. lia.
Qed.

(** * The locks *)

Lemma Struct_goto s k pc pc' d : Struct s -> aget Nat.eqb k (k_calls s) = Some pc -> shape pc' ->
  (forall r, In r (held_by pc') -> In r (held_by pc)) -> Struct (k_goto k pc' d s).
Proof.
  intros T E H I. split; cbn [k_calls k_goto].
  - intros k' p. rewrite get_aset. destruct (k' =? k)%nat; [intros X; injection X as <-; exact H|apply T].
  - apply (excl_less k pc); [apply T|exact E|exact I].
Qed.

Lemma compute_writes o v ws x : compute o v = (ws, x) ->
  map fst ws = writes (JOp o) /\ NoDup (map fst ws).
Proof.
  destruct o; cbn; intros X; injection X as <- <-; (split; [reflexivity|]); cbn;
    repeat constructor; cbn; intuition discriminate.
Qed.

Lemma in_requests_write j l : In (Wr l) (requests j) <-> In l (writes j).
Proof.
  unfold ClockModel.requests. rewrite in_app_iff, !in_map_iff. split.
  - intros [(y & X & _)|(y & X & I)]; [discriminate|]. injection X as ->. now apply (Permutation_in l (writers j)).
  - intros I. right. exists l. split; [reflexivity|]. now apply (Permutation_in l (Permutation_sym (writers j))).
Qed.

Lemma in_requests_read j l : In (Rd l) (requests j) <-> In l (reads j).
Proof.
  unfold ClockModel.requests. rewrite in_app_iff, !in_map_iff. split.
  - intros [(y & X & I)|(y & X & _)]; [|discriminate]. injection X as ->. now apply (Permutation_in l (readers j)).
  - intros I. left. exists l. split; [reflexivity|]. now apply (Permutation_in l (Permutation_sym (readers j))).
Qed.

Lemma all_held j held : rev held ++ [] = requests j -> forall r, In r held <-> In r (requests j).
Proof. intros E r. rewrite app_nil_r in E. rewrite <- E. apply in_rev. Qed.

Lemma Struct_run s k pc : KI s -> Struct s -> aget Nat.eqb k (k_calls s) = Some pc -> Struct (krun_call k pc s).
Proof.
  intros K T E. pose proof (t_shape _ T k pc E) as H.
  destruct pc as [t m|b|j held vals todo|ws held x|held next]; cbn [ClockModel.krun_call].
  - destruct (k_changing s); (eapply Struct_goto; [exact T|exact E| |]); cbn; auto.
  - assert (Q : Struct (k_goto k (PRel [] (inr KDone)) (Some (if b then KOpen else KClose, KDone)) s)).
    { apply (Struct_goto s k (PSet b)); cbn; auto. }
    exact (Build_Struct (k_goto k _ _ (k_flag b s)) (t_shape _ Q) (t_excl _ Q)).
  - destruct H as [G R]. destruct todo as [|r todo].
    + destruct j as [o|t m|t m].
      * destruct (compute o (fun l => val l vals)) as [ws x] eqn:Q. apply compute_writes in Q. destruct Q as [Q N].
        apply (Struct_goto s k (PAcq (JOp o) held vals [])); auto.
        cbn. split; [exact N|]. intros l z I. apply (all_held _ _ R). apply in_requests_write. rewrite <- Q.
        apply in_map_iff. now exists (l, z).
      * destruct ((t <? val LSim vals) || (t >? m)); (eapply Struct_goto; [exact T|exact E| |]); cbn; eauto.
      * apply (Struct_goto s k (PAcq (JWrite t m) held vals [])); auto.
        cbn. split; [repeat constructor; intros []|]. intros l z [X|[]]. injection X as <- <-.
        apply (all_held _ _ R). apply in_requests_write. now left.
    + assert (Q : Struct (if can_take defer (k_calls s) k r
         then k_goto k (PAcq j (r :: held) (match r with Rd l => (l, k_get l s) :: vals | Wr _ => vals end) todo) None s else s)).
      { destruct (can_take defer (k_calls s) k r) eqn:C; [|exact T]. split; cbn [k_calls k_goto].
        - intros k' p. rewrite get_aset. destruct (k' =? k)%nat; [|apply T]. intros X. injection X as <-. split; [exact G|].
          cbn [rev]. rewrite <- app_assoc. exact R.
        - apply (excl_take k (PAcq j held vals (r :: todo)) _ r); [apply T|exact E|reflexivity|exact C]. }
      destruct j; exact Q.
  - destruct H as [N W]. destruct ws as [|[l z] ws].
    + apply (Struct_goto s k (PWrite [] held x)); cbn; auto.
    + assert (Q : Struct (k_goto k (PWrite ws held x) None s)).
      { apply (Struct_goto s k (PWrite ((l, z) :: ws) held x)); auto. cbn in *. split.
        - now inversion N.
        - intros l' z' I. apply (W l' z'). now right. }
      destruct Q as [Q1 Q2]. destruct l; split; assumption.
  - destruct held as [|r held].
    + destruct next as [j|x].
      * destruct H as (t & m & ->). apply (Struct_goto s k (PRel [] (inl (JWrite t m)))); cbn; auto.
      * pose proof (k_nodup _ _ _ _ _ _ _ K) as N. split; cbn [k_calls].
        -- intros k' p. rewrite get_adel by exact N. destruct (k' =? k)%nat; [discriminate|apply T].
        -- apply excl_end; [apply T|exact N].
    + destruct next as [j|x]; (eapply Struct_goto; [exact T|exact E|exact H|]); cbn; auto.
Qed.

Lemma Struct_begin s o : KI s -> Struct s -> Struct (kstep_conc (Begin o) s).
Proof.
  intros K T. split; cbn [k_calls ClockModel.kstep_conc].
  - intros k pc. rewrite (aget_app Nat.eqb). cbn. destruct (aget Nat.eqb k (k_calls s)) as [p|] eqn:E.
    + intros X. injection X as <-. now apply (t_shape _ T k).
    + destruct (k =? k_next s)%nat; [|discriminate]. intros X. injection X as <-. apply kbegin_shape.
  - apply excl_begin; [apply T|now apply KI_fresh|apply kbegin_held].
Qed.
End Order.

(** * The times *)

Definition raw (c : clock) (l : klock) : Z :=
  match l with LSim => sim c | LStart => start c | LEpoch => sim c - epoch c end.
Definition cur (s : kstate) : clock := clock_after clock0 (k_done s).

Lemma clock_after_snoc L k o x : forall c, clock_after c (L ++ [(k, o, x)]) = effect (clock_after c L) o.
Proof. induction L as [|[[k' o'] x'] L IH]; intros c; cbn; auto. Qed.

Definition checked (pc : kpc) (t m : Z) : Prop :=
  match pc with
  | PRel _ (inl (JWrite t' m')) | PAcq (JWrite t' m') _ _ _ => t = t' /\ m = m'
  | _ => False
  end.
Definition checking (pc : kpc) : Prop := match pc with PAcq (JCheck _ _) _ _ _ => True | _ => False end.

Record Data (s : kstate) : Prop := {
  d_pend : forall k pc l z, aget Nat.eqb k (k_calls s) = Some pc -> In (l, z) (pend pc) -> raw (cur s) l = z;
  d_mem : forall l, (forall k pc z, aget Nat.eqb k (k_calls s) = Some pc -> ~ In (l, z) (pend pc)) ->
    k_get l s = raw (cur s) l;
  d_flag : k_changing s = changing (cur s);
  d_vals : forall k j held vals todo l, aget Nat.eqb k (k_calls s) = Some (PAcq j held vals todo) ->
    In (Rd l) held -> aget klock_eqb l vals = Some (k_get l s);
  d_check : forall k pc, aget Nat.eqb k (k_calls s) = Some pc -> checking pc -> k_changing s = true;
  d_write : forall k pc t m, aget Nat.eqb k (k_calls s) = Some pc -> checked pc t m ->
    k_changing s = true /\ sim (cur s) <= t <= m;
}.

Lemma effect_compute c o v ws x : locking o -> (forall l, In l (reads (JOp o)) -> v l = raw c l) ->
  compute o v = (ws, x) ->
  x = answer c o /\ (forall l z, In (l, z) ws -> raw (effect c o) l = z) /\
  (forall l, ~ In l (map fst ws) -> raw (effect c o) l = raw c l) /\ changing (effect c o) = changing c /\
  (moves_time o \/ sim (effect c o) = sim c).
Proof.
  intros G V Q. destruct o as [| | | |e|m|m| | |t m| |a m b]; cbn in G; try contradiction; cbn in Q; injection Q as <- <-; cbn [effect moves_time];
    repeat match goal with
    | |- _ /\ _ => split
    end; cbn [changing sim epoch start]; auto; cbn [answer map fst In]; try tauto.
  all: try (f_equal; try (rewrite !V by (cbn; tauto); cbn; lia); fail).
  all: try (intros l z X; repeat (destruct X as [X|X]; [injection X as <- <-|]); try contradiction; cbn;
            try (rewrite !V by (cbn; tauto)); cbn; lia).
  all: try (intros l X; destruct l; cbn; try lia; exfalso; apply X; cbn; tauto).
Qed.

Lemma read_value s k j held vals todo l : Struct s -> Data s ->
  aget Nat.eqb k (k_calls s) = Some (PAcq j held vals todo) -> In (Rd l) held ->
  val l vals = raw (cur s) l /\ k_get l s = raw (cur s) l.
Proof.
  intros T D E I. assert (H : k_get l s = raw (cur s) l).
  { apply (d_mem _ D). intros k' pc' z E' P. destruct pc' as [| | |ws held' x|]; cbn in P; try contradiction.
    pose proof (t_shape _ T k' _ E') as [_ W]. apply W in P.
    assert (k' = k) by (apply (t_excl _ T k' k _ _ l E' E P); now left). subst k'. congruence. }
  split; [|exact H]. unfold val. now rewrite (d_vals _ D k j held vals todo l E I).
Qed.

Lemma get_goto l k pc d s : k_get l (k_goto k pc d s) = k_get l s.
Proof. now destruct l. Qed.

(** A step that neither writes nor takes effect. *)
Lemma Data_goto s k pc pc' : Data s -> aget Nat.eqb k (k_calls s) = Some pc -> pend pc' = pend pc ->
  (forall j held vals todo l, pc' = PAcq j held vals todo -> In (Rd l) held -> aget klock_eqb l vals = Some (k_get l s)) ->
  (checking pc' -> k_changing s = true) ->
  (forall t m, checked pc' t m -> k_changing s = true /\ sim (cur s) <= t <= m) ->
  Data (k_goto k pc' None s).
Proof.
  intros D E P V C W. split; cbn [k_calls k_goto k_changing]; change (cur (k_goto k pc' None s)) with (cur s).
  - intros k' p l z. rewrite get_aset. destruct (k' =? k)%nat; [|apply D]. intros X. injection X as <-.
    rewrite P. now apply (d_pend _ D k pc).
  - intros l H. rewrite get_goto. apply (d_mem _ D). intros k' p z E' I.
    specialize (H k'). rewrite get_aset in H. destruct (Nat.eqb_spec k' k) as [Ek|].
    + subst k'. apply (H pc' z eq_refl). rewrite P. congruence.
    + now apply (H p z).
  - apply D.
  - intros k' j held vals todo l. rewrite get_aset, get_goto. destruct (k' =? k)%nat; [|apply D].
    intros X. injection X as X. now apply V with (1 := X).
  - intros k' p. rewrite get_aset. destruct (k' =? k)%nat; [|apply D]. intros X. now injection X as <-.
  - intros k' p t m. rewrite get_aset. destruct (k' =? k)%nat; [|apply D]. intros X. injection X as <-. apply W.
Qed.

(** A step that takes effect. *)
Lemma Data_commit s k pc pc' o x b : Struct s -> Data s -> aget Nat.eqb k (k_calls s) = Some pc -> pend pc = [] ->
  (forall l z, In (l, z) (pend pc') -> In (Wr l) (held_by pc) /\ raw (effect (cur s) o) l = z) ->
  (forall l, ~ In l (map fst (pend pc')) -> raw (effect (cur s) o) l = raw (cur s) l) ->
  b = changing (effect (cur s) o) ->
  (~ moves_time o -> b = k_changing s /\ sim (effect (cur s) o) = sim (cur s)) ->
  (moves_time o -> forall k' p, aget Nat.eqb k' (k_calls s) = Some p -> k' <> k -> ~ checking p /\ forall t m, ~ checked p t m) ->
  ~ checking pc' -> (forall t m, ~ checked pc' t m) -> (forall j held vals todo, pc' <> PAcq j held vals todo) ->
  Data (k_goto k pc' (Some (o, x)) (k_flag b s)).
Proof.
  intros T D E P W R B S M NC NW NA.
  assert (C : cur (k_goto k pc' (Some (o, x)) (k_flag b s)) = effect (cur s) o) by apply clock_after_snoc.
  assert (G : forall l, k_get l (k_goto k pc' (Some (o, x)) (k_flag b s)) = k_get l s) by (intros []; reflexivity).
  assert (dec : moves_time o \/ ~ moves_time o) by (destruct o; cbn; tauto).
  split; rewrite ?C; cbn [k_calls k_goto k_flag k_changing].
  - intros k' p l z. rewrite get_aset. destruct (Nat.eqb_spec k' k) as [->|N].
    + intros X I. injection X as <-. now apply W.
    + intros E' I. rewrite R; [now apply (d_pend _ D k' p)|]. rewrite in_map_iff. intros ([l' z'] & X & I'). cbn in X. subst l'.
      apply W in I'. destruct I' as [I' _]. apply N. symmetry. apply (t_excl _ T k k' pc p l E E' I').
      right. destruct p; cbn in I; try contradiction. pose proof (t_shape _ T k' _ E') as [_ Q]. now apply (Q l z).
  - intros l H. rewrite G.
    assert (H' : forall k' p z, aget Nat.eqb k' (k_calls s) = Some p -> ~ In (l, z) (pend p)).
    { intros k' p z E' I. specialize (H k'). rewrite get_aset in H. destruct (Nat.eqb_spec k' k) as [Ek|].
      - subst k'. rewrite E in E'. injection E' as <-. rewrite P in I. destruct I.
      - now apply (H p z). }
    rewrite (d_mem _ D l H'). symmetry. apply R. rewrite in_map_iff. intros ([l' z'] & X & I). cbn in X. subst l'.
    specialize (H k pc' z'). rewrite get_aset, Nat.eqb_refl in H. now apply H.
  - exact B.
  - intros k' j held vals todo l. rewrite get_aset, G. destruct (k' =? k)%nat; [|apply D].
    intros X. injection X as X. exfalso. exact (NA _ _ _ _ X).
  - intros k' p. rewrite get_aset. destruct (Nat.eqb_spec k' k) as [->|N].
    + intros X Y. injection X as <-. contradiction.
    + intros E' Y. destruct dec as [Q|Q].
      * exfalso. now apply (M Q k' p E' N).
      * destruct (S Q) as [-> _]. now apply (d_check _ D k' p).
  - intros k' p t m. rewrite get_aset. destruct (Nat.eqb_spec k' k) as [->|N].
    + intros X Y. injection X as <-. now apply NW in Y.
    + intros E' Y. destruct dec as [Q|Q].
      * exfalso. now apply (M Q k' p E' N) with (t := t) (m := m).
      * destruct (S Q) as [-> ->]. now apply (d_write _ D k' p).
Qed.

Lemma checking_open pc : checking pc -> exists t m, p_open pc = Some (KSetSim t m).
Proof. destruct pc as [| |[]| |]; cbn; try tauto. eauto. Qed.
Lemma checked_open pc t m : checked pc t m -> p_open pc = Some (KSetSim t m).
Proof. destruct pc as [| |[]| |held [[]|]]; cbn; try tauto; intros [-> ->]; reflexivity. Qed.

Lemma no_other ok s k pc o : KI ok s -> one_driver (k_hist s) -> aget Nat.eqb k (k_calls s) = Some pc ->
  p_open pc = Some o -> moves_time o ->
  forall k' p, aget Nat.eqb k' (k_calls s) = Some p -> k' <> k -> ~ checking p /\ forall t m, ~ checked p t m.
Proof.
  intros K U E O M k' p E' N.
  assert (F : forall t m, p_open p = Some (KSetSim t m) -> False).
  { intros t m O'. apply N. apply (U k' (KSetSim t m) k o); [|exact Logic.I|exact M].
    exists (k_hist s), []. rewrite app_nil_r. split; [reflexivity|]. split.
    - now apply (K_active _ _ _ _ _ _ _ _ _ _ K E').
    - now apply (K_active _ _ _ _ _ _ _ _ _ _ K E). }
  split.
  - intros C. apply checking_open in C. destruct C as (t & m & C). now apply F in C.
  - intros t m C. apply checked_open in C. now apply F in C.
Qed.

Lemma flag_same s : k_flag (k_changing s) s = s.
Proof. now destruct s. Qed.

Definition clock_ok := clock_result.
Lemma clock_mono : forall (tr : khist) e L k o x, next_event tr e -> In (Inv k o) tr -> clock_ok tr L k o x -> clock_ok (tr ++ [e]) L k o x.
Proof. intros tr e L k o x _ _ H. exact H. Qed.

Lemma run_commit s k pc o x : KI clock_ok s -> Struct s -> Data s -> aget Nat.eqb k (k_calls s) = Some pc ->
  kcommits pc s = Some (o, x) -> x = answer (cur s) o.
Proof.
  intros K T D E C. pose proof (t_shape _ T k pc E) as H.
  destruct pc as [t m|b|j held vals todo|ws held y|held next]; cbn [kcommits] in C; try discriminate.
  - destruct (k_changing s) eqn:F; [discriminate|]. injection C as <- <-. cbn. rewrite <- (d_flag _ D), F. reflexivity.
  - injection C as <- <-. now destruct b.
  - destruct H as [G R]. destruct j as [o'|t m|t m]; destruct todo as [|r todo]; try discriminate.
    + destruct (compute o' (fun l => val l vals)) as [ws y] eqn:Q. injection C as <- <-. cbn [snd].
      apply (effect_compute (cur s) o' _ ws) in Q; [apply Q|exact G|]. intros l I.
      apply (read_value s k (JOp o') held vals [] l T D E). apply (all_held _ _ R). now apply in_requests_read.
    + destruct (read_value s k _ held vals [] LSim T D E) as [V _].
      { apply (all_held _ _ R). apply in_requests_read. now left. }
      destruct ((t <? val LSim vals) || (t >? m)) eqn:Q; [|discriminate]. injection C as <- <-. cbn.
      rewrite <- (d_flag _ D), (d_check _ D k _ E) by exact Logic.I. rewrite V in Q. cbn in Q. unfold accepts.
      replace (sim (cur s) <=? t) with (negb (t <? sim (cur s))) by (symmetry; apply Z.leb_antisym).
      replace (t <=? m) with (negb (t >? m)) by (rewrite Z.gtb_ltb; symmetry; apply Z.leb_antisym).
      rewrite <- negb_orb, Q. reflexivity.
    + injection C as <- <-. destruct (d_write _ D k _ t m E (conj eq_refl eq_refl)) as [F [A B]].
      cbn. rewrite <- (d_flag _ D), F. unfold accepts. apply Z.leb_le in A. apply Z.leb_le in B. now rewrite A, B.
Qed.

Lemma Data_run s k pc : KI clock_ok s -> Struct s -> Data s -> one_driver (k_hist s) ->
  aget Nat.eqb k (k_calls s) = Some pc -> Data (krun_call k pc s).
Proof.
  intros K T D U E. pose proof (t_shape _ T k pc E) as H. pose proof (no_other clock_ok s k pc) as N.
  destruct pc as [t m|b|j held vals todo|ws held x|held next]; cbn [ClockModel.krun_call].
  - destruct (k_changing s) eqn:F.
    + apply (Data_goto s k (PFlag t m)); cbn; auto; try tauto.
      intros j held vals todo l X. injection X as <- <- <- <-. intros [].
    + rewrite <- (flag_same s) at 1. apply (Data_commit s k (PFlag t m)); cbn; auto; try tauto; try discriminate.
      * intros l _. now rewrite <- (d_flag _ D), F.
      * rewrite <- (d_flag _ D), F. cbn. now rewrite <- (d_flag _ D), F.
      * intros _. now apply (N (KSetSim t m)).
  - apply (Data_commit s k (PSet b)); cbn; auto; try tauto; try discriminate.
    + intros l _. now destruct b, l.
    + now destruct b.
    + destruct b; cbn; tauto.
    + intros M. apply (N (if b then KOpen else KClose)); auto.
  - destruct H as [G R]. destruct todo as [|r todo].
    + destruct j as [o|t m|t m].
      * destruct (compute o (fun l => val l vals)) as [ws x] eqn:Q. pose proof (compute_writes _ _ _ _ Q) as [CW _].
        apply (effect_compute (cur s) o _ ws) in Q;
          [|exact G|intros l I; apply (read_value s k (JOp o) held vals [] l T D E), (all_held _ _ R); now apply in_requests_read].
        destruct Q as (_ & Q1 & Q2 & Q3 & Q4).
        rewrite <- (flag_same s) at 1. apply (Data_commit s k (PAcq (JOp o) held vals [])); cbn; auto; try discriminate.
        -- intros l z I. split; [|now apply Q1]. apply (all_held _ _ R), in_requests_write. rewrite <- CW.
           apply in_map_iff. now exists (l, z).
        -- rewrite Q3. apply D.
        -- intros M. destruct Q4; tauto.
        -- intros M. now apply (N o).
      * destruct (read_value s k _ held vals [] LSim T D E) as [V _].
        { apply (all_held _ _ R). apply in_requests_read. now left. }
        assert (CH : k_changing s = true) by (now apply (d_check _ D k _ E)).
        destruct ((t <? val LSim vals) || (t >? m)) eqn:Q; rewrite V in Q; cbn in Q.
        -- assert (A : accepts (cur s) t m = false).
           { unfold accepts. apply orb_true_iff in Q. apply andb_false_iff. destruct Q as [Q|Q]; [left|right].
             - apply Z.leb_gt. now apply Z.ltb_lt.
             - apply Z.leb_gt. rewrite Z.gtb_ltb in Q. now apply Z.ltb_lt. }
           rewrite <- (flag_same s) at 1. apply (Data_commit s k (PAcq (JCheck t m) held vals [])); cbn; auto; try tauto; try discriminate.
           ++ intros l _. now rewrite A, andb_false_r.
           ++ rewrite A, andb_false_r. apply D.
           ++ intros _. now apply (N (KSetSim t m)).
        -- apply (Data_goto s k (PAcq (JCheck t m) held vals [])); cbn; auto; try discriminate; try tauto.
           intros t' m' [-> ->]. split; [exact CH|]. apply orb_false_iff in Q. destruct Q as [Q1 Q2].
           apply Z.ltb_ge in Q1. rewrite Z.gtb_ltb in Q2. apply Z.ltb_ge in Q2. lia.
      * destruct (d_write _ D k _ t m E (conj eq_refl eq_refl)) as [F [A B]]. apply Z.leb_le in A, B.
        assert (EF : effect (cur s) (KSetSim t m) = Clock t (epoch (cur s) + (t - sim (cur s))) (start (cur s)) (changing (cur s))).
        { cbn. rewrite <- (d_flag _ D), F. unfold accepts. now rewrite A, B. }
        rewrite <- (flag_same s) at 1. apply (Data_commit s k (PAcq (JWrite t m) held vals [])); rewrite ?EF; cbn; auto; try tauto; try discriminate.
        -- intros l z [X|[]]. injection X as <- <-. split; [|reflexivity].
           apply (all_held _ _ R), in_requests_write. now left.
        -- intros l X. destruct l; cbn; try lia. exfalso. apply X. now left.
        -- apply D.
        -- intros _. now apply (N (KSetSim t m)).
    + assert (Q : Data (if can_take defer (k_calls s) k r
         then k_goto k (PAcq j (r :: held) (match r with Rd l => (l, k_get l s) :: vals | Wr _ => vals end) todo) None s else s)).
      { destruct (can_take defer (k_calls s) k r) eqn:C; [|exact D].
        apply (Data_goto s k (PAcq j held vals (r :: todo))); auto.
        - intros j' held' vals' todo' l X I. injection X as <- <- <- <-. destruct I as [->|I].
          + cbn. now rewrite klock_refl.
          + pose proof (d_vals _ D k j held vals _ l E I) as V. destruct r as [l'|l']; [|exact V].
            cbn. destruct (klock_eqb l l') eqn:Ql; [|exact V]. apply klock_eqb_ok in Ql. now subst.
        - intros X. apply (d_check _ D k _ E). exact X.
        - intros t m X. apply (d_write _ D k _ t m E). exact X. }
      destruct j; exact Q.
  - destruct H as [ND W]. destruct ws as [|[l z] ws].
    + apply (Data_goto s k (PWrite [] held x)); cbn; auto; try discriminate; try tauto.
    + assert (C : cur (k_goto k (PWrite ws held x) None (k_put l z s)) = cur s) by (now destruct l).
      assert (CA : k_calls (k_goto k (PWrite ws held x) None (k_put l z s)) = aset Nat.eqb k (PWrite ws held x) (k_calls s)) by (now destruct l).
      assert (CF : k_changing (k_goto k (PWrite ws held x) None (k_put l z s)) = k_changing s) by (now destruct l).
      assert (CG : forall l', k_get l' (k_goto k (PWrite ws held x) None (k_put l z s)) = if klock_eqb l' l then z else k_get l' s)
        by (intros l'; destruct l, l'; reflexivity).
      split; rewrite ?C, ?CA, ?CF.
      * intros k' p l' z'. rewrite get_aset. destruct (k' =? k)%nat; [|apply D]. intros X I. injection X as <-.
        apply (d_pend _ D k _ l' z' E). now right.
      * intros l' X. rewrite CG. destruct (klock_eqb l' l) eqn:Ql.
        -- apply klock_eqb_ok in Ql. subst. symmetry. apply (d_pend _ D k _ l z E). now left.
        -- apply (d_mem _ D). intros k' p z' E' I. specialize (X k'). rewrite get_aset in X.
           destruct (Nat.eqb_spec k' k) as [Ek|]; [|now apply (X p z')].
           subst k'. rewrite E in E'. injection E' as <-. destruct I as [I|I].
           ++ injection I as -> ->. now rewrite klock_refl in Ql.
           ++ now apply (X _ z' eq_refl).
      * apply D.
      * intros k' j held' vals' todo' l' E' I. rewrite CG. rewrite get_aset in E'. destruct (Nat.eqb_spec k' k) as [->|Nk]; [discriminate|].
        destruct (klock_eqb l' l) eqn:Ql; [|now apply (d_vals _ D k' j held' vals' todo')].
        apply klock_eqb_ok in Ql. subst l'. exfalso. apply Nk. symmetry.
        apply (t_excl _ T k k' _ _ l E E'); [apply (W l z); now left|now left].
      * intros k' p. rewrite get_aset. destruct (k' =? k)%nat; [|apply D]. intros X Y. injection X as <-. destruct Y.
      * intros k' p t m. rewrite get_aset. destruct (k' =? k)%nat; [|apply D]. intros X Y. injection X as <-. destruct Y.
  - destruct held as [|r held].
    + destruct next as [j|x].
      * destruct H as (t & m & ->). apply (Data_goto s k (PRel [] (inl (JWrite t m)))); auto.
        -- intros j held vals todo l X. injection X as _ <- _ _. intros [].
        -- intros t' m' X. apply (d_write _ D k _ t' m' E). exact X.
      * pose proof (k_nodup _ _ _ _ _ _ _ K) as ND.
        split; cbn [k_calls k_changing]; try (match goal with |- context [cur ?q] => change (cur q) with (cur s) end).
        -- intros k' p l z. rewrite get_adel by exact ND. destruct (k' =? k)%nat; [discriminate|apply D].
        -- intros l X. change (k_get l s = raw (cur s) l). apply (d_mem _ D). intros k' p z E' I. specialize (X k').
           rewrite get_adel in X by exact ND. destruct (Nat.eqb_spec k' k) as [Ek|]; [|now apply (X p z)].
           subst k'. rewrite E in E'. injection E' as <-. destruct I.
        -- apply D.
        -- intros k' j held vals todo l. rewrite get_adel by exact ND. destruct (k' =? k)%nat; [discriminate|].
           intros E' I. now apply (d_vals _ D k' j held vals todo l).
        -- intros k' p. rewrite get_adel by exact ND. destruct (k' =? k)%nat; [discriminate|apply D].
        -- intros k' p t m. rewrite get_adel by exact ND. destruct (k' =? k)%nat; [discriminate|apply D].
    + apply (Data_goto s k (PRel (r :: held) next)); auto; try discriminate.
      intros t m X. apply (d_write _ D k _ t m E). exact X.
Qed.

Lemma Data_begin s o : KI clock_ok s -> Data s -> Data (kstep_conc (Begin o) s).
Proof.
  intros K D. pose proof (KI_fresh _ _ K) as F.
  assert (A : forall k pc, aget Nat.eqb k (k_calls s ++ [(k_next s, kbegin rorder worder o)]) = Some pc ->
     aget Nat.eqb k (k_calls s) = Some pc \/ pc = kbegin rorder worder o).
  { intros k pc. rewrite (aget_app Nat.eqb). cbn. destruct (aget Nat.eqb k (k_calls s)); [auto|].
    destruct (k =? k_next s)%nat; [|discriminate]. intros X. injection X as <-. now right. }
  split; cbn [k_calls k_changing ClockModel.kstep_conc];
    try (match goal with |- context [cur ?q] => change (cur q) with (cur s) end).
  - intros k pc l z E. apply A in E. destruct E as [E| ->]; [now apply (d_pend _ D k)|]. destruct o; intros [].
  - intros l H. change (k_get l s = raw (cur s) l). apply (d_mem _ D). intros k pc z E. apply (H k pc z).
    rewrite (aget_app Nat.eqb), E. reflexivity.
  - apply D.
  - intros k j held vals todo l E. apply A in E. destruct E as [E|E]; [now apply (d_vals _ D k j held vals todo)|].
    destruct o; cbn in E; try discriminate; injection E as _ -> _ _; intros [].
  - intros k pc E. apply A in E. destruct E as [E| ->]; [now apply (d_check _ D k)|]. destruct o; intros [].
  - intros k pc t m E. apply A in E. destruct E as [E| ->]; [now apply (d_write _ D k)|]. destruct o; intros [].
Qed.

(** * Executions *)

Lemma krun_snoc s sch e : krun_conc s (sch ++ [e]) = kstep_conc e (krun_conc s sch).
Proof. unfold ClockModel.krun_conc. now rewrite fold_left_app. Qed.

Lemma khist_run k pc s : exists t, k_hist (krun_call k pc s) = k_hist s ++ t.
Proof.
  assert (N : exists t, k_hist s = k_hist s ++ t) by (exists []; now rewrite app_nil_r).
  destruct pc as [t m|b|j held vals todo|ws held x|held next]; cbn [ClockModel.krun_call].
  - destruct (k_changing s); exact N.
  - exact N.
  - destruct j as [o|t m|t m], todo as [|r todo];
      try (destruct (compute o _)); try (destruct (can_take _ _ _ _)); try (destruct (_ || _)); exact N.
  - destruct ws as [|[l z] ws]; [exact N|]. destruct l; exact N.
  - destruct held as [|r held]; [|exact N]. destruct next as [j|x]; [exact N|]. now exists [Ret k x].
Qed.

Lemma khist_step e s : exists t, k_hist (kstep_conc e s) = k_hist s ++ t.
Proof.
  destruct e as [o|k]; cbn [ClockModel.kstep_conc]; [now exists [Inv (k_next s) o]|].
  destruct (aget Nat.eqb k (k_calls s)) as [pc|]; [apply khist_run|]. exists []. now rewrite app_nil_r.
Qed.

Lemma one_driver_prefix tr t : one_driver (tr ++ t) -> one_driver tr.
Proof.
  intros U i o j o' (p & q & -> & A). apply U. exists p, (q ++ t). rewrite app_assoc. auto.
Qed.

Lemma Data_init : Data k_init.
Proof.
  split; try (intros; discriminate).
  - intros l _. now destruct l.
  - reflexivity.
Qed.
Lemma Struct_init : Struct k_init.
Proof. split; [intros; discriminate|]. intros k k' pc pc' l E. discriminate E. Qed.

Lemma krun_inv sch : one_driver (k_hist (krun_conc k_init sch)) ->
  KI clock_ok (krun_conc k_init sch) /\ Struct (krun_conc k_init sch) /\ Data (krun_conc k_init sch).
Proof.
  induction sch as [|e sch IH] using rev_ind; intros U.
  - split; [apply K_nil|]. split; [exact Struct_init|exact Data_init].
  - rewrite krun_snoc in *. destruct (khist_step e (krun_conc k_init sch)) as (t & E). rewrite E in U.
    apply one_driver_prefix in U. destruct (IH U) as (K & T & D). destruct e as [o|k].
    + split; [|split].
      * apply KI_begin; [exact clock_mono|exact K].
      * now apply (Struct_begin clock_ok).
      * now apply Data_begin.
    + cbn [ClockModel.kstep_conc]. destruct (aget Nat.eqb k (k_calls (krun_conc k_init sch))) as [pc|] eqn:G; [|auto].
      split; [|split].
      * apply KI_run; [exact clock_mono|exact K|exact G|]. intros o x C.
        exact (run_commit _ k pc o x K T D G C).
      * now apply (Struct_run clock_ok).
      * now apply Data_run.
Qed.

(** * Every call returns *)

Definition anything (_ : khist) (_ : korder) (_ : nat) (_ : kop) (_ : kout) : Prop := True.
Lemma anything_mono : forall (tr : khist) e L k o x, next_event tr e -> In (Inv k o) tr -> anything tr L k o x -> anything (tr ++ [e]) L k o x.
Proof. intros. exact Logic.I. Qed.

Lemma krun_struct sch : KI anything (krun_conc k_init sch) /\ Struct (krun_conc k_init sch).
Proof.
  induction sch as [|e sch [K T]] using rev_ind.
  - split; [apply K_nil|exact Struct_init].
  - rewrite krun_snoc in *. destruct e as [o|k].
    + split; [apply KI_begin; [exact anything_mono|exact K]|now apply (Struct_begin anything)].
    + cbn [ClockModel.kstep_conc]. destruct (aget Nat.eqb k (k_calls (krun_conc k_init sch))) as [pc|] eqn:G; [|auto].
      split; [|now apply (Struct_run anything)].
      apply KI_run; [exact anything_mono|exact K|exact G|]. intros o x C. exact Logic.I.
Qed.

Definition extra (j : job) : nat :=
  match j with JCheck t m => 8 + 2 * length (requests (JWrite t m)) | _ => 6 end%nat.
Definition kweight (pc : kpc) : nat :=
  match pc with
  | PFlag t m => 1 + 2 * length (requests (JCheck t m)) + extra (JCheck t m)
  | PSet _ => 2
  | PAcq j held _ todo => 2 * length todo + length held + extra j
  | PWrite ws held _ => length ws + length held + 2
  | PRel held (inl j) => length held + 1 + (2 * length (requests j) + extra j)
  | PRel held (inr _) => length held + 1
  end%nat.
Fixpoint ktotal (calls : list (nat * kpc)) : nat :=
  match calls with [] => 0 | (_, pc) :: calls => kweight pc + ktotal calls end.

Lemma ktotal_aset k pc pc' calls : aget Nat.eqb k calls = Some pc ->
  (ktotal (aset Nat.eqb k pc' calls) + kweight pc = ktotal calls + kweight pc')%nat.
Proof.
  induction calls as [|[k' p] calls IH]; [discriminate|]. cbn [aget aset ktotal]. destruct (k =? k')%nat.
  - intros X. injection X as ->. cbn [ktotal]. lia.
  - intros X. specialize (IH X). cbn [ktotal]. lia.
Qed.

Lemma ktotal_adel k pc calls : aget Nat.eqb k calls = Some pc -> (ktotal (adel Nat.eqb k calls) + kweight pc = ktotal calls)%nat.
Proof.
  induction calls as [|[k' p] calls IH]; [discriminate|]. cbn [aget adel ktotal]. destruct (k =? k')%nat.
  - intros X. injection X as ->. lia.
  - intros X. specialize (IH X). cbn [ktotal]. lia.
Qed.

Definition stuck (s : kstate) (k : nat) (pc : kpc) : bool :=
  match pc with PAcq _ _ _ (r :: _) => negb (can_take defer (k_calls s) k r) | _ => false end.

Lemma compute_few o v ws x : compute o v = (ws, x) -> (length ws <= 3)%nat.
Proof. destruct o; cbn; intros X; injection X as <- <-; cbn; lia. Qed.

Lemma run_lighter s k pc : aget Nat.eqb k (k_calls s) = Some pc -> shape pc -> stuck s k pc = false ->
  (ktotal (k_calls (krun_call k pc s)) < ktotal (k_calls s))%nat.
Proof.
  intros E H S.
  assert (G : forall pc' d, (kweight pc' < kweight pc)%nat -> (ktotal (k_calls (k_goto k pc' d s)) < ktotal (k_calls s))%nat).
  { intros pc' d L. cbn [k_calls k_goto]. pose proof (ktotal_aset k pc pc' _ E). lia. }
  destruct pc as [t m|b|j held vals todo|ws held x|held next]; cbn [ClockModel.krun_call].
  - destruct (k_changing s); apply G; cbn [kweight length extra]; lia.
  - change (ktotal (k_calls (k_goto k (PRel [] (inr KDone)) None s)) < ktotal (k_calls s))%nat. apply G. cbn. lia.
  - destruct todo as [|r todo].
    + destruct j as [o|t m|t m].
      * destruct (compute o (fun l => val l vals)) as [ws x] eqn:Q. apply compute_few in Q. apply G. cbn. lia.
      * destruct ((t <? val LSim vals) || (t >? m)); apply G; cbn [kweight length extra]; lia.
      * apply G. cbn. lia.
    + cbn in S. apply negb_false_iff in S. destruct j; rewrite S; apply G; cbn [kweight length]; lia.
  - destruct ws as [|[l z] ws].
    + apply G. cbn. lia.
    + assert (L : (ktotal (k_calls (k_goto k (PWrite ws held x) None s)) < ktotal (k_calls s))%nat) by (apply G; cbn; lia).
      destruct l; exact L.
  - destruct held as [|r held].
    + destruct next as [j|x].
      * apply G. cbn [kweight length]. lia.
      * cbn [k_calls]. pose proof (ktotal_adel k _ _ E). cbn in *. lia.
    + destruct next; apply G; cbn [kweight length]; lia.
Qed.

(** Every call waits for a lock. *)
Definition all_stuck (s : kstate) : Prop := forall k pc, aget Nat.eqb k (k_calls s) = Some pc -> stuck s k pc = true.

Lemma calls_in (calls : list (nat * kpc)) k pc : NoDup (akeys calls) -> In (k, pc) calls -> aget Nat.eqb k calls = Some pc.
Proof.
  induction calls as [|[k' p] calls IH]; intros N I; [destruct I|]. inversion N as [|a b N1 N2]; subst.
  cbn. destruct I as [I|I].
  - injection I as -> ->. now rewrite Nat.eqb_refl.
  - destruct (Nat.eqb_spec k k') as [->|]; [|auto]. exfalso. apply N1. unfold akeys. apply in_map_iff. now exists (k', pc).
Qed.

Lemma unstuck_or s : NoDup (akeys (k_calls s)) ->
  all_stuck s \/ exists k pc, aget Nat.eqb k (k_calls s) = Some pc /\ stuck s k pc = false.
Proof.
  intros N. destruct (existsb (fun c => negb (stuck s (fst c) (snd c))) (k_calls s)) eqn:B.
  - right. apply existsb_exists in B. destruct B as ([k pc] & I & B). exists k, pc. cbn in B. apply negb_true_iff in B.
    split; [now apply calls_in|exact B].
  - left. intros k pc E. apply aget_in in E. destruct (stuck s k pc) eqn:Q; [reflexivity|].
    assert (existsb (fun c => negb (stuck s (fst c) (snd c))) (k_calls s) = true); [|congruence].
    apply existsb_exists. exists (k, pc). split; [exact E|]. cbn. now rewrite Q.
Qed.

(** If the calls in progress never all wait, every call can return. *)
Lemma kfinish (free : khist -> Prop) :
  (forall tr k x, free tr -> free (tr ++ [Ret k x])) ->
  (forall s, KI anything s -> Struct s -> free (k_hist s) -> k_calls s <> [] -> ~ all_stuck s) ->
  forall n sch, free (k_hist (krun_conc k_init sch)) -> (ktotal (k_calls (krun_conc k_init sch)) <= n)%nat ->
  exists ks, k_calls (krun_conc k_init (sch ++ map Run ks)) = [].
Proof.
  intros FR NS. induction n as [|n IH]; intros sch F T.
  - exists []. cbn [map]. rewrite app_nil_r. destruct (k_calls (krun_conc k_init sch)) as [|[k pc] c]; [reflexivity|].
    cbn [ktotal] in T. assert (0 < kweight pc)%nat; [|lia]. destruct pc as [| |[]| |held []]; cbn [kweight extra]; lia.
  - destruct (k_calls (krun_conc k_init sch)) as [|c l] eqn:C; [exists []; cbn [map]; now rewrite app_nil_r|].
    destruct (krun_struct sch) as [K S].
    destruct (unstuck_or _ (k_nodup _ _ _ _ _ _ _ K)) as [A|(k & pc & E & U)].
    { exfalso. apply (NS _ K S F); [congruence|exact A]. }
    pose proof (run_lighter _ k pc E (t_shape _ S k pc E) U) as L.
    assert (R : kstep_conc (Run k) (krun_conc k_init sch) = krun_call k pc (krun_conc k_init sch))
      by (cbn [ClockModel.kstep_conc]; now rewrite E).
    rewrite <- R, <- krun_snoc in L. rewrite C in L.
    destruct (IH (sch ++ [Run k])) as (ks & Q).
    + rewrite krun_snoc, R. clear - F FR. destruct pc as [t m|b|j held vals todo|ws held x|held next]; cbn [ClockModel.krun_call].
      * destruct (k_changing _); exact F.
      * exact F.
      * destruct j as [o|t m|t m], todo as [|r todo];
          try (destruct (compute o _)); try (destruct (can_take _ _ _ _)); try (destruct (_ || _)); exact F.
      * destruct ws as [|[l z] ws]; [exact F|]. destruct l; exact F.
      * destruct held as [|r held]; [|exact F]. destruct next as [j|x]; [exact F|]. now apply FR.
    + cbn [ktotal] in L, T. lia.
    + exists (k :: ks). rewrite <- app_assoc in Q. exact Q.
Qed.

Lemma kquiet ok s : KI ok s -> k_calls s = [] -> quiet (k_hist s).
Proof.
  intros K C k o A. destruct (proj2 (k_live _ _ _ _ _ _ _ K k) (ex_intro _ o A)) as (pc & E). rewrite C in E. discriminate.
Qed.

(** ** Who waits for whom *)

(** The call k waits for r, holding the locks [pre] (in the order in which they were taken). *)
Definition waits (s : kstate) (k : nat) (j : job) (pre : list req) (r : req) : Prop :=
  exists held vals todo, aget Nat.eqb k (k_calls s) = Some (PAcq j held vals (r :: todo)) /\
    pre = rev held /\ good_job j /\ pre ++ r :: todo = requests j /\ can_take defer (k_calls s) k r = false.

Lemma stuck_waits s k pc : Struct s -> all_stuck s -> aget Nat.eqb k (k_calls s) = Some pc ->
  exists j pre r, waits s k j pre r /\ forall l, touches l pc <-> In (Rd l) pre \/ In (Wr l) pre.
Proof.
  intros T A E. pose proof (t_shape _ T k pc E) as H. pose proof (A k pc E) as B.
  destruct pc as [| |j held vals [|r todo]| |]; try discriminate. destruct H as [G R].
  exists j, (rev held), r. split.
  - exists held, vals, todo. cbn in B. apply negb_true_iff in B. auto.
  - intros l. unfold touches. cbn. now rewrite <- !in_rev.
Qed.

Lemma waits_op ok s k j pre r : KI ok s -> waits s k j pre r ->
  exists o, In (Inv k o) (k_hist s) /\ (forall o', j = JOp o' -> o' = o).
Proof.
  intros K (held & vals & todo & E & _). destruct j as [o|t m|t m].
  - exists o. split; [|congruence]. apply (k_open _ _ _ _ _ _ _ K k _ o E). reflexivity.
  - exists (KSetSim t m). split; [|discriminate]. apply (k_open _ _ _ _ _ _ _ K k _ _ E). reflexivity.
  - exists (KSetSim t m). split; [|discriminate]. apply (k_open _ _ _ _ _ _ _ K k _ _ E). reflexivity.
Qed.

(** A call that waits for a lock waits for another one that holds it and waits too. *)
Lemma wait_for ok s k j pre r : KI ok s -> Struct s -> all_stuck s -> waits s k j pre r ->
  (exists k' j' pre' r', waits s k' j' pre' r' /\
     (In (Wr (lock_of r)) pre' \/ (is_write r = true /\ In (Rd (lock_of r)) pre'))) \/
  (is_write r = false /\ exists k' j' pre', waits s k' j' pre' (Wr (lock_of r)) /\ defer (k_calls s) k (lock_of r) = true).
Proof.
  intros K T A W. pose proof (k_nodup _ _ _ _ _ _ _ K) as N.
  destruct W as (held & vals & todo & E & -> & G & R & C). destruct r as [l|l]; cbn in C.
  - apply andb_false_iff in C. destruct C as [C|C]; apply negb_false_iff in C.
    + left. apply existsb_exists in C. destruct C as ([k' p'] & I & C). apply holds_write_spec in C.
      apply calls_in in I; [|exact N]. destruct (stuck_waits s k' p' T A I) as (j' & pre' & r' & W' & _).
      exists k', j', pre', r'. split; [exact W'|]. left. destruct W' as (held' & vals' & todo' & E' & -> & _).
      rewrite I in E'. injection E' as ->. cbn in C. now rewrite <- in_rev.
    + right. split; [reflexivity|]. apply andb_true_iff in C. destruct C as [C D].
      apply existsb_exists in C. destruct C as ([k' p'] & I & C). apply calls_in in I; [|exact N].
      destruct (stuck_waits s k' p' T A I) as (j' & pre' & r' & W' & _). exists k', j', pre'. split; [|exact D].
      destruct W' as (held' & vals' & todo' & E' & X). rewrite I in E'. injection E' as ->. cbn [snd wants_write] in C.
      destruct r' as [l'|l']; [discriminate|]. apply klock_eqb_ok in C. subst l'. exists held', vals', todo'. auto.
  - left. apply negb_false_iff in C. apply existsb_exists in C. destruct C as ([k' p'] & I & C). apply holds_any_spec in C.
    apply calls_in in I; [|exact N]. destruct (stuck_waits s k' p' T A I) as (j' & pre' & r' & W' & Q).
    exists k', j', pre', r'. split; [exact W'|]. apply Q in C. cbn. destruct C; auto.
Qed.

Lemma someone s : Struct s -> all_stuck s -> k_calls s <> [] -> exists k j pre r, waits s k j pre r.
Proof.
  intros T A N. destruct (k_calls s) as [|[k pc] c] eqn:C; [congruence|].
  destruct (stuck_waits s k pc T A) as (j & pre & r & W & _); [rewrite C; cbn; now rewrite Nat.eqb_refl|].
  exists k, j, pre, r. exact W.
Qed.

(** ** Any order of the operands, readers first, no Restore *)

Definition not_restore (j : job) : Prop := match j with JOp (KRestore _ _ _) => False | _ => True end.

Lemma few_writes j : not_restore j -> worder j = [] \/ exists l, worder j = [l] /\ writes j = [l].
Proof.
  intros H. pose proof (writers j) as P.
  assert (Q : writes j = [] \/ exists l, writes j = [l]).
  { destruct j as [o|t m|t m]; [destruct o|..]; cbn in *; try tauto; eauto. }
  destruct Q as [Q|(l & Q)]; rewrite Q in P.
  - left. now apply Permutation_sym, Permutation_nil in P.
  - right. exists l. split; [|exact Q]. now apply Permutation_length_1_inv, Permutation_sym in P || (apply Permutation_sym, Permutation_length_1_inv in P; exact P).
Qed.

Lemma waiting_reader s k j pre r : waits s k j pre r -> not_restore j ->
  (forall l, ~ In (Wr l) pre) /\
  forall l, r = Wr l -> writes j = [l] /\ forall l', In (Rd l') pre -> In l' (reads j).
Proof.
  intros (held & vals & todo & E & X & G & R & C) H. clear X. unfold ClockModel.requests in R.
  assert (NR : forall a l, ~ In (Wr l) (map Rd a)).
  { intros a l I. apply in_map_iff in I. destruct I as (x & X & _). discriminate. }
  destruct (few_writes j H) as [W|(w & W & W')]; rewrite W in R; cbn [map] in R.
  - rewrite app_nil_r in R. split.
    + intros l I. apply (NR (rorder j) l). rewrite <- R, in_app_iff. now left.
    + intros l ->. exfalso. apply (NR (rorder j) l). rewrite <- R, in_app_iff. right. now left.
  - destruct (exists_last (l := r :: todo)) as (q & y & Q); [discriminate|]. rewrite Q, app_assoc in R.
    apply app_inj_tail in R. destruct R as [R ->]. split.
    + intros l I. apply (NR (rorder j) l). rewrite <- R, in_app_iff. now left.
    + intros l ->. destruct q as [|z q].
      * injection Q as <- _. split; [exact W'|]. intros l' I. apply (Permutation_in l' (readers j)).
        rewrite app_nil_r in R. rewrite R in I. apply in_map_iff in I. destruct I as (l2 & X & I). now injection X as <-.
      * exfalso. injection Q as <- _. apply (NR (rorder j) l). rewrite <- R, in_app_iff. right. now left.
Qed.

Lemma no_deadlock_readers ok s : KI ok s -> Struct s -> no_restore (k_hist s) ->
  (forall c k l, defer c k l = false) -> k_calls s <> [] -> ~ all_stuck s.
Proof.
  intros K T F D N A.
  assert (NR : forall k j pre r, waits s k j pre r -> not_restore j).
  { intros k j pre r W. destruct (waits_op ok s k j pre r K W) as (o & I & Q).
    destruct j as [o'|t m|t m]; cbn; auto. destruct o' as [| | | | | | | | | | |a b c]; auto.
    rewrite <- (Q _ eq_refl) in I. now apply F in I. }
  assert (R1 : forall k j pre r, waits s k j pre r -> exists l k' j' pre' l',
     r = Wr l /\ waits s k' j' pre' (Wr l') /\ In l (reads j') /\ writes j' = [l']).
  { assert (R0 : forall k j pre r, waits s k j pre r -> exists l, r = Wr l).
    { intros k j pre r W. destruct r as [l|l]; [|eauto]. exfalso.
      destruct (wait_for ok s k j pre (Rd l) K T A W) as [(k' & j' & pre' & r' & W' & [X|[X _]])|(_ & k' & j' & pre' & _ & X)].
      - destruct (waiting_reader s k' j' pre' r' W' (NR _ _ _ _ W')) as [Y _]. now apply Y in X.
      - discriminate.
      - rewrite D in X. discriminate. }
    intros k j pre r W. destruct (R0 _ _ _ _ W) as (l & ->). exists l.
    destruct (wait_for ok s k j pre (Wr l) K T A W) as [(k' & j' & pre' & r' & W' & [X|[_ X]])|(X & _)].
    - destruct (waiting_reader s k' j' pre' r' W' (NR _ _ _ _ W')) as [Y _]. now apply Y in X.
    - destruct (R0 _ _ _ _ W') as (l' & ->). destruct (waiting_reader s k' j' pre' _ W' (NR _ _ _ _ W')) as [_ Y].
      destruct (Y l' eq_refl) as [Y1 Y2]. exists k', j', pre', l'. auto.
    - discriminate. }
  assert (R2 : forall k j pre, ~ waits s k j pre (Wr LStart)).
  { intros k j pre W. destruct (R1 _ _ _ _ W) as (l & k' & j' & pre' & l' & X & W' & I & Q). injection X as <-.
    pose proof (NR _ _ _ _ W') as H. destruct j' as [o|t m|t m]; [destruct o|..]; cbn in *; try discriminate; intuition discriminate. }
  assert (R3 : forall k j pre, ~ waits s k j pre (Wr LEpoch)).
  { intros k j pre W. destruct (R1 _ _ _ _ W) as (l & k' & j' & pre' & l' & X & W' & I & Q). injection X as <-.
    destruct j' as [o|t m|t m]; [destruct o|..]; cbn in Q; try discriminate; cbn in I; try (intuition discriminate).
    injection Q as <-. now apply R2 in W'. }
  assert (R4 : forall k j pre, ~ waits s k j pre (Wr LSim)).
  { intros k j pre W. destruct (R1 _ _ _ _ W) as (l & k' & j' & pre' & l' & X & W' & I & Q). injection X as <-.
    destruct j' as [o|t m|t m]; [destruct o|..]; cbn in Q; try discriminate; cbn in I; try (intuition discriminate);
      injection Q as <-; [now apply R3 in W'|now apply R2 in W']. }
  destruct (someone s T A N) as (k & j & pre & r & W). destruct (R1 _ _ _ _ W) as (l & k' & j' & pre' & l' & -> & _).
  destruct l; [now apply R4 in W|now apply R2 in W|now apply R3 in W].
Qed.

(** ** Operands evaluated from left to right *)

Section LeftToRight.
Hypothesis left_r : forall j, rorder j = reads j.
Hypothesis left_w : forall j, worder j = writes j.

Definition later (a b : klock) : Prop :=
  match a, b with LSim, LEpoch | LSim, LStart | LEpoch, LStart => True | _, _ => False end.

Ltac enumerate R :=
  match type of R with
  | ?pre ++ ?r :: ?todo = _ =>
      destruct pre as [|?x1 [|?x2 [|?x3 ?pre]]]; cbn in R; try discriminate;
      repeat (match type of R with _ :: _ = _ :: _ => injection R as ? R end); subst; try discriminate;
      try (match goal with X : ?l ++ _ :: _ = [] |- _ => destruct l; discriminate X end)
  end.

Lemma order_plain s k j pre r : waits s k j pre r ->
  (forall a b c, j <> JOp (KRestore a b c)) -> j <> JOp KStore ->
  forall r', In r' pre -> later (lock_of r') (lock_of r).
Proof.
  intros (held & vals & todo & _ & X & G & R & _) N1 N2 r' I. clear X. unfold ClockModel.requests in R. rewrite left_r, left_w in R.
  destruct j as [o|t m|t m]; [destruct o as [| | | |e|m|m| | |t m| |a b c]|..]; try (now destruct N2); try (now edestruct N1);
    cbn in G; try contradiction; cbn in R; enumerate R; cbn in I;
    repeat (destruct I as [<-|I]; [exact Logic.I|]); try contradiction.
Qed.

Lemma no_deadlock_ordered ok s : KI ok s -> Struct s -> no_restore (k_hist s) -> no_store (k_hist s) ->
  k_calls s <> [] -> ~ all_stuck s.
Proof.
  intros K T F1 F2 N A.
  assert (L : forall k j pre r, waits s k j pre r -> forall r', In r' pre -> later (lock_of r') (lock_of r)).
  { intros k j pre r W. destruct (waits_op ok s k j pre r K W) as (o & I & Q). apply (order_plain s k j pre r W).
    - intros a b c ->. rewrite <- (Q _ eq_refl) in I. now apply F1 in I.
    - intros ->. rewrite <- (Q _ eq_refl) in I. now apply F2 in I. }
  assert (S : forall k j pre r, waits s k j pre r -> exists k' j' pre' r', waits s k' j' pre' r' /\ later (lock_of r) (lock_of r')).
  { assert (S0 : forall k j pre l, waits s k j pre (Wr l) -> exists k' j' pre' r', waits s k' j' pre' r' /\ later l (lock_of r')).
    { intros k j pre l W.
      destruct (wait_for ok s k j pre (Wr l) K T A W) as [(k' & j' & pre' & r' & W' & [X|[_ X]])|(X & _)]; [| |discriminate];
        exists k', j', pre', r'; (split; [exact W'|]); exact (L _ _ _ _ W' _ X). }
    intros k j pre r W.
    destruct (wait_for ok s k j pre r K T A W) as [(k' & j' & pre' & r' & W' & [X|[_ X]])|(_ & k' & j' & pre' & W' & _)].
    - exists k', j', pre', r'. split; [exact W'|]. exact (L _ _ _ _ W' _ X).
    - exists k', j', pre', r'. split; [exact W'|]. exact (L _ _ _ _ W' _ X).
    - now apply S0 in W'. }
  destruct (someone s T A N) as (k0 & j0 & pre0 & r0 & W0).
  destruct (S _ _ _ _ W0) as (k1 & j1 & pre1 & r1 & W1 & L1).
  destruct (S _ _ _ _ W1) as (k2 & j2 & pre2 & r2 & W2 & L2).
  destruct (S _ _ _ _ W2) as (k3 & j3 & pre3 & r3 & W3 & L3).
  destruct (lock_of r0), (lock_of r1); try contradiction; destruct (lock_of r2); try contradiction; destruct (lock_of r3); contradiction.
Qed.

(** All the calls, readers first. *)
Lemma order_all s k j pre r : waits s k j pre r ->
  (forall l, In (Wr l) pre -> In (Wr LSim) pre /\ exists l0, r = Wr l0 /\ l0 <> LSim /\ ~ In (Rd l0) pre /\ ~ In (Wr l0) pre) /\
  (forall r', In r' pre -> lock_of r' <> LSim -> exists r2, In r2 pre /\ lock_of r2 = LSim) /\
  ((forall l, ~ In (Wr l) pre) -> forall l r', r = Wr l -> In r' pre -> later (lock_of r') l).
Proof.
  intros (held & vals & todo & _ & X & G & R & _). clear X. unfold ClockModel.requests in R. rewrite left_r, left_w in R.
  destruct j as [o|t m|t m]; [destruct o as [| | | |e|m|m| | |t m| |a b c]|..]; cbn in G; try contradiction; cbn in R; enumerate R;
    (split; [|split]);
    try (intros l I; cbn in I; repeat (destruct I as [I|I]; [try discriminate I; injection I as <-|]); try contradiction; fail);
    try (intros r' I NS; cbn in I; repeat (destruct I as [<-|I]; [first [now destruct NS | eexists; split; [now left|reflexivity]]|]); contradiction);
    try (intros NW l r' El I; try discriminate El; injection El as <-; cbn in I; repeat (destruct I as [<-|I]; [exact Logic.I|]); contradiction).
  all: try (intros l I; split; [cbn; tauto|]; eexists; split; [reflexivity|]; split; [discriminate|]; split; cbn; intuition discriminate).
  all: try (intros NW; exfalso; apply (NW LSim); cbn; tauto).
Qed.

Lemma no_deadlock_all ok s : KI ok s -> Struct s -> (forall c k l, defer c k l = false) ->
  k_calls s <> [] -> ~ all_stuck s.
Proof.
  intros K T D N A.
  assert (NW : forall k j pre r, waits s k j pre r -> forall l, ~ In (Wr l) pre).
  { intros k j pre r W l I. destruct (order_all s k j pre r W) as (O & _). destruct (O l I) as (I0 & l0 & -> & NS & N1 & N2).
    destruct (wait_for ok s k j pre (Wr l0) K T A W) as [(k' & j' & pre' & r' & W' & X)|(X & _)]; [|discriminate].
    cbn [lock_of] in X.
    assert (H : exists r2, In r2 pre' /\ lock_of r2 = LSim).
    { destruct (order_all s k' j' pre' r' W') as (_ & O2 & _). destruct X as [X|[_ X]]; now apply (O2 _ X). }
    assert (k = k').
    { destruct H as (r2 & I2 & E2). destruct W as (held & vals & todo & E & -> & _). destruct W' as (held' & vals' & todo' & E' & -> & _).
      apply (t_excl _ T k k' _ _ LSim E E'); [cbn; now apply in_rev|].
      unfold touches. cbn. rewrite in_rev, (in_rev held'). destruct r2 as [a|a]; cbn in E2; subst a; [now left|now right]. }
    subst k'. destruct W as (held & vals & todo & E & -> & _). destruct W' as (held' & vals' & todo' & E' & -> & _).
    rewrite E in E'. injection E' as _ <- _ _ _. destruct X as [X|[_ X]]; contradiction. }
  assert (S : forall k j pre r, waits s k j pre r -> exists l k' j' pre' l',
     r = Wr l /\ waits s k' j' pre' (Wr l') /\ later l l').
  { assert (R0 : forall k j pre r, waits s k j pre r -> exists l, r = Wr l).
    { intros k j pre r W. destruct r as [l|l]; [|eauto]. exfalso.
      destruct (wait_for ok s k j pre (Rd l) K T A W) as [(k' & j' & pre' & r' & W' & [X|[X _]])|(_ & k' & j' & pre' & _ & X)].
      - now apply (NW _ _ _ _ W') in X.
      - discriminate.
      - rewrite D in X. discriminate. }
    intros k j pre r W. destruct (R0 _ _ _ _ W) as (l & ->). exists l.
    destruct (wait_for ok s k j pre (Wr l) K T A W) as [(k' & j' & pre' & r' & W' & [X|[_ X]])|(X & _)].
    - now apply (NW _ _ _ _ W') in X.
    - destruct (R0 _ _ _ _ W') as (l' & ->). exists k', j', pre', l'. split; [reflexivity|]. split; [exact W'|].
      destruct (order_all s k' j' pre' _ W') as (_ & _ & O). exact (O (NW _ _ _ _ W') l' _ eq_refl X).
    - discriminate. }
  destruct (someone s T A N) as (k0 & j0 & pre0 & r0 & W0).
  destruct (S _ _ _ _ W0) as (l0 & k1 & j1 & pre1 & l1 & -> & W1 & L1).
  destruct (S _ _ _ _ W1) as (x1 & k2 & j2 & pre2 & l2 & X1 & W2 & L2). injection X1 as <-.
  destruct (S _ _ _ _ W2) as (x2 & k3 & j3 & pre3 & l3 & X2 & W3 & L3). injection X2 as <-.
  destruct l0, l1; try contradiction; destruct l2; try contradiction; destruct l3; contradiction.
Qed.
End LeftToRight.
End Compiled.
