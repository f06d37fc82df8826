(** Proofs about the mutexes of the scheduler. *)
From Verif Require Import Base LockModel LockSpec.
Import Nat.
Local Open Scope nat_scope.

Lemma lock_eqb_eq a b : lock_eqb a b = true <-> a = b.
Proof. destruct a, b; cbn; split; congruence. Qed.

Lemma holds_in l t : holds l t = true <-> In l (held t).
Proof.
  unfold holds. rewrite existsb_exists. split.
  - intros (x & I & E). apply lock_eqb_eq in E. now subst.
  - intros I. exists l. split; auto. now apply lock_eqb_eq.
Qed.

Lemma holds_drop l l' h p : holds l (Th (drop l' h) p) = holds l (Th h p) && negb (lock_eqb l l').
Proof.
  unfold holds. cbn. induction h as [|x h IH]; cbn; [reflexivity|].
  destruct (lock_eqb l' x) eqn:E.
  - apply lock_eqb_eq in E. subst x. rewrite IH. destruct (lock_eqb l l') eqn:F; cbn; auto.
    now rewrite andb_false_r.
  - cbn. rewrite IH. destruct (lock_eqb l x) eqn:F; cbn; auto.
    apply lock_eqb_eq in F. subst x. destruct (lock_eqb l l') eqn:G; auto.
    apply lock_eqb_eq in G. subst l'. destruct l; discriminate.
Qed.

(** The discipline of the code: [chk x e g z p] says that a thread that holds Events,
    Exec and Zulu according to [e], [g] and [z] can do [p]; [x]: it may take Exec. *)
Fixpoint chk (x e g z : bool) (p : list instr) : bool :=
  match p with
  | [] => negb e && negb g && negb z
  | Acq Events :: r => negb e && negb z && chk x true g z r
  | Acq Exec :: r => x && e && negb g && negb z && chk x e true z r
  | Acq Zulu :: r => negb z && (e || negb g) && chk x e g true r
  | AcqBoth :: r => negb e && negb z && chk x true g true r
  | Rel Events :: r => e && chk x false g z r
  | Rel Exec :: r => g && e && negb z && chk x e false z r
  | Rel Zulu :: r => z && chk x e g false r
  end.

Lemma chk_calls x g cs q : chk x false g false (calls_code cs ++ q) = chk x false g false q.
Proof.
  induction cs as [|c cs IH]; [reflexivity|]. unfold calls_code. cbn [flat_map]. rewrite <- app_assoc.
  destruct c; cbn; exact IH.
Qed.

Lemma chk_execute cs q : chk true false false false (execute cs ++ q) = chk true false false false q.
Proof.
  unfold execute. rewrite <- !app_assoc. cbn [app chk negb andb]. rewrite chk_calls. reflexivity.
Qed.

Lemma chk_sim x l : (x = true \/ forall cs, ~ In (SExec cs) l) -> chk x false false false (sim_prog l) = true.
Proof.
  induction l as [|a l IH]; intros H; [reflexivity|]. unfold sim_prog. cbn [flat_map].
  assert (H' : x = true \/ (forall cs, ~ In (SExec cs) l)).
  { destruct H as [H|H]; auto. right. intros cs I. apply (H cs). now right. }
  specialize (IH H'). destruct a; cbn [sim_code].
  - exact IH.
  - rewrite <- (app_nil_r (call_code c)). change (call_code c ++ []) with (calls_code [c]). now rewrite chk_calls.
  - exact IH.
  - destruct H as [->|H]; [now rewrite chk_execute|]. destruct (H cs). now left.
Qed.

Lemma chk_zulu_act x a q : (x = true \/ forall cs b, a <> ZExec cs b) ->
  chk x false false true (zulu_code a ++ q) = chk x false false true q.
Proof.
  intros H. destruct a as [|[]|cs again]; cbn -[execute_zulu]; try reflexivity.
  destruct H as [->|H]; [|now destruct (H cs again)].
  unfold execute_zulu. rewrite <- !app_assoc. cbn [app chk negb andb].
  rewrite chk_calls. destruct again; cbn; reflexivity.
Qed.

Lemma chk_zulu x l : (x = true \/ forall cs b, ~ In (ZExec cs b) l) -> chk x false false false (zulu_prog l) = true.
Proof.
  intros H. unfold zulu_prog. cbn [app chk negb andb orb].
  assert (G : forall l, (x = true \/ forall cs b, ~ In (ZExec cs b) l) ->
              chk x false false true (flat_map zulu_code l ++ [Rel Zulu]) = true).
  { clear. induction l as [|a l IH]; intros H; [reflexivity|]. cbn [flat_map]. rewrite <- app_assoc.
    rewrite chk_zulu_act.
    - apply IH. destruct H as [H|H]; auto. right. intros cs b I. apply (H cs b). now right.
    - destruct H as [H|H]; auto. right. intros cs b ->. apply (H cs b). now left. }
  now apply G.
Qed.

(** ** The invariant.  [cap n]: thread [n] may take Exec. *)
Record Inv (cap : nat -> bool) (ts : list thread) : Prop := {
  i_excl : forall n k t u l, nth_error ts n = Some t -> nth_error ts k = Some u ->
             holds l t = true -> holds l u = true -> n = k;
  i_chk : forall n t, nth_error ts n = Some t ->
            chk (cap n) (holds Events t) (holds Exec t) (holds Zulu t) (todo t) = true;
  i_cap : forall n t, nth_error ts n = Some t -> holds Exec t = true -> cap n = true
}.

Lemma free_spec l ts : free l ts = true <-> forall n t, nth_error ts n = Some t -> holds l t = false.
Proof.
  unfold free. rewrite negb_true_iff. split.
  - intros H n t E. destruct (holds l t) eqn:F; auto.
    assert (X : existsb (holds l) ts = true). { apply existsb_exists. exists t. split; auto. eapply nth_error_In; eauto. }
    congruence.
  - intros H. destruct (existsb (holds l) ts) eqn:F; auto. apply existsb_exists in F as (t & I & F).
    apply In_nth_error in I as (n & E). now rewrite (H n t E) in F.
Qed.

Lemma not_free l ts : free l ts = false -> exists n t, nth_error ts n = Some t /\ holds l t = true.
Proof.
  unfold free. rewrite negb_false_iff. intros F. apply existsb_exists in F as (t & I & F).
  apply In_nth_error in I as (n & E). eauto.
Qed.

Lemma nth_update n t ts k : nth_error (update n t ts) k =
  if (k =? n) && (n <? length ts) then Some t else nth_error ts k.
Proof.
  revert n k. induction ts as [|x ts IH]; intros n k; cbn.
  - rewrite andb_false_r. destruct n; reflexivity.
  - destruct n as [|n], k as [|k]; cbn; try reflexivity. rewrite IH. reflexivity.
Qed.

(** What a step does. *)
Lemma lstep_cases ts n : lstep ts n = ts \/
  exists t t', nth_error ts n = Some t /\ advance ts t = Some t' /\ lstep ts n = update n t' ts.
Proof.
  unfold lstep. destruct (nth_error ts n) as [t|] eqn:E; auto.
  destruct (advance ts t) as [t'|] eqn:A; auto. right. eauto 6.
Qed.

Lemma advance_holds ts t t' l : advance ts t = Some t' -> holds l t' = true -> holds l t = true \/ free l ts = true.
Proof.
  unfold advance. destruct t as [h p]. cbn. destruct p as [|[l0| |l0] r]; [discriminate| | |].
  - destruct (free l0 ts) eqn:F; [|discriminate]. intros [= <-]. unfold holds. cbn.
    destruct (lock_eqb l l0) eqn:E; auto. apply lock_eqb_eq in E. subst. auto.
  - destruct (free Events ts) eqn:F1; [|discriminate]. destruct (free Zulu ts) eqn:F2; [|discriminate].
    intros [= <-]. unfold holds. cbn. destruct l; auto.
  - intros [= <-]. rewrite holds_drop. intros H. apply andb_true_iff in H as [H _]. auto.
Qed.

Lemma advance_chk cap ts n t t' : Inv cap ts -> nth_error ts n = Some t -> advance ts t = Some t' ->
  chk (cap n) (holds Events t') (holds Exec t') (holds Zulu t') (todo t') = true /\
  (holds Exec t' = true -> cap n = true).
Proof.
  intros I E A. pose proof (i_chk _ _ I n t E) as C. pose proof (i_cap _ _ I n t E) as D.
  unfold advance in A. destruct t as [h p]. cbn [todo held] in *. destruct p as [|[l0| |l0] r]; [discriminate| | |].
  - destruct (free l0 ts) eqn:F; [|discriminate]. injection A as <-. cbn [todo]. unfold holds in *. cbn in *.
    destruct l0; cbn in *; rewrite ?andb_true_iff in C.
    + split; [apply C|auto].
    + destruct C as ((((C1 & C2) & C3) & C4) & C5). rewrite C2 in *. split; [exact C5|auto].
    + split; [apply C|auto].
  - destruct (free Events ts && free Zulu ts); [|discriminate]. injection A as <-. cbn [todo]. unfold holds in *. cbn in *.
    rewrite ?andb_true_iff in C. split; [apply C|auto].
  - injection A as <-. cbn [todo]. rewrite !(holds_drop _ l0 h r). change (holds ?l (Th h r)) with (holds l (Th h (Rel l0 :: r))).
    cbn [chk] in C. destruct l0; rewrite ?andb_true_iff in C; cbn [lock_eqb negb]; rewrite ?andb_true_r, ?andb_false_r.
    + split; [apply C|exact D].
    + destruct C as (((C1 & C2) & C3) & C4). rewrite C2 in *. split; [exact C4|]. discriminate.
    + split; [apply C|exact D].
Qed.

Lemma Inv_step cap ts n : Inv cap ts -> Inv cap (lstep ts n).
Proof.
  intros I. destruct (lstep_cases ts n) as [->|(t & t' & E & A & ->)]; auto.
  assert (L : n <? length ts = true). { apply ltb_lt. apply nth_error_Some. congruence. }
  constructor.
  - intros a b u v l. rewrite !nth_update, L, !andb_true_r.
    destruct (eqb_spec a n) as [->|Na], (eqb_spec b n) as [->|Nb]; intros Ea Eb Ha Hb; auto.
    + injection Ea as <-. destruct (advance_holds _ _ _ l A Ha) as [H|H].
      * eapply (i_excl _ _ I); eauto.
      * rewrite free_spec in H. rewrite (H b v Eb) in Hb. discriminate.
    + injection Eb as <-. destruct (advance_holds _ _ _ l A Hb) as [H|H].
      * eapply (i_excl _ _ I); eauto.
      * rewrite free_spec in H. rewrite (H a u Ea) in Ha. discriminate.
    + eapply (i_excl _ _ I); eauto.
  - intros a u. rewrite nth_update, L, andb_true_r. destruct (eqb_spec a n) as [->|Na].
    + intros [= <-]. eapply advance_chk; eauto.
    + apply (i_chk _ _ I).
  - intros a u. rewrite nth_update, L, andb_true_r. destruct (eqb_spec a n) as [->|Na].
    + intros [= <-]. eapply advance_chk; eauto.
    + apply (i_cap _ _ I).
Qed.

Lemma Inv_steps cap sched : forall ts, Inv cap ts -> Inv cap (fold_left lstep sched ts).
Proof. induction sched as [|n sched IH]; intros ts I; cbn; auto. apply IH. now apply Inv_step. Qed.

Definition both_cap (n : nat) : bool := n <? 2.
Definition only_sim (n : nat) : bool := n =? 0.
Definition only_zulu (n : nat) : bool := n =? 1.

Lemma start_held s n t : nth_error (start s) n = Some t -> held t = [].
Proof.
  unfold start. intros H. apply nth_error_In in H. cbn in H.
  destruct H as [<-|[<-|H]]; auto. apply in_map_iff in H as (cs & <- & _). reflexivity.
Qed.

Lemma Inv_start cap s :
  (cap 0 = true \/ no_sim_execution s) -> (cap 1 = true \/ no_zulu_execution s) -> Inv cap (start s).
Proof.
  intros H0 H1. constructor.
  - intros n k t u l En _ Ht. unfold holds in Ht. rewrite (start_held _ _ _ En) in Ht. discriminate.
  - intros n t E. unfold holds. rewrite (start_held _ _ _ E). cbn [existsb].
    destruct n as [|[|n]]; cbn in E.
    + injection E as <-. cbn [todo]. apply chk_sim. exact H0.
    + injection E as <-. cbn [todo]. apply chk_zulu. exact H1.
    + apply nth_error_In, in_map_iff in E as (cs & <- & _). cbn [todo].
      rewrite <- (app_nil_r (calls_code cs)). now rewrite chk_calls.
  - intros n t E. unfold holds. rewrite (start_held _ _ _ E). discriminate.
Qed.

(** ** The only deadlock *)
Definition embrace (ts : list thread) (a b : nat) : Prop :=
  exists ta tb ra, nth_error ts a = Some ta /\ nth_error ts b = Some tb /\
    holds Events ta = true /\ todo ta = Acq Exec :: ra /\ holds Exec tb = true /\ holds Events tb = false.

Lemma Inv_zulu_free cap ts : Inv cap ts -> (forall n t, nth_error ts n = Some t -> advance ts t = None) ->
  free Zulu ts = true.
Proof.
  intros I S. apply free_spec. intros n t E. destruct (holds Zulu t) eqn:Z; auto.
  pose proof (i_chk _ _ I n t E) as C. rewrite Z in C. pose proof (S n t E) as A. unfold advance in A.
  destruct (todo t) as [|[[]| |[]] r]; cbn in C; rewrite ?andb_false_r in C; cbn in C; try discriminate.
Qed.

Lemma stuck_embrace cap ts n t : Inv cap ts -> (forall n t, nth_error ts n = Some t -> advance ts t = None) ->
  nth_error ts n = Some t -> todo t <> [] -> exists a b, embrace ts a b.
Proof.
  intros I S E T. pose proof (Inv_zulu_free _ _ I S) as FZ.
  assert (WE : free Events ts = false -> exists a ta ra, nth_error ts a = Some ta /\ holds Events ta = true /\
                 todo ta = Acq Exec :: ra /\ holds Exec ta = false /\ free Exec ts = false).
  { intros F. apply not_free in F as (a & ta & Ea & Ha). pose proof (i_chk _ _ I a ta Ea) as C. rewrite Ha in C.
    pose proof (S a ta Ea) as A. unfold advance in A.
    destruct (todo ta) as [|[[]| |[]] r] eqn:P; cbn in C; rewrite ?andb_false_r in C; cbn in C; try discriminate.
    - exists a, ta, r. rewrite !andb_true_iff in C. destruct C as ((((C0 & C1) & C2) & C3) & C4). apply negb_true_iff in C2.
      repeat split; auto. destruct (free Exec ts); [discriminate|reflexivity].
    - rewrite FZ in A. discriminate. }
  assert (WX : free Exec ts = false -> exists b tb, nth_error ts b = Some tb /\ holds Exec tb = true /\
                 (holds Events tb = false -> free Events ts = false) ).
  { intros F. apply not_free in F as (b & tb & Eb & Hb). exists b, tb. repeat split; auto. intros He.
    pose proof (i_chk _ _ I b tb Eb) as C. rewrite Hb, He in C.
    pose proof (S b tb Eb) as A. unfold advance in A. rewrite FZ, ?andb_true_r in A.
    destruct (todo tb) as [|[[]| |[]] r] eqn:P; cbn in C; rewrite ?andb_false_r in C; cbn in C; try discriminate.
    - destruct (free Events ts); [discriminate|reflexivity].
    - destruct (free Events ts); [discriminate|reflexivity]. }
  assert (G : free Events ts = false -> exists a b, embrace ts a b).
  { intros F. destruct (WE F) as (a & ta & ra & Ea & Ha & Pa & Xa & FX).
    destruct (WX FX) as (b & tb & Eb & Hb & _). exists a, b, ta, tb, ra. repeat split; auto.
    destruct (holds Events tb) eqn:Y; auto.
    assert (a = b) by (eapply (i_excl _ _ I); eauto). subst b. congruence. }
  pose proof (S n t E) as A. unfold advance in A. destruct (todo t) as [|[[]| |l] r] eqn:P; [contradiction| | | | |].
  - apply G. destruct (free Events ts); [discriminate|reflexivity].
  - destruct (free Exec ts) eqn:FX; [discriminate|]. destruct (WX Logic.eq_refl) as (b & tb & Eb & Hb & K).
    destruct (holds Events tb) eqn:Y; [|auto]. apply G.
    destruct (free Events ts) eqn:F; auto. rewrite free_spec in F. rewrite (F b tb Eb) in Y. discriminate.
  - rewrite FZ in A. discriminate.
  - apply G. rewrite FZ, andb_true_r in A. destruct (free Events ts); [discriminate|reflexivity].
  - discriminate.
Qed.

(** A step that can be done changes the state. *)
Lemma update_len n t ts : length (update n t ts) = length ts.
Proof. revert n. induction ts as [|x ts IH]; intros [|n]; cbn; auto. Qed.

Fixpoint work (ts : list thread) : nat :=
  match ts with [] => 0 | t :: ts => length (todo t) + work ts end.

Lemma advance_todo ts t t' : advance ts t = Some t' -> length (todo t) = S (length (todo t')).
Proof.
  unfold advance. destruct t as [h p]. cbn. destruct p as [|[l0| |l0] r]; [discriminate| | |].
  - destruct (free l0 ts); [|discriminate]. now intros [= <-].
  - destruct (_ && _); [|discriminate]. now intros [= <-].
  - now intros [= <-].
Qed.

Lemma work_update ts n t t' : nth_error ts n = Some t -> length (todo t) = S (length (todo t')) ->
  work ts = S (work (update n t' ts)).
Proof.
  revert n. induction ts as [|x ts IH]; intros [|n] E L; try discriminate.
  - injection E as ->. cbn. lia.
  - specialize (IH n E L). cbn. lia.
Qed.

Lemma movable_dec ts : (exists n t t', nth_error ts n = Some t /\ advance ts t = Some t') \/
  (forall n t, nth_error ts n = Some t -> advance ts t = None).
Proof.
  assert (H : forall us, (exists n t t', nth_error us n = Some t /\ advance ts t = Some t') \/
                         (forall n t, nth_error us n = Some t -> advance ts t = None)).
  { induction us as [|u us IH].
    - right. intros [|n] t; discriminate.
    - destruct (advance ts u) as [u'|] eqn:A; [left; exists 0, u, u'; auto|].
      destruct IH as [(n & t & t' & E & F)|IH]; [left; exists (S n), t, t'; auto|].
      right. intros [|n] t E; cbn in E; [now injection E as <-|eauto]. }
  apply H.
Qed.

Lemma lstep_moves ts n t t' : nth_error ts n = Some t -> advance ts t = Some t' ->
  lstep ts n = update n t' ts /\ work ts = S (work (lstep ts n)).
Proof.
  intros E A. assert (L : lstep ts n = update n t' ts) by (unfold lstep; now rewrite E, A).
  split; auto. rewrite L. apply (work_update _ _ t); auto. eapply advance_todo; eauto.
Qed.

Lemma stuck_no_move ts : (forall n, lstep ts n = ts) -> forall n t, nth_error ts n = Some t -> advance ts t = None.
Proof.
  intros S n t E. destruct (advance ts t) as [t'|] eqn:A; auto.
  destruct (lstep_moves _ _ _ _ E A) as [_ W]. rewrite S in W. lia.
Qed.

Lemma not_finished ts : ~ finished ts -> exists n t, nth_error ts n = Some t /\ todo t <> [].
Proof.
  unfold finished. induction ts as [|t ts IH]; intros H; [destruct H; constructor|].
  destruct (todo t) as [|i r] eqn:P.
  - destruct IH as (n & u & E & F). { intros K. apply H. constructor; auto. } exists (S n), u. auto.
  - exists 0, t. split; auto. congruence.
Qed.

Lemma stuck_has_embrace cap ts : Inv cap ts -> stuck ts -> exists a b, embrace ts a b.
Proof.
  intros I (F & S). destruct (not_finished _ F) as (n & t & E & T). eapply stuck_embrace; eauto. now apply stuck_no_move.
Qed.

Lemma embrace_cap cap ts a b : Inv cap ts -> embrace ts a b -> a <> b /\ cap a = true /\ cap b = true.
Proof.
  intros I (ta & tb & ra & Ea & Eb & Ha & Pa & Hb & Nb).
  pose proof (i_chk _ _ I a ta Ea) as C. rewrite Pa in C. cbn in C. rewrite !andb_true_iff in C.
  split; [intros ->; congruence|]. split; [apply C|]. eapply (i_cap _ _ I); eauto.
Qed.

(** A thread that holds Events and waits for Exec, held by another thread: nothing helps. *)
Lemma embrace_step cap ts a b n : Inv cap ts -> embrace ts a b ->
  embrace (lstep ts n) a b /\ nth_error (lstep ts n) a = nth_error ts a.
Proof.
  intros I H. pose proof (embrace_cap _ _ _ _ I H) as (Nab & _ & _).
  destruct H as (ta & tb & ra & Ea & Eb & Ha & Pa & Hb & Nb).
  destruct (lstep_cases ts n) as [->|(t & t' & E & A & ->)]. { split; auto. exists ta, tb, ra. auto 10. }
  assert (FX : free Exec ts = false). { destruct (free Exec ts) eqn:F; auto. rewrite free_spec in F. rewrite (F b tb Eb) in Hb. discriminate. }
  assert (FE : free Events ts = false). { destruct (free Events ts) eqn:F; auto. rewrite free_spec in F. rewrite (F a ta Ea) in Ha. discriminate. }
  assert (Nn : n <> a).
  { intros ->. rewrite Ea in E. injection E as <-. unfold advance in A. rewrite Pa, FX in A. discriminate. }
  assert (L : n <? length ts = true). { apply ltb_lt. apply nth_error_Some. congruence. }
  assert (Ka : nth_error (update n t' ts) a = nth_error ts a).
  { rewrite nth_update, (proj2 (eqb_neq a n)); auto. }
  split; [|exact Ka]. destruct (eq_dec n b) as [->|Nb'].
  - rewrite Eb in E. injection E as <-. exists ta, t', ra. rewrite Ka, nth_update, eqb_refl, L.
    repeat split; auto.
    + pose proof (i_chk _ _ I b tb Eb) as C. rewrite Hb, Nb in C. unfold advance in A.
      destruct (todo tb) as [|[[]| |[]] r] eqn:P; cbn in C; rewrite ?andb_false_r in C; cbn in C; try discriminate.
      all: try (rewrite FE in A; discriminate).
      injection A as <-. rewrite holds_drop.
      change (holds Exec (Th (held tb) r)) with (holds Exec tb). now rewrite Hb.
    + destruct (holds Events t') eqn:Y; auto. destruct (advance_holds _ _ _ Events A Y); congruence.
  - exists ta, tb, ra. rewrite Ka, nth_update, (proj2 (eqb_neq b n)); auto 10.
Qed.

Lemma embrace_forever cap sched : forall ts a b, Inv cap ts -> embrace ts a b ->
  embrace (fold_left lstep sched ts) a b /\ nth_error (fold_left lstep sched ts) a = nth_error ts a.
Proof.
  induction sched as [|n sched IH]; intros ts a b I H; cbn; auto.
  destruct (embrace_step _ _ _ _ n I H) as [H1 H2].
  destruct (IH _ _ _ (Inv_step _ _ n I) H1) as [H3 H4]. split; auto. congruence.
Qed.

Lemma can_finish cap : (forall a b, cap a = true -> cap b = true -> a = b) ->
  forall k ts, work ts = k -> Inv cap ts -> exists sched, finished (fold_left lstep sched ts).
Proof.
  intros U k. induction k as [|k IH]; intros ts W I.
  - exists []. cbn. unfold finished. apply Forall_forall. intros t T.
    assert (Z : length (todo t) = 0).
    { clear -W T. induction ts as [|u ts IH]; [destruct T|]. cbn in W. destruct T as [->|T]; [lia|apply IH; auto; lia]. }
    destruct (todo t); [auto|discriminate].
  - destruct (movable_dec ts) as [(n & t & t' & E & A)|S].
    + destruct (lstep_moves _ _ _ _ E A) as [_ W']. destruct (IH (lstep ts n)) as (sched & F); [lia|now apply Inv_step|].
      exists (n :: sched). exact F.
    + assert (exists n t, nth_error ts n = Some t /\ todo t <> []) as (n & t & E & T).
      { apply not_finished. intros F. unfold finished in F. rewrite Forall_forall in F.
        assert (Z : work ts = 0).
        { clear -F. induction ts as [|u ts IH]; cbn; auto. rewrite (F u) by now left. cbn. apply IH. intros x H. apply F. now right. }
        lia. }
      destruct (stuck_embrace _ _ _ _ I S E T) as (a & b & M). destruct (embrace_cap _ _ _ _ I M) as (N & A & B).
      destruct N. auto.
Qed.

Lemma embrace_waits cap ts a b : Inv cap ts -> (forall n t, nth_error ts n = Some t -> advance ts t = None) ->
  embrace ts a b -> waits_for ts a Exec b /\ waits_for ts b Events a.
Proof.
  intros I S (ta & tb & ra & Ea & Eb & Ha & Pa & Hb & Nb). split.
  - exists ta, tb, ra. repeat split; auto. now apply holds_in.
  - pose proof (i_chk _ _ I b tb Eb) as C. rewrite Hb, Nb in C. pose proof (S b tb Eb) as A. unfold advance in A.
    apply holds_in in Ha.
    destruct (todo tb) as [|[[]| |[]] r] eqn:P; cbn in C; rewrite ?andb_false_r in C; cbn in C; try discriminate.
    + exists tb, ta, r. repeat split; auto.
    + exists tb, ta, r. repeat split; auto.
Qed.

Lemma only_deadlock s sched : stuck (lrun s sched) ->
  deadlocked (lrun s sched) /\
  (waits_for (lrun s sched) 0 Exec 1 /\ waits_for (lrun s sched) 1 Events 0 \/
   waits_for (lrun s sched) 1 Exec 0 /\ waits_for (lrun s sched) 0 Events 1).
Proof.
  intros K. assert (I : Inv both_cap (lrun s sched)) by (apply Inv_steps, Inv_start; now left).
  destruct (stuck_has_embrace _ _ I K) as (a & b & M). destruct (embrace_cap _ _ _ _ I M) as (N & A & B).
  destruct (embrace_waits _ _ _ _ I (stuck_no_move _ (proj2 K)) M) as [W1 W2].
  unfold both_cap in A, B. apply ltb_lt in A, B.
  assert (a = 0 /\ b = 1 \/ a = 1 /\ b = 0) as [[-> ->]|[-> ->]] by lia.
  - split; [exists Exec, Events; auto|auto].
  - split; [exists Events, Exec; auto|auto].
Qed.
