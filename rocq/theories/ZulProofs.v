From Verif Require Import Base ZulModel ZulSpec.
From Coq Require Import ZArith List Bool Lia.
Import ListNotations.
Local Open Scope Z_scope.

Lemma in_mset (k : Z) (v : list Z) k' a m : In (k, v) (mset k' a m) -> (k = k' /\ v = a) \/ In (k, v) m.
Proof.
  induction m as [|[k1 a1] r IH]; cbn.
  - intros [E|[]]. injection E as <- <-. auto.
  - destruct (k' <? k1); [|destruct (k' =? k1)]; cbn; intros [E|E]; try (injection E as <- <-); auto.
    destruct (IH E); auto.
Qed.

Lemma in_mdel (e : Z * list Z) k m : In e (mdel k m) -> In e m.
Proof.
  induction m as [|[k1 a1] r IH]; cbn; [tauto|]. destruct (k =? k1); cbn; [auto|]. intros [E|E]; auto.
Qed.

Lemma tget_in k m id : In id (tget k m) -> In (k, tget k m) m.
Proof. unfold tget. destruct (mget k m) eqn:E; [intros _; now apply mget_in|intros []]. Qed.

(** Every entry that is not empty is at [d] or later. *)
Definition later (d : Z) (m : omap (list Z)) : Prop := forall k ids id, In (k, ids) m -> In id ids -> d <= k.
Definition hollow (m : omap (list Z)) : Prop := forall k ids, In (k, ids) m -> ids = [].

Lemma later_mset d k a m : later d m -> (forall id, In id a -> d <= k) -> later d (mset k a m).
Proof. intros L H k1 v id I Ii. destruct (in_mset _ _ _ _ _ I) as [[-> ->]|I']; [eauto|eapply L; eassumption]. Qed.
Lemma later_drop d id k m : later d m -> later d (mset k (sdel id (tget k m)) m).
Proof.
  intros L. apply later_mset; [exact L|]. intros x Hx. apply in_sdel_incl in Hx. eapply L; [eapply tget_in, Hx|exact Hx].
Qed.
Lemma hollow_drop id k m : hollow m -> hollow (mset k (sdel id (tget k m)) m).
Proof.
  intros H k1 v I. destruct (in_mset _ _ _ _ _ I) as [[-> ->]|I']; [|eapply H; eassumption].
  unfold tget. destruct (mget k m) as [l|] eqn:E; [|reflexivity]. apply mget_in, H in E. subst. reflexivity.
Qed.

Definition inv (s : zs) : Prop :=
  msorted (table s) /\
  (stop s = true -> match th s with TFor | TWhile _ | TBatch _ _ | TArm => False
                               | TBlocked _ | TBlockedE => (pend s <> 0)%nat | _ => True end) /\
  (match th s with TBlockedE => hollow (table s) \/ pend s <> 0%nat | _ => True end).

Lemma inv_init now : inv (init now).
Proof. split; [apply msorted_nil|]. split; [discriminate|exact I]. Qed.

Lemma inv_step s l : inv s -> inv (fst (step s l)).
Proof.
  intros (A & B & C). destruct s as [ck tb t p st]. cbn [clock table th pend stop] in *. destruct l as [tt|tt i|i f tt|i f| | | |nx]; cbn [step clock table th pend stop].
  - repeat split; assumption.
  - destruct (unlocked t) eqn:U; cbn [fst]; [|repeat split; assumption].
    split; [now apply mset_sorted|]. destruct t; cbn in *; try discriminate U; repeat split; intros; try exact I; try discriminate; auto.
  - destruct (unlocked t) eqn:U; cbn [fst]; [|repeat split; assumption].
    split; [now apply mset_sorted, mset_sorted|]. destruct t; cbn in *; try discriminate U; repeat split; intros; try exact I; try discriminate; auto.
  - destruct (unlocked t) eqn:U; cbn [fst]; [|repeat split; assumption].
    split; [now apply mset_sorted|]. destruct t; cbn in *; try discriminate U; repeat split; intros; try exact I; try discriminate; auto.
    destruct C; [left; now apply hollow_drop|now right].
  - destruct (unlocked t && negb st) eqn:U; cbn [fst]; [|repeat split; assumption].
    split; [assumption|]. apply andb_true_iff in U as [U _].
    destruct t; cbn in *; try discriminate U; repeat split; intros; try exact I; try discriminate; auto.
  - destruct p as [|p]; cbn [fst]; [repeat split; assumption|].
    split; [assumption|]. destruct t; cbn in *; repeat split; intros; try exact I; auto.
  - split; [assumption|]. destruct t; cbn in *; repeat split; intros; try exact I; auto.
  - destruct t as [| | |k|k [|i r]|k i r| |d| |d| |d| |]; cbn [thread_step th stop table pend clock fst].
    + repeat split; auto.
    + destruct st; cbn; repeat split; auto; discriminate.
    + destruct tb as [|[k v] r]; [|destruct (k <=? ck)]; cbn; repeat split; auto.
    + destruct (tget k tb); cbn; repeat split; auto; [now apply mdel_sorted|now apply mset_sorted].
    + cbn; repeat split; auto.
    + cbn; repeat split; auto.
    + destruct nx; cbn; (split; [try apply mset_sorted; assumption|]); destruct st; cbn; repeat split; auto; discriminate.
    + destruct tb as [|[k v] r]; cbn; repeat split; auto.
    + cbn [due table clock]. destruct st; cbn [orb]; [repeat split; auto|].
      destruct (due _); cbn; repeat split; auto; discriminate.
    + destruct st; cbn [orb]; [repeat split; auto|]. destruct tb; cbn; repeat split; auto; try discriminate. left. intros ? ? [].
    + destruct (d <=? ck); cbn; repeat split; auto.
    + repeat split; auto.
    + repeat split; auto.
    + repeat split; auto.
    + repeat split; auto.
Qed.

Lemma run_cons s l ls : fst (run s (l :: ls)) = fst (run (fst (step s l)) ls).
Proof. cbn. destruct (step s l) as [s1 o]. cbn. destruct (run s1 ls). reflexivity. Qed.

Lemma inv_run ls : forall s, inv s -> inv (fst (run s ls)).
Proof. induction ls as [|l ls IH]; intros s H; [exact H|]. rewrite run_cons. apply IH, inv_step, H. Qed.

(** ** Punctuality *)
Definition pinv (s : zs) : Prop :=
  match th s with
  | TPred d => later d (table s) \/ due s = true
  | TBlocked d | TWoken d => later d (table s)
  | _ => True
  end.

Lemma pinv_step s l : inv s -> pinv s -> in_order s l -> pinv (fst (step s l)).
Proof.
  intros (A & B & C) P O. destruct s as [ck tb t p st]. unfold pinv in *; cbn [clock table th pend stop] in *.
  destruct l as [tt|tt i|i f tt|i f| | | |nx]; cbn [step clock table th pend stop] in *.
  - cbn. destruct t; cbn in *; auto. destruct P as [P|P]; [auto|right]. unfold due in *; cbn in *. destruct tb as [|[k v] r]; [discriminate|]. apply Z.leb_le in P. apply Z.leb_le. lia.
  - destruct t; cbn in *; auto; apply later_mset; auto.
  - destruct t; cbn in *; auto; apply later_mset; auto; apply later_drop; auto.
  - destruct t; cbn in *; auto; apply later_drop; auto.
  - destruct (unlocked t && negb st); cbn; destruct t; cbn in *; auto.
  - destruct p as [|p]; destruct t; cbn in *; auto.
  - destruct t; cbn in *; auto.
  - destruct t as [| | |k|k [|i r]|k i r| |d| |d| |d| |]; cbn [thread_step th stop table pend clock fst]; cbn; auto.
    + destruct st; cbn; auto.
    + destruct tb as [|[k v] r]; [|destruct (k <=? ck)]; cbn; auto.
    + destruct (tget k tb); cbn; auto.
    + destruct st; cbn; auto.
    + destruct tb as [|[k v] r]; cbn; auto. destruct (k <=? ck) eqn:K; [now right|]. left. apply Z.leb_gt in K. rewrite Z.max_r by lia.
      intros k1 ids id [E|E] Hi; [injection E as <- <-; lia|]. apply msorted_cons in A as [_ A]. assert (k < k1); [|lia]. apply A. unfold keys. apply in_map_iff. exists (k1, ids). auto.
    + destruct st; cbn; auto. destruct (due _) eqn:D; cbn; auto. cbn in P. destruct P as [P|P]; [exact P|]. unfold due in P, D; cbn in P, D. congruence.
    + destruct (st || _); cbn; auto.
    + destruct (d <=? ck); cbn; auto.
Qed.

Lemma pinv_run ls : forall s, inv s -> pinv s -> all_in_order s ls -> pinv (fst (run s ls)).
Proof.
  induction ls as [|l ls IH]; intros s H P O; [exact P|]. rewrite run_cons. destruct O as [O1 O2].
  apply IH; [now apply inv_step|now apply pinv_step|exact O2].
Qed.

Lemma punctual s : inv s -> pinv s -> asleep s -> pend s = 0%nat -> forall t id, posted s t id -> clock s < t.
Proof.
  intros (_ & _ & C) P Sl Pe t id (ids & I1 & I2). unfold pinv in P. unfold asleep in Sl. destruct (th s); try contradiction.
  - specialize (P t ids id I1 I2). lia.
  - destruct C as [C|C]; [|congruence]. specialize (C t ids I1). subst. destruct I2.
Qed.

(** ** Termination *)
Lemma stop_step s l : stop s = true -> stop (fst (step s l)) = true.
Proof.
  intros H. destruct s as [ck tb t p st]; cbn in H; subst.
  destruct l; cbn; auto; try (destruct (unlocked t); auto; fail); try (rewrite andb_false_r; auto; fail).
  - destruct p; auto.
  - destruct t as [| | |k|k [|i r]|k i r| |d| |d| |d| |]; cbn; auto; try (destruct tb as [|[? ?] ?]; cbn; auto; fail); try (destruct (tget k tb); auto; fail); try (destruct (d <=? ck); auto).
Qed.

Lemma no_start s l : inv s -> stop s = true -> snd (step s l) = None.
Proof.
  intros (_ & B & _) H. specialize (B H). destruct s as [ck tb t p st]; cbn in *; subst.
  destruct l; cbn; auto; try (destruct (unlocked t); auto; fail); try (rewrite andb_false_r; auto; fail).
  - destruct p; auto.
  - destruct t as [| | |k|k [|i r]|k i r| |d| |d| |d| |]; cbn in *; auto; try contradiction; try (destruct (d <=? ck); auto).
Qed.

Lemma no_starts ls : forall s, inv s -> stop s = true -> snd (run s ls) = [].
Proof.
  induction ls as [|l ls IH]; intros s Hi H; [reflexivity|]. cbn. pose proof (no_start s l Hi H) as E. pose proof (inv_step s l Hi) as Hi'. pose proof (stop_step s l H) as H'.
  destruct (step s l) as [s1 o]; cbn in *. subst. specialize (IH s1 Hi' H'). destruct (run s1 ls); cbn in *. exact IH.
Qed.

Lemma ends s : inv s -> stop s = true ->
  th (fst (run s [LNotify; LThread None; LThread None; LThread None])) = TEnd.
Proof.
  intros (_ & B & _) H. specialize (B H). destruct s as [ck tb t p st]; cbn in B, H; subst.
  destruct t; cbn in B; try contradiction; destruct p; try contradiction; reflexivity.
Qed.

(** ** All that is due is executed, in order *)
Lemma run_app a : forall s b, run s (a ++ b) = (fst (run (fst (run s a)) b), snd (run s a) ++ snd (run (fst (run s a)) b)).
Proof.
  induction a as [|l a IH]; intros s b; cbn.
  - destruct (run s b); reflexivity.
  - destruct (step s l) as [s1 o]. rewrite IH. destruct (run s1 a) as [s2 os]; cbn. destruct o; reflexivity.
Qed.

Definition self n := repeat (LThread None) n.

Lemma batch ck tb p k : forall ids, exists n,
  run (ZS ck tb (TBatch k ids) p false) (self n) = (ZS ck tb (TWhile k) p false, ids).
Proof.
  induction ids as [|i r [n IH]].
  - exists 1%nat. reflexivity.
  - exists (S (S n)). unfold self in *. cbn [repeat run step thread_step th stop table pend clock]. rewrite IH. reflexivity.
Qed.

Definition rest_after (t : Z) (m : omap (list Z)) : omap (list Z) := filter (fun e => t <? fst e) m.

Lemma above_all ck k v r : msorted ((k, v) :: r) -> ck < k -> due_until ck ((k, v) :: r) = [] /\ rest_after ck ((k, v) :: r) = (k, v) :: r.
Proof.
  intros M Hk. apply msorted_cons in M as [M A].
  assert (H : forall e, In e ((k, v) :: r) -> ck < fst e).
  { intros e [<-|I]; [exact Hk|]. assert (k < fst e); [apply A; unfold keys; now apply in_map|lia]. }
  revert H. generalize ((k, v) :: r). clear. induction l as [|e l IH]; intros H; [auto|]. destruct IH as [I1 I2]; [intros x Hx; apply H; now right|].
  specialize (H e (or_introl eq_refl)). cbn. rewrite (proj2 (Z.leb_gt _ _) H), (proj2 (Z.ltb_lt _ _) H). split; [exact I1|]. unfold rest_after in I2. now rewrite I2.
Qed.

Lemma drain ck p : forall tb, msorted tb -> exists n,
  run (ZS ck tb TFor p false) (self n) = (ZS ck (rest_after ck tb) TArm p false, due_until ck tb).
Proof.
  induction tb as [|[k v] r IH]; intros M.
  - exists 1%nat. reflexivity.
  - destruct (k <=? ck) eqn:K.
    + destruct IH as [n IH]; [now apply msorted_cons in M|].
      assert (E1 : due_until ck ((k, v) :: r) = v ++ due_until ck r) by (cbn; now rewrite K).
      assert (E2 : rest_after ck ((k, v) :: r) = rest_after ck r).
      { cbn. destruct (ck <? k) eqn:K2; [apply Z.ltb_lt in K2; apply Z.leb_le in K; lia|reflexivity]. }
      rewrite E1, E2. destruct v as [|i v].
      * exists (S (S n)). unfold self in *. cbn [repeat run step thread_step th stop table pend clock]. rewrite K. cbn [repeat run step thread_step th stop table pend clock]. unfold tget at 1. cbn [mget]. rewrite Z.eqb_refl. cbn [mdel]. rewrite Z.eqb_refl. rewrite IH. reflexivity.
      * destruct (batch ck ((k, []) :: r) p k (i :: v)) as [m Hb]. exists (2 + (m + (1 + n)))%nat.
        unfold self in *. rewrite repeat_app. rewrite run_app.
        assert (E : run (ZS ck ((k, i :: v) :: r) TFor p false) (repeat (LThread None) 2) = (ZS ck ((k, []) :: r) (TBatch k (i :: v)) p false, [])).
        { cbn [repeat run step thread_step th stop table pend clock]. rewrite K. cbn [repeat run step thread_step th stop table pend clock]. unfold tget at 1. cbn [mget]. rewrite Z.eqb_refl. cbn [mset]. rewrite Z.ltb_irrefl, Z.eqb_refl. reflexivity. }
        rewrite E. cbn [fst snd app]. rewrite repeat_app, run_app, Hb. cbn [fst snd]. rewrite repeat_app, run_app.
        assert (E' : run (ZS ck ((k, []) :: r) (TWhile k) p false) (repeat (LThread None) 1) = (ZS ck r TFor p false, [])).
        { cbn [repeat run step thread_step th stop table pend clock]. unfold tget at 1. cbn [mget]. rewrite Z.eqb_refl. cbn [mdel]. rewrite Z.eqb_refl. reflexivity. }
        rewrite E'. cbn [fst snd]. rewrite IH. reflexivity.
    + exists 1%nat. apply Z.leb_gt in K. destruct (above_all ck k v r M K) as [-> ->]. apply Z.leb_gt in K. unfold self. cbn [repeat run step thread_step th stop table pend clock]. rewrite K. reflexivity.
Qed.

Lemma wakes s d : inv s -> th s = TBlocked d -> stop s = false -> d <= clock s -> exists n,
  run s (self n) = (ZS (clock s) (rest_after (clock s) (table s)) TArm (pend s) false, due_until (clock s) (table s)).
Proof.
  intros (M & _) T St D. destruct s as [ck tb t p st]; cbn in *; subst. destruct (drain ck p tb M) as [n H]. exists (S (S n)).
  unfold self in *. cbn [repeat run step thread_step th stop table pend clock]. rewrite (proj2 (Z.leb_le _ _) D). cbn [repeat run step thread_step th stop table pend clock]. rewrite H. reflexivity.
Qed.
