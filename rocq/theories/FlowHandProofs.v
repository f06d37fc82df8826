(** Proofs about connections between structured fields whose parts hand values on. *)
From Coq Require Import ZArith List Bool Lia Relations.
From Verif Require Import Base AnyModel AnySpec AnyProofs HelperModel HelperSpec HelperProofs
  FlowModel FlowSpec FlowProofs FlowTreeProofs FlowCopyProofs FlowPubProofs
  FlowLinksProofs FlowHandSpec FlowProps.
Import ListNotations.
Local Open Scope nat_scope.

(** ** Connect as a list of steps *)
Inductive job := JL (i j : nat) | JA (i j : nat) | JN (i j : nat).
Definition jtgt (x : job) : nat := match x with JL _ j => j | JA _ j => j | JN _ j => j end.

Fixpoint jobs (s t : tree) {struct s} : list job :=
  match s, t with
  | TSimple i, TSimple j => [JL i j]
  | TSArr i, TSArr j => [JA i j]
  | TArr i df _ _ l, TArr j _ _ _ l' =>
      (if df then [JN i j] else []) ++
      (fix go (l l' : list tree) := match l, l' with x :: r, y :: r' => jobs x y ++ go r r' | _, _ => [] end) l l'
  | TStr i df _ _ l, TStr j _ _ _ l' =>
      (if df then [JN i j] else []) ++
      (fix go (l l' : list tree) := match l, l' with x :: r, y :: r' => jobs x y ++ go r r' | _, _ => [] end) l l'
  | _, _ => []
  end.
Fixpoint jobs_l (l l' : list tree) : list job :=
  match l, l' with x :: r, y :: r' => jobs x y ++ jobs_l r r' | _, _ => [] end.
Lemma jobs_arr i df a b l j df' a' b' l' :
  jobs (TArr i df a b l) (TArr j df' a' b' l') = (if df then [JN i j] else []) ++ jobs_l l l'.
Proof. reflexivity. Qed.
Lemma jobs_str i df a b l j df' a' b' l' :
  jobs (TStr i df a b l) (TStr j df' a' b' l') = (if df then [JN i j] else []) ++ jobs_l l l'.
Proof. reflexivity. Qed.

Definition do_job (n : nat) (w : world) (x : job) : out :=
  match x with
  | JL i j => if lconn (leafs w i) then connect_simple n w i j else done w
  | JA i j => if aconn (arrs w i) then connect_sarr w i j else done w
  | JN i j => done (set_nconn w i (nconn w i ++ [j]))
  end.
Fixpoint run_jobs (n : nat) (w : world) (l : list job) : out :=
  match l with [] => done w | x :: r => andthen (do_job n w x) (fun w' => run_jobs n w' r) end.

Lemma andthen_done o : andthen o done = o.
Proof. destruct o as [w [[]|e|]]; reflexivity. Qed.
Lemma andthen_assoc o f g : andthen (andthen o f) g = andthen o (fun w => andthen (f w) g).
Proof. destruct o as [w [[]|e|]]; reflexivity. Qed.
Lemma andthen_ext o f g : (forall w, f w = g w) -> andthen o f = andthen o g.
Proof. intros H. destruct o as [w [[]|e|]]; cbn; auto. Qed.
Lemma run_app n a : forall w b, run_jobs n w (a ++ b) = andthen (run_jobs n w a) (fun w' => run_jobs n w' b).
Proof.
  induction a as [|x a IH]; intros w b; [reflexivity|]. cbn [run_jobs List.app]. rewrite andthen_assoc.
  apply andthen_ext. intros. apply IH.
Qed.

Lemma connect_jobs n : forall s t w, alike s t -> connect_tree n w s t = run_jobs n w (jobs s t).
Proof.
  assert (L : forall o l, Forall (fun s => forall t w, alike s t -> connect_tree n w s t = run_jobs n w (jobs s t)) l ->
    forall l' w, Forall2 alike l l' -> con_items n o w l l' = run_jobs n w (jobs_l l l')).
  { intros o l F. induction F as [|x l Hx F IH]; intros l' w A; inversion A; subst; [reflexivity|].
    cbn [con_items jobs_l]. rewrite run_app, Hx by assumption. apply andthen_ext. intros. now apply IH. }
  intros s. induction s as [i|i|i df a b l IH|i df a b l IH] using tree_ind2; intros t w A; inversion A; subst.
  - cbn [connect_tree jobs run_jobs do_job]. destruct (lconn (leafs w i)); [now rewrite andthen_done|reflexivity].
  - cbn [connect_tree jobs run_jobs do_job]. destruct (aconn (arrs w i)); [now rewrite andthen_done|reflexivity].
  - rewrite con_arr, jobs_arr, run_app. destruct df; cbn [run_jobs do_job andthen done]; now apply L.
  - rewrite con_str, jobs_str, run_app. destruct df; cbn [run_jobs do_job andthen done]; now apply L.
Qed.

Lemma jobs_l_in x : forall l l', In x (jobs_l l l') <-> exists a b, In (a, b) (combine l l') /\ In x (jobs a b).
Proof.
  induction l as [|a l IH]; intros l'; [split; [intros []|intros (? & ? & [] & _)]|].
  destruct l' as [|b l']; [split; [intros []|intros (? & ? & [] & _)]|]. cbn [jobs_l combine].
  rewrite in_app_iff, IH. split.
  - intros [I|(a' & b' & I & J)]; [exists a, b; split; [now left|exact I]|exists a', b'; split; [now right|exact J]].
  - intros (a' & b' & [E|I] & J); [injection E as <- <-; now left|right; eauto].
Qed.

Definition ends_of (x : job) : option (tree * tree) :=
  match x with JL i j => Some (TSimple i, TSimple j) | JA i j => Some (TSArr i, TSArr j) | JN _ _ => None end.
Lemma jobs_parts : forall s t x a b, ends_of x = Some (a, b) -> alike s t -> (In x (jobs s t) <-> parts s t a b).
Proof.
  assert (C : forall (R : tree -> tree -> Prop) l l' a b, Forall2 R l l' -> In (a, b) (combine l l') -> R a b).
  { intros R l l' a b F. induction F; cbn; [intros []|]. intros [E|I]; [injection E as <- <-; assumption|auto]. }
  intros s. induction s as [i|i|i df a b l IH|i df a b l IH] using tree_ind2; intros t x p q E A;
    inversion A as [? j|? j|? ? ? ? ? j df' a' b' l' F2|? ? ? ? ? j df' a' b' l' F2]; subst.
  - cbn [jobs]. split.
    + intros [<-|[]]. injection E as <- <-. constructor.
    + intros P. inversion P; subst. destruct x; try discriminate E; injection E as -> ->. now left.
  - cbn [jobs]. split.
    + intros [<-|[]]. injection E as <- <-. constructor.
    + intros P. inversion P; subst. destruct x; try discriminate E; injection E as -> ->. now left.
  - rewrite jobs_arr, in_app_iff, jobs_l_in. rewrite Forall_forall in IH. split.
    + intros [I|(a0 & b0 & I & J)].
      * destruct df; [|destruct I]. destruct I as [<-|[]]. discriminate E.
      * apply pa_arr with (x := a0) (y := b0); [exact I|].
        apply (IH a0 (in_combine_l _ _ _ _ I) b0 x p q E); [exact (C _ _ _ _ _ F2 I)|exact J].
    + intros P. right. inversion P as [|? ? ? ? ? ? ? ? ? ? a0 b0 ? ? I J|]; subst.
      * destruct x; discriminate E.
      * exists a0, b0. split; [exact I|]. apply (IH a0 (in_combine_l _ _ _ _ I) b0 x p q E); [exact (C _ _ _ _ _ F2 I)|exact J].
  - rewrite jobs_str, in_app_iff, jobs_l_in. rewrite Forall_forall in IH. split.
    + intros [I|(a0 & b0 & I & J)].
      * destruct df; [|destruct I]. destruct I as [<-|[]]. discriminate E.
      * apply pa_str with (x := a0) (y := b0); [exact I|].
        apply (IH a0 (in_combine_l _ _ _ _ I) b0 x p q E); [exact (C _ _ _ _ _ F2 I)|exact J].
    + intros P. right. inversion P as [| |? ? ? ? ? ? ? ? ? ? a0 b0 ? ? I J]; subst.
      * destruct x; discriminate E.
      * exists a0, b0. split; [exact I|]. apply (IH a0 (in_combine_l _ _ _ _ I) b0 x p q E); [exact (C _ _ _ _ _ F2 I)|exact J].
Qed.

Lemma jobs_tids : forall s t k, In k (map jtgt (jobs s t)) -> In k (tids t).
Proof.
  assert (L : forall l, Forall (fun s => forall t k, In k (map jtgt (jobs s t)) -> In k (tids t)) l ->
    forall l' k, In k (map jtgt (jobs_l l l')) -> In k (flat_map tids l')).
  { intros l F. induction F as [|x l Hx F IH]; intros [|y l'] k H; cbn in H; try contradiction.
    rewrite map_app, in_app_iff in H. cbn. apply in_app_iff. destruct H as [H|H]; [left; now apply Hx|right; now apply IH]. }
  intros s. induction s as [i|i|i df a b l IH|i df a b l IH] using tree_ind2; intros [j|j|j df' a' b' l'|j df' a' b' l'] k H;
    try (now destruct H); try exact H.
  - rewrite jobs_arr, map_app, in_app_iff in H. cbn. destruct H as [H|H]; [|right; now apply (L l IH)].
    destruct df; [|destruct H]. destruct H as [<-|[]]. now left.
  - rewrite jobs_str, map_app, in_app_iff in H. cbn. destruct H as [H|H]; [|right; now apply (L l IH)].
    destruct df; [|destruct H]. destruct H as [<-|[]]. now left.
Qed.
Lemma jobs_l_tids l : forall l' k, In k (map jtgt (jobs_l l l')) -> In k (flat_map tids l').
Proof.
  induction l as [|x l IH]; intros [|y l'] k H; cbn in H; try contradiction.
  rewrite map_app, in_app_iff in H. cbn. apply in_app_iff. destruct H as [H|H]; [left; now apply (jobs_tids x)|right; now apply IH].
Qed.

Lemma jobs_nodup : forall s t, NoDup (tids t) -> NoDup (map jtgt (jobs s t)).
Proof.
  assert (L : forall l, Forall (fun s => forall t, NoDup (tids t) -> NoDup (map jtgt (jobs s t))) l ->
    forall l', NoDup (flat_map tids l') -> NoDup (map jtgt (jobs_l l l'))).
  { intros l F. induction F as [|x l Hx F IH]; intros [|y l'] H; try constructor. cbn in *.
    apply NoDup_app_parts in H as (N1 & N2 & Dis). rewrite map_app. apply NoDup_join; auto.
    intros k Hk G. apply jobs_tids in Hk. apply jobs_l_tids in G. now apply (Dis k). }
  intros s. induction s as [i|i|i df a b l IH|i df a b l IH] using tree_ind2; intros [j|j|j df' a' b' l'|j df' a' b' l'] H;
    try (now constructor); try (now repeat constructor; auto).
  - rewrite jobs_arr, map_app. cbn in H. inversion H as [|? ? N Nl]; subst. apply NoDup_join; [destruct df; repeat constructor; auto|now apply L|].
    intros k Hk G. apply jobs_l_tids in G. destruct df; [|destruct Hk]. destruct Hk as [<-|[]]. contradiction.
  - rewrite jobs_str, map_app. cbn in H. inversion H as [|? ? N Nl]; subst. apply NoDup_join; [destruct df; repeat constructor; auto|now apply L|].
    intros k Hk G. apply jobs_l_tids in G. destruct df; [|destruct Hk]. destruct Hk as [<-|[]]. contradiction.
Qed.

(** ** Links of fields that do not feed [i], once [i] feeds one field more *)
Lemma links_besides w w1 i : (forall x y, x <> i -> feeds w1 x y <-> feeds w x y) ->
  forall j, loop_free w j -> ~ reaches w j i ->
  loop_free w1 j /\ forall k, reaches w1 j k <-> reaches w j k.
Proof.
  intros F j L N.
  assert (T : forall x y z, reaches w x y -> feeds w y z -> reaches w x z).
  { intros x y z A B. apply clos_rt_rt1n. eapply rt_trans; [apply clos_rt1n_rt; exact A|now apply rt_step]. }
  assert (R1 : forall x k, reaches w1 x k -> reaches w j x -> reaches w x k /\ reaches w j k).
  { intros x k H. induction H as [x|x y z Fx H IH]; intros J; [split; [constructor|exact J]|].
    assert (M : x <> i) by (intros ->; contradiction). apply F in Fx; [|exact M].
    destruct (IH (T _ _ _ J Fx)) as [P Q]. split; [econstructor; eassumption|exact Q]. }
  assert (R2 : forall x k, reaches w x k -> reaches w j x -> reaches w1 x k).
  { intros x k H. induction H as [x|x y z Fx H IH]; intros J; [constructor|].
    assert (M : x <> i) by (intros ->; contradiction).
    econstructor; [apply F; [exact M|exact Fx]|]. apply IH. eapply T; eassumption. }
  assert (Cn : forall m x y, chain w1 m x y -> reaches w j x -> chain w m x y).
  { intros m x y H. induction H as [x|m x y z Fx H IH]; intros J; [constructor|].
    assert (M : x <> i) by (intros ->; contradiction). apply F in Fx; [|exact M].
    econstructor; [exact Fx|]. apply IH. eapply T; eassumption. }
  split.
  - intros k m Rk Ck. destruct (R1 j k Rk (rt1n_refl _ _ _)) as [P _]. apply (L k m P). now apply Cn.
  - intros k. split; [intros H; now apply (R1 j k H (rt1n_refl _ _ _))|intros H; apply R2; [exact H|constructor]].
Qed.

(** ** One simple field *)
Lemma leaf_step n w i j ids :
  kinds_agree w -> lk (leafs w i) = lk (leafs w j) -> loop_free w j -> ~ reaches w j i ->
  takes (leafs w i) (lval (leafs w i)) ->
  (forall k, reaches w j k -> In k ids /\ takes (leafs w k) (lval (leafs w i))) -> length ids <= n ->
  exists w', connect_simple n w i j = (w', Ok tt) /\ arrs w' = arrs w /\ kinds_agree w' /\
    (forall k, core (leafs w' k) = core (leafs w k)) /\
    (forall x y, x <> i -> feeds w' x y <-> feeds w x y) /\
    (forall k, reaches w j k -> ~ is_forced w k -> lval (leafs w' k) = lval (leafs w i)) /\
    (forall k, is_forced w k -> lval (leafs w' k) = lval (leafs w k)) /\
    (forall k, ~ reaches w j k -> lval (leafs w' k) = lval (leafs w k)).
Proof.
  intros K Ek L N (Ti & Tv & Td) R Hn.
  destruct (hand_on_links w i j K Ek L N) as (K1 & L1 & R1). unfold connect_simple.
  set (w1 := set_leaf w i (with_targets (leafs w i) (ltargets (leafs w i) ++ [j]))) in *.
  assert (Ne : j <> i) by (intros ->; apply N; constructor).
  assert (S1 : leafs w1 i = with_targets (leafs w i) (ltargets (leafs w i) ++ [j])) by apply upd_same.
  assert (S2 : forall k, k <> i -> leafs w1 k = leafs w k) by (intros k M; now apply upd_other).
  assert (S3 : forall k, lval (leafs w1 k) = lval (leafs w k)).
  { intros k. destruct (Nat.eq_dec k i) as [->|M]; [now rewrite S1|now rewrite S2]. }
  assert (S4 : forall k, is_forced w1 k <-> is_forced w k).
  { intros k. unfold is_forced. destruct (Nat.eq_dec k i) as [->|M]; [now rewrite S1|now rewrite S2]. }
  rewrite S1. cbv zeta. cbn [lc lk lval with_targets]. rewrite to_any_ok by assumption.
  destruct (C40_set_value_propagates_partial n w1 j (lval (leafs w i)) ids K1 L1) as (w' & W1 & W2 & W3 & W4); [|exact Hn|].
  { intros k Hk. apply R1 in Hk. destruct (R k Hk) as [I T]. split; [exact I|].
    rewrite S2; [exact T|]. intros ->. contradiction. }
  rewrite (S2 j) in W1 by exact Ne. rewrite Ek. exists w'. split; [exact W1|].
  pose proof (set_any_meta _ _ _ _ _ _ W1) as Mt. destruct Mt as (Mt1 & Mt2 & Mt3).
  split; [exact Mt2|]. split.
  { intros x y I. assert (lk (leafs w' x) = lk (leafs w1 x) /\ lk (leafs w' y) = lk (leafs w1 y) /\ ltargets (leafs w' x) = ltargets (leafs w1 x)) as (E1 & E2 & E3).
    { pose proof (Mt1 x) as X. pose proof (Mt1 y) as Y. destruct (leafs w' x), (leafs w1 x), (leafs w' y), (leafs w1 y). unfold meta in X, Y.
      injection X; injection Y; intros; subst; cbn; auto. }
    rewrite E1, E2. rewrite E3 in I. now apply K1. }
  split.
  { intros k. rewrite (core_meta _ _ (Mt1 k)). apply (sc_leaf_targets w i). }
  split.
  { intros x y Nx. rewrite (sm_feeds w1 w' x y (conj Mt1 (conj Mt2 Mt3))). unfold feeds, is_forced. now rewrite S2. }
  split; [|split].
  - intros k Hk Hf. apply W2; [now apply R1|now rewrite S4].
  - intros k Hf. rewrite W3 by (now rewrite S4). apply S3.
  - intros k Hk. rewrite W4 by (now rewrite R1). apply S3.
Qed.

(** ** The steps *)
Record ready (ids : list nat) (w : world) (r : list job) : Prop := {
  re_kinds : kinds_agree w;
  re_nodup : NoDup (map jtgt r);
  re_leaf : forall i j, In (JL i j) r -> lconn (leafs w i) = true /\ lk (leafs w i) = lk (leafs w j) /\
     takes (leafs w i) (lval (leafs w i)) /\ loop_free w j /\
     forall k, reaches w j k -> In k ids /\ takes (leafs w k) (lval (leafs w i)) /\
       forall i' j', In (JL i' j') r -> k <> i' /\ (reaches w j' k -> j' = j);
  re_arr : forall i j, In (JA i j) r -> aconn (arrs w i) = true /\
     length (avals (arrs w i)) = length (avals (arrs w j)) /\
     ak (arrs w i) = ak (arrs w j) /\ kind_of (ac (arrs w i)) (ak (arrs w i)) /\
     kind_of (ac (arrs w j)) (ak (arrs w j)) /\
     (forall v, In v (avals (arrs w i)) -> value_of (ac (arrs w i)) v /\ value_of (ac (arrs w j)) v) /\
     forall i' j', In (JA i' j') r -> i <> j' }.

Record result (w w' : world) (r : list job) : Prop := {
  rs_leaf : forall i j k, In (JL i j) r -> reaches w j k -> ~ is_forced w k -> lval (leafs w' k) = lval (leafs w i);
  rs_forced : forall k, is_forced w k -> lval (leafs w' k) = lval (leafs w k);
  rs_others : forall k, (forall i j, In (JL i j) r -> ~ reaches w j k) -> lval (leafs w' k) = lval (leafs w k);
  rs_arr : forall i j, In (JA i j) r -> avals (arrs w' j) = avals (arrs w i);
  rs_aothers : forall k, (forall i j, In (JA i j) r -> j <> k) -> avals (arrs w' k) = avals (arrs w k) }.

(** The next world is as good for the steps that are left. *)
Lemma ready_next ids w w1 x r : ready ids w (x :: r) -> same_core w w1 -> kinds_agree w1 ->
  (forall i j, In (JL i j) r -> lval (leafs w1 i) = lval (leafs w i)) ->
  (forall i j, In (JL i j) r -> loop_free w1 j /\ forall k, reaches w1 j k <-> reaches w j k) ->
  (forall i j, In (JA i j) r -> avals (arrs w1 i) = avals (arrs w i)) -> ready ids w1 r.
Proof.
  intros R (C1 & C2 & C3) K V L A. constructor.
  - exact K.
  - pose proof (re_nodup _ _ _ R) as N. cbn in N. now inversion N.
  - intros i j I. destruct (re_leaf _ _ _ R i j (or_intror I)) as (H1 & H2 & H3 & H4 & H5).
    destruct (L i j I) as [Lf Lr]. rewrite (V i j I).
    split; [now rewrite (core_conn _ _ (C1 i))|]. split; [now rewrite (core_lk _ _ (C1 i)), (core_lk _ _ (C1 j))|].
    split; [now apply (core_takes _ _ _ (C1 i))|]. split; [exact Lf|].
    intros k Hk. apply Lr in Hk. destruct (H5 k Hk) as (G1 & G2 & G3). split; [exact G1|].
    split; [now apply (core_takes _ _ _ (C1 k))|]. intros i' j' I'. destruct (G3 i' j' (or_intror I')) as [G4 G5].
    split; [exact G4|]. intros Q. apply G5. now apply (L i' j' I').
  - intros i j I. destruct (re_arr _ _ _ R i j (or_intror I)) as (H1 & H2 & H3 & H4 & H5 & H6 & H7).
    rewrite (acore_conn _ _ (C2 i)), (acore_ak _ _ (C2 i)), (acore_ak _ _ (C2 j)), (acore_ac _ _ (C2 i)), (acore_ac _ _ (C2 j)), !C3, (A i j I).
    split; [exact H1|]. split; [exact H2|]. split; [exact H3|]. split; [exact H4|]. split; [exact H5|]. split; [exact H6|].
    intros i' j' I'. exact (H7 i' j' (or_intror I')).
Qed.

Lemma jobs_run n ids : length ids <= n -> forall r w, ready ids w r ->
  exists w', run_jobs n w r = (w', Ok tt) /\ result w w' r.
Proof.
  intros Hn r. induction r as [|x r IH]; intros w R.
  { exists w. split; [reflexivity|]. constructor; try (intros; reflexivity); cbn [In]; intros; contradiction. }
  pose proof (re_nodup _ _ _ R) as Nd. cbn in Nd. inversion Nd as [|? ? Nx Nr]; subst.
  cbn [run_jobs]. destruct x as [i j|i j|i j].
  - destruct (re_leaf _ _ _ R i j (or_introl eq_refl)) as (H1 & H2 & H3 & H4 & H5).
    assert (Ni : forall i' j', In (JL i' j') (JL i j :: r) -> ~ reaches w j' i).
    { intros i' j' I Q. destruct (re_leaf _ _ _ R i' j' I) as (_ & _ & _ & _ & G).
      destruct (G i Q) as (_ & _ & G3). now destruct (G3 i j (or_introl eq_refl)) as [G4 _]. }
    destruct (leaf_step n w i j ids (re_kinds _ _ _ R) H2 H4 (Ni i j (or_introl eq_refl)) H3) as (w1 & E & A1 & K1 & C1 & F1 & V1 & V2 & V3).
    { intros k Hk. destruct (H5 k Hk) as (G1 & G2 & _). auto. }
    { exact Hn. }
    assert (Sc : same_core w w1) by (split; [exact C1|split; intros k; now rewrite A1]).
    assert (Lr : forall i' j', In (JL i' j') r -> loop_free w1 j' /\ forall k, reaches w1 j' k <-> reaches w j' k).
    { intros i' j' I. apply (links_besides w w1 i F1); [|apply (Ni i' j'); now right].
      now destruct (re_leaf _ _ _ R i' j' (or_intror I)) as (_ & _ & _ & G & _). }
    assert (Vs : forall i' j', In (JL i' j') r -> lval (leafs w1 i') = lval (leafs w i')).
    { intros i' j' I. apply V3. intros Q. destruct (H5 i' Q) as (_ & _ & G). now destruct (G i' j' (or_intror I)) as [G' _]. }
    destruct (IH w1) as (w' & E' & P).
    { apply (ready_next ids w w1 (JL i j) r R Sc K1 Vs Lr). intros; now rewrite A1. }
    exists w'. cbn [do_job]. rewrite H1, E. split; [exact E'|]. constructor.
    + intros i' j' k [I|I] Q Nf.
      * injection I as <- <-. rewrite (rs_others _ _ _ P); [now apply V1|].
        intros i2 j2 I2 Q2. apply (proj2 (Lr i2 j2 I2)) in Q2. destruct (H5 k Q) as (_ & _ & G).
        destruct (G i2 j2 (or_intror I2)) as [_ G']. specialize (G' Q2). subst j2. apply Nx.
        apply in_map_iff. now exists (JL i2 j).
      * rewrite (rs_leaf _ _ _ P i' j' k I); [now apply (Vs i' j')|now apply (Lr i' j' I)|].
        intros Fk. apply Nf. now apply (core_forced w w1 k Sc).
    + intros k Fk. rewrite (rs_forced _ _ _ P); [now apply V2|]. now apply (core_forced w w1 k Sc).
    + intros k Q. rewrite (rs_others _ _ _ P).
      * apply V3. apply (Q i j). now left.
      * intros i2 j2 I2 Q2. apply (proj2 (Lr i2 j2 I2)) in Q2. apply (Q i2 j2); [now right|exact Q2].
    + intros i' j' [I|I]; [discriminate I|]. rewrite (rs_arr _ _ _ P i' j' I). now rewrite A1.
    + intros k Q. rewrite (rs_aothers _ _ _ P); [now rewrite A1|]. intros i2 j2 I2. apply (Q i2 j2). now right.
  - destruct (re_arr _ _ _ R i j (or_introl eq_refl)) as (H1 & H2 & H3 & H4 & H5 & H6 & H7).
    destruct (connect_sarr_ok w i j (H7 i j (or_introl eq_refl)) H2 H3 H4 H5 H6) as (w1 & E & Sc & Lf & V1 & V2).
    assert (Lr : forall x k, reaches w1 x k <-> reaches w x k).
    { intros x k. clear -Lf. destruct w as [l a c], w1 as [l1 a1 c1]. cbn in Lf. subst l1. reflexivity. }
    assert (Ll : forall x, loop_free w1 x <-> loop_free w x).
    { intros x. clear -Lf. destruct w as [l a c], w1 as [l1 a1 c1]. cbn in Lf. subst l1.
      assert (C : forall m x y, chain (World l a1 c1) m x y <-> chain (World l a c) m x y).
      { intros m x0 y0. split; intros H; induction H; econstructor; eassumption. }
      unfold loop_free. split; intros H k m Q Ch; apply (H k m Q); now apply C. }
    destruct (IH w1) as (w' & E' & P).
    { apply (ready_next ids w w1 (JA i j) r R Sc).
      - intros x y I. rewrite Lf in *. now apply (re_kinds _ _ _ R).
      - intros. now rewrite Lf.
      - intros i' j' I. split; [apply Ll; now destruct (re_leaf _ _ _ R i' j' (or_intror I)) as (_ & _ & _ & G & _)|apply Lr].
      - intros i' j' I. apply V2. destruct (re_arr _ _ _ R i' j' (or_intror I)) as (_ & _ & _ & _ & _ & _ & G).
        exact (G i j (or_introl eq_refl)). }
    exists w'. cbn [do_job]. rewrite H1, E. split; [exact E'|].
    assert (Fo : forall k, is_forced w1 k <-> is_forced w k) by (intros; now apply core_forced).
    constructor.
    + intros i' j' k [I|I] Q Nf; [discriminate I|]. rewrite (rs_leaf _ _ _ P i' j' k I); [now rewrite Lf|now apply Lr|now rewrite Fo].
    + intros k Fk. rewrite (rs_forced _ _ _ P); [now rewrite Lf|now apply Fo].
    + intros k Q. rewrite (rs_others _ _ _ P); [now rewrite Lf|]. intros i2 j2 I2 Q2. apply Lr in Q2. apply (Q i2 j2); [now right|exact Q2].
    + intros i' j' [I|I].
      * injection I as <- <-. rewrite (rs_aothers _ _ _ P); [exact V1|]. intros i2 j2 I2 ->. apply Nx. apply in_map_iff. now exists (JA i2 j).
      * rewrite (rs_arr _ _ _ P i' j' I). apply V2. destruct (re_arr _ _ _ R i' j' (or_intror I)) as (_ & _ & _ & _ & _ & _ & G).
        exact (G i j (or_introl eq_refl)).
    + intros k Q. rewrite (rs_aothers _ _ _ P).
      * apply V2. intros ->. now apply (Q i j (or_introl eq_refl)).
      * intros i2 j2 I2. apply (Q i2 j2). now right.
  - cbn [do_job andthen done]. set (w1 := set_nconn w i (nconn w i ++ [j])).
    assert (Ll : forall x, loop_free w1 x <-> loop_free w x).
    { intros x. assert (C : forall m x y, chain w1 m x y <-> chain w m x y).
      { intros m x0 y0. split; intros H; induction H; econstructor; eassumption. }
      unfold loop_free. split; intros H k m Q Ch; apply (H k m Q); now apply C. }
    destruct (IH w1) as (w' & E' & P).
    { apply (ready_next ids w w1 (JN i j) r R); try reflexivity.
      - repeat split.
      - exact (re_kinds _ _ _ R).
      - intros i' j' I. split; [apply Ll; now destruct (re_leaf _ _ _ R i' j' (or_intror I)) as (_ & _ & _ & G & _)|reflexivity]. }
    exists w'. split; [exact E'|]. destruct P as [P1 P2 P3 P4 P5]. constructor.
    + intros i' j' k [I|I]; [discriminate I|]. exact (P1 i' j' k I).
    + exact P2.
    + intros k Q. apply P3. intros i2 j2 I2. apply (Q i2 j2). now right.
    + intros i' j' [I|I]; [discriminate I|]. exact (P4 i' j' I).
    + intros k Q. apply P5. intros i2 j2 I2. apply (Q i2 j2). now right.
Qed.

Lemma connectable_parts w s t x y : parts s t x y -> all_connectable w s -> all_connectable w x.
Proof.
  intros P. induction P as [| ? ? ? ? ? ? ? ? ? ? a b ? ? I P IH| ? ? ? ? ? ? ? ? ? ? a b ? ? I P IH]; intros C; [exact C| |];
    apply IH; inversion C as [| |? ? ? ? ? H|? ? ? ? ? H]; subst; apply H; now apply in_combine_l in I.
Qed.

Lemma connect_hands_on n w s t ids :
  acceptable w s t -> all_connectable w s -> separate s t -> kinds_agree w -> hands_on w s t ids -> length ids <= n ->
  exists w', connect n w s t = (w', Ok tt) /\ arrived w w' s t.
Proof.
  intros A C (N1 & N2 & N3) K (Hl & Ha) Hn. pose proof (proj1 (acceptable_checks w s t) (conj A C)) as [E1 E2].
  unfold connect. rewrite E1, E2. simpl negb. cbv iota. destruct A as (_ & _ & _ & Sh & _).
  pose proof (shape_alike _ _ _ _ Sh) as Al. rewrite connect_jobs by exact Al.
  assert (PL : forall i j, In (JL i j) (jobs s t) <-> parts s t (TSimple i) (TSimple j)) by (intros; now apply jobs_parts).
  assert (PA : forall i j, In (JA i j) (jobs s t) <-> parts s t (TSArr i) (TSArr j)) by (intros; now apply jobs_parts).
  destruct (jobs_run n ids Hn (jobs s t) w) as (w' & E & [P1 P2 P3 P4 P5]).
  - constructor.
    + exact K.
    + now apply jobs_nodup.
    + intros i j I. apply PL in I. destruct (Hl i j I) as (G1 & G2 & G3).
      split; [pose proof (connectable_parts _ _ _ _ _ I C) as X; now inversion X|].
      split; [exact (shape_fits _ _ _ Sh _ _ I)|]. split; [exact G1|]. split; [exact G2|].
      intros k Hk. destruct (G3 k Hk) as (G4 & G5 & G6). split; [exact G4|]. split; [exact G5|].
      intros i' j' I'. apply G6. now apply PL.
    + intros i j I. apply PA in I. destruct (Ha i j I) as (G1 & G2 & G3 & G4).
      split; [pose proof (connectable_parts _ _ _ _ _ I C) as X; now inversion X|].
      split; [exact (shape_fits _ _ _ Sh _ _ I)|]. split; [exact G1|]. split; [exact G2|]. split; [exact G3|]. split; [exact G4|].
      intros i' j' I' ->. apply PA in I'. apply parts_tids in I as [I _]. apply parts_tids in I' as [_ I']. exact (N3 _ I I').
  - exists w'. split; [exact E|]. split; [|split; [|split; [|split]]].
    + intros i j k I. apply P1. now apply PL.
    + exact P2.
    + intros k Q. apply P3. intros i j I. apply (Q i j). now apply PL.
    + intros i j I. apply P4. now apply PA.
    + intros k Q. apply P5. intros i j I ->. apply Q. apply PA in I. now apply parts_tids in I as [_ I].
Qed.
