(** Theorems about object paths: C28, C29. *)
From Verif Require Import Base Text HelperSpec UuidModel PathModel PathSpec PathProofs.

(** A simulation with two models, nested components, fields, an array and a reference. *)
Definition comp (c n : string) (cs : list tree) : tree := Node (KComp (codes c)) (codes n) cs.
Definition nd (k : kind) (n : string) (cs : list tree) : tree := Node k (codes n) cs.
Definition sample : tree :=
  nd KSim "sim"
    [nd KCont "Models" []; nd KCont "Services" [];
     comp "Models" "m"
       [nd KCont "kids" [];
        nd (KLeaf Entry) "run" [];
        nd KStruct "s" [nd KStruct "a" [nd KSimple "x" []]; nd KSimple "b" []];
        nd KArray "v" [nd KSimple "[0]" []; nd KStruct "[1]" [nd KSimple "x" []]; nd KSimple "[2]" []];
        comp "kids" "c" [nd (KLeaf Sink) "in" []; nd KSimple "b" []]];
     comp "Models" "n" [nd (KRef [[2%nat]]) "peer" []]].

(** Decidable form of good_tree, to show that the sample satisfies it. *)
Definition valid_nameb (s : list Z) : bool :=
  match HelperModel.check_name (Some (s ++ [0])) with Ok r => list_eqb r s | _ => false end.
Definition allowedb (p c : kind) : bool :=
  match p, c with
  | KSim, KComp _ | KSim, KCont => true
  | KComp _, KSim => false
  | KComp _, _ => true
  | KStruct, c | KArray, c => is_field c
  | _, _ => false
  end.
Fixpoint nodupb (l : list (list Z)) : bool :=
  match l with [] => true | x :: r => negb (existsb (list_eqb x) r) && nodupb r end.
Fixpoint itemsb (i : nat) (cs : list tree) : bool :=
  match cs with [] => true | c :: r => list_eqb (name_of c) (item_name i) && itemsb (S i) r end.
Definition goodb1 (t : tree) : bool :=
  forallb (fun c => allowedb (kind_of t) (kind_of c)) (children t) &&
  forallb (fun c => valid_nameb (name_of c)) (children t) &&
  match kind_of t with KArray => itemsb 0 (children t) | _ => true end &&
  (Z.of_nat (length (children t)) <=? i64_max) &&
  nodupb (map name_of (filter addressable (children t))) &&
  forallb (fun c => match kind_of c with
                    | KComp n => existsb (fun k => is_cont k && list_eqb (name_of k) n) (children t)
                    | _ => true
                    end) (children t).
Fixpoint all_nodes (f : tree -> bool) (t : tree) : bool :=
  f t && (fix all (l : list tree) : bool := match l with [] => true | c :: r => all_nodes f c && all r end) (children t).
Definition no_refb (t : tree) : bool := match kind_of t with KRef (_ :: _) => false | _ => true end.

Lemma goodb1_ok t : goodb1 t = true -> good_node t.
Proof.
  unfold goodb1. rewrite !andb_true_iff. intros (((((H1 & H2) & H3) & H4) & H5) & H6).
  rewrite forallb_forall in H1, H2, H6. constructor.
  - intros c I. specialize (H1 c I). unfold allowed, allowedb in *. destruct (kind_of t), (kind_of c); try discriminate; auto.
  - intros c I. specialize (H2 c I). unfold valid_nameb in H2.
    destruct (HelperModel.check_name (Some (name_of c ++ [0]))) as [r| |] eqn:E; try discriminate.
    apply UuidProofs.list_eqb_eq in H2. subst r.
    destruct (in_dec Z.eq_dec 0 (name_of c)) as [Z0|Z0].
    + (* a NUL inside: checkName would have stopped there *)
      exfalso. assert (X : exists s, cstring (name_of c ++ [0]) s /\ s <> name_of c).
      { apply in_split in Z0. destruct Z0 as (a & b & Z0).
        assert (Y : exists a' b', name_of c = a' ++ 0 :: b' /\ ~ In 0 a').
        { rewrite Z0. clear. induction a as [|z a (a' & b' & E & N)]; [exists [], b; split; [reflexivity|intros []]|].
          destruct (Z.eq_dec z 0) as [->|]; [exists [], (a ++ 0 :: b); split; [reflexivity|intros []]|].
          exists (z :: a'), b'. cbn. rewrite E. split; [reflexivity|]. intros [|]; congruence. }
        destruct Y as (a' & b' & Y & N). exists a'. rewrite Y. split.
        - split; [|assumption]. exists (b' ++ [0]). now rewrite <- app_assoc.
        - intros Q. apply (f_equal (@length Z)) in Q. rewrite app_length in Q. cbn in Q. lia. }
      destruct X as (s & CS & N). destruct (HelperProofs.check_name_ok _ _ CS) as [[A _]|[[e A] _]]; congruence.
    + assert (CS : cstring (name_of c ++ [0]) (name_of c)) by (split; [now exists []|assumption]).
      destruct (HelperProofs.check_name_ok _ _ CS) as [[_ V]|[[e A] _]]; [assumption|congruence].
  - intros K. rewrite K in H3. revert H3. generalize (children t) as cs. intros cs.
    assert (X : forall cs k, itemsb k cs = true -> forall i c, nth_error cs i = Some c -> name_of c = item_name (k + i)).
    { induction cs0 as [|c cs0 IH]; cbn; intros k H i c' E; [destruct i; discriminate|].
      apply andb_true_iff in H as [Ha Hb]. destruct i as [|i]; cbn in E.
      - injection E as ->. rewrite Nat.add_0_r. now apply UuidProofs.list_eqb_eq.
      - rewrite <- Nat.add_succ_comm. eauto. }
    intros H3 i c E. exact (X cs 0%nat H3 i c E).
  - now apply Z.leb_le in H4.
  - revert H5. generalize (map name_of (filter addressable (children t))) as l.
    induction l as [|x l IH]; cbn; intros H; [constructor|]. apply andb_true_iff in H as [Ha Hb].
    constructor; [|auto]. intros I. apply negb_true_iff in Ha. apply not_true_iff_false in Ha. apply Ha.
    apply existsb_exists. exists x. split; [assumption|]. now apply UuidProofs.list_eqb_eq.
  - intros c n I K. specialize (H6 c I). cbn in H6. rewrite K in H6. apply existsb_exists in H6.
    destruct H6 as (k & Ik & H6). apply andb_true_iff in H6 as [Ha Hb]. apply UuidProofs.list_eqb_eq in Hb.
    exists k. split; [assumption|]. split; [|assumption]. unfold is_cont in Ha. now destruct (kind_of k).
Qed.

Lemma all_nodes_ok f root : all_nodes f root = true -> forall o t, node_at root o = Some t -> all_nodes f t = true.
Proof.
  intros H. induction o as [|i p IH]; intros t E.
  - cbn in E. now injection E as <-.
  - destruct (node_parent _ _ _ _ E) as (tp & P & C). pose proof (IH tp P) as G.
    destruct tp as [k n cs]. cbn [all_nodes children] in *. apply andb_true_iff in G as [_ G]. clear - G C.
    revert i C. induction cs as [|c cs IH]; intros i C; [destruct i; discriminate|].
    apply andb_true_iff in G as [Ga Gb]. destruct i as [|i]; cbn in C; [congruence|eauto].
Qed.
Lemma all_nodes_at f root o t : all_nodes f root = true -> node_at root o = Some t -> f t = true.
Proof.
  intros H E. pose proof (all_nodes_ok f root H o t E) as X. destruct t. cbn [all_nodes] in X.
  now apply andb_true_iff in X.
Qed.

Lemma good_by_check root : kind_of root = KSim -> all_nodes goodb1 root = true -> good_tree root.
Proof. intros K H. split; [assumption|]. intros o t E. apply goodb1_ok. now apply (all_nodes_at goodb1 root o t). Qed.
Lemma no_refs_by_check root : all_nodes no_refb root = true -> no_references root.
Proof.
  intros H o t ts E K. pose proof (all_nodes_at no_refb root o t H E) as X. unfold no_refb in X. rewrite K in X.
  now destruct ts.
Qed.

Lemma sample_good : good_tree sample.
Proof. apply good_by_check; reflexivity. Qed.

(** C28: in a tree whose names are valid and unique among siblings, the path of an object
    other than a container or a reference resolves to that object. *)
Theorem C28_path_resolves_to_object_partial : forall root o t, good_tree root ->
  node_at root o = Some t -> addressable t = true -> resolve root [] (get_path root o) = Some o.
Proof. intros. eapply resolve_path; eassumption. Qed.

(** In a tree that no simulator owns, the paths say so. *)
Theorem C28_path_without_simulator : forall root o t, kind_of root <> KSim -> node_at root o = Some t ->
  exists rest, get_path root o = codes "<null>" ++ (match kind_of root with KComp _ => codes "/" | _ => codes "." end) ++ name_of root ++ rest.
Proof.
  intros root o t K. revert t. induction o as [|i p IH]; intros t E.
  - exists []. rewrite app_nil_r. cbn [get_path]. destruct (kind_of root); try reflexivity; congruence.
  - destruct (node_parent _ _ _ _ E) as (tp & P & C). destruct (IH tp P) as (rest & R). cbn [get_path]. rewrite P, E, R.
    eexists. rewrite <- !app_assoc. reflexivity.
Qed.
Example C28_path_without_simulator_nonvacuous :
  get_path (nth 2 (children sample) sample) [0%nat; 1%nat; 3%nat] = codes "<null>/m.v[1].x".
Proof. vm_compute. reflexivity. Qed.

(** Hence two different such objects have different paths. *)
Theorem C28_paths_are_distinct_partial : forall root o o' t t', good_tree root ->
  node_at root o = Some t -> addressable t = true -> node_at root o' = Some t' -> addressable t' = true ->
  get_path root o = get_path root o' -> o = o'.
Proof.
  intros root o o' t t' G H A H' A' E. apply (resolve_path root o t G H) in A. apply (resolve_path root o' t' G H') in A'.
  congruence.
Qed.

(** A container or a reference of a component is reached by its name behind "/_". *)
Theorem C28_containers_by_underscore : forall root o t i c, good_tree root -> node_at root o = Some t -> o <> [] ->
  nth_error (children t) i = Some c -> kind_of c = KCont -> (forall r, name_of c <> 91 :: r) ->
  (forall j d, nth_error (children t) j = Some d -> kind_of d = KCont -> name_of d = name_of c -> j = i) ->
  resolve root [] (get_path root o ++ 47 :: 95 :: name_of c) = Some (i :: o).
Proof.
  intros root o t i c G H NE C K NB U. unfold resolve. pose proof (proj2 G o t H) as GN.
  pose proof (nth_error_In _ _ C) as I. pose proof (g_kinds _ GN _ I) as AL. rewrite K in AL.
  assert (KT : exists n, kind_of t = KComp n).
  { destruct (kind_of t) eqn:E; cbn in AL; try contradiction; try discriminate; [|eauto].
    destruct o as [|j o]; [congruence|]. now apply (kind_of_root_only root G) in H. }
  destruct KT as [n KT].
  rewrite (segments_underscore root o (name_of c)); auto; [|eauto|now apply (g_names _ GN)|].
  2:{ intros z r E Ez. apply (NB r). now rewrite E, Ez. }
  apply (res_steps root G o t); [assumption|unfold addressable; now rewrite KT|].
  rewrite KT. cbn [is_field res_segs]. rewrite H. unfold one_segment.
  replace (list_eqb (95 :: name_of c) dotdot) with false by reflexivity.
  unfold by_underscore. rewrite KT. cbn [Z.eqb Pos.eqb is_composite andb].
  replace (cont_child (name_of c) t) with (Some i); [reflexivity|].
  unfold cont_child. destruct (find_pos _ _) as [j|] eqn:E.
  - apply find_pos_some in E. destruct E as (d & D & E). apply andb_true_iff in E as [E1 E2]. apply named_ok in E2.
    f_equal. symmetry. apply (U j d); [assumption| |assumption]. unfold is_cont in E1. now destruct (kind_of d).
  - rewrite find_pos_none in E. specialize (E c I). cbn in E. unfold is_cont in E. rewrite K in E.
    cbn in E. now rewrite (proj2 (named_ok _ c) eq_refl) in E.
Qed.

(** The property does not hold for containers: their path does not lead to them, and may
    lead to another object. *)
Theorem C28_path_resolves_to_object_refuted : exists root o t, good_tree root /\ node_at root o = Some t /\
  resolve root [] (get_path root o) <> Some o.
Proof. exists sample, [0%nat], (nd KCont "Models" []). split; [apply sample_good|]. split; [reflexivity|]. vm_compute. discriminate. Qed.

(** Nor when a field and a child component have the same name: both have valid names,
    and the path of the component, "/m/x", leads to the field. *)
Theorem C28_shared_names_refuted : exists root o o', node_at root o <> None /\ node_at root o' <> None /\ o <> o' /\
  kind_of root = KSim /\ resolve root [] (get_path root o) = Some o'.
Proof.
  exists (nd KSim "sim" [nd KCont "Models" []; comp "Models" "m" [nd KCont "kids" []; nd KSimple "x" []; comp "kids" "x" []]]).
  exists [2%nat; 1%nat], [1%nat; 1%nat]. repeat split; vm_compute; discriminate.
Qed.

Example C28_witness :
  good_tree sample /\
  get_path sample [0%nat; 1%nat; 3%nat; 2%nat] = codes "/m.v[1].x" /\
  resolve sample [] (codes "/m.v[1].x") = Some [0%nat; 1%nat; 3%nat; 2%nat] /\
  get_path sample [0%nat; 4%nat; 2%nat] = codes "/m/c.in" /\
  resolve sample [] (codes "/m/c.in") = Some [0%nat; 4%nat; 2%nat] /\
  resolve sample [] (codes "/m/_kids") = Some [0%nat; 2%nat] /\
  resolve sample [] (codes "/m.v[-1]") = Some [2%nat; 3%nat; 2%nat] /\
  resolve sample [] (codes "/m.v[3]") = None /\
  resolve sample [] (codes "/n/m.s.b") = Some [1%nat; 2%nat; 2%nat].
Proof. split; [apply sample_good|]. vm_compute. repeat split. Qed.

(** C29: '.' and the empty path stay, '..' goes to the parent. *)
Theorem C29_dots : forall root o, (exists t, node_at root o = Some t) ->
  resolve root o [] = Some o /\ resolve root o [46] = Some o /\ resolve root o [46; 46] = parent_of o.
Proof.
  intros root o [t H]. split; [reflexivity|]. split; [reflexivity|].
  unfold resolve. change (segments [46; 46]) with [(0, dotdot)]. cbn [res_segs]. rewrite H.
  unfold one_segment. change (list_eqb dotdot dotdot) with true. cbv iota. now destruct (parent_of o).
Qed.

(** When the names are unique and no reference is set, resolving "p/q" is resolving q
    from the result of p, provided that this result is not a field. *)
Theorem C29_paths_compose_partial : forall root o p q, good_tree root -> no_references root ->
  match resolve root o p with
  | Some m => (forall t, node_at root m = Some t -> is_field (kind_of t) = false) ->
              resolve root o (p ++ 47 :: q) = resolve root m q
  | None => resolve root o (p ++ 47 :: q) = None
  end.
Proof.
  intros root o p q G NR. unfold resolve. rewrite segments_app.
  destruct (res_single root G NR (segments p) false o) as (r & E & F); [unfold flag_ok; discriminate|].
  specialize (E []) as E0. rewrite app_nil_r in E0. rewrite E0, (E (relabel (segments q))).
  destruct r as [[f m]|]; [|reflexivity]. cbn [res_segs]. intros NF. rewrite res_relabel.
  destruct f; [|reflexivity]. specialize (F true m eq_refl eq_refl). cbv beta in F.
  destruct (node_at root m) as [t|]; [|discriminate]. rewrite (NF t eq_refl) in F. discriminate.
Qed.

(** In every tree, with references and equal names: what resolves step by step resolves
    at once to the same object, and a path that fails fails when extended. *)
Theorem C29_steps_then_whole_partial : forall root o p q m x, typed_tree root ->
  resolve root o p = Some m -> (forall t, node_at root m = Some t -> is_field (kind_of t) = false) ->
  resolve root m q = Some x -> resolve root o (p ++ 47 :: q) = Some x.
Proof.
  intros root o p q m x T P NF Q. unfold resolve in *. rewrite segments_app.
  apply (res_compose root T _ m); [|now rewrite res_relabel|unfold flag_ok; discriminate|assumption].
  destruct (node_at root m) as [t|]; [|reflexivity]. now apply NF.
Qed.
Theorem C29_failure_is_final : forall root o p q, resolve root o p = None -> resolve root o (p ++ 47 :: q) = None.
Proof. intros root o p q H. unfold resolve in *. rewrite segments_app. now apply res_none. Qed.

(** Fields: from the structure s, "b" does not lead to its field b but to s itself, and
    "s.a/../b" leads to s: the name is dropped. *)
Theorem C29_paths_compose_refuted : exists root o p q m, good_tree root /\ no_references root /\
  resolve root o p = Some m /\ resolve_field root m q = Some (1%nat :: m) /\
  resolve root m q = Some m /\
  resolve root o (p ++ 47 :: q) = Some (1%nat :: m) /\
  resolve root o (p ++ codes "/a/../" ++ q) = Some m.
Proof.
  exists (nd KSim "sim" [nd KCont "Models" []; comp "Models" "m" [nd KStruct "s" [nd KStruct "a" []; nd KSimple "b" []]]]).
  exists [1%nat], (codes "s"), (codes "b"), [0%nat; 1%nat].
  split; [apply good_by_check; reflexivity|]. split; [apply no_refs_by_check; reflexivity|].
  vm_compute. repeat split.
Qed.

(** Equal names: a sink and a component are both called a; "a" leads to the sink, from
    which "b" leads nowhere, but "a/b" leads to the component's b. *)
Theorem C29_shared_names_refuted : exists root o p q m x, typed_tree root /\
  resolve root o p = Some m /\ resolve root m q = None /\ resolve root o (p ++ 47 :: q) = Some x.
Proof.
  exists (nd KSim "sim" [nd KCont "Models" []; comp "Models" "m" [nd KCont "kids" []; nd (KLeaf Sink) "a" []; comp "kids" "a" [nd KSimple "b" []]]]).
  exists [1%nat], (codes "a"), (codes "b"), [1%nat; 1%nat], [0%nat; 2%nat; 1%nat]. split.
  { intros o t H F c I.
    assert (X : forallb (fun c => is_field (kind_of c)) (children t) = true).
    { pose proof (fun P => all_nodes_at (fun t => negb (is_field (kind_of t)) || forallb (fun c => is_field (kind_of c)) (children t)) _ o t P H) as X.
      cbv beta in X; rewrite F in X. apply X. reflexivity. }
    rewrite forallb_forall in X. now apply X. }
  vm_compute. repeat split.
Qed.

Example C29_witness :
  let m := [2%nat] in
  resolve sample [] (codes "m") = Some m /\
  resolve sample [] (codes "m/c/in") = resolve sample m (codes "c/in") /\
  resolve sample m (codes "c/in") = Some [0%nat; 4%nat; 2%nat] /\
  resolve sample m (codes "c/in/../../run") = Some [1%nat; 2%nat] /\
  resolve sample m (codes "./c/.") = Some [4%nat; 2%nat] /\
  resolve sample m (codes "../n") = Some [3%nat] /\
  resolve sample m (codes "..../n") = None.
Proof. vm_compute. repeat split. Qed.

Print Assumptions C28_path_resolves_to_object_partial.
Print Assumptions C29_paths_compose_partial.
