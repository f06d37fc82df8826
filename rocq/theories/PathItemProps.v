(** Theorems about the indexes and the order of lookups in paths: C29. *)
From Verif Require Import Base Text HelperSpec UuidModel PathModel PathSpec PathProofs PathProps PathItems.

(** C29: the text between brackets designates an item exactly when it is a decimal number,
    with optional white space and sign before it, within the array; negative numbers count
    from the end. *)
Theorem C29_array_index : forall root o t s r, node_at root o = Some t -> kind_of t = KArray ->
  Z.of_nat (length (children t)) <= i64_max -> Forall not_separator s ->
  (resolve_field root o (91 :: s ++ [93]) = Some r <->
   exists v i, denotes s v /\ designates v (length (children t)) i /\ r = i :: o).
Proof.
  intros root o t s r H K L F. unfold resolve_field. rewrite one_name; [|auto|].
  2: { apply Forall_app. split; [assumption|]. constructor; [|constructor]. unfold not_separator. lia. }
  cbn [res_segs]. rewrite H. unfold one_segment. assert (ND : list_eqb (91 :: s ++ [93]) dotdot = false) by reflexivity.
  rewrite ND. unfold by_field. rewrite K. unfold go. split.
  - destruct (item_index (91 :: s ++ [93]) (length (children t))) as [i|] eqn:E; [|discriminate]. intros Q. injection Q as <-.
    apply item_denotes in E; [|assumption]. destruct E as (v & D & G). now exists v, i.
  - intros (v & i & D & G & ->). rewrite (proj2 (item_denotes s _ i L) (ex_intro _ v (conj D G))). reflexivity.
Qed.

(** C29: a component looks a name up among its event sinks, event sources, entry points,
    operations, properties, failures and fields, in this order, and only then among the
    components it contains. *)
Theorem C29_lookup_order : forall root o t cn n k f i, node_at root o = Some t -> kind_of t = KComp cn ->
  n <> [] -> hd 0 n <> 95 -> Forall not_separator n ->
  nth_error member_classes k = Some f -> first_child f n t i ->
  (forall j g, (j < k)%nat -> nth_error member_classes j = Some g -> no_child g n t) ->
  resolve root o n = Some (i :: o).
Proof. exact lookup_order. Qed.

(** A name shared by an entry point, a failure, a field and a component. *)
Definition shared : tree :=
  nd KSim "sim" [nd KCont "Models" [];
    comp "Models" "m" [nd KCont "kids" []; comp "kids" "x" []; nd KSimple "x" []; nd (KLeaf Failure) "x" []; nd (KLeaf Entry) "x" [];
                       nd KArray "v" [nd KSimple "[0]" []; nd KSimple "[1]" []; nd KSimple "[2]" []]]].
Example C29_items_example :
  denotes (codes " -1") (-1) /\ designates (-1) 3 2 /\
  resolve_field shared [5%nat; 1%nat] (codes "[ -1]") = Some [2%nat; 5%nat; 1%nat] /\
  resolve_field shared [5%nat; 1%nat] (codes "[+1]") = Some [1%nat; 5%nat; 1%nat] /\
  resolve_field shared [5%nat; 1%nat] (codes "[-4]") = None /\
  resolve_field shared [5%nat; 1%nat] (codes "[1 ]") = None /\
  (exists t, node_at shared [1%nat] = Some t /\ first_child (fun k => match k with KLeaf Entry => true | _ => false end) (codes "x") t 4) /\
  resolve shared [1%nat] (codes "x") = Some [4%nat; 1%nat].
Proof.
  split. { exists [32], [45], [49]. repeat split; try discriminate; try (repeat constructor; unfold blank; lia); try auto. }
  split. { split; [lia|]. right. lia. }
  do 4 (split; [reflexivity|]). split; [|reflexivity].
  eexists. split; [reflexivity|]. exists (nd (KLeaf Entry) "x" []). do 3 (split; [reflexivity|]).
  intros j d L N F. do 4 (destruct j as [|j]; [injection N as <-; discriminate|]). lia.
Qed.

(** C29: a name that is none of these is looked up in the containers, in their order, and
    then among the components of the references, in their order. *)
Theorem C29_components_order : forall root o t cn n, node_at root o = Some t -> kind_of t = KComp cn ->
  n <> [] -> hd 0 n <> 95 -> Forall not_separator n -> (forall g, In g member_classes -> no_child g n t) ->
  (forall before k after i, children t = before ++ k :: after -> kind_of k = KCont -> first_child (held (name_of k)) n t i ->
     (forall c, In c before -> kind_of c = KCont -> no_child (held (name_of c)) n t) -> resolve root o n = Some (i :: o)) /\
  (forall before r after ts1 x ts2, (forall c, In c (children t) -> kind_of c = KCont -> no_child (held (name_of c)) n t) ->
     children t = before ++ r :: after -> kind_of r = KRef (ts1 ++ x :: ts2) ->
     has_name root x n -> (forall y, In y ts1 -> ~ has_name root y n) ->
     (forall c ts y, In c before -> kind_of c = KRef ts -> In y ts -> ~ has_name root y n) -> resolve root o n = Some x).
Proof. exact components_order. Qed.

(** C29: behind "_" a name is that of a container or, if there is none, of a reference. *)
Theorem C29_references_by_underscore : forall root o t n i, node_at root o = Some t -> is_composite (kind_of t) = true ->
  Forall not_separator n -> no_child container n t -> first_child reference n t i ->
  resolve root o (95 :: n) = Some (i :: o).
Proof. exact reference_by_underscore. Qed.

(** The second container holds the first of two components with one name. *)
Definition crossed : tree :=
  nd KSim "sim" [nd KCont "Models" [];
    comp "Models" "m" [nd KCont "a" []; nd KCont "b" []; comp "b" "x" []; comp "a" "x" [];
                       nd (KRef [[1%nat]; [2%nat; 1%nat]]) "peer" []; nd (KRef [[2%nat]]) "other" []];
    comp "Models" "n" []].
Example C29_components_example :
  resolve crossed [1%nat] (codes "x") = Some [3%nat; 1%nat] /\
  resolve crossed [1%nat] (codes "n") = Some [2%nat] /\
  resolve crossed [1%nat] (codes "_peer") = Some [4%nat; 1%nat] /\
  (exists t, node_at crossed [1%nat] = Some t /\ first_child (held (codes "a")) (codes "x") t 3 /\
     first_child (held (codes "b")) (codes "x") t 2 /\ first_child reference (codes "peer") t 4 /\ no_child container (codes "peer") t) /\
  has_name crossed [2%nat] (codes "n").
Proof.
  do 3 (split; [reflexivity|]). split; [|eexists; split; reflexivity].
  eexists. split; [reflexivity|]. split; [|split; [|split]].
  - exists (comp "a" "x" []). do 3 (split; [reflexivity|]). intros j d L N F. do 3 (destruct j as [|j]; [injection N as <-; discriminate|]). lia.
  - exists (comp "b" "x" []). do 3 (split; [reflexivity|]). intros j d L N F. do 2 (destruct j as [|j]; [injection N as <-; discriminate|]). lia.
  - eexists. split; [reflexivity|]. do 2 (split; [reflexivity|]). intros j d L N F. do 4 (destruct j as [|j]; [injection N as <-; discriminate|]). lia.
  - intros d I F E. cbn in I. decompose [or] I; subst; try discriminate; contradiction.
Qed.

Print Assumptions C29_components_order.
Print Assumptions C29_array_index.
