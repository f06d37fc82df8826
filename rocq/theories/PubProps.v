(** Fields are published under one name, found under it, and gone after Unpublish. *)
From Coq Require Import ZArith List Bool String Lia.
From Verif Require Import Base Text UuidModel UuidProofs Assoc AnyModel HelperModel HelperSpec HelperProofs TypeModel TypeProps PlaceModel PlaceProps PubModel PubSpec PubProofs.
From Verif Require PathModel.
Import ListNotations.
Local Open Scope Z_scope.

(** A model with an Int32, a structure of the registry, an anonymous structure with an
    anonymous array in it, and a field of its own. *)
Definition ex_name (s : string) : option (list Z) := Some (codes s).
Definition ex_calls : list call :=
  [ PublishField 0 (ex_name "level") uInt32 1000 ex_flags;
    PublishIField 0 (codes "mine") (MSimple 3000 (Leaf KI32 None None) ex_flags);
    PublishField 0 (ex_name "tank") 105 2000 ex_flags;
    PublishField 0 (ex_name "level") uInt32 1000 ex_flags;        (* refused *)
    PublishStructure 0 (ex_name "group");
    PublishArray 4 (ex_name "list");
    PublishField 5 (ex_name "a") uInt32 4000 ex_flags;
    PublishField 5 (ex_name "b") 105 5000 ex_flags;
    PublishField 0 (ex_name "bad name") uInt32 1000 ex_flags;     (* refused *)
    PublishField 0 (ex_name "odd") 12345 1000 ex_flags ].         (* refused *)
Definition ex_after := after 4 ex_registry ex_calls.

Lemma ex_valid n : forallb (fun c => negb (c =? 0)) n = true -> the_name (Some n) = Ok n -> valid_name n.
Proof.
  intros N E. eapply the_name_ok, E. intros I. rewrite forallb_forall in N. specialize (N 0 I). discriminate.
Qed.
Ltac proper :=
  repeat (apply Forall_cons; [|]); try apply Forall_nil;
  try (vm_compute; intuition discriminate); (split; [apply ex_valid; vm_compute; reflexivity|constructor]).
Lemma ex_proper : Forall proper_call ex_calls.
Proof. proper. Qed.
Lemma ex_fit : counts_fit ex_registry.
Proof.
  intros u t item isize count simple G D.
  assert (X : forall v t, get_type ex_registry v = Some t -> forall item isize count simple, ty_def t = DArray item isize count simple -> count <= i64_max).
  { apply (TypeProofs.forall_get (fun _ t => forall item isize count simple, ty_def t = DArray item isize count simple -> count <= i64_max)).
    apply Forall_forall. intros x I item0 isize0 count0 simple0 E.
    assert (Y : forallb (fun x => match ty_def (snd x) with DArray _ _ c _ => c <=? i64_max | _ => true end) ex_registry = true) by (vm_compute; reflexivity).
    rewrite forallb_forall in Y. specialize (Y x I). rewrite E in Y. clear - Y. apply Z.leb_le. exact Y. }
  eapply X; eassumption.
Qed.
Fixpoint ex_shadow_free (h : list call) : bool :=
  match h with
  | [] => true
  | c :: r =>
      match publishes c with
      | Some (n, false) =>
          forallb (fun c' => negb ((target c =? target c')%nat && match publishes c' with Some (m, true) => list_eqb n m | _ => false end)) r
      | _ => true
      end && ex_shadow_free r
  end.
Lemma ex_shadow h : ex_shadow_free h = true -> no_shadow h.
Proof.
  intros H h1 c1 h2 c2 h3 n -> T P1 P2. induction h1 as [|c h1 IH]; cbn [app ex_shadow_free] in H; apply andb_true_iff in H; destruct H as [H1 H2]; [|now apply IH].
  rewrite P1 in H1. rewrite forallb_forall in H1. specialize (H1 c2 (in_elt c2 h2 h3)).
  rewrite P2, T, Nat.eqb_refl in H1. assert (X : list_eqb n n = true) by now apply list_eqb_eq. rewrite X in H1. discriminate.
Qed.
Lemma ex_no_shadow : no_shadow ex_calls.
Proof. apply ex_shadow. vm_compute. reflexivity. Qed.

(** GetFields: what was accepted since the last Unpublish, first the fields the publication
    created, in the order of the calls, then those given to it, in the order of the calls;
    each with its name and the number the call returned. *)
Theorem C88_content d r h p :
  counts_fit r -> Forall proper_call h -> live (after d r h) p = true ->
  map (fun e => (e_name e, e_owned e, e_id e)) (fields (after d r h) p)
  = filter (fun x => snd (fst x)) (published p (trace d r h)) ++ filter (fun x => negb (snd (fst x))) (published p (trace d r h)).
Proof.
  intros CF F L. pose proof (reach d r h CF F) as V. rewrite <- (i_noted _ _ _ V p L). unfold fields, owned, added.
  set (g := fun e => (e_name e, e_owned e, e_id e)). set (l := entries (after d r h)). clearbody l. rewrite map_app. f_equal.
  - induction l as [|e l IH]; cbn; [reflexivity|]. destruct (e_in e =? p)%nat; cbn; [|exact IH]. destruct (e_owned e); cbn; [|exact IH]. f_equal. exact IH.
  - induction l as [|e l IH]; cbn; [reflexivity|]. destruct (e_in e =? p)%nat; cbn; [|exact IH]. destruct (e_owned e); cbn; [exact IH|]. f_equal. exact IH.
Qed.
Example C88_content_nonvacuous :
  map e_name (fields ex_after 0) = map codes ["level"; "tank"; "group"; "mine"]%string
  /\ map e_name (fields ex_after 5) = map codes ["a"; "b"]%string
  /\ map snd (trace 4 ex_registry ex_calls)
     = [Ok 1%nat; Ok 2%nat; Ok 3%nat; Throw DuplicateName; Ok 4%nat; Ok 5%nat; Ok 6%nat; Ok 7%nat; Throw InvalidObjectName; Throw TypeNotRegistered].
Proof. vm_compute. repeat split. Qed.

(** The fields a publication created have different names, and so have those given to it. *)
Theorem C88_unique_partial d r h p :
  counts_fit r -> Forall proper_call h ->
  NoDup (map e_name (owned (after d r h) p)) /\ NoDup (map e_name (added (after d r h) p)).
Proof. intros CF F. pose proof (reach d r h CF F) as V. split; apply V. Qed.

(** All names of a publication are different, unless the caller lets it create a field with
    the name of one given to it before. *)
Theorem C88_unique_all_partial d r h p :
  counts_fit r -> Forall proper_call h -> no_shadow h -> NoDup (map e_name (fields (after d r h) p)).
Proof. apply unique_names. Qed.
Example C88_unique_nonvacuous :
  counts_fit ex_registry /\ Forall proper_call ex_calls /\ no_shadow ex_calls /\ length (fields ex_after 0) = 4%nat.
Proof. repeat split; [apply ex_fit|apply ex_proper|apply ex_no_shadow]. Qed.

(** In that case the publication has two fields with one name, and GetField, that found the
    first, now finds the second. *)
Theorem C88_unique_refuted :
  exists d r h c t, counts_fit r /\ Forall proper_call (h ++ [c]) /\
    ~ NoDup (map e_name (fields (after d r (h ++ [c])) 0)) /\
    (forall x, In x (map snd (trace d r (h ++ [c]))) -> is_ok x = true) /\
    get_field (after d r h) 0 (Some t) = Got (1%nat, []) /\ get_field (after d r (h ++ [c])) 0 (Some t) = Got (2%nat, []).
Proof.
  exists 4%nat, ex_registry, [PublishIField 0 (codes "x") (MSimple 3000 (Leaf KI32 None None) ex_flags)],
    (PublishField 0 (ex_name "x") uInt32 1000 ex_flags), (codes "x").
  split; [apply ex_fit|]. split.
  { cbn [app]. proper. }
  split; [vm_compute; intros N; inversion N as [|? ? X]; apply X; now left|]. split; [intros x I; vm_compute in I; destruct I as [<-|[<-|[]]]; reflexivity|].
  split; vm_compute; reflexivity.
Qed.

(** When a call is accepted: the publication exists, the name is valid, a field of the type
    can be made, and no field that the publication created has the name; for a field given
    to it, no field at all. *)
Definition makes (d : nat) (r : reg) (c : call) : Prop :=
  match c with
  | PublishField _ _ u addr fl => exists f, place d r u addr fl = Some (Ok f)
  | PublishSimpleArray _ _ _ _ k _ => get_type_kind r k <> None /\ FieldStoreModel.kind_size k <> None
  | _ => True
  end.
Theorem C88_accepted d r h c n b :
  counts_fit r -> Forall proper_call h -> proper_call c -> publishes c = Some (n, b) ->
  is_ok (snd (step d r c (after d r h))) = true <->
  live (after d r h) (target c) = true /\ valid_name n /\ makes d r c /\
  ~ In n (map e_name (if b then owned (after d r h) (target c) else fields (after d r h) (target c))).
Proof.
  intros CF F PC P. set (s := after d r h). destruct (step d r c s) as [s' x] eqn:E. cbn [snd]. split.
  - intros O. apply step_cases in E; [|assumption]. destruct E as [[N _]|[(p & -> & _)|(w & m & b' & PU & L & _)]]; [congruence|discriminate|].
    destruct PU as (P' & VN & NI & W). rewrite P in P'. injection P' as <- <-. split; [assumption|]. split; [assumption|]. split.
    + destruct c as [p n' u a fl|p n' f|p n' k a kd fl|p n'|p n'|p]; cbn [makes]; auto.
      * destruct W as (f & W & _). eauto.
      * unfold simple_array in W. destruct (get_type_kind r kd); [|discriminate]. destruct (FieldStoreModel.kind_size kd); [|discriminate]. split; discriminate.
    + now destruct b.
  - intros (L & VN & MK & NI). unfold step in E. rewrite L in E. cbn [negb] in E.
    assert (AO : forall p w, proper_call c -> b = true -> target c = p -> forall s' x, add_own s p (Some n) (Ok w) = (s', x) -> ~ In 0 n -> is_ok x = true).
    { intros p w _ -> <- s2 x2. unfold add_own. intros H N0. rewrite (the_name_valid n N0 VN) in H. unfold insert in H.
      rewrite (proj2 (find_named_none n _) NI) in H. cbn in H. injection H as _ <-. reflexivity. }
    destruct c as [p n' u a fl|p n' f|p n' k a kd fl|p n'|p n'|p]; cbn [publishes target makes] in *; try discriminate.
    + destruct n' as [n'|]; [|discriminate]. injection P as <- <-. destruct MK as (f & MK). rewrite MK in E. eapply AO; eauto.
    + injection P as <- <-. unfold insert in E. rewrite at_name_all, (proj2 (find_named_none n' _) NI) in E. cbn in E. injection E as _ <-. reflexivity.
    + destruct n' as [n'|]; [|discriminate]. injection P as <- <-. destruct MK as [M1 M2]. unfold simple_array in E.
      destruct (get_type_kind r kd); [|congruence]. destruct (FieldStoreModel.kind_size kd); [|congruence]. eapply AO; eauto.
    + destruct n' as [n'|]; [|discriminate]. injection P as <- <-. eapply AO; eauto.
    + destruct n' as [n'|]; [|discriminate]. injection P as <- <-. eapply AO; eauto.
Qed.
Example C88_accepted_nonvacuous :
  is_ok (snd (step 4 ex_registry (PublishSimpleArray 0 (ex_name "values") 10 7000 KF64 ex_flags) ex_after)) = true
  /\ snd (step 4 ex_registry (PublishIField 0 (codes "tank") (MSimple 0 (Leaf KI32 None None) ex_flags)) ex_after) = Throw DuplicateName
  /\ snd (step 4 ex_registry (PublishStructure 4 (ex_name "tank")) ex_after) = Ok 8%nat.
Proof. vm_compute. repeat split. Qed.

(** A field cannot be created with a null or invalid name: InvalidObjectName.  A name that
    is in use: DuplicateName.  A type that is not registered: TypeNotRegistered, whatever
    the name. *)
Definition creates (c : call) : option (option (list Z)) :=
  match c with
  | PublishField _ n _ _ _ | PublishSimpleArray _ n _ _ _ _ | PublishArray _ n | PublishStructure _ n => Some n
  | _ => None
  end.
Theorem C88_reason d r s c :
  proper_call c -> live s (target c) = true ->
  (forall n, creates c = Some n -> (forall m, n = Some m -> ~ valid_name m) ->
     match c with PublishField _ _ u a fl => exists x, place d r u a fl = Some x /\ x <> UB | _ => True end ->
     snd (step d r c s) = Throw InvalidObjectName) /\
  (forall n b, publishes c = Some (n, b) -> valid_name n -> makes d r c ->
     In n (map e_name (if b then owned s (target c) else fields s (target c))) ->
     snd (step d r c s) = Throw DuplicateName) /\
  (forall p n u a fl, c = PublishField p n u a fl -> place d r u a fl = None -> snd (step d r c s) = Throw TypeNotRegistered).
Proof.
  intros PC L. unfold step. rewrite L. cbn [negb]. split; [|split].
  - intros n C V K.
    assert (X : the_name n = Throw InvalidObjectName).
    { destruct n as [m|]; [|reflexivity]. specialize (V m eq_refl).
      assert (N : ~ In 0 m) by (destruct c; cbn in C, PC; try discriminate; injection C as ->; exact PC).
      now apply the_name_bad. }
    destruct c as [p n' u a fl|p n' f|p n' k a kd fl|p n'|p n'|p]; cbn [creates] in C; try discriminate; injection C as ->;
      unfold add_own; try (now rewrite X).
    destruct K as (x & -> & NU). destruct x as [f|e|]; [| |congruence]; now rewrite X.
  - intros n b P VN MK I.
    assert (AO : forall p w, b = true -> target c = p -> ~ In 0 n -> snd (add_own s p (Some n) (Ok w)) = Throw DuplicateName).
    { intros p w -> <- N0. unfold add_own. rewrite (the_name_valid n N0 VN). unfold insert.
      destruct (find_named n (owned s (target c))) eqn:E; [reflexivity|]. apply find_named_none in E. contradiction. }
    destruct c as [p n' u a fl|p n' f|p n' k a kd fl|p n'|p n'|p]; cbn [publishes target makes] in *; try discriminate.
    + destruct n' as [n'|]; [|discriminate]. injection P as <- <-. destruct MK as (f & MK). rewrite MK. apply AO; auto.
    + injection P as <- <-. unfold insert. rewrite at_name_all. destruct (find_named n' (fields s p)) eqn:E; [reflexivity|].
      apply find_named_none in E. contradiction.
    + destruct n' as [n'|]; [|discriminate]. injection P as <- <-. destruct MK as [M1 M2]. unfold simple_array.
      destruct (get_type_kind r kd); [|congruence]. destruct (FieldStoreModel.kind_size kd); [|congruence]. apply AO; auto.
    + destruct n' as [n'|]; [|discriminate]. injection P as <- <-. apply AO; auto.
    + destruct n' as [n'|]; [|discriminate]. injection P as <- <-. apply AO; auto.
  - intros p n u a fl -> ->. reflexivity.
Qed.
Example C88_reason_nonvacuous :
  snd (step 4 ex_registry (PublishField 0 (ex_name "2x") uInt32 1000 ex_flags) ex_after) = Throw InvalidObjectName /\
  snd (step 4 ex_registry (PublishArray 0 None) ex_after) = Throw InvalidObjectName /\
  snd (step 4 ex_registry (PublishStructure 0 (ex_name "tank")) ex_after) = Throw DuplicateName /\
  live ex_after 0 = true /\ ~ valid_name (codes "2x").
Proof.
  split; [vm_compute; reflexivity|]. split; [vm_compute; reflexivity|]. split; [vm_compute; reflexivity|]. split; [reflexivity|].
  intros V. assert (N : ~ In 0 (codes "2x")) by (vm_compute; intuition discriminate).
  pose proof (the_name_valid _ N V) as H. vm_compute in H. discriminate.
Qed.

(** A call that is not accepted changes nothing, and one that is adds one field, known by a
    number nobody had. *)
Theorem C88_refused d r s c : proper_call c -> is_ok (snd (step d r c s)) = false -> fst (step d r c s) = s.
Proof.
  intros PC. destruct (step d r c s) as [s' x] eqn:E. cbn. intros O. apply step_cases in E; [|assumption].
  destruct E as [[_ ->]|[(p & _ & _ & -> & _)|(w & n & b & _ & _ & -> & _)]]; [reflexivity|discriminate|discriminate].
Qed.
Theorem C88_added d r h c n b i :
  counts_fit r -> Forall proper_call h -> proper_call c -> publishes c = Some (n, b) -> snd (step d r c (after d r h)) = Ok i ->
  exists e, entries (after d r (h ++ [c])) = entries (after d r h) ++ [e] /\
    e_id e = i /\ e_in e = target c /\ e_name e = n /\ e_owned e = b /\
    (forall e', In e' (entries (after d r h)) -> e_id e' <> i) /\
    match c with
    | PublishField _ _ u addr fl => exists f, place d r u addr fl = Some (Ok f) /\ e_what e = Typed f
    | PublishIField _ _ f => e_what e = Typed f
    | PublishSimpleArray _ _ count addr k fl =>
        exists t size, get_type_kind r k = Some t /\ FieldStoreModel.kind_size k = Some size /\
          e_what e = Typed (MSArr addr (leaf_of t) (Z.of_nat size) (Z.max 0 count) fl)
    | PublishArray _ _ => e_what e = AnonArray
    | _ => e_what e = AnonStruct
    end.
Proof.
  intros CF F PC P. rewrite after_snoc. pose proof (reach d r h CF F) as V. destruct (step d r c (after d r h)) as [s' x] eqn:E. cbn [fst snd]. intros ->.
  apply step_cases in E; [|assumption]. destruct E as [[O _]|[(p & -> & _)|(w & m & b' & (P' & _ & _ & W) & L & X & ->)]]; [discriminate|discriminate|].
  rewrite P in P'. injection P' as <- <-. injection X as ->. eexists. split; [reflexivity|]. cbn. repeat split; auto.
  - intros e' I. pose proof (i_range _ _ _ V e' I). lia.
  - destruct c; try exact W; try discriminate P. unfold simple_array in W. destruct (get_type_kind r k) as [t|]; [|discriminate].
    destruct (FieldStoreModel.kind_size k) as [size|]; [|discriminate]. injection W as <-. exists t, size. repeat split.
    do 2 f_equal. destruct (Z.leb_spec 0 count); lia.
Qed.
Example C88_refused_nonvacuous :
  is_ok (snd (step 4 ex_registry (PublishField 0 (ex_name "tank") uInt32 0 ex_flags) ex_after)) = false
  /\ snd (step 4 ex_registry (PublishSimpleArray 0 (ex_name "values") (-3) 7000 KF64 ex_flags) ex_after) = Ok 8%nat.
Proof. vm_compute. repeat split. Qed.

(** GetField of the component finds every field by its path. *)
Theorem C88_found_partial d r h p t x :
  counts_fit r -> Forall proper_call h -> no_shadow h -> small (after d r h) -> searches (after d r h) p ->
  leads_from (after d r h) p t x -> get_field (after d r h) p (Some t) = Got x.
Proof.
  intros CF F NS SM R L. eapply found; eauto. - now apply reach. - intros q. now apply unique_names.
Qed.
Example C88_found_nonvacuous :
  small ex_after /\ searches ex_after 0 /\
  leads_from ex_after 0 (codes "group.list[1].pump[1].y") (7%nat, [4; 1; 1]%nat) /\
  get_field ex_after 0 (Some (codes "group.list[1].pump[1].y")) = Got (7%nat, [4; 1; 1]%nat).
Proof.
  split; [vm_compute; discriminate|]. split; [eapply root_searches, (reach 4 ex_registry ex_calls ex_fit ex_proper)|]. split; [|vm_compute; reflexivity].
  exists (nth 2 (fields ex_after 0) (Entry 0 0 true [] AnonArray)), (codes ".list[1].pump[1].y").
  split; [vm_compute; tauto|]. split; [vm_compute; reflexivity|].
  change (codes ".list[1].pump[1].y") with (46 :: e_name (nth 0 (fields ex_after 4) (Entry 0 0 true [] AnonArray)) ++ codes "[1].pump[1].y").
  apply le_field; [vm_compute; reflexivity|vm_compute; tauto|].
  change (codes "[1].pump[1].y") with (PathModel.item_name 1 ++ codes ".pump[1].y").
  apply le_item with (c := nth 1 (fields ex_after 5) (Entry 0 0 true [] AnonArray)); [vm_compute; reflexivity|vm_compute; reflexivity|].
  change 7%nat with (e_id (nth 1 (fields ex_after 5) (Entry 0 0 true [] AnonArray))).
  eapply le_typed; [vm_compute; reflexivity|].
  change (codes ".pump[1].y") with (46 :: codes "pump" ++ PathModel.item_name 1 ++ 46 :: codes "y" ++ []).
  eapply sp_field; [vm_compute; reflexivity|]. eapply sp_item; [vm_compute; reflexivity|]. eapply sp_field; [vm_compute; reflexivity|]. apply sp_here.
Qed.

(** What GetField returns is a field published there, or a part of one. *)
Theorem C88_only s p t x : get_field s p t = Got x -> exists_below s p x.
Proof. apply get_field_below. Qed.

(** A valid name under which nothing is published: GetField throws. *)
Theorem C88_unknown_partial d r h p n :
  counts_fit r -> Forall proper_call h -> searches (after d r h) p -> valid_name n ->
  (get_field (after d r h) p (Some n) = InvalidFieldName <-> ~ In n (map e_name (fields (after d r h) p))).
Proof.
  intros CF F R VN. pose proof (reach d r h CF F) as V. rewrite get_field_search by (eapply searches_entry; eassumption).
  rewrite <- (app_nil_r n) at 1. change (@nil Z) with (flat_map PP.render []) at 1. rewrite first_segments by (auto; constructor).
  cbn [from_fields]. rewrite (PP.valid_not_dotdot _ VN), at_name_all. destruct (find_named n _) as [e|] eqn:E.
  - apply find_named_some in E. destruct E as [I <-]. split.
    + cbn [from_field]. destruct (e_what e); cbn; discriminate.
    + intros N. exfalso. apply N. now apply in_map.
  - split; [|reflexivity]. intros _. now apply find_named_none.
Qed.
Example C88_unknown_nonvacuous : get_field ex_after 0 (Some (codes "valve")) = InvalidFieldName /\ get_field ex_after 0 None = InvalidFieldName.
Proof. split; vm_compute; reflexivity. Qed.

(** The publication of an anonymous structure answers with the null pointer instead, and
    does not follow a path. *)
Theorem C88_structure_refuted :
  exists d r h p t x, counts_fit r /\ Forall proper_call h /\ no_shadow h /\ live (after d r h) p = true /\
    leads_from (after d r h) p t x /\ get_field (after d r h) p (Some t) = Null /\
    get_field (after d r h) p (Some (codes "valve")) = Null /\ ~ In (codes "valve") (map e_name (fields (after d r h) p)).
Proof.
  exists 4%nat, ex_registry, ex_calls, 4%nat, (codes "list[0]"), (6%nat, []).
  split; [apply ex_fit|]. split; [apply ex_proper|]. split; [apply ex_no_shadow|]. split; [vm_compute; reflexivity|]. split.
  { exists (nth 0 (fields ex_after 4) (Entry 0 0 true [] AnonArray)), (codes "[0]"). split; [vm_compute; tauto|]. split; [vm_compute; reflexivity|].
    change (codes "[0]") with (PathModel.item_name 0 ++ []).
    apply le_item with (c := nth 0 (fields ex_after 5) (Entry 0 0 true [] AnonArray)); [vm_compute; reflexivity|vm_compute; reflexivity|].
    change 6%nat with (e_id (nth 0 (fields ex_after 5) (Entry 0 0 true [] AnonArray))).
    eapply le_typed; [vm_compute; reflexivity|apply sp_here]. }
  split; [vm_compute; reflexivity|]. split; [vm_compute; reflexivity|]. vm_compute. intuition discriminate.
Qed.

(** A field stays published, under the same number, while nothing is unpublished. *)
Theorem C88_kept d r h h' e :
  (forall c, In c h' -> forall p, c <> Unpublish p) -> Forall proper_call h' ->
  In e (entries (after d r h)) -> In e (entries (after d r (h ++ h'))).
Proof. intros N F I. rewrite after_app. now apply kept. Qed.

(** But the index of an item of an anonymous array can change: fields given to it come
    after those it creates. *)
Theorem C88_item_moves_refuted :
  exists d r h c t, counts_fit r /\ Forall proper_call (h ++ [c]) /\ no_shadow (h ++ [c]) /\ (forall p, c <> Unpublish p) /\
    get_field (after d r h) 0 (Some t) = Got (2%nat, []) /\ get_field (after d r (h ++ [c])) 0 (Some t) = Got (3%nat, []).
Proof.
  exists 4%nat, ex_registry, [PublishArray 0 (ex_name "list"); PublishIField 1 (codes "x") (MSimple 3000 (Leaf KI32 None None) ex_flags)],
    (PublishField 1 (ex_name "y") uInt32 1000 ex_flags), (codes "list[0]").
  split; [apply ex_fit|]. split.
  { cbn [app]. proper. }
  split.
  { apply ex_shadow. vm_compute. reflexivity. }
  split; [discriminate|]. split; vm_compute; reflexivity.
Qed.

(** Unpublish leaves the publication empty, destroys the publications inside it, and leaves
    the others as they are. *)
Theorem C88_unpublish d r h p :
  counts_fit r -> Forall proper_call h -> live (after d r h) p = true ->
  let s := after d r h in let s' := after d r (h ++ [Unpublish p]) in
  fields s' p = [] /\
  (forall t x, get_field s' p t <> Got x) /\
  (forall e, below s p e -> ~ In e (entries s')) /\
  (forall e, In e (entries s) -> ~ below s p e -> In e (entries s')).
Proof.
  intros CF F L. cbn zeta. pose proof (reach d r h CF F) as V. set (s := after d r h) in *.
  assert (ES : after d r (h ++ [Unpublish p]) = Pubs (drop [p] (entries s)) (fresh s)).
  { rewrite after_snoc. unfold step. cbn [target]. fold s. rewrite L. reflexivity. }
  rewrite ES. pose proof (drop_fields s p) as DF. split; [exact DF|]. split.
  { intros t x G. apply get_field_below in G. destruct G as (e & B & _). clear - B DF.
    induction B as [e I|e c B IH I]; [rewrite DF in I; destruct I|exact IH]. }
  split.
  - intros e B. induction B as [e I|e c B IH I].
    + intros D. apply drop_out in D. apply in_fields in I. apply D. left. symmetry. apply I.
    + intros D. apply IH. cbn [entries] in *. apply in_fields in I. eapply drop_inside; [apply V| |eapply below_in; eassumption|apply I|exact D].
      intros x Ix. apply (i_range _ _ _ V x Ix).
  - intros e I NB. cbn [entries]. apply (drop_other _ _ _ V); assumption.
Qed.
Example C88_unpublish_nonvacuous :
  let s := after 4 ex_registry (ex_calls ++ [Unpublish 4]) in
  live ex_after 4 = true /\ live s 4 = true /\ live s 5 = false /\ map e_id (entries s) = [1; 2; 3; 4]%nat
  /\ get_field ex_after 0 (Some (codes "group.list[0]")) = Got (6%nat, [])
  /\ get_field s 0 (Some (codes "group.list[0]")) = InvalidFieldName.
Proof. vm_compute. repeat split. Qed.

(** GetPath of a published field, taken from the component, leads back to it, when it is
    published in the component or in anonymous structures only. *)
Theorem C88_path_partial d r h e :
  counts_fit r -> Forall proper_call h -> no_shadow h -> In e (entries (after d r h)) -> in_structures (after d r h) (e_in e) ->
  get_field (after d r h) 0 (Some (path_of (after d r h) e)) = Got (e_id e, []).
Proof.
  intros CF F NS I IS. eapply path_found; eauto. - now apply reach. - intros q. now apply unique_names.
Qed.
Example C88_path_nonvacuous :
  let e := nth 0 (fields ex_after 4) (Entry 0 0 true [] AnonArray) in
  In e (entries ex_after) /\ in_structures ex_after (e_in e) /\ path_of ex_after e = codes "group.list".
Proof.
  cbn zeta. split; [vm_compute; tauto|]. split; [|vm_compute; reflexivity].
  change (e_in (nth 0 (fields ex_after 4) (Entry 0 0 true [] AnonArray))) with (e_id (nth 2 (fields ex_after 0) (Entry 0 0 true [] AnonArray))).
  apply is_inside; [vm_compute; tauto|vm_compute; reflexivity|]. apply is_root.
Qed.

(** The path of an item of an anonymous array leads nowhere, or to another field. *)
Theorem C88_path_refuted :
  exists d r h e e', counts_fit r /\ Forall proper_call h /\ no_shadow h /\ In e (entries (after d r h)) /\ In e' (entries (after d r h)) /\
    get_field (after d r h) 0 (Some (path_of (after d r h) e)) = InvalidFieldName /\
    e_id e' <> 1%nat /\ get_field (after d r h) 0 (Some (path_of (after d r h) e')) = Got (1%nat, []).
Proof.
  exists 4%nat, ex_registry,
    [PublishField 0 (ex_name "a") uInt32 0 ex_flags; PublishArray 0 (ex_name "list"); PublishField 2 (ex_name "a") uInt32 1000 ex_flags; PublishField 2 (ex_name "b") uInt32 1000 ex_flags].
  set (h := [_; _; _; _]). exists (nth 1 (fields (after 4 ex_registry h) 2) (Entry 0 0 true [] AnonArray)), (nth 0 (fields (after 4 ex_registry h) 2) (Entry 0 0 true [] AnonArray)).
  split; [apply ex_fit|]. split; [proper|]. split.
  { apply ex_shadow. vm_compute. reflexivity. }
  split; [vm_compute; tauto|]. split; [vm_compute; tauto|]. split; [vm_compute; reflexivity|].
  split; [vm_compute; discriminate|vm_compute; reflexivity].
Qed.

Print Assumptions C88_content.
Print Assumptions C88_found_partial.
Print Assumptions C88_path_partial.
Print Assumptions C88_unpublish.
