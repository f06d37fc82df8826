(** Fields of a publication. *)
From Coq Require Import ZArith List Bool Lia.
From Verif Require Import Base Text UuidModel UuidProofs Assoc AnyModel HelperModel HelperSpec HelperProofs TypeModel TypeSpec TypeProofs PlaceModel PubModel PubSpec.
From Verif Require FieldStoreModel PathModel PathProofs PlaceProofs.
Import ListNotations.
Local Open Scope Z_scope.
Module PM := PathModel.
Module PP := PathProofs.

(** * Lists of entries *)
Lemma find_named_some n l e : find_named n l = Some e -> In e l /\ e_name e = n.
Proof.
  induction l as [|x l IH]; cbn; [discriminate|]. destruct (list_eqb n (e_name x)) eqn:E.
  - intros H. injection H as ->. apply list_eqb_eq in E. auto.
  - intros H. apply IH in H. tauto.
Qed.
Lemma find_named_none n l : find_named n l = None <-> ~ In n (map e_name l).
Proof.
  induction l as [|x l IH]; cbn; [tauto|]. destruct (list_eqb n (e_name x)) eqn:E.
  - apply list_eqb_eq in E. split; [discriminate|]. intros H. exfalso. apply H. auto.
  - rewrite IH. assert (e_name x <> n) by (intros X; assert (list_eqb n (e_name x) = true) by (apply list_eqb_eq; auto); congruence). tauto.
Qed.
Lemma find_named_first l e : NoDup (map e_name l) -> In e l -> find_named (e_name e) l = Some e.
Proof.
  induction l as [|x l IH]; cbn; [tauto|]. intros N H. inversion N as [|? ? N1 N2]; subst.
  destruct (list_eqb (e_name e) (e_name x)) eqn:E.
  - apply list_eqb_eq in E. destruct H as [->|H]; [reflexivity|]. exfalso. apply N1. rewrite <- E. now apply in_map.
  - destruct H as [->|H]; [|auto]. assert (list_eqb (e_name e) (e_name e) = true) by now apply list_eqb_eq. congruence.
Qed.
Lemma at_name_all s p n : at_name s p n = find_named n (fields s p).
Proof.
  unfold at_name, fields. generalize (owned s p) (added s p). intros a b. induction a as [|x a IH]; cbn; [reflexivity|].
  destruct (list_eqb n (e_name x)); [reflexivity|exact IH].
Qed.
Lemma in_owned s p e : In e (owned s p) <-> In e (entries s) /\ e_in e = p /\ e_owned e = true.
Proof. unfold owned. rewrite filter_In, andb_true_iff, Nat.eqb_eq. tauto. Qed.
Lemma in_added s p e : In e (added s p) <-> In e (entries s) /\ e_in e = p /\ e_owned e = false.
Proof. unfold added. rewrite filter_In, andb_true_iff, Nat.eqb_eq, negb_true_iff. tauto. Qed.
Lemma in_fields s p e : In e (fields s p) <-> In e (entries s) /\ e_in e = p.
Proof. unfold fields. rewrite in_app_iff, in_owned, in_added. destruct (e_owned e); intuition congruence. Qed.

Lemma entry_of_in p l e : entry_of p l = Some e -> In e l /\ e_id e = p.
Proof.
  induction l as [|x l IH]; cbn; [discriminate|]. destruct (Nat.eqb_spec (e_id x) p).
  - intros H. injection H as ->. auto.
  - intros H. apply IH in H. tauto.
Qed.
Lemma entry_of_unique l e : NoDup (map e_id l) -> In e l -> entry_of (e_id e) l = Some e.
Proof.
  induction l as [|x l IH]; cbn; [tauto|]. intros N H. inversion N as [|? ? N1 N2]; subst.
  destruct (Nat.eqb_spec (e_id x) (e_id e)) as [E|E].
  - destruct H as [->|H]; [reflexivity|]. exfalso. apply N1. rewrite E. now apply in_map.
  - destruct H as [->|H]; [congruence|auto].
Qed.
Lemma same_id l e e' : NoDup (map e_id l) -> In e l -> In e' l -> e_id e = e_id e' -> e = e'.
Proof. intros N H H' E. apply (entry_of_unique _ _ N) in H, H'. congruence. Qed.

Lemma live_ok s p : live s p = true <-> p = O \/ exists e, In e (entries s) /\ e_id e = p /\ is_anon (e_what e) = true.
Proof.
  unfold live. rewrite orb_true_iff, Nat.eqb_eq, existsb_exists. split; (intros [H|H]; [auto|right]).
  - destruct H as (e & I & H). apply andb_true_iff in H. destruct H as [H1 H2]. apply Nat.eqb_eq in H1. eauto.
  - destruct H as (e & I & E & A). exists e. split; [assumption|]. rewrite A, andb_true_r. now apply Nat.eqb_eq.
Qed.

(** * Names *)
Lemma the_name_ok n m : ~ In 0 n -> the_name (Some n) = Ok m -> m = n /\ valid_name n.
Proof.
  intros N. unfold the_name. cbn [option_map]. pose proof (cstring_to_nul n) as C. rewrite to_nul_id in C by assumption.
  destruct (check_name_ok _ _ C) as [[E V]|[[e E] V]]; rewrite E; intros H; [|discriminate]. injection H as <-. auto.
Qed.
Lemma the_name_valid n : ~ In 0 n -> valid_name n -> the_name (Some n) = Ok n.
Proof.
  intros N V. unfold the_name. cbn [option_map]. pose proof (cstring_to_nul n) as C. rewrite to_nul_id in C by assumption.
  destruct (check_name_ok _ _ C) as [[E _]|[_ V']]; [now rewrite E|contradiction].
Qed.
Lemma the_name_bad n : ~ In 0 n -> ~ valid_name n -> the_name (Some n) = Throw InvalidObjectName.
Proof.
  intros N V. unfold the_name. cbn [option_map]. pose proof (cstring_to_nul n) as C. rewrite to_nul_id in C by assumption.
  destruct (check_name_ok _ _ C) as [[_ V']|[[e E] _]]; [contradiction|now rewrite E].
Qed.
Lemma the_name_null m : the_name None <> Ok m.
Proof. discriminate. Qed.

(** * One call *)

(** What an accepted publication does. *)
Definition puts (d : nat) (r : reg) (c : call) (s : pubs) (w : what) (n : list Z) (b : bool) : Prop :=
  publishes c = Some (n, b) /\ valid_name n /\
  (if b then ~ In n (map e_name (owned s (target c))) else ~ In n (map e_name (fields s (target c)))) /\
  match c with
  | PublishField _ _ u addr fl => exists f, place d r u addr fl = Some (Ok f) /\ w = Typed f
  | PublishIField _ _ f => w = Typed f
  | PublishSimpleArray _ _ count addr k fl => simple_array r count addr k fl = Ok w
  | PublishArray _ _ => w = AnonArray
  | PublishStructure _ _ => w = AnonStruct
  | Unpublish _ => False
  end.

Lemma add_own_ok s p n w s' i : (forall m, n = Some m -> ~ In 0 m) -> add_own s p n (Ok w) = (s', Ok i) ->
  exists m, n = Some m /\ valid_name m /\ ~ In m (map e_name (owned s p)) /\
    s' = Pubs (entries s ++ [Entry (fresh s) p true m w]) (S (fresh s)) /\ i = fresh s.
Proof.
  intros Z0. unfold add_own. destruct (the_name n) as [m|e|] eqn:E; try discriminate.
  unfold insert. destruct (find_named m (owned s p)) as [x|] eqn:F; cbn [taken]; [discriminate|].
  intros H. injection H as <- <-. destruct n as [n|]; [|discriminate]. apply the_name_ok in E; [|now apply Z0].
  destruct E as [-> V]. exists n. apply find_named_none in F. auto.
Qed.

Definition is_ok {E A} (x : res E A) : bool := match x with Ok _ => true | _ => false end.

Lemma step_cases d r c s s' x : proper_call c -> step d r c s = (s', x) ->
  (is_ok x = false /\ s' = s) \/
  (exists p, c = Unpublish p /\ live s p = true /\ x = Ok p /\ s' = Pubs (drop [p] (entries s)) (fresh s)) \/
  (exists w n b, puts d r c s w n b /\ live s (target c) = true /\ x = Ok (fresh s) /\
     s' = Pubs (entries s ++ [Entry (fresh s) (target c) b n w]) (S (fresh s))).
Proof.
  intros PC. unfold step. destruct (live s (target c)) eqn:L; cbn [negb].
  2:{ intros H. injection H as <- <-. now left. }
  assert (R : forall p n w, target c = p -> publishes c = option_map (fun m => (m, true)) n -> (forall m, n = Some m -> ~ In 0 m) ->
     (forall w', w = Ok w' -> match c with
       | PublishField _ _ u addr fl => exists f, place d r u addr fl = Some (Ok f) /\ w' = Typed f
       | PublishIField _ _ f => w' = Typed f
       | PublishSimpleArray _ _ count addr k fl => simple_array r count addr k fl = Ok w'
       | PublishArray _ _ => w' = AnonArray
       | PublishStructure _ _ => w' = AnonStruct
       | Unpublish _ => False
       end) ->
     add_own s p n w = (s', x) -> (is_ok x = false /\ s' = s) \/
     (exists w n b, puts d r c s w n b /\ live s p = true /\ x = Ok (fresh s) /\
       s' = Pubs (entries s ++ [Entry (fresh s) (target c) b n w]) (S (fresh s)))).
  { intros p n w <- PB Z0 M H. destruct x as [i|e|].
    2,3: left; split; [reflexivity|]; revert H; unfold add_own, insert; destruct (the_name n), w; try destruct (taken _); congruence.
    right. destruct w as [w|e|].
    2,3: exfalso; revert H; unfold add_own; destruct (the_name n); congruence.
    apply add_own_ok in H; [|assumption]. destruct H as (m & -> & V & N & -> & ->). exists w, m, true.
    split; [|auto]. split; [exact PB|]. split; [assumption|]. split; [assumption|]. now apply M. }
  destruct c as [p n u addr fl|p n f|p n count addr k fl|p n|p n|p]; cbn [target] in *.
  - destruct (place d r u addr fl) as [[f|e|]|] eqn:P; intros H.
    + apply R in H; [destruct H as [H|H]; [now left|right; right; rewrite L in H; exact H]|reflexivity|destruct n; reflexivity|intros m ->; exact PC|]. intros w' E. injection E as <-. eauto.
    + apply R in H; [destruct H as [H|H]; [now left|right; right; rewrite L in H; exact H]|reflexivity|destruct n; reflexivity|intros m ->; exact PC|discriminate].
    + injection H as <- <-. now left.
    + injection H as <- <-. now left.
  - unfold insert. destruct (at_name s p n) eqn:A; cbn [taken]; intros H; injection H as <- <-; [now left|]. right. right.
    exists (Typed f), n, false. split; [|auto]. split; [reflexivity|]. split; [apply PC|]. split; [|reflexivity].
    rewrite at_name_all in A. now apply find_named_none.
  - intros H. apply R in H; [destruct H as [H|H]; [now left|right; right; rewrite L in H; exact H]|reflexivity|destruct n; reflexivity|intros m ->; exact PC|]. auto.
  - intros H. apply R in H; [destruct H as [H|H]; [now left|right; right; rewrite L in H; exact H]|reflexivity|destruct n; reflexivity|intros m ->; exact PC|]. intros w' E. congruence.
  - intros H. apply R in H; [destruct H as [H|H]; [now left|right; right; rewrite L in H; exact H]|reflexivity|destruct n; reflexivity|intros m ->; exact PC|]. intros w' E. congruence.
  - intros H. injection H as <- <-. right. left. eauto.
Qed.

(** * Histories *)
Lemma run_app d r h1 : forall s h2, run d r s (h1 ++ h2) =
  (fst (run d r (fst (run d r s h1)) h2), snd (run d r s h1) ++ snd (run d r (fst (run d r s h1)) h2)).
Proof.
  induction h1 as [|c h1 IH]; intros s h2; cbn [app run].
  - cbn. now destruct (run d r s h2).
  - destruct (step d r c s) as [s1 x]. rewrite IH. destruct (run d r s1 h1) as [s2 t]. reflexivity.
Qed.
Lemma after_snoc d r h c : after d r (h ++ [c]) = fst (step d r c (after d r h)).
Proof. unfold after. rewrite run_app. cbn. destruct (step _ _ _ _). reflexivity. Qed.
Lemma trace_snoc d r h c : trace d r (h ++ [c]) = trace d r h ++ [(c, snd (step d r c (after d r h)))].
Proof. unfold trace, after. rewrite run_app. cbn. destruct (step _ _ _ _). reflexivity. Qed.
Lemma after_app d r h h' : after d r (h ++ h') = fst (run d r (after d r h) h').
Proof. unfold after. rewrite run_app. reflexivity. Qed.

Lemma drop_sub dead l : forall e, In e (drop dead l) -> In e l.
Proof.
  revert dead. induction l as [|x l IH]; intros dead e; cbn; [tauto|]. destruct (existsb _ _); cbn; [|intros [H|H]]; eauto.
Qed.
Lemma drop_nodup {A} (g : entry -> A) dead l : NoDup (map g l) -> NoDup (map g (drop dead l)).
Proof.
  revert dead. induction l as [|x l IH]; intros dead N; cbn; [constructor|]. inversion N as [|? ? N1 N2]; subst.
  destruct (existsb _ _); [auto|]. cbn. constructor; [|auto]. intros H. apply N1. apply in_map_iff in H. destruct H as (y & E & H).
  rewrite <- E. apply in_map. eapply drop_sub, H.
Qed.
Lemma drop_out dead l e : In e (drop dead l) -> ~ In (e_in e) dead.
Proof.
  revert dead. induction l as [|x l IH]; intros dead; cbn; [tauto|]. destruct (existsb (Nat.eqb (e_in x)) dead) eqn:E.
  - intros H I. apply (IH _ H). now right.
  - intros [<-|H]; [|auto]. intros I. assert (existsb (Nat.eqb (e_in x)) dead = true) by (apply existsb_exists; exists (e_in x); split; [exact I|apply Nat.eqb_refl]). congruence.
Qed.
Lemma filter_drop_nodup g dead l : NoDup (map e_name (filter g l)) -> NoDup (map e_name (filter g (drop dead l))).
Proof.
  revert dead. induction l as [|x l IH]; intros dead; cbn; [auto|]. intros N.
  assert (N' : NoDup (map e_name (filter g l))) by (destruct (g x); [now inversion N|assumption]).
  destruct (existsb _ _); [auto|]. cbn. destruct (g x); [|auto]. cbn in *. constructor; [|auto]. inversion N as [|? ? N1 N2]; subst.
  intros H. apply N1. apply in_map_iff in H. destruct H as (y & E & H). rewrite <- E. apply in_map. apply filter_In in H. apply filter_In.
  split; [|apply H]. eapply drop_sub, H.
Qed.
Lemma map_eq_nil_of {A B} (g : A -> B) l : (forall x, ~ In x l) -> map g l = [].
Proof. destruct l as [|x l]; [reflexivity|]. intros H. exfalso. apply (H x). now left. Qed.
(** A publication that survives keeps its fields. *)
Lemma drop_keeps g dead l p : NoDup (map e_id l) -> ~ In p dead -> (forall e, In e l -> e_id e = p -> In e (drop dead l)) ->
  (forall e, g e = true -> e_in e = p) -> filter g (drop dead l) = filter g l.
Proof.
  intros N D K G. revert dead D K. induction l as [|x l IH]; intros dead D K; cbn; [reflexivity|].
  inversion N as [|? ? N1 N2]; subst. destruct (existsb (Nat.eqb (e_in x)) dead) eqn:E.
  - assert (I : In (e_in x) dead). { apply existsb_exists in E. destruct E as (y & I & E). apply Nat.eqb_eq in E. now subst. }
    assert (GX : g x = false). { destruct (g x) eqn:GX; [|reflexivity]. apply G in GX. subst. contradiction. }
    rewrite GX. apply IH; [assumption| |].
    + intros [H|H]; [|contradiction]. assert (X : In x (drop dead (x :: l))) by (apply K; [now left|exact H]).
      cbn in X. rewrite E in X. apply N1. apply in_map. eapply drop_sub, X.
    + intros e H1 H2. assert (X : In e (drop dead (x :: l))) by (apply K; [now right|exact H2]). cbn in X. now rewrite E in X.
  - cbn. rewrite IH; [reflexivity|assumption|assumption|].
    intros e H1 H2. assert (X : In e (drop dead (x :: l))) by (apply K; [now right|exact H2]). cbn in X. rewrite E in X.
    destruct X as [<-|X]; [|assumption]. exfalso. apply N1. now apply in_map.
Qed.
(** What is inside a destroyed field is destroyed. *)
Definition older (e : entry) : Prop := (e_in e < e_id e)%nat.
Fixpoint sorted (l : list entry) : Prop :=
  match l with [] => True | e :: r => (forall x, In x r -> (e_id e < e_id x)%nat) /\ sorted r end.
Lemma sorted_snoc l e : sorted l -> (forall x, In x l -> (e_id x < e_id e)%nat) -> sorted (l ++ [e]).
Proof.
  induction l as [|y l IH]; cbn; [tauto|]. intros [S1 S2] H. split; [|apply IH; auto].
  intros x I. apply in_app_or in I. destruct I as [I|[<-|[]]]; auto.
Qed.
Lemma sorted_nodup l : sorted l -> NoDup (map e_id l).
Proof.
  induction l as [|x l IH]; cbn; [constructor|]. intros [H S1]. constructor; [|auto]. intros I. apply in_map_iff in I.
  destruct I as (y & E & I). apply H in I. lia.
Qed.
Lemma drop_sorted dead l : sorted l -> sorted (drop dead l).
Proof.
  revert dead. induction l as [|x l IH]; intros dead; cbn; [tauto|]. intros [H S1]. destruct (existsb _ _); [auto|].
  cbn. split; [|auto]. intros y I. apply H. eapply drop_sub, I.
Qed.
Lemma drop_inside dead l e c : sorted l -> (forall x, In x l -> older x) -> In e l -> e_in c = e_id e ->
  In c (drop dead l) -> In e (drop dead l).
Proof.
  revert dead. induction l as [|x l IH]; intros dead S O I K; cbn; [tauto|]. destruct S as [S1 S2].
  assert (O' : forall y, In y l -> older y) by (intros y Y; apply O; now right).
  destruct (existsb (Nat.eqb (e_in x)) dead) eqn:E.
  - intros H. destruct I as [->|I]; [|now apply IH]. apply drop_out in H. exfalso. apply H. left. auto.
  - cbn. intros [H|H].
    + subst x. pose proof (O c (or_introl eq_refl)) as Oc. unfold older in Oc. destruct I as [<-|I]; [lia|]. apply S1 in I. lia.
    + destruct I as [->|I]; [now left|]. right. now apply IH.
Qed.

(** What is true after every history. *)
Record inv (h : list call) (t : list (call * res texn nat)) (s : pubs) : Prop := {
  i_sorted : sorted (entries s);
  i_range : forall e, In e (entries s) -> (e_in e < e_id e < fresh s)%nat;
  i_parent : forall e, In e (entries s) -> live s (e_in e) = true;
  i_valid : forall e, In e (entries s) -> valid_name (e_name e) /\ match e_what e with Typed f => well_formed f | _ => True end;
  i_owned : forall p, NoDup (map e_name (owned s p));
  i_added : forall p, NoDup (map e_name (added s p));
  i_from : forall e, In e (entries s) -> exists h1 c h2, h = h1 ++ c :: h2 /\ target c = e_in e /\ publishes c = Some (e_name e, e_owned e);
  i_noted : forall p, live s p = true ->
    map (fun e => (e_name e, e_owned e, e_id e)) (filter (fun e => (e_in e =? p)%nat) (entries s)) = published p t;
  i_later : forall p, (fresh s <= p)%nat -> published p t = [];
  i_fresh : (0 < fresh s)%nat
}.

Lemma live_snoc s e p : live (Pubs (entries s ++ [e]) (S (fresh s))) p = live s p || ((e_id e =? p)%nat && is_anon (e_what e)).
Proof. unfold live. cbn [entries]. rewrite existsb_app. cbn. now rewrite orb_false_r, orb_assoc. Qed.

Lemma live_range h t s p : inv h t s -> live s p = true -> (p < fresh s)%nat.
Proof.
  intros V L. apply live_ok in L. destruct L as [->|(e & I & <- & _)]; [apply V|]. now apply (i_range _ _ _ V).
Qed.

Lemma wf_place d : forall r u addr fl f, counts_fit r -> place d r u addr fl = Some (Ok f) -> well_formed f.
Proof.
  induction d as [|d IH]; intros r u addr fl f CF; cbn [place]; [discriminate|].
  destruct (get_type r u) as [t|] eqn:G; [|discriminate]. intros H. injection H as H.
  assert (FS : forall fs l acc, place_fields (place d r) addr fl fs acc = Ok l -> NoDup (map fst acc) ->
     (forall n c, In (n, c) acc -> valid_name n /\ well_formed c) ->
     NoDup (map fst l) /\ forall n c, In (n, c) l -> valid_name n /\ well_formed c).
  { induction fs as [|g fs IHf]; intros l acc E N W; cbn [place_fields] in E; [injection E as <-; auto|].
    destruct (place d r (sf_type g) (addr + sf_offset g) _) as [x|] eqn:P; [|discriminate].
    destruct (check_name_ok _ _ (cstring_to_nul (sf_name g))) as [[C V]|[[e C] V]]; rewrite C in E; [|discriminate].
    destruct x as [q|e|]; [|discriminate|discriminate]. destruct (has_child _ acc) eqn:HC; [discriminate|].
    apply IHf in E; [exact E| |].
    - rewrite map_app. apply NoDup_snoc; [assumption|]. intros I. apply PlaceProofs.has_child_in in I. cbn in I. congruence.
    - intros n c I. apply in_app_or in I. destruct I as [I|[I|[]]]; [now apply W|]. injection I as <- <-.
      split; [assumption|]. eapply IH, P. assumption. }
  destruct (ty_kind t) eqn:K;
    try (destruct (u =? uString8); [discriminate|]; injection H as <-; constructor).
  destruct (ty_def t) as [k|k lits|k lo hi a b|k lo hi|len|item isize count simple|fs|base fs] eqn:D; try discriminate.
  - destruct (get_type r item) as [it|]; [|discriminate]. destruct (simple && _); [injection H as <-; constructor|].
    destruct (collect _) as [l| |] eqn:C; cbn [bind] in H; try discriminate. injection H as <-.
    apply PlaceProofs.collect_nth in C. destruct C as [L C]. rewrite map_length, seq_length in L. constructor.
    + pose proof (CF _ _ _ _ _ _ G D) as B. rewrite L. unfold i64_max in *. lia.
    + intros c I. apply In_nth_error in I. destruct I as [i I]. apply C in I. rewrite nth_error_map in I.
      destruct (nth_error (seq 0 _) i) as [j|]; [|discriminate]. cbn in I. destruct (place d r item _ fl) as [y|] eqn:P; [|discriminate].
      injection I as ->. eapply IH, P. assumption.
  - destruct (place_fields _ addr fl fs []) as [l| |] eqn:P; cbn [bind] in H; try discriminate. injection H as <-.
    apply FS in P; [|constructor|intros ? ? []]. constructor; apply P.
  - destruct (place_fields _ addr fl fs []) as [l| |] eqn:P; cbn [bind] in H; try discriminate. injection H as <-.
    apply FS in P; [|constructor|intros ? ? []]. constructor; apply P.
Qed.

Lemma published_snoc p t x : published p (t ++ [x]) = note p (published p t) x.
Proof. unfold published. now rewrite fold_left_app. Qed.

Lemma note_failed p l c x : is_ok x = false -> note p l (c, x) = l.
Proof. destruct x; [discriminate| |]; destruct c; reflexivity. Qed.

Lemma inv_init : inv [] [] no_fields.
Proof. constructor; cbn; try tauto; try (intros; constructor); try lia. Qed.

Lemma inv_step d r h t s c : counts_fit r -> proper_call c -> inv h t s ->
  inv (h ++ [c]) (t ++ [(c, snd (step d r c s))]) (fst (step d r c s)).
Proof.
  intros CF PC V. destruct (step d r c s) as [s' x] eqn:E. cbn [fst snd].
  assert (FR : forall e h0, (exists h1 c0 h2, h0 = h1 ++ c0 :: h2 /\ target c0 = e_in e /\ publishes c0 = Some (e_name e, e_owned e)) ->
     exists h1 c0 h2, h0 ++ [c] = h1 ++ c0 :: h2 /\ target c0 = e_in e /\ publishes c0 = Some (e_name e, e_owned e)).
  { intros e h0 (h1 & c0 & h2 & -> & X). exists h1, c0, (h2 ++ [c]). split; [|exact X]. now rewrite <- app_assoc. }
  apply step_cases in E; [|assumption]. destruct E as [[F ->]|[(p & -> & L & -> & ->)|(w & n & b & P & L & -> & ->)]].
  - constructor; try apply V.
    + intros e I. apply FR. now apply V.
    + intros p L. rewrite published_snoc, note_failed by assumption. now apply V.
    + intros p L. rewrite published_snoc, note_failed by assumption. now apply V.
  - pose proof (sorted_nodup _ (i_sorted _ _ _ V)) as ND. pose proof (drop_sub [p] (entries s)) as DS.
    assert (OL : forall x, In x (entries s) -> older x) by (intros y Y; apply (i_range _ _ _ V y Y)).
    constructor; cbn [entries fresh].
    + now apply drop_sorted, V.
    + intros e I. apply V. now apply DS.
    + intros e I. pose proof (i_parent _ _ _ V e (DS e I)) as LP. apply live_ok in LP. apply live_ok.
      destruct LP as [LP|(q & Iq & Eq & Aq)]; [auto|]. right. exists q. cbn [entries]. split; [|auto].
      eapply drop_inside; [apply V|exact OL|exact Iq|symmetry; exact Eq|exact I].
    + intros e I. apply V. now apply DS.
    + intros q. unfold owned. cbn [entries]. pose proof (i_owned _ _ _ V q) as N. unfold owned in N. revert N. apply filter_drop_nodup.
    + intros q. unfold added. cbn [entries]. pose proof (i_added _ _ _ V q) as N. unfold added in N. revert N. apply filter_drop_nodup.
    + intros e I. apply FR. apply V. now apply DS.
    + intros q LQ. rewrite published_snoc. cbn [note]. destruct (Nat.eqb_spec p q) as [EQ|NQ].
      * subst q. apply map_eq_nil_of. intros e I. apply filter_In in I. destruct I as [I EI]. apply Nat.eqb_eq in EI.
        apply drop_out in I. apply I. now left.
      * rewrite (drop_keeps _ [p] (entries s) q).
        -- apply V. apply live_ok. apply live_ok in LQ. destruct LQ as [LQ|(e & I & X)]; [auto|]. right. exists e. split; [now apply DS|exact X].
        -- exact ND.
        -- intros [X|[]]. congruence.
        -- intros e I X. apply live_ok in LQ. destruct LQ as [LQ|(e' & I' & X' & _)].
           ++ pose proof (i_range _ _ _ V e I). lia.
           ++ cbn [entries] in I'. rewrite (same_id (entries s) e e' ND I (DS _ I')) by congruence. exact I'.
        -- intros e X. now apply Nat.eqb_eq.
    + intros q LQ. rewrite published_snoc. cbn [note]. rewrite (i_later _ _ _ V q LQ). now destruct (p =? q)%nat.
    + apply V.
  - pose proof P as (PB & VN & NI & W). set (e0 := Entry (fresh s) (target c) b n w).
    assert (LT : (target c < fresh s)%nat) by (eapply live_range; eassumption).
    assert (PN : forall q, published q (t ++ [(c, Ok (fresh s))]) = if (target c =? q)%nat then published q t ++ [(n, b, fresh s)] else published q t).
    { intros q. rewrite published_snoc. destruct c; cbn [note target] in *; try (now destruct W); rewrite PB; reflexivity. }
    constructor; cbn [entries fresh].
    + apply sorted_snoc; [apply V|]. intros x I. apply (i_range _ _ _ V) in I. cbn. lia.
    + intros e I. apply in_app_or in I. destruct I as [I|[<-|[]]]; [apply (i_range _ _ _ V) in I; lia|]. cbn. lia.
    + intros e I. rewrite live_snoc. apply in_app_or in I. destruct I as [I|[<-|[]]]; [|cbn [e_in e0]; now rewrite L].
      now rewrite (i_parent _ _ _ V e I).
    + intros e I. apply in_app_or in I. destruct I as [I|[<-|[]]]; [now apply V|]. cbn [e_name e_what e0]. split; [assumption|].
      destruct c; cbn [proper_call] in PC; try (now destruct W); try (now rewrite W).
      * destruct W as (f & PL & ->). eapply wf_place; eassumption.
      * revert W. unfold simple_array. destruct (get_type_kind r k); [|discriminate]. destruct (FieldStoreModel.kind_size k); [|discriminate].
        intros W. injection W as <-. constructor.
    + intros q. unfold owned. cbn [entries]. rewrite filter_app. cbn [filter]. fold (owned s q). cbn [e_in e_owned e0].
      destruct (Nat.eqb_spec (target c) q) as [EQ|NQ]; [|cbn [andb]; rewrite app_nil_r; apply V].
      destruct b; cbn [andb]; [|rewrite app_nil_r; apply V]. rewrite map_app. apply NoDup_snoc; [apply V|]. cbn. now rewrite <- EQ.
    + intros q. unfold added. cbn [entries]. rewrite filter_app. cbn [filter]. fold (added s q). cbn [e_in e_owned e0].
      destruct (Nat.eqb_spec (target c) q) as [EQ|NQ]; [|cbn [andb]; rewrite app_nil_r; apply V].
      destruct b; cbn [andb negb]; [rewrite app_nil_r; apply V|]. rewrite map_app. apply NoDup_snoc; [apply V|]. cbn. rewrite <- EQ.
      intros I. apply NI. unfold fields. rewrite map_app. apply in_or_app. now right.
    + intros e I. apply in_app_or in I. destruct I as [I|[<-|[]]]; [apply FR; now apply V|].
      exists h, c, []. auto.
    + intros q LQ. rewrite live_snoc in LQ. rewrite filter_app, map_app, PN. cbn [filter e_in e0].
      assert (X : map (fun e => (e_name e, e_owned e, e_id e)) (filter (fun e => (e_in e =? q)%nat) (entries s)) = published q t).
      { destruct (live s q) eqn:LS; [now apply V|]. cbn [orb] in LQ. apply andb_true_iff in LQ. destruct LQ as [LQ _]. apply Nat.eqb_eq in LQ.
        cbn in LQ. rewrite (i_later _ _ _ V q) by lia. apply map_eq_nil_of. intros e I. apply filter_In in I. destruct I as [I EI].
        apply Nat.eqb_eq in EI. pose proof (i_range _ _ _ V e I). lia. }
      rewrite X. destruct (target c =? q)%nat; [reflexivity|]. apply app_nil_r.
    + intros q LQ. rewrite PN. rewrite (i_later _ _ _ V q) by lia. destruct (Nat.eqb_spec (target c) q); [lia|reflexivity].
    + lia.
Qed.

Lemma reach d r h : counts_fit r -> Forall proper_call h -> inv h (trace d r h) (after d r h).
Proof.
  intros CF. induction h as [|c h IH] using rev_ind; intros F; [apply inv_init|].
  apply Forall_app in F. destruct F as [F1 F2]. inversion F2; subst. rewrite trace_snoc, after_snoc. apply inv_step; auto.
Qed.

Lemma unique_names d r h p : counts_fit r -> Forall proper_call h -> no_shadow h -> NoDup (map e_name (fields (after d r h) p)).
Proof.
  intros CF. induction h as [|c h IH] using rev_ind; intros F NS; [constructor|].
  pose proof (reach d r h CF) as V. apply Forall_app in F. destruct F as [F1 F2]. inversion F2 as [|? ? PC ?]; subst. specialize (V F1).
  assert (NS' : no_shadow h).
  { intros h1 c1 h2 c2 h3 n -> T P1 P2. apply (NS h1 c1 h2 c2 (h3 ++ [c]) n); auto. rewrite <- app_assoc. cbn. now rewrite <- app_assoc. }
  specialize (IH F1 NS'). rewrite after_snoc. set (s := after d r h) in *. destruct (step d r c s) as [s' x] eqn:E. cbn [fst].
  apply step_cases in E; [|assumption]. destruct E as [[_ ->]|[(q & -> & L & -> & ->)|(w & n & b & P & L & -> & ->)]].
  - assumption.
  - unfold fields, owned, added in *. cbn [entries]. rewrite map_app in *.
    assert (X : forall l dead, NoDup (map e_name (filter (fun e => (e_in e =? p)%nat && e_owned e) l) ++ map e_name (filter (fun e => (e_in e =? p)%nat && negb (e_owned e)) l)) ->
      NoDup (map e_name (filter (fun e => (e_in e =? p)%nat && e_owned e) (drop dead l)) ++ map e_name (filter (fun e => (e_in e =? p)%nat && negb (e_owned e)) (drop dead l)))).
    { clear. induction l as [|y l IH]; intros dead; cbn; [auto|]. intros N.
      assert (SB : forall dead e, In e (drop dead l) -> In e l) by (intros; eapply drop_sub; eassumption).
      assert (N' : NoDup (map e_name (filter (fun e => (e_in e =? p)%nat && e_owned e) l) ++ map e_name (filter (fun e => (e_in e =? p)%nat && negb (e_owned e)) l))).
      { destruct (e_in y =? p)%nat, (e_owned y); cbn in N; try assumption; [now inversion N|]. now apply NoDup_remove_1 in N. }
      destruct (existsb _ _); [now apply IH|]. specialize (IH dead N'). cbn [filter].
      assert (IN : forall z, In z (map e_name (filter (fun e => (e_in e =? p)%nat && e_owned e) (drop dead l)) ++ map e_name (filter (fun e => (e_in e =? p)%nat && negb (e_owned e)) (drop dead l))) ->
         In z (map e_name (filter (fun e => (e_in e =? p)%nat && e_owned e) l) ++ map e_name (filter (fun e => (e_in e =? p)%nat && negb (e_owned e)) l))).
      { intros z. rewrite !in_app_iff, !in_map_iff. intros [(e & H1 & H2)|(e & H1 & H2)]; apply filter_In in H2; [left|right]; exists e;
          (split; [assumption|]); apply filter_In; (split; [eapply SB, H2|apply H2]). }
      destruct (e_in y =? p)%nat, (e_owned y); cbn in *; try assumption.
      - inversion N as [|? ? N1 N2]; subst. constructor; [|assumption]. intros I. now apply N1, IN.
      - apply NoDup_remove in N. destruct N as [_ N]. apply NoDup_Add with (a := e_name y) (l := map e_name (filter (fun e => (e_in e =? p)%nat && e_owned e) (drop dead l)) ++ map e_name (filter (fun e => (e_in e =? p)%nat && negb (e_owned e)) (drop dead l))).
        + apply Add_app.
        + split; [assumption|]. intros I. now apply N, IN. }
    now apply X.
  - destruct P as (PB & VN & NI & W). unfold fields, owned, added in *. cbn [entries]. rewrite !filter_app. cbn [filter e_in e_owned].
    destruct (Nat.eqb_spec (target c) p) as [EQ|NQ]; [|cbn [andb]; rewrite !app_nil_r; exact IH].
    destruct b; cbn [andb negb].
    + rewrite app_nil_r. rewrite <- app_assoc. cbn [app]. rewrite map_app. cbn [map e_name]. rewrite map_app in IH.
      apply NoDup_Add with (a := n) (l := map e_name (filter (fun e => (e_in e =? p)%nat && e_owned e) (entries s)) ++ map e_name (filter (fun e => (e_in e =? p)%nat && negb (e_owned e)) (entries s))).
      * apply Add_app.
      * split; [assumption|]. intros I. apply in_app_or in I. rewrite EQ in NI. destruct I as [I|I]; [contradiction|].
        apply in_map_iff in I. destruct I as (e & En & I). apply filter_In in I. destruct I as [I J]. apply andb_true_iff in J. destruct J as [J1 J2].
        apply Nat.eqb_eq in J1. apply negb_true_iff in J2. destruct (i_from _ _ _ V e I) as (h1 & c1 & h2 & Eh & T1 & P1).
        rewrite J2 in P1. apply (NS h1 c1 h2 c [] n); [rewrite Eh, <- app_assoc; reflexivity|congruence|congruence|assumption].
    + rewrite app_nil_r. rewrite app_assoc, map_app. apply NoDup_snoc; [exact IH|]. rewrite EQ in NI. exact NI.
Qed.

(** * Searching *)
Lemma item_valid i : valid_name (PM.item_name i).
Proof.
  unfold PM.item_name. destruct (PP.decimal_spec i) as (dg & -> & F & D & _). apply vn_index; [assumption|].
  eapply Forall_impl; [|exact F]. cbn. intros a. now rewrite isdigit_ok.
Qed.

Lemma first_segments n st : valid_name n -> Forall PP.good_step st -> PM.segments (n ++ flat_map PP.render st) = (0, n) :: st.
Proof.
  intros V G. unfold PM.segments. rewrite app_length. pose proof (PP.valid_nonempty n V) as N.
  destruct n as [|a n]; [congruence|]. cbn [length plus PM.segments_n]. unfold PM.next_segment.
  rewrite PP.skip_name by assumption. rewrite PP.first_segment_name; [|assumption|].
  - f_equal. apply PP.segments_n_render; [assumption|lia].
  - rewrite <- (app_nil_r (flat_map PP.render st)). now apply PP.render_boundary.
Qed.

Lemma dot_step n : valid_name n -> PP.good_step (46, n).
Proof. intros V. split; [exact V|]. cbn. auto. Qed.
Lemma item_step i : PP.good_step (0, PM.item_name i).
Proof. split; [apply item_valid|]. cbn. right. right. split; [reflexivity|]. unfold PM.item_name. eauto. Qed.

Lemma child_pos_ok fs i n c : NoDup (map fst fs) -> nth_error fs i = Some (n, c) -> child_pos n fs = Some (i, c).
Proof.
  revert i. induction fs as [|[m x] fs IH]; intros i N H; [destruct i; discriminate|]. cbn [child_pos].
  inversion N as [|? ? N1 N2]; subst. destruct i as [|i]; cbn in H.
  - injection H as -> ->. assert (list_eqb n n = true) as -> by now apply list_eqb_eq. reflexivity.
  - destruct (list_eqb n m) eqn:E.
    + apply list_eqb_eq in E. subst m. exfalso. apply N1. apply nth_error_In in H. apply (in_map fst) in H. exact H.
    + rewrite (IH i N2 H). reflexivity.
Qed.
Lemma child_pos_nth n fs i c : child_pos n fs = Some (i, c) -> nth_error fs i = Some (n, c).
Proof.
  revert i. induction fs as [|[m x] fs IH]; intros i; cbn; [discriminate|]. destruct (list_eqb n m) eqn:E.
  - intros H. injection H as <- <-. apply list_eqb_eq in E. now subst.
  - destruct (child_pos n fs) as [[j y]|]; cbn; [|discriminate]. intros H. injection H as <- <-. cbn. now apply IH.
Qed.

Lemma spells_steps f p t : well_formed f -> spells f p t ->
  exists st, t = flat_map PP.render st /\ Forall PP.good_step st /\ inside f st = Found p.
Proof.
  intros W SP. revert W. induction SP as [f|fs fl i n c p t Hn SP IH|items fl i c p t Hn SP IH]; intros W.
  - exists []. split; [reflexivity|]. split; [constructor|]. now destruct f.
  - inversion W as [| | |? ? ND WF]; subst. pose proof (nth_error_In _ _ Hn) as I. apply WF in I. destruct I as [VN WC].
    destruct (IH WC) as (st & -> & G & E). exists ((46, n) :: st). split; [reflexivity|]. split; [constructor; [now apply dot_step|assumption]|].
    cbn [inside]. rewrite (PP.valid_not_dotdot n VN). rewrite (child_pos_ok fs i n c ND Hn), E. reflexivity.
  - inversion W as [| |? ? B WF|]; subst. pose proof (nth_error_In _ _ Hn) as I. apply WF in I.
    destruct (IH I) as (st & -> & G & E). exists ((0, PM.item_name i) :: st). split; [reflexivity|]. split; [constructor; [apply item_step|assumption]|].
    cbn [inside]. rewrite (PP.valid_not_dotdot _ (item_valid i)). rewrite PP.item_index_ok; [|apply nth_error_Some; congruence|assumption].
    rewrite Hn, E. reflexivity.
Qed.

Lemma fields_length s p : (length (fields s p) <= length (entries s))%nat.
Proof.
  unfold fields, owned, added. rewrite app_length. induction (entries s) as [|e l IH]; cbn; [lia|].
  destruct (e_in e =? p)%nat, (e_owned e); cbn; lia.
Qed.

Lemma leads_steps h t s e u x : inv h t s -> (forall p, NoDup (map e_name (fields s p))) -> small s -> In e (entries s) -> leads s e u x ->
  exists st, u = flat_map PP.render st /\ Forall PP.good_step st /\ from_field s e st = Found x.
Proof.
  intros V U SM I L. revert I. induction L as [e f p u W SP|e A|e c u x W Ic L IH|e i c u x W Ic L IH]; intros I.
  - pose proof (i_valid _ _ _ V e I) as [_ X]. rewrite W in X. destruct (spells_steps f p u X SP) as (st & -> & G & E).
    exists st. split; [reflexivity|]. split; [assumption|]. destruct st; cbn [from_field]; rewrite W, E; reflexivity.
  - exists []. split; [reflexivity|]. split; [constructor|]. cbn. destruct (e_what e); [discriminate| |]; reflexivity.
  - pose proof (proj1 (in_fields s _ c) Ic) as [Icc _]. destruct (IH Icc) as (st & -> & G & E). pose proof (i_valid _ _ _ V c Icc) as [VN _].
    exists ((46, e_name c) :: st). split; [reflexivity|]. split; [constructor; [now apply dot_step|assumption]|].
    cbn [from_field]. rewrite W, (PP.valid_not_dotdot _ VN), at_name_all, (find_named_first _ _ (U _) Ic). exact E.
  - pose proof (nth_error_In _ _ Ic) as Ic'. pose proof (proj1 (in_fields s _ c) Ic') as [Icc _]. destruct (IH Icc) as (st & -> & G & E).
    exists ((0, PM.item_name i) :: st). split; [reflexivity|]. split; [constructor; [apply item_step|assumption]|].
    cbn [from_field]. rewrite W, (PP.valid_not_dotdot _ (item_valid i)). rewrite PP.item_index_ok, Ic; [exact E|apply nth_error_Some; congruence|].
    pose proof (fields_length s (e_id e)). unfold small in SM. lia.
Qed.

Lemma searches_entry h t s p : inv h t s -> searches s p -> option_map e_what (entry_of p (entries s)) <> Some AnonStruct.
Proof.
  intros V R. destruct (entry_of p (entries s)) as [e|] eqn:E; [|discriminate]. apply entry_of_in in E. destruct E as [I E].
  cbn. rewrite (R e I E). discriminate.
Qed.

Lemma get_field_search s p t : option_map e_what (entry_of p (entries s)) <> Some AnonStruct ->
  get_field s p (Some t) = match from_fields s p (PM.segments t) with Found x => Got x | Nothing => InvalidFieldName | Elsewhere => Outside end.
Proof. intros N. unfold get_field. destruct (option_map _ _) as [[f| |]|]; try reflexivity. congruence. Qed.

Lemma found h t s p u x : inv h t s -> (forall p, NoDup (map e_name (fields s p))) -> small s -> searches s p -> leads_from s p u x ->
  get_field s p (Some u) = Got x.
Proof.
  intros V U SM R (e & u' & I & -> & L). rewrite get_field_search by (eapply searches_entry; eassumption).
  pose proof (proj1 (in_fields s _ e) I) as [Ie _].
  destruct (leads_steps h t s e u' x V U SM Ie L) as (st & -> & G & E). pose proof (i_valid _ _ _ V e Ie) as [VN _].
  rewrite first_segments by assumption. cbn [from_fields]. rewrite (PP.valid_not_dotdot _ VN), at_name_all, (find_named_first _ _ (U _) I), E. reflexivity.
Qed.

Lemma inside_part segs : forall f p, inside f segs = Found p -> part p f.
Proof.
  induction segs as [|[sep seg] segs IH]; intros f p; cbn [inside].
  - intros H. injection H as <-. now destruct f.
  - destruct (list_eqb _ _); [discriminate|]. destruct f as [a l fl|a l is ct fl|items fl|fs fl]; try discriminate.
    + destruct (PM.item_index seg _) as [i|]; [|discriminate]. destruct (nth_error items i) as [c|] eqn:N; [|discriminate].
      destruct (inside c segs) as [q| |] eqn:E; cbn; try discriminate. intros H. injection H as <-. cbn. rewrite N. now apply IH.
    + destruct (child_pos seg fs) as [[i c]|] eqn:N; [|discriminate]. destruct (inside c segs) as [q| |] eqn:E; cbn; try discriminate.
      intros H. injection H as <-. apply child_pos_nth in N. cbn. rewrite N. now apply IH.
Qed.

Lemma from_field_below s p segs : forall e x, below s p e -> from_field s e segs = Found x -> exists_below s p x.
Proof.
  induction segs as [|[sep seg] segs IH]; intros e x B; cbn [from_field].
  - destruct (e_what e) as [f| |] eqn:W.
    + cbn. intros H. injection H as <-. exists e. rewrite W. cbn. auto.
    + intros H. injection H as <-. exists e. rewrite W. auto.
    + intros H. injection H as <-. exists e. rewrite W. auto.
  - destruct (e_what e) as [f| |] eqn:W.
    + destruct (inside f _) as [q| |] eqn:E; cbn; try discriminate. intros H. injection H as <-. exists e. rewrite W.
      split; [assumption|]. split; [reflexivity|]. cbn. eapply inside_part, E.
    + destruct (list_eqb _ _); [discriminate|]. destruct (PM.item_index seg _) as [i|]; [|discriminate].
      destruct (nth_error _ i) as [c|] eqn:N; [|discriminate]. apply IH. eapply be_inside; [exact B|]. eapply nth_error_In, N.
    + destruct (list_eqb _ _); [discriminate|]. rewrite at_name_all. destruct (find_named seg _) as [c|] eqn:N; [|discriminate].
      apply IH. eapply be_inside; [exact B|]. eapply find_named_some, N.
Qed.

Lemma get_field_below s p t x : get_field s p t = Got x -> exists_below s p x.
Proof.
  assert (G : forall t, match from_fields s p (PM.segments t) with Found x => Got x | Nothing => InvalidFieldName | Elsewhere => Outside end = Got x -> exists_below s p x).
  { intros u. destruct (PM.segments u) as [|[sep seg] segs]; cbn [from_fields]; [discriminate|]. destruct (list_eqb _ _); [discriminate|].
    rewrite at_name_all. destruct (find_named seg _) as [e|] eqn:N; [|discriminate]. destruct (from_field s e segs) as [y| |] eqn:F; try discriminate.
    intros H. injection H as ->. eapply from_field_below, F. apply be_here. eapply find_named_some, N. }
  unfold get_field. destruct (option_map e_what _) as [[f| |]|].
  1,2,4: destruct t as [u|]; [apply G|discriminate].
  destruct t as [u|]; [|discriminate]. rewrite at_name_all. destruct (find_named u _) as [e|] eqn:N; [|discriminate].
  intros H. injection H as <-. exists e. split; [apply be_here; eapply find_named_some, N|]. split; [reflexivity|]. cbn. now destruct (e_what e) as [[]| |].
Qed.

(** * GetPath *)
Lemma parent_path_search h t s : inv h t s -> (forall p, NoDup (map e_name (fields s p))) ->
  forall q, in_structures s q -> forall n c st, (q < n)%nat -> In c (fields s q) -> Forall PP.good_step st ->
    from_fields s 0 (PM.segments (parent_path n s q ++ e_name c ++ flat_map PP.render st)) = from_field s c st.
Proof.
  intros V U q IS. induction IS as [|e I W IS IH]; intros n c st LN Ic G.
  - destruct n as [|n]; [lia|]. cbn [parent_path Nat.eqb app]. pose proof (proj1 (in_fields s _ c) Ic) as [Icc _].
    pose proof (i_valid _ _ _ V c Icc) as [VN _]. rewrite first_segments by assumption. cbn [from_fields].
    rewrite (PP.valid_not_dotdot _ VN), at_name_all, (find_named_first _ _ (U _) Ic). reflexivity.
  - destruct n as [|n]; [lia|]. cbn [parent_path]. pose proof (i_range _ _ _ V e I) as R. destruct (Nat.eqb_spec (e_id e) 0) as [E0|E0]; [lia|].
    rewrite (entry_of_unique _ _ (sorted_nodup _ (i_sorted _ _ _ V)) I), W. rewrite <- !app_assoc.
    pose proof (proj1 (in_fields s _ c) Ic) as [Icc _]. pose proof (i_valid _ _ _ V c Icc) as [VN _].
    change ([46] ++ e_name c ++ flat_map PP.render st) with (flat_map PP.render ((46, e_name c) :: st)).
    rewrite IH; [|lia|now apply in_fields|constructor; [now apply dot_step|assumption]].
    cbn [from_field]. rewrite W, (PP.valid_not_dotdot _ VN), at_name_all, (find_named_first _ _ (U _) Ic). reflexivity.
Qed.

Lemma root_searches h t s : inv h t s -> searches s 0.
Proof. intros V e I E. pose proof (i_range _ _ _ V e I). lia. Qed.

Lemma path_found h t s e : inv h t s -> (forall p, NoDup (map e_name (fields s p))) -> In e (entries s) -> in_structures s (e_in e) ->
  get_field s 0 (Some (path_of s e)) = Got (e_id e, []).
Proof.
  intros V U I IS. rewrite get_field_search by (eapply searches_entry; [exact V|eapply root_searches, V]).
  unfold path_of. rewrite <- (app_nil_r (e_name e)). change (@nil Z) with (flat_map PP.render []) at 1.
  rewrite (parent_path_search h t s V U _ IS) by (try lia; try constructor; now apply in_fields).
  cbn [from_field]. destruct (e_what e) as [[]| |]; reflexivity.
Qed.

(** * Emptying *)
Lemma kept d r h' : forall s, (forall c, In c h' -> forall p, c <> Unpublish p) -> Forall proper_call h' ->
  forall e, In e (entries s) -> In e (entries (fst (run d r s h'))).
Proof.
  induction h' as [|c h' IH]; intros s N F e I; cbn [run]; [assumption|]. destruct (step d r c s) as [s1 x] eqn:E.
  inversion F as [|? ? PC F']; subst. specialize (IH s1 (fun y H => N y (or_intror H)) F' e). destruct (run d r s1 h') as [s2 t]. cbn [fst] in *.
  apply IH. apply step_cases in E; [|assumption]. destruct E as [[_ ->]|[(p & -> & _)|(w & n & b & _ & _ & _ & ->)]].
  - assumption.
  - exfalso. apply (N (Unpublish p) (or_introl eq_refl) p eq_refl).
  - cbn. apply in_or_app. now left.
Qed.

Lemma drop_fields s p : fields (Pubs (drop [p] (entries s)) (fresh s)) p = [].
Proof.
  destruct (fields (Pubs (drop [p] (entries s)) (fresh s)) p) as [|e l] eqn:E; [reflexivity|]. exfalso.
  assert (I : In e (fields (Pubs (drop [p] (entries s)) (fresh s)) p)) by (rewrite E; now left).
  apply in_fields in I. cbn in I. destruct I as [I X]. apply drop_out in I. apply I. now left.
Qed.

Lemma below_in s p e : below s p e -> In e (entries s).
Proof. intros B. destruct B as [e I|e c _ I]; now apply in_fields in I. Qed.

(** What is not published below an emptied publication stays. *)
Lemma drop_other h t s : inv h t s -> forall p e, In e (entries s) -> ~ below s p e -> In e (drop [p] (entries s)).
Proof.
  intros V p.
  assert (X : forall l dead, (forall x, In x l -> In x (entries s)) -> (forall q, In q dead -> q = p \/ exists e, below s p e /\ e_id e = q) ->
     forall e, In e l -> ~ below s p e -> In e (drop dead l)).
  { induction l as [|x l IH]; intros dead SB D e I NB; [destruct I|]. cbn [drop]. destruct (existsb (Nat.eqb (e_in x)) dead) eqn:E.
    - apply existsb_exists in E. destruct E as (q & Iq & E). apply Nat.eqb_eq in E.
      assert (B : below s p x).
      { destruct (D q Iq) as [->|(y & By & Ey)]; [apply be_here|apply be_inside with (e := y); [assumption|]]; apply in_fields; (split; [apply SB; now left|congruence]). }
      destruct I as [->|I]; [contradiction|]. apply IH; [intros y Iy; apply SB; now right| |assumption|assumption].
      intros q' [<-|I']; [right; eauto|now apply D].
    - destruct I as [->|I]; [now left|right]. apply IH; [intros y Iy; apply SB; now right| |assumption|assumption]. exact D. }
  intros e I NB. apply X; auto. intros q [<-|[]]. now left.
Qed.
