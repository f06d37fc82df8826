From Coq Require Import List Bool Arith Lia.
From Verif Require Import Base CmpModel CmpSpec.
Import ListNotations.
Local Open Scope nat_scope.

Lemma cstate_eqb_eq : forall a b, cstate_eqb a b = true <-> a = b.
Proof. intros [] []; simpl; split; intros; congruence. Qed.

Lemma cstate_eqb_refl : forall a, cstate_eqb a a = true.
Proof. intros []; reflexivity. Qed.

(** * One component *)

Lemma cmp_step_cases : forall c o,
  (exists c', cmp_step c o = (c', Ok tt) /\ cst c = needs (call_of o) /\
              cst c' = leads (call_of o)) \/
  (exists e, cmp_step c o = (c, Throw e) /\
     ((cst c <> needs (call_of o) /\ e = InvalidComponentState (cst c) (needs (call_of o))) \/
      (cst c = Created /\ o = CPublish false /\ e = NullPointer))).
Proof.
  intros c o. destruct c as [s p m].
  destruct o as [r| |b|]; unfold cmp_step, check; simpl cst.
  - destruct s; simpl; try (right; eexists; split; [reflexivity|]; left; split; [discriminate|reflexivity]).
    destruct r; [left; eexists; repeat split|right; eexists; split; [reflexivity|]; right; auto].
  - destruct s; simpl; try (right; eexists; split; [reflexivity|]; left; split; [discriminate|reflexivity]).
    left; eexists; repeat split.
  - destruct s; simpl; try (right; eexists; split; [reflexivity|]; left; split; [discriminate|reflexivity]).
    left; eexists; repeat split.
  - destruct s; simpl; try (right; eexists; split; [reflexivity|]; left; split; [discriminate|reflexivity]).
    left; eexists; repeat split.
Qed.

Lemma life_at : forall c, skipn (rank (needs c)) life = c :: skipn (rank (leads c)) life.
Proof. intros []; reflexivity. Qed.

Lemma accepted_life : forall l c,
  skipn (rank (cst c)) life =
  accepted c l ++ skipn (rank (cst (final c l))) life.
Proof.
  induction l as [|o l IH]; intros c; [reflexivity|].
  simpl accepted. simpl final.
  destruct (cmp_step_cases c o) as [(c' & E & N & L)|(e & E & _)]; rewrite E; simpl fst.
  - rewrite N, life_at. simpl. f_equal. rewrite <- L. apply IH.
  - apply IH.
Qed.

(** * The walk *)

Definition over_components (f : comp -> comp * bool) (made : list call) :=
  fix over (l : list (when * comp)) (ok : bool) : list (when * comp) * bool :=
    match l with
    | [] => ([], ok)
    | (t, k) :: l =>
        if ok then
          if found made t then
            let (k', ok1) := f k in
            let (l', ok2) := over l ok1 in
            ((Here, k') :: l', ok2)
          else
            let (l', ok2) := over l ok in
            ((match t with Late => Here | _ => t end, k) :: l', ok2)
        else
          let (l', ok2) := over l ok in
          ((if found made t then Here else t, k) :: l', ok2)
    end.

Definition over_containers (f : comp -> comp * bool) (made : list call) :=
  fix over (ll : list (list (when * comp))) (ok : bool) : list (list (when * comp)) * bool :=
    match ll with
    | [] => ([], ok)
    | l :: ll =>
        let (l', ok1) := over_components f made l ok in
        let (ll', ok2) := over ll ok1 in
        (l' :: ll', ok2)
    end.

Lemma walk_eq : forall w st hist throws conts,
  walk w (Comp st hist throws conts) =
  let '(st', hist', made, ok) := visit st hist [] throws (cmd_calls w) in
  let (conts', ok') := over_containers (walk w) made conts ok in
  (Comp st' hist' throws conts', ok').
Proof. reflexivity. Qed.

Section Over.
  Variables (f : comp -> comp * bool) (made : list call).

  Lemma over_from : forall l ok w' k',
    In (w', k') (fst (over_components f made l ok)) ->
    exists w k, In (w, k) l /\ (k' = k \/ k' = fst (f k)) /\
                (w' = Late -> w = Late).
  Proof.
    induction l as [|[t k] l IH]; intros ok w' k' H; simpl in H; [contradiction|].
    destruct ok.
    - destruct (found made t) eqn:F.
      + destruct (f k) as [k1 ok1] eqn:E.
        destruct (over_components f made l ok1) as [l' ok2] eqn:O.
        destruct H as [H|H].
        * injection H as <- <-. exists t, k. split; [now left|]. rewrite E.
          split; [now right|discriminate].
        * specialize (IH ok1 w' k'). rewrite O in IH. destruct (IH H) as (w & k2 & A & B).
          exists w, k2. split; [now right|exact B].
      + destruct (over_components f made l true) as [l' ok2] eqn:O.
        destruct H as [H|H].
        * injection H as <- <-. exists t, k. split; [now left|]. split; [now left|].
          destruct t; auto.
        * specialize (IH true w' k'). rewrite O in IH. destruct (IH H) as (w & k2 & A & B).
          exists w, k2. split; [now right|exact B].
    - destruct (over_components f made l false) as [l' ok2] eqn:O.
      destruct H as [H|H].
      + injection H as <- <-. exists t, k. split; [now left|]. split; [now left|].
        destruct (found made t); [discriminate|auto].
      + specialize (IH false w' k'). rewrite O in IH. destruct (IH H) as (w & k2 & A & B).
        exists w, k2. split; [now right|exact B].
  Qed.

  Lemma over_false : forall l, snd (over_components f made l false) = false.
  Proof.
    induction l as [|[t k] l IH]; [reflexivity|]. simpl.
    destruct (over_components f made l false). exact IH.
  Qed.

  Lemma over_true : forall l ok,
    snd (over_components f made l ok) = true ->
    ok = true /\
    forall k', In (Here, k') (fst (over_components f made l ok)) ->
      exists w k, In (w, k) l /\ (w = Late \/ f k = (k', true)).
  Proof.
    induction l as [|[t k] l IH]; intros ok H.
    { simpl in *. subst. split; [reflexivity|]. intros k' []. }
    destruct ok; [|rewrite over_false in H; discriminate]. split; [reflexivity|].
    simpl in *. destruct (found made t) eqn:F.
    - destruct (f k) as [k1 ok1] eqn:E.
      destruct (over_components f made l ok1) as [l' ok2] eqn:O. simpl in H. subst ok2.
      specialize (IH ok1). rewrite O in IH. destruct (IH eq_refl) as [-> G].
      intros k' [X|X].
      + injection X as <-. exists t, k. split; [now left|]. right. exact E.
      + destruct (G k' X) as (w & k2 & A & B). exists w, k2. split; [now right|exact B].
    - destruct (over_components f made l true) as [l' ok2] eqn:O. simpl in H. subst ok2.
      specialize (IH true). rewrite O in IH. destruct (IH eq_refl) as [_ G].
      intros k' [X|X].
      + injection X as X1 X2. subst k'. exists t, k. split; [now left|].
        destruct t; [discriminate F|discriminate X1|now left].
      + destruct (G k' X) as (w & k2 & A & B). exists w, k2. split; [now right|exact B].
  Qed.

  Lemma over_ok : forall l,
    (forall w k, In (w, k) l -> snd (f k) = true) ->
    snd (over_components f made l true) = true.
  Proof.
    induction l as [|[t k] l IH]; intros H; [reflexivity|]. simpl.
    assert (Hl : forall w k', In (w, k') l -> snd (f k') = true)
      by (intros w k' X; apply (H w k'); now right).
    pose proof (H t k (or_introl eq_refl)) as Hk.
    destruct (found made t).
    - destruct (f k) as [k1 ok1]. simpl in Hk. subst ok1.
      specialize (IH Hl). destruct (over_components f made l true). exact IH.
    - specialize (IH Hl). destruct (over_components f made l true). exact IH.
  Qed.

  Lemma conts_from : forall ll ok l' w' k',
    In l' (fst (over_containers f made ll ok)) -> In (w', k') l' ->
    exists l w k, In l ll /\ In (w, k) l /\ (k' = k \/ k' = fst (f k)) /\
                  (w' = Late -> w = Late).
  Proof.
    induction ll as [|l ll IH]; intros ok l' w' k' H1 H2; simpl in H1; [contradiction|].
    destruct (over_components f made l ok) as [l1 ok1] eqn:O.
    destruct (over_containers f made ll ok1) as [ll1 ok2] eqn:OO.
    destruct H1 as [<-|H1].
    - destruct (over_from l ok w' k') as (w & k & A & B); [now rewrite O|].
      exists l, w, k. split; [now left|auto].
    - destruct (IH ok1 l' w' k') as (l0 & w & k & A & B); [now rewrite OO|exact H2|].
      exists l0, w, k. split; [now right|auto].
  Qed.

  Lemma conts_true : forall ll ok,
    snd (over_containers f made ll ok) = true ->
    ok = true /\
    forall l' k', In l' (fst (over_containers f made ll ok)) -> In (Here, k') l' ->
      exists l w k, In l ll /\ In (w, k) l /\ (w = Late \/ f k = (k', true)).
  Proof.
    induction ll as [|l ll IH]; intros ok H.
    { simpl in *. subst. split; [reflexivity|]. intros l' k' []. }
    simpl in *.
    destruct (over_components f made l ok) as [l1 ok1] eqn:O.
    destruct (over_containers f made ll ok1) as [ll1 ok2] eqn:OO. simpl in H. subst ok2.
    specialize (IH ok1). rewrite OO in IH. destruct (IH eq_refl) as [-> G].
    pose proof (over_true l ok) as T. rewrite O in T. destruct (T eq_refl) as [-> G1].
    split; [reflexivity|]. intros l' k' [<-|X] Y.
    - destruct (G1 k' Y) as (w & k & A & B). exists l, w, k. split; [now left|auto].
    - destruct (G l' k' X Y) as (l0 & w & k & A & B). exists l0, w, k. split; [now right|auto].
  Qed.

  Lemma conts_ok : forall ll,
    (forall l w k, In l ll -> In (w, k) l -> snd (f k) = true) ->
    snd (over_containers f made ll true) = true.
  Proof.
    induction ll as [|l ll IH]; intros H; [reflexivity|]. simpl.
    pose proof (over_ok l) as T.
    destruct (over_components f made l true) as [l1 ok1] eqn:O.
    assert (Y : snd (over_containers f made ll true) = true).
    { apply IH. intros l0 w k X Z. apply (H l0 w k); [now right|exact Z]. }
    simpl in T. specialize (T ltac:(intros w k X; apply (H l w k); [now left|exact X])).
    subst ok1. destruct (over_containers f made ll true). exact Y.
  Qed.
End Over.

(** The calls on one component follow its life. *)
Definition on_track (c : comp) : Prop := received c = firstn (rank (state_of c)) life.

Lemma firstn_life : forall c,
  firstn (rank (leads c)) life = firstn (rank (needs c)) life ++ [c].
Proof. intros []; reflexivity. Qed.

Lemma visit_track : forall todo st hist made throws st' hist' made' ok,
  hist = firstn (rank st) life ->
  visit st hist made throws todo = (st', hist', made', ok) ->
  hist' = firstn (rank st') life.
Proof.
  induction todo as [|c todo IH]; intros st hist made throws st' hist' made' ok H E; simpl in E.
  - congruence.
  - destruct (cstate_eqb st (needs c)) eqn:S; [|eapply IH; eassumption].
    apply cstate_eqb_eq in S. subst st.
    assert (H' : hist ++ [c] = firstn (rank (leads c)) life)
      by (rewrite firstn_life; now rewrite H).
    destruct throws as [t|]; [|eapply IH; eassumption].
    destruct (call_eqb t c); [|eapply IH; eassumption].
    injection E as <- <- <- <-. exact H'.
Qed.

Lemma everywhere_inv : forall P st hist throws conts,
  everywhere P (Comp st hist throws conts) ->
  P (Comp st hist throws conts) /\
  (forall l w k, In l conts -> In (w, k) l -> everywhere P k).
Proof. intros P st hist throws conts H. inversion H. subst. auto. Qed.

Lemma walk_track : forall w t, everywhere on_track t -> everywhere on_track (fst (walk w t)).
Proof.
  intros w t H. induction H as [st hist throws conts H1 H2 IH].
  rewrite walk_eq. destruct (visit st hist [] throws (cmd_calls w)) as [[[st' hist'] made] ok] eqn:V.
  destruct (over_containers (walk w) made conts ok) as [conts' ok'] eqn:O. simpl.
  constructor.
  - unfold on_track in *. simpl in *. eapply visit_track; eassumption.
  - intros l' w' k' A B.
    destruct (conts_from (walk w) made conts ok l' w' k') as (l & w0 & k & C & D & E & _);
      [now rewrite O|exact B|].
    destruct E as [->| ->]; [now apply (H2 l w0)|now apply (IH l w0)].
Qed.

Lemma reconnect_track : forall t, everywhere on_track t -> everywhere on_track (fst (reconnect t)).
Proof.
  intros [st hist throws conts] H. apply everywhere_inv in H. destruct H as [H1 H2].
  unfold reconnect.
  assert (D : everywhere on_track (Comp Connected [PublishCall; ConfigureCall; ConnectCall] None conts)).
  { constructor; [reflexivity|exact H2]. }
  rewrite walk_eq.
  replace (visit Disconnected [] [] None (cmd_calls WConnect))
    with (Disconnected, @nil call, @nil call, true) by reflexivity.
  apply (walk_track WConnect) in D. rewrite walk_eq in D.
  replace (visit Connected [PublishCall; ConfigureCall; ConnectCall] [] None (cmd_calls WConnect))
    with (Connected, [PublishCall; ConfigureCall; ConnectCall], @nil call, true) in D by reflexivity.
  destruct (over_containers (walk WConnect) [] conts true) as [conts' ok'].
  simpl in *. apply everywhere_inv in D. destruct D as [_ D].
  constructor; [exact H1|exact D].
Qed.

Lemma tree_run_track : forall l t, everywhere on_track t -> everywhere on_track (tree_run t l).
Proof.
  induction l as [|k l IH]; intros t H; [exact H|]. simpl. apply IH.
  destruct k as [w|]; [now apply walk_track|now apply reconnect_track].
Qed.

Lemma everywhere_member : forall P t c, everywhere P t -> member c t -> P c.
Proof.
  intros P t c H M. induction M as [[st hist throws conts]|c st hist throws conts l k A B M IH].
  - now apply everywhere_inv in H.
  - apply everywhere_inv in H. apply IH. now apply (proj2 H l Here).
Qed.

Lemma everywhere_mono : forall (P Q : comp -> Prop) t, (forall c, P c -> Q c) -> everywhere P t -> everywhere Q t.
Proof. intros P Q t I H. induction H; constructor; auto. Qed.

Lemma fresh_track : forall c, fresh c -> on_track c.
Proof. intros [st hist th conts] [A B]. simpl in *. subst. reflexivity. Qed.

(** What a walk achieves. *)
Definition goal (w : walk_cmd) (s : cstate) : Prop :=
  match w with
  | WPublish => 1 <= rank s
  | WConfigure => 2 <= rank s
  | WConnect => 3 <= rank s
  | WExit => s <> Connected
  end.

Lemma visit_goal : forall w st hist made throws st' hist' made',
  visit st hist made throws (cmd_calls w) = (st', hist', made', true) -> goal w st'.
Proof.
  intros w st hist made throws st' hist' made'.
  destruct w, st, throws as [[]|]; simpl; intros E; try discriminate;
    injection E as <- <- <-; simpl; try lia; discriminate.
Qed.

Lemma visit_no_throw : forall todo st hist made st' hist' made' ok,
  visit st hist made None todo = (st', hist', made', ok) -> ok = true.
Proof.
  induction todo as [|c todo IH]; intros st hist made st' hist' made' ok; simpl.
  - congruence.
  - destruct (cstate_eqb _ _); apply IH.
Qed.

Lemma walk_goal : forall w t t',
  everywhere no_late t -> walk w t = (t', true) ->
  forall c, member c t' -> goal w (state_of c).
Proof.
  intros w t t' H. revert t'. induction H as [st hist throws conts H1 H2 IH]; intros t' E c M.
  rewrite walk_eq in E.
  destruct (visit st hist [] throws (cmd_calls w)) as [[[st' hist'] made] ok] eqn:V.
  destruct (over_containers (walk w) made conts ok) as [conts' ok'] eqn:O.
  injection E as <- ->.
  pose proof (conts_true (walk w) made conts ok) as T. rewrite O in T.
  destruct (T eq_refl) as [-> G]. simpl in G.
  inversion M as [|? ? ? ? ? l' k' A B C]; subst.
  - simpl. eapply visit_goal, V.
  - destruct (G l' k' A B) as (l & w0 & k & D & F & X).
    destruct X as [->|X]; [now apply H1 in F|].
    eapply IH; eassumption.
Qed.

Lemma walk_no_throw : forall w t, everywhere no_throw t -> snd (walk w t) = true.
Proof.
  intros w t H. induction H as [st hist throws conts H1 H2 IH].
  rewrite walk_eq. simpl in H1. subst throws.
  destruct (visit st hist [] None (cmd_calls w)) as [[[st' hist'] made] ok] eqn:V.
  apply visit_no_throw in V. subst ok.
  pose proof (conts_ok (walk w) made conts IH) as T.
  destruct (over_containers (walk w) made conts true). exact T.
Qed.

(** * Hooks *)

Lemma hook_count_app : forall h a b, hook_count h (a ++ b) = hook_count h a + hook_count h b.
Proof. intros. unfold hook_count. now rewrite filter_app, app_length. Qed.

Definition configure_hooks (g : configure_sig) : nat :=
  match g with FullHook => 2 | _ => 0 end.

Lemma gcmp_step_spec : forall d g o g' r,
  gcmp_step d g o = Some (g', r) ->
  (gbase g', r) = cmp_step (gbase g) o /\
  hook_count DoPublish (gcalls g') = hook_count DoPublish (gcalls g) +
    (if has_publish d then call_count PublishCall (accepted (gbase g) [o]) else 0) /\
  hook_count DoConfigure (gcalls g') = hook_count DoConfigure (gcalls g) +
    configure_hooks (configure d) * call_count ConfigureCall (accepted (gbase g) [o]) /\
  hook_count DoConnect (gcalls g') = hook_count DoConnect (gcalls g) +
    (if has_connect d then call_count ConnectCall (accepted (gbase g) [o]) else 0) /\
  hook_count DoDisconnect (gcalls g') = hook_count DoDisconnect (gcalls g) +
    (if has_disconnect d then length (filter is_disconnect [o]) else 0).
Proof.
  intros d [c h] o g' r H. destruct d as [dp dc dn dd].
  simpl accepted. unfold gcmp_step in H. simpl gbase in *. simpl gcalls in *.
  simpl has_publish in *; simpl configure in *; simpl has_connect in *; simpl has_disconnect in *.
  destruct (cmp_step_cases c o) as [(c' & E & N & L)|(e & E & _)]; rewrite E in *.
  - destruct o; simpl in H.
    + injection H as <- <-. simpl. rewrite !hook_count_app.
      destruct dp, dn, dd; cbn; repeat split; lia.
    + destruct dc; try discriminate; injection H as <- <-; simpl; rewrite !hook_count_app;
        destruct dp, dn, dd; cbn; repeat split; lia.
    + injection H as <- <-. simpl. rewrite !hook_count_app.
      destruct dp, dn, dd; cbn; repeat split; lia.
    + injection H as <- <-. simpl. rewrite !hook_count_app.
      destruct dp, dn, dd; cbn; repeat split; lia.
  - destruct o; simpl in H.
    + injection H as <- <-. simpl. destruct dp, dn, dd; cbn; repeat split; lia.
    + destruct dc; try discriminate; injection H as <- <-; simpl;
        destruct dp, dn, dd; cbn; repeat split; lia.
    + injection H as <- <-. simpl. destruct dp, dn, dd; cbn; repeat split; lia.
    + injection H as <- <-. simpl. rewrite !hook_count_app.
      destruct dp, dn, dd; cbn; repeat split; lia.
Qed.

Lemma accepted_cons : forall c o l,
  accepted c (o :: l) = accepted c [o] ++ accepted (fst (cmp_step c o)) l.
Proof. intros c o l. simpl. destruct (cmp_step c o) as [c' []]; reflexivity. Qed.

Lemma call_count_app : forall h a b, call_count h (a ++ b) = call_count h a + call_count h b.
Proof. intros. unfold call_count. now rewrite filter_app, app_length. Qed.

Lemma gcmp_run_spec : forall d l g g',
  gcmp_run d g l = Some g' ->
  gbase g' = final (gbase g) l /\
  hook_count DoPublish (gcalls g') = hook_count DoPublish (gcalls g) +
    (if has_publish d then call_count PublishCall (accepted (gbase g) l) else 0) /\
  hook_count DoConfigure (gcalls g') = hook_count DoConfigure (gcalls g) +
    configure_hooks (configure d) * call_count ConfigureCall (accepted (gbase g) l) /\
  hook_count DoConnect (gcalls g') = hook_count DoConnect (gcalls g) +
    (if has_connect d then call_count ConnectCall (accepted (gbase g) l) else 0) /\
  hook_count DoDisconnect (gcalls g') = hook_count DoDisconnect (gcalls g) +
    (if has_disconnect d then length (filter is_disconnect l) else 0).
Proof.
  intros d. induction l as [|o l IH]; intros g g' H.
  - injection H as <-. cbn. destruct (has_publish d), (has_connect d), (has_disconnect d);
      repeat split; try lia.
  - cbn [gcmp_run] in H. destruct (gcmp_step d g o) as [[g1 r]|] eqn:E; [|discriminate].
    apply gcmp_step_spec in E. destruct E as (E0 & E1 & E2 & E3 & E4).
    apply IH in H. destruct H as (H0 & H1 & H2 & H3 & H4).
    rewrite accepted_cons, !call_count_app. rewrite <- E0. cbn [fst].
    change (filter is_disconnect (o :: l)) with (filter is_disconnect ([o] ++ l)).
    rewrite filter_app, app_length.
    split; [cbn [final]; now rewrite <- E0|].
    rewrite H1, H2, H3, H4, E1, E2, E3, E4.
    destruct (has_publish d), (has_connect d), (has_disconnect d); repeat split; lia.
Qed.

(** * Components created by their parents *)

Lemma call_eqb_eq : forall a b, call_eqb a b = true <-> a = b.
Proof. intros [] []; simpl; split; intros; congruence. Qed.

Lemma visit_made : forall todo st hist made throws st' hist' made' ok,
  visit st hist made throws todo = (st', hist', made', ok) ->
  exists d, hist' = hist ++ d /\ made' = made ++ d.
Proof.
  induction todo as [|c todo IH]; intros st hist made throws st' hist' made' ok E; simpl in E.
  - injection E as <- <- <- <-. exists []. now rewrite !app_nil_r.
  - destruct (cstate_eqb _ _); [|eapply IH, E].
    assert (N : forall r, visit (leads c) (hist ++ [c]) (made ++ [c]) throws todo = r ->
                exists d, snd (fst (fst r)) = hist ++ d /\ snd (fst r) = made ++ d).
    { intros [[[s1 h1] m1] o1] E1. destruct (IH _ _ _ _ _ _ _ _ E1) as (d & -> & ->). exists (c :: d). cbn. now rewrite <- !app_assoc. }
    destruct throws as [t|]; [destruct (call_eqb t c)|]; try (apply N in E; exact E).
    injection E as <- <- <- <-. exists [c]. auto.
Qed.

Definition link (f : comp -> comp * bool) (made : list call) (a b : when * comp) : Prop :=
  (snd b = snd a \/ snd b = fst (f (snd a))) /\
  (forall x, fst a = During x -> (fst b = Here /\ In x made) \/ (b = a /\ ~ In x made)).

Lemma found_during : forall made x, found made (During x) = true <-> In x made.
Proof.
  intros made x. simpl. rewrite existsb_exists. split.
  - intros (y & A & B). apply call_eqb_eq in B. now subst.
  - intros A. exists x. split; [exact A|now apply call_eqb_eq].
Qed.

Lemma over_links : forall f made l ok, Forall2 (link f made) l (fst (over_components f made l ok)).
Proof.
  intros f made. induction l as [|[t k] l IH]; intros ok; simpl; [constructor|].
  assert (Y : forall x, found made t = true -> t = During x -> In x made) by (intros x F ->; now apply found_during).
  assert (N : forall x, found made t = false -> t = During x -> ~ In x made).
  { intros x F -> G. apply found_during in G. congruence. }
  destruct ok; [destruct (found made t) eqn:F|].
  - destruct (f k) as [k1 ok1] eqn:E. specialize (IH ok1). destruct (over_components f made l ok1) as [l' ok2].
    constructor; [|exact IH]. split; cbn; [right; now rewrite E|]. intros x ->. left. auto.
  - specialize (IH true). destruct (over_components f made l true) as [l' ok2].
    constructor; [|exact IH]. split; cbn; [now left|]. intros x ->. right. auto.
  - specialize (IH false). destruct (over_components f made l false) as [l' ok2].
    constructor; [|exact IH]. split; cbn; [now left|]. intros x ->. destruct (found made (During x)) eqn:F; [left|right]; auto.
Qed.

Lemma conts_links : forall f made ll ok, Forall2 (Forall2 (link f made)) ll (fst (over_containers f made ll ok)).
Proof.
  intros f made. induction ll as [|l ll IH]; intros ok; simpl; [constructor|].
  pose proof (over_links f made l ok) as H. destruct (over_components f made l ok) as [l' ok1].
  specialize (IH ok1). destruct (over_containers f made ll ok1) as [ll' ok2]. now constructor.
Qed.

Lemma forall2_nth : forall (A B : Type) (R : A -> B -> Prop) l l', Forall2 R l l' ->
  forall i, match nth_error l i, nth_error l' i with Some a, Some b => R a b | None, None => True | _, _ => False end.
Proof. intros A B R l l' H. induction H; intros [|i]; simpl; auto. apply IHForall2. Qed.

Lemma conts_child : forall f made ll ok i j,
  match match nth_error ll i with Some l => nth_error l j | None => None end,
        match nth_error (fst (over_containers f made ll ok)) i with Some l => nth_error l j | None => None end with
  | Some a, Some b => link f made a b | None, None => True | _, _ => False end.
Proof.
  intros f made ll ok i j. pose proof (forall2_nth _ _ _ _ _ (conts_links f made ll ok) i) as H.
  destruct (nth_error ll i) as [l|], (nth_error (fst (over_containers f made ll ok)) i) as [l'|]; try contradiction; auto.
  exact (forall2_nth _ _ _ _ _ H j).
Qed.

Lemma child_in : forall st h th conts i j w k, child (Comp st h th conts) i j = Some (w, k) -> exists l, In l conts /\ In (w, k) l.
Proof.
  intros st h th conts i j w k H. simpl in H. destruct (nth_error conts i) as [l|] eqn:E; [|discriminate].
  exists l. split; eapply nth_error_In; eassumption.
Qed.

Lemma level : forall (f : comp -> comp * bool) made st hist throws conts ok st' throws',
  settled (Comp st hist throws conts) ->
  let t' := Comp st' (hist ++ made) throws' (fst (over_containers f made conts ok)) in
  settled t' /\
  (forall i j w k, child (Comp st hist throws conts) i j = Some (w, k) -> exists w' k', child t' i j = Some (w', k') /\
     (forall x, w = During x -> (w' = Here /\ In x (received t')) \/ (w' = w /\ k' = k /\ ~ In x (received t'))) /\
     (k' = k \/ k' = fst (f k))).
Proof.
  intros f made st hist throws conts ok st' throws' S t'.
  assert (Q : forall i j w k, child (Comp st hist throws conts) i j = Some (w, k) -> exists w' k', child t' i j = Some (w', k') /\
     (forall x, w = During x -> (w' = Here /\ In x (received t')) \/ (w' = w /\ k' = k /\ ~ In x (received t'))) /\
     (k' = k \/ k' = fst (f k))).
  { intros i j w k C. pose proof (conts_child f made conts ok i j) as L. pose proof C as C0. cbn [child] in C.
    rewrite C in L. unfold t'. cbn [child received]. destruct (match nth_error (fst (over_containers f made conts ok)) i with Some l => nth_error l j | None => None end) as [[w' k']|]; [|contradiction].
    exists w', k'. split; [reflexivity|]. destruct L as [L1 L2]. cbn [fst snd] in *. split; [|exact L1].
    intros x ->. destruct (L2 x eq_refl) as [[-> I]|[E I]].
    - left. split; [reflexivity|]. apply in_or_app. now right.
    - right. injection E as -> ->. split; [reflexivity|]. split; [reflexivity|]. intros X. apply in_app_or in X as [X|X]; [|contradiction]. exact (S i j x k C0 X). }
  split; [|exact Q]. intros i j x k' C. pose proof (conts_child f made conts ok i j) as L. unfold t' in C. cbn [child] in C. rewrite C in L.
  destruct (match nth_error conts i with Some l => nth_error l j | None => None end) as [[w k]|] eqn:E; [|contradiction].
  destruct (Q i j w k E) as (w' & k1 & C1 & D & _). unfold t' in C1. cbn [child] in C1. rewrite C in C1. injection C1 as <- <-.
  destruct w as [|y|].
  - exfalso. cbn [fst snd link] in L. pose proof (conts_child f made conts ok i j) as L'. clear -C E. 
    revert C. pose proof E as E0. destruct (nth_error conts i) as [l|] eqn:N; [|discriminate].
    assert (H : forall l ok j k, nth_error l j = Some (Here, k) -> forall w k', nth_error (fst (over_components f made l ok)) j = Some (w, k') -> w = Here).
    { clear. induction l as [|[t k0] l IH]; intros ok [|j] k H w k' H'; simpl in *; try discriminate.
      - injection H as -> ->. simpl in H'. destruct ok; [destruct (f k) as [k1 ok1]; destruct (over_components f made l ok1)|destruct (over_components f made l false)]; simpl in H'; congruence.
      - destruct ok; [destruct (found made t); [destruct (f k0) as [k1 ok1]; specialize (IH ok1); destruct (over_components f made l ok1)|specialize (IH true); destruct (over_components f made l true)]|specialize (IH false); destruct (over_components f made l false)]; simpl in H'; eapply IH; eassumption. }
    assert (G : forall ll ok i l, nth_error ll i = Some l -> exists ok1, nth_error (fst (over_containers f made ll ok)) i = Some (fst (over_components f made l ok1))).
    { clear. induction ll as [|l0 ll IH]; intros ok [|i] l H; simpl in *; try discriminate.
      - injection H as ->. exists ok. destruct (over_components f made l ok) as [l1 o1]. destruct (over_containers f made ll o1). reflexivity.
      - destruct (over_components f made l0 ok) as [l1 o1]. destruct (IH o1 i l H) as [o2 H2]. exists o2. destruct (over_containers f made ll o1). exact H2. }
    destruct (G conts ok i l N) as [o1 ->]. intros C. specialize (H l o1 j k E _ _ C). discriminate.
  - destruct (D y eq_refl) as [[D1 _]|[D1 [_ D2]]]; [discriminate|]. injection D1 as ->. exact D2.
  - exfalso. clear -C E. destruct (nth_error conts i) as [l|] eqn:N; [|discriminate].
    assert (H : forall l ok j k, nth_error l j = Some (Late, k) -> forall w k', nth_error (fst (over_components f made l ok)) j = Some (w, k') -> w = Here \/ w = Late).
    { clear. induction l as [|[t k0] l IH]; intros ok [|j] k H w k' H'; simpl in *; try discriminate.
      - injection H as -> ->. simpl in H'. destruct ok; [destruct (over_components f made l true)|destruct (over_components f made l false)]; simpl in H'; injection H' as <- <-; auto.
      - destruct ok; [destruct (found made t); [destruct (f k0) as [k1 ok1]; specialize (IH ok1); destruct (over_components f made l ok1)|specialize (IH true); destruct (over_components f made l true)]|specialize (IH false); destruct (over_components f made l false)]; simpl in H'; eapply IH; eassumption. }
    assert (G : forall ll ok i l, nth_error ll i = Some l -> exists ok1, nth_error (fst (over_containers f made ll ok)) i = Some (fst (over_components f made l ok1))).
    { clear. induction ll as [|l0 ll IH]; intros ok [|i] l H; simpl in *; try discriminate.
      - injection H as ->. exists ok. destruct (over_components f made l ok) as [l1 o1]. destruct (over_containers f made ll o1). reflexivity.
      - destruct (over_components f made l0 ok) as [l1 o1]. destruct (IH o1 i l H) as [o2 H2]. exists o2. destruct (over_containers f made ll o1). exact H2. }
    destruct (G conts ok i l N) as [o1 X]. rewrite X in C. destruct (H l o1 j k E _ _ C); discriminate.
Qed.

Lemma walk_created : forall w t, everywhere settled t ->
  everywhere settled (fst (walk w t)) /\ follows t (fst (walk w t)).
Proof.
  intros w t H. induction H as [st hist throws conts H1 H2 IH].
  rewrite walk_eq. destruct (visit st hist [] throws (cmd_calls w)) as [[[st' hist'] made] ok] eqn:V.
  destruct (visit_made _ _ _ _ _ _ _ _ _ V) as (d & -> & ->). cbn [app].
  destruct (level (walk w) d st hist throws conts ok st' throws H1) as [L1 L2].
  destruct (over_containers (walk w) d conts ok) as [conts' ok'] eqn:O. cbn [fst] in *. split.
  - constructor; [exact L1|]. intros l' w' k' A B.
    destruct (conts_from (walk w) d conts ok l' w' k') as (l & w0 & k & C & D & E & _); [now rewrite O|exact B|].
    destruct E as [->| ->]; [now apply (H2 l w0)|now apply (IH l w0)].
  - constructor. intros i j w0 k C. destruct (L2 i j w0 k C) as (w' & k' & A & B & E). exists w', k'. split; [exact A|]. split; [exact B|].
    destruct E as [->| ->]; [now left|right]. destruct (child_in _ _ _ _ _ _ _ _ C) as (l & I1 & I2). now apply (IH l w0).
Qed.

Lemma reconnect_created : forall t, everywhere settled t -> everywhere settled (fst (reconnect t)).
Proof.
  intros [st hist throws conts] H. apply everywhere_inv in H. destruct H as [H1 H2]. unfold reconnect.
  rewrite walk_eq. replace (visit Disconnected [] [] None (cmd_calls WConnect)) with (Disconnected, @nil call, @nil call, true) by reflexivity.
  destruct (level (walk WConnect) [] st hist throws conts true st throws H1) as [L1 _]. rewrite app_nil_r in L1.
  destruct (over_containers (walk WConnect) [] conts true) as [conts' ok'] eqn:O. cbn [fst] in *.
  constructor; [exact L1|]. intros l' w' k' A B.
  destruct (conts_from (walk WConnect) [] conts true l' w' k') as (l & w0 & k & C & D & E & _); [now rewrite O|exact B|].
  destruct E as [->| ->]; [now apply (H2 l w0)|apply walk_created; now apply (H2 l w0)].
Qed.

Lemma run_created : forall l t, everywhere settled t -> everywhere settled (tree_run t l).
Proof.
  induction l as [|k l IH]; intros t H; [exact H|]. simpl. apply IH.
  destruct k as [w|]; [now apply walk_created|now apply reconnect_created].
Qed.

Lemma fresh_settled : forall c, fresh c -> settled c.
Proof. intros c [_ B] i j x k _. rewrite B. auto. Qed.
