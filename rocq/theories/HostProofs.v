(** Proofs about the services, libraries and destruction of a simulator. *)
From Coq Require Import ZArith List Bool Lia.
From Verif Require Import Base Assoc UuidModel EventModel CollModel CollSpec CollProofs CollProps SimModel SimSpec SimProofs SimEvents HostModel HostSpec.
Import ListNotations.
Local Open Scope Z_scope.

Section Services.
  Context (w : world) (impl : role -> Z -> bool).
  Notation hstep := (hstep w impl).
  Notation hrun := (hrun w impl).

  Lemma register_get : forall c r r' std, aget role_eqb r (register impl c r' std) =
    if role_eqb r r' then match aget role_eqb r std with Some x => Some x | None => if impl r c then Some c else None end else aget role_eqb r std.
  Proof.
    intros c r r' std. unfold register. destruct (role_eqb r r') eqn:E.
    - assert (r = r') by (destruct r, r'; try discriminate; reflexivity). subst r'. destruct (aget role_eqb r std) as [x|] eqn:A; [now rewrite A|].
      destruct (impl r c); cbn; [now rewrite E|assumption].
    - destruct (aget role_eqb r' std); [reflexivity|]. destruct (impl r' c); [|reflexivity]. cbn. now rewrite E.
  Qed.

  Definition picks (o : hop) (x : hres) (r : role) : option Z :=
    match o, x with HAddService c, HRes KDone => if impl r c then Some c else None | _, _ => None end.

  Lemma step_std : forall o h r, get_std r (fst (hstep o h)) =
    match get_std r h with Some c => Some c | None => picks o (snd (hstep o h)) r end.
  Proof.
    intros o h r. destruct o as [s|c|c|k c|k c t]; cbn [HostModel.hstep].
    - cbn. unfold get_std. cbn. now destruct (aget role_eqb r (h_std h)).
    - unfold add_service. assert (N : forall k x, x <> KDone -> get_std r (Host (h_state h) k (h_std h)) = match get_std r h with Some c0 => Some c0 | None => picks (HAddService c) (HRes x) r end).
      { intros k x H. unfold get_std. cbn. destruct (aget role_eqb r (h_std h)); [reflexivity|]. now destruct x. }
      assert (M : forall s, h_state h = s -> get_std r h = match get_std r h with Some c0 => Some c0 | None => picks (HAddService c) HInvalidState r end).
      { intros _ _. now destruct (get_std r h). }
      destruct (cont_add w 0 c None false (h_compo h)) as [k x].
      destruct (h_state h) eqn:S; try (exact (M _ eq_refl)); destruct x; try (apply N; discriminate);
        unfold get_std; cbn; rewrite !register_get; destruct r; cbn; destruct (aget role_eqb _ (h_std h)); reflexivity.
    - unfold add_model. destruct (cont_add w 1 c None false (h_compo h)) as [k x].
      destruct (h_state h); unfold get_std; cbn; now destruct (aget role_eqb r (h_std h)).
    - destruct (cont_add w k c None false (h_compo h)) as [x y]. unfold get_std; cbn; now destruct (aget role_eqb r (h_std h)).
    - destruct (cont_delete w k c t (h_compo h)) as [x y]. unfold get_std; cbn; now destruct (aget role_eqb r (h_std h)).
  Qed.

  Lemma hrun_cons : forall o os h, hrun h (o :: os) =
    (fst (hrun (fst (hstep o h)) os), (o, snd (hstep o h)) :: snd (hrun (fst (hstep o h)) os)).
  Proof. intros o os h. cbn. destruct (hstep o h) as [h1 r]. cbn. now destruct (hrun h1 os) as [h2 t]. Qed.

  Lemma hrun_app : forall a b h, hrun h (a ++ b) =
    (fst (hrun (fst (hrun h a)) b), snd (hrun h a) ++ snd (hrun (fst (hrun h a)) b)).
  Proof.
    induction a as [|o a IH]; intros b h; [cbn; now destruct (hrun h b)|]. rewrite <- app_comm_cons, !hrun_cons, IH. reflexivity.
  Qed.

  Lemma run_std : forall os h r,
    (forall c, get_std r h = Some c -> get_std r (fst (hrun h os)) = Some c) /\
    (get_std r h = None -> forall c, get_std r (fst (hrun h os)) = Some c <-> first_service impl r (snd (hrun h os)) c).
  Proof.
    induction os as [|o os IH]; intros h r.
    - split; [auto|]. intros N c. cbn. rewrite N. split; [discriminate|]. intros (t1 & t2 & E & _). destruct t1; discriminate.
    - rewrite hrun_cons. cbn [fst snd]. pose proof (step_std o h r) as S. destruct (IH (fst (hstep o h)) r) as [K F]. split.
      + intros c E. apply K. rewrite S, E. reflexivity.
      + intros N c. rewrite N in S. destruct (picks o (snd (hstep o h)) r) as [c'|] eqn:P.
        * assert (Q : o = HAddService c' /\ snd (hstep o h) = HRes KDone /\ impl r c' = true).
          { unfold picks in P. destruct o; try discriminate. destruct (snd (hstep (HAddService c0) h)) as [[]|]; try discriminate.
            destruct (impl r c0) eqn:I; [|discriminate]. injection P as ->. auto. }
          destruct Q as (-> & Q & I). rewrite (K c' S), Q. split.
          -- intros E. injection E as <-. exists [], (snd (hrun (fst (hstep (HAddService c') h)) os)). split; [reflexivity|]. split; [assumption|intros ? []].
          -- intros (t1 & t2 & E & Ic & NI). destruct t1 as [|x t1]; cbn in E; injection E as E1 E2; [now subst|].
             subst x. rewrite (NI c' (or_introl eq_refl)) in I. discriminate.
        * rewrite (F S c). split.
          -- intros (t1 & t2 & E & Ic & NI). exists ((o, snd (hstep o h)) :: t1), t2. rewrite E. split; [reflexivity|]. split; [assumption|].
             intros c' [J|J]; [|exact (NI c' J)]. injection J as Jo Jr. unfold picks in P. rewrite Jr, Jo in P. destruct (impl r c'); [discriminate|reflexivity].
          -- intros (t1 & t2 & E & Ic & NI). destruct t1 as [|x t1]; cbn in E.
             ++ injection E as E1 E2 _. unfold picks in P. rewrite E2, E1, Ic in P. discriminate.
             ++ injection E as E1 E2. subst x. exists t1, t2. split; [assumption|]. split; [assumption|]. intros c' J. apply NI. now right.
  Qed.

  (** The containers are those of a history of calls on the containers. *)
  Lemma run_compo : forall os h cs, h_compo h = after w [(0, -1); (0, -1)] cs ->
    exists cs', h_compo (fst (hrun h os)) = after w [(0, -1); (0, -1)] (cs ++ cs').
  Proof.
    assert (A : forall cs o, after w [(0, -1); (0, -1)] (cs ++ [o]) = fst (cont_step w o (after w [(0, -1); (0, -1)] cs))).
    { intros cs o. unfold after. generalize (compo_init [(0, -1); (0, -1)]). induction cs as [|x cs IH]; intros s.
      - cbn. destruct (cont_step w o s) as [s1 r]. reflexivity.
      - cbn. destruct (cont_step w x s) as [s1 r]. specialize (IH s1). destruct (cont_run w s1 (cs ++ [o])). destruct (cont_run w s1 cs). exact IH. }
    induction os as [|o os IH]; intros h cs E.
    - exists []. cbn. now rewrite app_nil_r.
    - rewrite hrun_cons. cbn [fst].
      assert (X : exists c, h_compo (fst (hstep o h)) = after w [(0, -1); (0, -1)] (cs ++ c)).
      { destruct o as [s|c|c|k c|k c t]; cbn [HostModel.hstep].
        - exists []. rewrite app_nil_r. exact E.
        - unfold add_service. destruct (h_state h); try (exists []; rewrite app_nil_r; exact E);
            (exists [KAdd 0 c None false]; rewrite A, <- E; cbn; destruct (cont_add w 0 c None false (h_compo h)) as [k []]; reflexivity).
        - unfold add_model. destruct (h_state h); try (exists []; rewrite app_nil_r; exact E);
            (exists [KAdd 1 c None false]; rewrite A, <- E; cbn; destruct (cont_add w 1 c None false (h_compo h)) as [k x]; reflexivity).
        - exists [KAdd k c None false]. rewrite A, <- E. cbn. destruct (cont_add w k c None false (h_compo h)) as [s x]; reflexivity.
        - exists [KDelete k c t]. rewrite A, <- E. cbn. destruct (cont_delete w k c t (h_compo h)) as [s x]; reflexivity. }
      destruct X as (c & X). destruct (IH _ _ X) as (c' & Y). exists (c ++ c'). now rewrite app_assoc.
  Qed.

  Lemma reach_compo : forall os, exists cs, h_compo (fst (hrun host_init os)) = after w [(0, -1); (0, -1)] cs.
  Proof. intros os. destruct (run_compo os host_init [] eq_refl) as (cs & E). now exists cs. Qed.

  Lemma two_conts : forall cs, exists a b, conts (after w [(0, -1); (0, -1)] cs) = [a; b] /\ lower a = 0 /\ upper a = -1 /\ lower b = 0 /\ upper b = -1.
  Proof.
    intros cs. pose proof (k_bounds w [(0, -1); (0, -1)] _ _ (reach_kinv w [(0, -1); (0, -1)] cs)) as B.
    fold (after w [(0, -1); (0, -1)] cs) in B. destruct (conts (after w [(0, -1); (0, -1)] cs)) as [|a [|b [|d l]]]; cbn in B; try discriminate.
    injection B as B1 B2 B3 B4. exists a, b. auto.
  Qed.

  Lemma all_two : forall os, let h := fst (hrun host_init os) in
    (exists a b, conts (h_compo h) = [a; b] /\ services h = comps a /\ models h = comps b /\ upper a = -1 /\ upper b = -1) /\
    all_comps (h_compo h) = services h ++ models h.
  Proof.
    intros os h. destruct (reach_compo os) as (cs & E). fold h in E. destruct (two_conts cs) as (a & b & C & _ & U & _ & V).
    unfold services, models, all_comps. rewrite E, C. cbn. rewrite app_nil_r. eauto 10.
  Qed.

  Lemma two_adds : forall os k c, let h := fst (hrun host_init os) in (k < 2)%nat ->
    ~ In c (freed (h_compo h)) -> Z.of_nat (length (services h ++ models h)) < 2 ^ 63 ->
    (snd (cont_add w k c None false (h_compo h)) = KDone <->
     wtype w k c = true /\ wparent w c = true /\ ~ In (wname w c) (map (wname w) (services h ++ models h))).
  Proof.
    intros os k c h Lk F Sm. destruct (all_two os) as [(a & b & C & Sa & Mb & _) Al]. fold h in C, Sa, Mb, Al.
    destruct (reach_compo os) as (cs & E). fold h in E. rewrite E in *.
    assert (B : nth_error [(0, -1); (0, -1)] k = Some (0, -1)) by (destruct k as [|[|k]]; [reflexivity..|lia]).
    assert (Ln : Z.of_nat (length (contained k (ctrace w [(0, -1); (0, -1)] cs))) < 2 ^ 63).
    { pose proof (k_held w [(0, -1); (0, -1)] _ _ (reach_kinv w [(0, -1); (0, -1)] cs) k) as H. fold (after w [(0, -1); (0, -1)] cs) in H. rewrite C in H.
      rewrite app_length in Sm. destruct k as [|[|k]]; [| |lia]; unfold ctrace; erewrite <- H by reflexivity; rewrite ?Sa, ?Mb in Sm; lia. }
    pose proof (C25_add_iff w [(0, -1); (0, -1)] cs k 0 (-1) c None false B eq_refl F Ln) as X. cbn [cont_step] in X. rewrite X. clear X.
    rewrite Al. split.
    - intros (T & P & _ & _ & _ & N). split; [assumption|]. split; [assumption|]. intros I. apply in_map_iff in I. destruct I as (c' & Hn & I). exact (N c' I Hn).
    - intros (T & P & N). split; [assumption|]. split; [assumption|]. split; [reflexivity|]. split; [reflexivity|]. split; [lia|].
      intros c' I Hn. apply N. rewrite <- Hn. now apply in_map.
  Qed.

  Lemma add_result : forall k c s, snd (cont_add w k c None false s) = KDone -> exists ct, nth_error (conts s) k = Some ct /\
    fst (cont_add w k c None false s) = Compo (set_nth k (Cont (lower ct) (upper ct) (comps ct ++ [c])) (conts s)) (freed s).
  Proof.
    intros k c s. unfold cont_add. destruct (nth_error (conts s) k) as [ct|]; [|discriminate].
    repeat match goal with |- context [if ?b then _ else _] => destruct b end; cbn; try discriminate. eauto.
  Qed.
  Lemma add_fails : forall k c s, snd (cont_add w k c None false s) <> KDone -> fst (cont_add w k c None false s) = s.
  Proof. intros k c s. exact (cont_failed w (KAdd k c None false) s). Qed.
  Lemma delete_fails : forall k c t s, snd (cont_delete w k c t s) <> KDone -> fst (cont_delete w k c t s) = s.
  Proof. intros k c t s. exact (cont_failed w (KDelete k c t) s). Qed.

  Lemma host_eta : forall h, Host (h_state h) (h_compo h) (h_std h) = h.
  Proof. now intros []. Qed.

  Lemma step_rejected : forall o h, snd (hstep o h) <> HRes KDone -> fst (hstep o h) = h.
  Proof.
    intros o h. destruct o as [s|c|c|k c|k c t]; cbn [HostModel.hstep].
    - cbn. congruence.
    - unfold add_service. pose proof (add_fails 0 c (h_compo h)) as F. destruct (cont_add w 0 c None false (h_compo h)) as [x r]. cbn in F.
      destruct (h_state h) eqn:Hs; try reflexivity; destruct r; cbn; intros N; try congruence; rewrite F, <- Hs by discriminate; apply host_eta.
    - unfold add_model. pose proof (add_fails 1 c (h_compo h)) as F. destruct (cont_add w 1 c None false (h_compo h)) as [x r]. cbn in F.
      destruct (h_state h) eqn:Hs; try reflexivity; cbn; intros N; rewrite F, <- Hs by congruence; apply host_eta.
    - pose proof (add_fails k c (h_compo h)) as F. destruct (cont_add w k c None false (h_compo h)) as [x r]. cbn in F |- *. intros N. rewrite F by congruence. apply host_eta.
    - pose proof (delete_fails k c t (h_compo h)) as F. destruct (cont_delete w k c t (h_compo h)) as [x r]. cbn in F |- *. intros N. rewrite F by congruence. apply host_eta.
  Qed.

  Definition in_services (c : Z) (s : compo) : Prop := In c (match conts s with a :: _ => comps a | _ => [] end).

  Lemma add_keeps : forall k c c' s, in_services c s -> in_services c (fst (cont_add w k c' None false s)).
  Proof.
    intros k c c' s I. destruct (snd (cont_add w k c' None false s)) eqn:R; try (rewrite add_fails by (rewrite R; discriminate); exact I).
    destruct (add_result _ _ _ R) as (ct & N & ->). unfold in_services in *. cbn. destruct (conts s) as [|a l]; [destruct k; discriminate|].
    destruct k as [|k]; cbn in *; [|exact I]. injection N as ->. apply in_app_iff. now left.
  Qed.
  Lemma delete_keeps : forall k c c' t s, c <> c' -> in_services c s -> in_services c (fst (cont_delete w k c' t s)).
  Proof.
    intros k c c' t s Ne I. unfold cont_delete. destruct (nth_error (conts s) k) as [ct|] eqn:N; [|exact I].
    repeat match goal with |- context [if ?b then _ else _] => destruct b end; try exact I.
    unfold in_services in *. cbn. destruct (conts s) as [|a l]; [destruct k; discriminate|].
    destruct k as [|k]; cbn in *; [|exact I]. injection N as ->. clear -Ne I. induction (comps ct) as [|y l IH]; [exact I|]. cbn in *.
    destruct (Z.eqb_spec c' y) as [<-|H]; [destruct I; [congruence|assumption]|]. destruct I as [->|I]; [now left|right; auto].
  Qed.

  Lemma step_keeps : forall o h c, (forall k t, o <> HDelete k c t) -> In c (services h) -> In c (services (fst (hstep o h))).
  Proof.
    intros o h c N I. change (in_services c (h_compo h)) in I. change (in_services c (h_compo (fst (hstep o h)))).
    destruct o as [s|c'|c'|k c'|k c' t]; cbn [HostModel.hstep].
    - exact I.
    - unfold add_service. pose proof (add_keeps 0 c c' (h_compo h) I) as K. destruct (cont_add w 0 c' None false (h_compo h)) as [x r]. destruct (h_state h); try exact I; destruct r; exact K.
    - unfold add_model. pose proof (add_keeps 1 c c' (h_compo h) I) as K. destruct (cont_add w 1 c' None false (h_compo h)) as [x r]. destruct (h_state h); try exact I; exact K.
    - pose proof (add_keeps k c c' (h_compo h) I) as K. destruct (cont_add w k c' None false (h_compo h)) as [x r]. exact K.
    - assert (Ne : c <> c') by (intros ->; exact (N k t eq_refl)).
      pose proof (delete_keeps k c c' t (h_compo h) Ne I) as K. destruct (cont_delete w k c' t (h_compo h)) as [x r]. exact K.
  Qed.
  Lemma run_keeps : forall os h c, (forall k t, ~ In (HDelete k c t) os) -> In c (services h) -> In c (services (fst (hrun h os))).
  Proof.
    induction os as [|o os IH]; intros h c N I; [exact I|]. rewrite hrun_cons. cbn [fst]. apply IH; [intros k t J; exact (N k t (or_intror J))|].
    apply step_keeps; [|exact I]. intros k t ->. exact (N k t (or_introl eq_refl)).
  Qed.

  Lemma service_added : forall c h, snd (hstep (HAddService c) h) = HRes KDone -> services (fst (hstep (HAddService c) h)) = services h ++ [c] /\ models (fst (hstep (HAddService c) h)) = models h.
  Proof.
    intros c h. cbn [HostModel.hstep]. unfold add_service. pose proof (add_result 0 c (h_compo h)) as R. destruct (cont_add w 0 c None false (h_compo h)) as [x r]. cbn in R.
    destruct (h_state h); try discriminate; destruct r; try discriminate; intros _; destruct (R eq_refl) as (ct & N & ->); unfold services, models; cbn;
      destruct (conts (h_compo h)) as [|a l]; try discriminate; cbn in *; injection N as ->; auto.
  Qed.
  Lemma model_added : forall c h, snd (hstep (HAddModel c) h) = HRes KDone -> services (fst (hstep (HAddModel c) h)) = services h /\ models (fst (hstep (HAddModel c) h)) = models h ++ [c].
  Proof.
    intros c h. cbn [HostModel.hstep]. unfold add_model. pose proof (add_result 1 c (h_compo h)) as R. destruct (cont_add w 1 c None false (h_compo h)) as [x r]. cbn in R.
    destruct (h_state h); try discriminate; intros E; injection E as ->; destruct (R eq_refl) as (ct & N & ->); unfold services, models; cbn;
      destruct (conts (h_compo h)) as [|a [|b l]]; try discriminate; cbn in *; injection N as ->; auto.
  Qed.

  Lemma run_added_held : forall os h c, In (HAddService c, HRes KDone) (snd (hrun h os)) -> (forall k t, ~ In (HDelete k c t) os) -> In c (services (fst (hrun h os))).
  Proof.
    induction os as [|o os IH]; intros h c I N; [destruct I|]. rewrite hrun_cons in *. cbn [fst snd] in *.
    assert (N' : forall k t, ~ In (HDelete k c t) os) by (intros k t J; exact (N k t (or_intror J))).
    destruct I as [I|I]; [|now apply IH]. injection I as -> R. apply run_keeps; [exact N'|]. rewrite (proj1 (service_added c h R)). apply in_app_iff. right. now left.
  Qed.
End Services.

(** * Libraries *)

Lemma load_ind_nest : forall P : load -> Prop,
  (forall n, P (LNoFile n)) -> (forall n, P (LNoSymbol n)) ->
  (forall n nested r, (forall l, In l nested -> P l) -> P (LInitialise n nested r)) -> forall l, P l.
Proof.
  intros P A B C. fix IH 1. intros [n|n|n nested r]; [apply A|apply B|apply C].
  induction nested as [|x nested IHn]; intros l [].
  - subst l. apply IH.
  - now apply IHn.
Qed.

Lemma load_fix : forall n nested r libs, load_library (LInitialise n nested r) libs =
  let '(libs1, t) := load_all nested libs in
  match r with
  | ITrue => (n :: libs1, t ++ [EvLoaded n])
  | IFalse => (libs1, t ++ [EvNotLoaded n InvalidLibrary])
  | IThrows => (libs1, t ++ [EvNotLoaded n FromInitialise])
  end.
Proof.
  intros n nested r libs. cbn [load_library].
  match goal with |- (let '(_, _) := ?f nested libs in _) = _ => assert (X : forall ls libs, f ls libs = load_all ls libs) end.
  { induction ls as [|l ls IH]; intros lb; [reflexivity|]. cbn. destruct (load_library l lb) as [lb1 t1]. now rewrite IH. }
  now rewrite X.
Qed.

Lemma loaded_app : forall a b, loaded (a ++ b) = loaded a ++ loaded b.
Proof. induction a as [|[] a IH]; intros b; cbn; rewrite ?IH; reflexivity. Qed.
Lemma finalised_app : forall a b, finalised (a ++ b) = finalised a ++ finalised b.
Proof. induction a as [|[] a IH]; intros b; cbn; rewrite ?IH; reflexivity. Qed.

Lemma load_libs : forall l libs, fst (load_library l libs) = rev (loaded (snd (load_library l libs))) ++ libs /\ finalised (snd (load_library l libs)) = [].
Proof.
  apply (load_ind_nest (fun l => forall libs, fst (load_library l libs) = rev (loaded (snd (load_library l libs))) ++ libs /\ finalised (snd (load_library l libs)) = [])).
  - intros n libs. auto.
  - intros n libs. auto.
  - intros n nested r IH libs. rewrite load_fix.
    assert (X : forall libs, fst (load_all nested libs) = rev (loaded (snd (load_all nested libs))) ++ libs /\ finalised (snd (load_all nested libs)) = []).
    { clear -IH. induction nested as [|l ls IHl]; intros libs; [auto|]. cbn. destruct (IH l (or_introl eq_refl) libs) as [A B].
      destruct (load_library l libs) as [lb1 t1]. cbn in A, B. subst lb1. destruct (IHl (fun l I => IH l (or_intror I)) (rev (loaded t1) ++ libs)) as [C D].
      destruct (load_all ls _) as [lb2 t2]. cbn in *. rewrite C, loaded_app, finalised_app, B, D, rev_app_distr, app_assoc. auto. }
    destruct (X libs) as [A B]. destruct (load_all nested libs) as [lb t]. cbn in A, B.
    destruct r; cbn; rewrite loaded_app, finalised_app, B; cbn; rewrite ?rev_app_distr, ?app_nil_r, A; auto.
Qed.

Lemma load_all_libs : forall ls libs, fst (load_all ls libs) = rev (loaded (snd (load_all ls libs))) ++ libs /\ finalised (snd (load_all ls libs)) = [].
Proof.
  induction ls as [|l ls IHl]; intros libs; [auto|]. cbn. destruct (load_libs l libs) as [A B].
  destruct (load_library l libs) as [lb1 t1]. cbn in A, B. subst lb1. destruct (IHl (rev (loaded t1) ++ libs)) as [C D].
  destruct (load_all ls _) as [lb2 t2]. cbn in *. rewrite C, loaded_app, finalised_app, B, D, rev_app_distr, app_assoc. auto.
Qed.

Lemma finalised_map : forall l, finalised (map EvFinalise l) = l /\ loaded (map EvFinalise l) = [].
Proof. induction l as [|n l [A B]]; cbn; [auto|]. now rewrite A, B. Qed.

Lemma finalise_quiet : forall fs libs, Forall (fun f => f = []) fs -> finalise fs libs = map EvFinalise libs.
Proof.
  induction fs as [|f fs IH]; intros libs F; [reflexivity|]. inversion F; subst. destruct libs as [|n libs]; [reflexivity|]. cbn. now rewrite IH.
Qed.

(** The last event of LoadLibrary says whether it returned. *)
Lemma load_last : forall l libs, exists t, snd (load_library l libs) = t ++ [match l with
  | LNoFile n => EvNotLoaded n LibraryNotFound | LNoSymbol n => EvNotLoaded n InvalidLibrary
  | LInitialise n _ ITrue => EvLoaded n | LInitialise n _ IFalse => EvNotLoaded n InvalidLibrary
  | LInitialise n _ IThrows => EvNotLoaded n FromInitialise end].
Proof.
  intros [n|n|n nested r] libs; [now exists []..|]. rewrite load_fix. destruct (load_all nested libs) as [lb t]. exists t. now destruct r.
Qed.

(** * Destruction *)

(** The last global event is remembered only while it is being emitted. *)
Definition emitting (f : cmd * list instr) : Prop := exists r, snd f = IUser false :: IClear :: r \/ snd f = IClear :: r.
Definition last_inv (x : sim) : Prop := s_last x = None \/ exists f, In f (s_stack x) /\ emitting f.

Lemma push_last : forall s l i h k i' h' f, last_inv (Sim s l i h k) -> last_inv (Sim s l i' h' (f :: k)).
Proof. intros s l i h k i' h' f [L|(g & I & E)]; [now left|]. right. exists g. cbn in *. auto. Qed.

Lemma step_last : forall a x, last_inv x -> last_inv (fst (step a x)).
Proof.
  intros a [s l i h k] L. destruct a as [c|p| | |].
  - cbn [step]. destruct (in_user k); [|exact L].
    destruct c; cbn; repeat match goal with |- context [if ?b then _ else _] => destruct b end; cbn; first [exact L|exact (push_last _ _ _ _ _ _ _ _ L)].
  - cbn [step]. destruct (in_user k); [|exact L]. destruct (can_add s); exact L.
  - cbn. destruct k as [|[c [|[] r]] k]; try exact L. cbn. destruct L as [L|(g & I & E)]; [now left|]. right. cbn in I.
    destruct I as [<-|I]; [|exists g; split; [now right|assumption]].
    destruct E as (r' & [E|E]); cbn in E; [|discriminate]. injection E as -> ->. exists (c, IClear :: r'). split; [now left|]. exists r'. now right.
  - cbn. destruct k as [|[c [|[s'|e| |b| |p] r]] k]; try exact L. destruct b; [|exact L]. cbn. destruct L as [L|(g & I & E)]; [now left|]. right. cbn in I.
    destruct I as [<-|I]; [|eauto]. destruct E as (r' & [E|E]); discriminate E.
  - assert (X : forall c f g s' i' h' k, ~ emitting (c, f) -> last_inv (Sim s l i h ((c, f) :: k)) -> last_inv (Sim s' l i' h' ((c, g) :: k))).
    { intros c f g s' i' h' k' NE [Q|(u & I & E')]; [now left|]. right. destruct I as [<-|I]; [contradiction|]. exists u. split; [now right|assumption]. }
    assert (N : forall c j r, (forall b, j <> IUser b) -> j <> IClear -> ~ emitting (c, j :: r)).
    { intros c j r U C (r' & [E|E]); cbn in E; injection E as E _; [exact (U _ E)|exact (C E)]. }
    cbn. destruct k as [|[c [|[s'|e| |b| |p] r]] k]; cbn; try exact L.
    + destruct L as [L|(g & I & E)]; [now left|]. right. cbn in I. destruct I as [<-|I]; [destruct E as (r' & [E|E]); discriminate E|]. exists g. auto.
    + apply (X c (IState s' :: r)); [now apply N|exact L].
    + right. exists (c, IUser false :: IClear :: r). split; [now left|]. exists r. now left.
    + now left.
    + apply (X c (IInit :: r)); [now apply N|exact L].
    + apply (X c (IExec p :: r)); [now apply N|exact L].
Qed.

Lemma run_last : forall ls x, last_inv x -> last_inv (fst (run x ls)).
Proof.
  induction ls as [|a ls IH]; intros x L; [exact L|]. cbn. pose proof (step_last a x L) as S. destruct (step a x) as [x1 t1].
  specialize (IH x1 S). destruct (run x1 ls). exact IH.
Qed.

(** At rest no global event is being emitted. *)
Lemma rest_last : forall ls, s_stack (fst (run sim_init ls)) = [] -> s_last (fst (run sim_init ls)) = None.
Proof.
  intros ls E. destruct (run_last ls sim_init (or_introl eq_refl)) as [L|(f & I & _)]; [exact L|]. rewrite E in I. destruct I.
Qed.

(** Exit with any user code that does not call Abort. *)
Inductive exitp : sim -> Prop :=
| x_start l i h : exitp (Sim Standby l i h [(CExit, body CExit)])
| x_leave i h n : (length n <= 1)%nat -> exitp (Sim Standby (Some LeaveStandby) i h (map (fun c => (c, [])) n ++ [(CExit, IUser false :: IClear :: [IState Exiting; IEmit EnterExiting; IUser true])]))
| x_clear l i h : exitp (Sim Standby l i h [(CExit, [IClear; IState Exiting; IEmit EnterExiting; IUser true])])
| x_state l i h : exitp (Sim Standby l i h [(CExit, [IState Exiting; IEmit EnterExiting; IUser true])])
| x_exiting l i h n f : In f [[IEmit EnterExiting; IUser true]; [IUser false; IClear; IUser true]; [IClear; IUser true]; [IUser true]; []] ->
    exitp (Sim Exiting l i h (map (fun c => (c, [])) n ++ [(CExit, f)]))
| x_end l i h n : exitp (Sim Exiting l i h (map (fun c => (c, [])) n)).

Lemma call_ignored : forall c s l i h k, c <> CAbort -> s = Exiting \/ (s = Standby /\ l = Some LeaveStandby) ->
  exists c' h', fst (call c (Sim s l i h k)) = Sim s l i h' ((c', []) :: k).
Proof.
  intros c s l i h k N [->|[-> ->]]; destruct c; try contradiction; cbn; try (eexists _, _; reflexivity); destruct h; cbn; eexists _, _; reflexivity.
Qed.

Lemma step_exitp : forall a x, a <> LCall CAbort -> exitp x -> exitp (fst (step a x)).
Proof.
  intros a x N X. destruct X as [l i h|i h n Ln|l i h|l i h|l i h n f If|l i h n].
  - destruct a; cbn; try constructor. exact (x_leave i h [] (le_S _ _ (le_n _))).
  - destruct n as [|d [|? ?]]; [| |cbn in Ln; lia].
    + destruct a as [c|p| | |]; cbn [step map app in_user].
      * destruct (call_ignored c Standby (Some LeaveStandby) i h [(CExit, [IUser false; IClear; IState Exiting; IEmit EnterExiting; IUser true])]) as (c' & h' & E); [congruence|auto|].
        rewrite E. exact (x_leave i h' [c'] (le_n _)).
      * exact (x_leave (i ++ [p]) h [] (le_S _ _ (le_n _))).
      * apply x_clear.
      * exact (x_leave i h [] (le_S _ _ (le_n _))).
      * exact (x_leave i h [] (le_S _ _ (le_n _))).
    + destruct a as [c|p| | |]; cbn; try exact (x_leave i h [d] (le_n _)). exact (x_leave i h [] (le_S _ _ (le_n _))).
  - destruct a; cbn; constructor.
  - destruct a; cbn; try constructor. apply (x_exiting l i h []). cbn. tauto.
  - destruct n as [|d n].
    + assert (Same : exitp (Sim Exiting l i h [(CExit, f)])) by exact (x_exiting l i h [] f If).
      destruct a as [c|p| | |]; cbn [step map app].
      * destruct (in_user [(CExit, f)]); [|exact Same]. destruct (call_ignored c Exiting l i h [(CExit, f)]) as (c' & h' & E); [congruence|auto|].
        rewrite E. exact (x_exiting l i h' [c'] f If).
      * destruct (in_user [(CExit, f)]); exact Same.
      * cbn in If. destruct If as [<-|[<-|[<-|[<-|[<-|[]]]]]]; cbn; try exact Same; apply (x_exiting l i h []); cbn; tauto.
      * cbn in If. destruct If as [<-|[<-|[<-|[<-|[<-|[]]]]]]; cbn; try exact Same. exact (x_end l i h []).
      * cbn in If. destruct If as [<-|[<-|[<-|[<-|[<-|[]]]]]]; cbn; try exact Same; try (apply (x_exiting _ i h []); cbn; tauto). exact (x_end l i h []).
    + assert (Same : exitp (Sim Exiting l i h (map (fun c => (c, [])) (d :: n) ++ [(CExit, f)]))) by exact (x_exiting l i h (d :: n) f If).
      destruct a as [c|p| | |]; cbn in *; try exact Same. exact (x_exiting l i h n f If).
  - destruct n as [|d n].
    + destruct a as [c|p| | |]; cbn [step map in_user]; try exact (x_end l i h []).
      destruct (call_ignored c Exiting l i h []) as (c' & h' & E); [congruence|auto|]. rewrite E. exact (x_end l i h' [c']).
    + destruct a as [c|p| | |]; cbn; try exact (x_end l i h (d :: n)). exact (x_end l i h n).
Qed.

Lemma exit_run : forall ls x, ~ In (LCall CAbort) ls -> s_stack x = [] -> s_st x = Standby -> s_last x = None ->
  exitp (fst (run x (LCall CExit :: ls))).
Proof.
  intros ls [s l i h k] N K S L. cbn in K, S, L. subst.
  assert (X : forall ls x, ~ In (LCall CAbort) ls -> exitp x -> exitp (fst (run x ls))).
  { clear. induction ls as [|a ls IH]; intros x N X; [exact X|]. cbn. assert (Y := step_exitp a x). destruct (step a x) as [x1 t1]. cbn in Y.
    specialize (IH x1). destruct (run x1 ls) as [x2 t2]. cbn in IH |- *. apply IH; [intros H; apply N; now right|]. apply Y; [|assumption]. intros ->. apply N. now left. }
  cbn [run step in_user call guard is_standby last_is negb andb]. specialize (X ls (Sim Standby None i h [(CExit, body CExit)]) N (x_start None i h)).
  destruct (run (Sim Standby None i h [(CExit, body CExit)]) ls). exact X.
Qed.

Lemma exitp_rest : forall x, exitp x -> s_stack x = [] -> s_st x = Exiting.
Proof. intros x X E. destruct X as [l i h|i h n Ln|l i h|l i h|l i h n f If|l i h n]; cbn in *; try discriminate; try reflexivity. now destruct n. Qed.
