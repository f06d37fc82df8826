From Verif Require Import Base Assoc UuidModel UuidProofs EventModel EventSpec EventProofs LinkModel LinkSpec.

Lemma pair_eqb_ok a b : pair_eqb a b = true <-> a = b.
Proof.
  destruct a, b. unfold pair_eqb. cbn. rewrite andb_true_iff, !Z.eqb_eq.
  split; [intros [-> ->]; reflexivity|intros [= -> ->]; auto].
Qed.

Lemma lrun_app name r a b :
  lrun name r (a ++ b) = let '(r1, t1) := lrun name r a in let '(r2, t2) := lrun name r1 b in (r2, t1 ++ t2).
Proof.
  revert r. induction a as [|o a IH]; intros r; cbn [lrun app].
  - now destruct (lrun name r b).
  - destruct (lstep name o r) as [r1 x]. rewrite IH. destruct (lrun name r1 a) as [r2 t2].
    now destruct (lrun name r2 b).
Qed.

Lemma balance_snoc tr e s t : balance (tr ++ [e]) s t = bal_step s t (balance tr s t) e.
Proof. unfold balance. now rewrite fold_left_app. Qed.

(** * Counts *)
Record LInv (r : reg) (tr : list (lop * lout)) : Prop := {
  k_nodup : NoDup (akeys (r_links r));
  k_links : forall s t, aget pair_eqb (s, t) (r_links r) = if balance tr s t =? 0 then None else Some (balance tr s t);
  k_pos : forall s t, 0 <= balance tr s t < u32;
}.

Lemma linv_init : LInv reg_init [].
Proof. constructor; [constructor|reflexivity|]. intros s t. unfold balance, u32. cbn. lia. Qed.

Lemma pair_and s t s' t' : ((s' =? s) && (t' =? t)) = pair_eqb (s, t) (s', t').
Proof. unfold pair_eqb. cbn. now rewrite (Z.eqb_sym s' s), (Z.eqb_sym t' t). Qed.

Ltac pc s t s' t' := destruct (eqb_cases pair_eqb pair_eqb_ok (s, t) (s', t')) as [[-> ?E]|[-> ?E]].

Lemma linv_step name o r tr : LInv r tr ->
  (forall s t, balance (tr ++ [(o, snd (lstep name o r))]) s t < u32) ->
  LInv (fst (lstep name o r)) (tr ++ [(o, snd (lstep name o r))]).
Proof.
  intros V B. assert (1 mod u32 = 1) as U1 by reflexivity. assert (1 < u32) as U2 by reflexivity.
  destruct o as [s t|s t|s t|t]; cbn [lstep] in *.
  - (* add *)
    assert (forall a b out, balance (tr ++ [(LAdd s t, out)]) a b
              = if pair_eqb (a, b) (s, t) then balance tr a b + 1 else balance tr a b) as BS.
    { intros a b out. rewrite balance_snoc. cbn [bal_step]. now rewrite pair_and. }
    unfold add_link in *. pose proof (k_links _ _ V s t) as L. pose proof (k_pos _ _ V s t) as P.
    destruct (aget pair_eqb (s, t) (r_links r)) as [n|] eqn:E; cbn [fst snd] in *.
    + destruct (balance tr s t =? 0) eqn:Z0; [discriminate L|]. injection L as L. subst n.
      assert (balance tr s t + 1 < u32) as B1.
      { specialize (B s t). rewrite BS in B. now rewrite (Assoc.eqb_refl pair_eqb pair_eqb_ok) in B. }
      constructor; cbn [r_links].
      * apply aset_nodup; [apply pair_eqb_ok|apply V].
      * intros a b. rewrite BS. pc a b s t.
        -- injection E0 as -> ->. rewrite aget_aset_same by apply pair_eqb_ok.
           rewrite Z.mod_small by lia. destruct (Z.eqb_spec (balance tr s t + 1) 0); [lia|reflexivity].
        -- rewrite aget_aset_other by (try apply pair_eqb_ok; assumption). apply V.
      * intros a b. rewrite BS. pc a b s t; [injection E0 as -> ->; lia|apply V].
    + destruct (balance tr s t =? 0) eqn:Z0; [|discriminate L]. apply Z.eqb_eq in Z0.
      assert (forall targets out, LInv (Reg (atry pair_eqb (s, t) 1 (r_links r)) targets) (tr ++ [(LAdd s t, out)])) as D.
      { intros targets out. constructor; cbn [r_links].
        - apply atry_nodup; [apply pair_eqb_ok|apply V].
        - intros a b. rewrite BS. rewrite aget_atry by apply pair_eqb_ok. pc a b s t.
          + injection E0 as -> ->. rewrite E, Z0. reflexivity.
          + rewrite (k_links _ _ V a b). now destruct (balance tr a b =? 0).
        - intros a b. rewrite BS. pc a b s t; [injection E0 as -> ->; lia|apply V]. }
      destruct (coll_add name s (coll_of t r)); apply D.
  - (* remove *)
    unfold remove_link in *. pose proof (k_links _ _ V s t) as L. pose proof (k_pos _ _ V s t) as P.
    destruct (aget pair_eqb (s, t) (r_links r)) as [n|] eqn:E; cbn [fst snd] in *.
    + destruct (balance tr s t =? 0) eqn:Z0; [discriminate L|]. injection L as L. subst n.
      apply Z.eqb_neq in Z0. rewrite Z.mod_small in * by lia.
      assert (forall a b, balance (tr ++ [(LRemove s t, LBool true)]) a b
              = if pair_eqb (a, b) (s, t) then balance tr a b - 1 else balance tr a b) as BS.
      { intros a b. rewrite balance_snoc. cbn [bal_step]. now rewrite pair_and. }
      destruct (balance tr s t - 1 =? 0) eqn:Z1; cbn [fst snd].
      * apply Z.eqb_eq in Z1. constructor; cbn [r_links].
        -- apply adel_nodup, V.
        -- intros a b. rewrite BS. pc a b s t.
           ++ injection E0 as -> ->. rewrite Z1. apply aget_adel_same; [apply pair_eqb_ok|apply V].
           ++ rewrite aget_adel_other by (try apply pair_eqb_ok; assumption). apply V.
        -- intros a b. rewrite BS. pc a b s t; [injection E0 as -> ->; lia|apply V].
      * constructor; cbn [r_links].
        -- apply aset_nodup; [apply pair_eqb_ok|apply V].
        -- intros a b. rewrite BS. pc a b s t.
           ++ injection E0 as -> ->. rewrite Z1. apply aget_aset_same, pair_eqb_ok.
           ++ rewrite aget_aset_other by (try apply pair_eqb_ok; assumption). apply V.
        -- intros a b. rewrite BS. apply Z.eqb_neq in Z1. pc a b s t; [injection E0 as -> ->; lia|apply V].
    + constructor; [apply V| |]; intros a b; rewrite balance_snoc; apply V.
  - constructor; [apply V| |]; intros a b; rewrite balance_snoc; apply V.
  - assert (r_links (fst (link_sources t r)) = r_links r) as E.
    { unfold link_sources. now destruct (aget Z.eqb t (r_targets r)). }
    constructor; rewrite ?E; [apply V| |]; intros a b; rewrite balance_snoc; apply V.
Qed.

Lemma lrun_snoc name os o :
  fst (lrun name reg_init (os ++ [o])) = fst (lstep name o (fst (lrun name reg_init os))) /\
  ltrace name (os ++ [o]) = ltrace name os ++ [(o, snd (lstep name o (fst (lrun name reg_init os))))].
Proof.
  unfold ltrace. rewrite lrun_app. destruct (lrun name reg_init os) as [r t]. cbn [lrun fst snd].
  destruct (lstep name o r) as [r1 x]. auto.
Qed.

Lemma bounded_prefix name a b : bounded_links name (a ++ b) -> bounded_links name a.
Proof. intros H os1 os2 s t E. apply (H os1 (os2 ++ b)). rewrite E. now rewrite app_assoc. Qed.

Lemma reach_linv name os : bounded_links name os -> LInv (fst (lrun name reg_init os)) (ltrace name os).
Proof.
  induction os as [|o os IH] using rev_ind; intros B; [apply linv_init|].
  destruct (lrun_snoc name os o) as [E1 E2]. rewrite E1, E2. apply linv_step.
  - apply IH. now apply bounded_prefix in B.
  - intros s t. rewrite <- E2. apply (B (os ++ [o]) []). now rewrite app_nil_r.
Qed.

(** * Sources *)
Lemma has_name_In name n l : has_name name n l = true <-> exists c, In c l /\ name c = n.
Proof.
  unfold has_name. rewrite existsb_exists. split; intros (c & I & E); exists c; (split; [assumption|]).
  - now apply list_eqb_eq in E.
  - now apply list_eqb_eq.
Qed.

Definition SInv (r : reg) (tr : list (lop * lout)) : Prop :=
  forall t, NoDup (coll_of t r) /\ forall s, In s (coll_of t r) <-> 0 < balance tr s t.

Lemma balance_add name os s t : bounded_links name os -> 0 < balance (ltrace name os) s t -> In (LAdd s t) os.
Proof.
  induction os as [|o os IH] using rev_ind; intros B H; [cbv in H; discriminate|].
  destruct (lrun_snoc name os o) as [E1 E2]. rewrite E2, balance_snoc in H.
  apply in_app_iff. pose proof (bounded_prefix _ _ _ B) as B'.
  destruct o as [a b|a b|a b|b]; cbn [bal_step] in H; try (left; now apply IH).
  - destruct (Z.eqb_spec a s), (Z.eqb_spec b t); cbn [andb] in H; try (left; now apply IH). subst. right. now left.
  - left. apply IH; [assumption|]. destruct (snd _) as [| |[]| |]; try assumption.
    destruct (_ && _); [lia|assumption].
Qed.

Lemma coll_of_aset t t' l r links :
  coll_of t (Reg links (aset Z.eqb t' l (r_targets r))) = if t =? t' then l else coll_of t r.
Proof.
  unfold coll_of. cbn [r_targets]. destruct (Z.eqb_spec t t').
  - subst. now rewrite aget_aset_same by apply zeqb_ok.
  - now rewrite aget_aset_other by (try apply zeqb_ok; assumption).
Qed.

Lemma coll_of_aset' t t' l x y :
  coll_of t (Reg x (aset Z.eqb t' l y)) = if t =? t' then l else coll_of t (Reg x y).
Proof. apply (coll_of_aset t t' l (Reg x y) x). Qed.

Lemma coll_of_atry t t' r links : coll_of t (Reg links (atry Z.eqb t' [] (r_targets r))) = coll_of t r.
Proof.
  unfold coll_of. cbn [r_targets]. rewrite aget_atry by apply zeqb_ok.
  destruct (aget Z.eqb t (r_targets r)); [reflexivity|]. now destruct (t =? t').
Qed.

Lemma reach_sinv name os : bounded_links name os -> distinct_names name os ->
  SInv (fst (lrun name reg_init os)) (ltrace name os) /\ ~ In LDuplicate (map snd (ltrace name os)).
Proof.
  induction os as [|o os IH] using rev_ind; intros B D.
  { split; [|cbn; tauto]. intros t. split; [constructor|]. intros s. cbn. unfold balance. cbn. lia. }
  pose proof (bounded_prefix _ _ _ B) as B'.
  assert (distinct_names name os) as D' by (intros a b t Ha Hb; apply (D a b t); apply in_app_iff; auto).
  destruct (IH B' D') as [V N]. clear IH. pose proof (reach_linv name os B') as L.
  pose proof (balance_add name os) as A.
  destruct (lrun_snoc name os o) as [E1 E2]. rewrite E1, E2.
  set (r := fst (lrun name reg_init os)) in *. set (tr := ltrace name os) in *.
  rewrite map_app. cbn [map snd].
  assert (forall (P : Prop) x, P /\ x <> LDuplicate -> P /\ ~ In LDuplicate (map snd tr ++ [x])) as Q.
  { intros P x [H1 H2]. split; [assumption|]. rewrite in_app_iff. cbn. intros [I|[I|[]]]; [contradiction|congruence]. }
  apply Q. clear Q.
  destruct o as [s t|s t|s t|t]; cbn [lstep].
  - assert (forall a b out, balance (tr ++ [(LAdd s t, out)]) a b
              = if pair_eqb (a, b) (s, t) then balance tr a b + 1 else balance tr a b) as BS.
    { intros a b out. rewrite balance_snoc. cbn [bal_step]. now rewrite pair_and. }
    unfold add_link. pose proof (k_links _ _ L s t) as KL.
    destruct (aget pair_eqb (s, t) (r_links r)) as [n|] eqn:E; cbn [fst snd].
    + split; [|discriminate]. destruct (balance tr s t =? 0) eqn:Z0; [discriminate KL|]. apply Z.eqb_neq in Z0.
      intros t'. destruct (V t') as [V1 V2]. split; [exact V1|]. intros a. unfold coll_of in *. cbn [r_targets].
      rewrite V2, BS. pose proof (k_pos _ _ L s t). pc a t' s t; [injection E0 as -> ->; lia|lia].
    + destruct (balance tr s t =? 0) eqn:Z0; [|discriminate KL]. apply Z.eqb_eq in Z0.
      assert (has_name name (name s) (coll_of t r) = false) as HN.
      { destruct (has_name name (name s) (coll_of t r)) eqn:X; [|reflexivity]. exfalso.
        apply has_name_In in X. destruct X as (c & I & En). apply (proj2 (V t)) in I.
        assert (c = s) as ->.
        { apply (D c s t); [apply in_app_iff; left; now apply A|apply in_app_iff; right; now left|assumption]. }
        lia. }
      unfold coll_add. rewrite HN. cbn [fst snd]. split; [|discriminate].
      intros t'.
      assert (coll_of t' (Reg (atry pair_eqb (s, t) 1 (r_links r)) (aset Z.eqb t (coll_of t r ++ [s]) (atry Z.eqb t [] (r_targets r))))
              = if t' =? t then coll_of t r ++ [s] else coll_of t' r) as ->.
      { rewrite (coll_of_aset t' t _ (Reg (r_links r) (atry Z.eqb t [] (r_targets r)))).
        destruct (t' =? t); [reflexivity|]. apply coll_of_atry. }
      destruct (Z.eqb_spec t' t).
      * subst t'. destruct (V t) as [V1 V2]. split.
        -- apply NoDup_snoc; [assumption|]. rewrite V2. lia.
        -- intros a. rewrite in_app_iff, V2, BS. cbn [In]. pc a t s t.
           ++ injection E0 as ->. split; [lia|auto].
           ++ split; [intros [X|[<-|[]]]; [assumption|congruence]|auto].
      * destruct (V t') as [V1 V2]. split; [assumption|]. intros a. rewrite V2, BS.
        rewrite (eqb_ne pair_eqb pair_eqb_ok) by congruence. reflexivity.
  - unfold remove_link. pose proof (k_links _ _ L s t) as KL. pose proof (k_pos _ _ L s t) as KP.
    destruct (aget pair_eqb (s, t) (r_links r)) as [n|] eqn:E; cbn [fst snd].
    + destruct (balance tr s t =? 0) eqn:Z0; [discriminate KL|]. injection KL as KL. subst n.
      apply Z.eqb_neq in Z0. rewrite Z.mod_small in * by lia.
      assert (forall a b, balance (tr ++ [(LRemove s t, LBool true)]) a b
              = if pair_eqb (a, b) (s, t) then balance tr a b - 1 else balance tr a b) as BS.
      { intros a b. rewrite balance_snoc. cbn [bal_step]. now rewrite pair_and. }
      destruct (balance tr s t - 1 =? 0) eqn:Z1; cbn [fst snd]; (split; [|discriminate]).
      * apply Z.eqb_eq in Z1. intros t'.
        assert (In s (coll_of t r)) as Is by (apply (proj2 (V t)); lia).
        match goal with |- context [coll_of t' ?X] =>
          assert (coll_of t' X = if t' =? t then erase s (coll_of t r) else coll_of t' r) as -> end.
        { unfold coll_of at 2. destruct (aget Z.eqb t (r_targets r)) as [l|] eqn:El.
          - rewrite coll_of_aset. reflexivity.
          - unfold coll_of in Is. rewrite El in Is. contradiction. }
        destruct (Z.eqb_spec t' t).
        -- subst t'. destruct (V t) as [V1 V2]. rewrite erase_remove_one.
           destruct (remove_one_nodup s (coll_of t r) V1) as [R1 R2]. split; [assumption|].
           intros a. rewrite BS. pc a t s t.
           ++ injection E0 as ->. split; [contradiction|lia].
           ++ rewrite <- V2. split; [apply remove_one_In|]. intros I.
              assert (a <> s) as Na by congruence. clear - I Na.
              induction (coll_of t r) as [|y l IH]; [contradiction|]. cbn. destruct (Z.eqb_spec s y).
              ** destruct I; [congruence|assumption].
              ** destruct I; [now left|right; auto].
        -- destruct (V t') as [V1 V2]. split; [assumption|]. intros a. rewrite V2, BS.
           rewrite (eqb_ne pair_eqb pair_eqb_ok) by congruence. reflexivity.
      * apply Z.eqb_neq in Z1. intros t'. destruct (V t') as [V1 V2]. split; [exact V1|].
        intros a. unfold coll_of in *. cbn [r_targets]. rewrite V2, BS. pc a t' s t; [injection E0 as -> ->; lia|lia].
    + split; [|discriminate]. intros t'. destruct (V t') as [V1 V2]. split; [exact V1|].
      intros a. rewrite balance_snoc. apply V2.
  - split; [|discriminate]. intros t'. destruct (V t') as [V1 V2]. split; [exact V1|].
    intros a. rewrite balance_snoc. apply V2.
  - unfold link_sources. destruct (aget Z.eqb t (r_targets r)) eqn:E; cbn [fst snd]; (split; [|discriminate]).
    + intros t'. destruct (V t') as [V1 V2]. split; [exact V1|]. intros a. rewrite balance_snoc. apply V2.
    + intros t'. rewrite coll_of_atry. destruct (V t') as [V1 V2]. split; [exact V1|].
      intros a. rewrite balance_snoc. apply V2.
Qed.

(** * RemoveLinks *)
Lemma spares_coll name t o r : spares t o -> coll_of t (fst (lstep name o r)) = coll_of t r.
Proof.
  intros S. destruct o as [s t'|s t'|s t'|t']; cbn [lstep spares] in *.
  - unfold add_link. destruct (aget pair_eqb (s, t') (r_links r)); [reflexivity|].
    destruct (coll_add name s (coll_of t' r)); cbn [fst].
    + rewrite coll_of_aset'.
      destruct (Z.eqb_spec t t'); [congruence|]. apply coll_of_atry.
    + apply coll_of_atry.
  - unfold remove_link. destruct (aget pair_eqb (s, t') (r_links r)); [|reflexivity].
    destruct (_ =? 0); cbn [fst]; [|reflexivity].
    destruct (aget Z.eqb t' (r_targets r)); [|reflexivity]. rewrite coll_of_aset.
    destruct (Z.eqb_spec t t'); [congruence|reflexivity].
  - reflexivity.
  - unfold link_sources. destruct (aget Z.eqb t' (r_targets r)); cbn [fst]; [reflexivity|apply coll_of_atry].
Qed.

Lemma spares_run name t os r : Forall (spares t) os -> coll_of t (fst (lrun name r os)) = coll_of t r.
Proof.
  revert r. induction os as [|o os IH]; intros r F; [reflexivity|]. inversion F; subst. cbn [lrun].
  pose proof (spares_coll name t o r) as S. destruct (lstep name o r) as [r1 x].
  specialize (IH r1). destruct (lrun name r1 os) as [r2 y]. cbn [fst] in *. rewrite IH, S by assumption. reflexivity.
Qed.

Lemma remove_links_spared name linking behave t r :
  (forall c, In c (coll_of t r) -> linking c = true -> Forall (spares t) (behave c)) ->
  snd (remove_links name linking behave t r) = filter linking (coll_of t r) /\
  coll_of t (fst (remove_links name linking behave t r)) = coll_of t r.
Proof.
  intros H. unfold remove_links.
  assert (forall l pre r', coll_of t r' = pre ++ l -> coll_of t r' = coll_of t r ->
    snd (remove_links_from name linking behave t (length l) (length pre) r') = filter linking l /\
    coll_of t (fst (remove_links_from name linking behave t (length l) (length pre) r')) = coll_of t r) as G.
  { induction l as [|c l IH]; intros pre r' E1 E2; cbn [length remove_links_from]; [split; [reflexivity|assumption]|].
    rewrite E1, nth_error_app2, Nat.sub_diag by lia. cbn [nth_error filter].
    assert (S (length pre) = length (pre ++ [c])) as -> by (rewrite app_length; cbn; lia).
    destruct (linking c) eqn:L.
    - pose proof (spares_run name t (behave c) r') as SR.
      destruct (lrun name r' (behave c)) as [r1 x]. cbn [fst] in SR.
      assert (coll_of t r1 = coll_of t r') as E3.
      { apply SR, H; [rewrite <- E2, E1; apply in_elt|assumption]. }
      destruct (IH (pre ++ [c]) r1) as [I1 I2].
      { rewrite E3, E1, <- app_assoc. reflexivity. }
      { congruence. }
      destruct (remove_links_from _ _ _ _ _ _ r1). cbn [fst snd] in *. split; [now rewrite I1|assumption].
    - apply IH; [rewrite E1, <- app_assoc; reflexivity|assumption]. }
  apply (G (coll_of t r) [] r); reflexivity.
Qed.

Lemma erase_mid c (pre l : list Z) : ~ In c pre -> erase c (pre ++ c :: l) = pre ++ l.
Proof.
  induction pre as [|a pre IH]; cbn [app erase]; intros N.
  - now rewrite Z.eqb_refl.
  - destruct (Z.eqb_spec c a); [subst; exfalso; apply N; now left|]. rewrite IH; [reflexivity|]. intros I. apply N. now right.
Qed.

Lemma nth_error_none_from name linking behave t n j r :
  (length (coll_of t r) <= j)%nat -> remove_links_from name linking behave t n j r = (r, []).
Proof.
  revert j. induction n as [|n IH]; intros j L; [reflexivity|]. cbn [remove_links_from].
  assert (nth_error (coll_of t r) j = None) as -> by now apply nth_error_None.
  apply IH. lia.
Qed.

Lemma remove_links_alternate name linking t r :
  NoDup (akeys (r_links r)) -> NoDup (coll_of t r) ->
  (forall c, In c (coll_of t r) -> linking c = true /\ link_count c t r = 1) ->
  snd (remove_links name linking (fun c => [LRemove c t]) t r) = evens (coll_of t r) /\
  coll_of t (fst (remove_links name linking (fun c => [LRemove c t]) t r)) = odds (coll_of t r).
Proof.
  intros ND NC HC. unfold remove_links.
  assert (forall n l pre r', (length l <= n)%nat -> NoDup (akeys (r_links r')) -> NoDup (pre ++ l) -> coll_of t r' = pre ++ l ->
    (forall c, In c l -> linking c = true /\ link_count c t r' = 1) ->
    let x := remove_links_from name linking (fun c => [LRemove c t]) t n (length pre) r' in
    snd x = evens l /\ coll_of t (fst x) = pre ++ odds l) as G.
  { induction n as [n IH] using (well_founded_induction Wf_nat.lt_wf). intros l pre r' Ln N1 N2 E1 H1.
    destruct l as [|c l].
    { cbn zeta. rewrite nth_error_none_from by (rewrite E1, app_nil_r; lia). cbn [fst snd]. split; [reflexivity|assumption]. }
    destruct n as [|n]; [cbn in Ln; lia|]. cbn zeta. cbn [remove_links_from].
    rewrite E1, nth_error_app2, Nat.sub_diag by lia. cbn [nth_error].
    destruct (H1 c (or_introl eq_refl)) as [Lc Cc]. rewrite Lc. cbn [lrun lstep].
    unfold remove_link. unfold link_count in Cc.
    destruct (aget pair_eqb (c, t) (r_links r')) as [m|] eqn:Em; [|discriminate Cc]. subst m.
    change ((1 - 1) mod u32 =? 0) with true. cbn iota.
    destruct (aget Z.eqb t (r_targets r')) as [tl|] eqn:Et.
    2:{ unfold coll_of in E1. rewrite Et in E1. destruct pre; discriminate E1. }
    assert (tl = pre ++ c :: l) as -> by (unfold coll_of in E1; now rewrite Et in E1).
    pose proof (NoDup_remove _ _ _ N2) as [N3 N4].
    rewrite erase_mid by (intros I; apply N4; apply in_app_iff; auto).
    set (r1 := Reg _ _).
    assert (coll_of t r1 = pre ++ l) as C1.
    { unfold r1. rewrite (coll_of_aset t t _ r'). now rewrite Z.eqb_refl. }
    assert (forall d, In d l -> linking d = true /\ link_count d t r1 = 1) as C2.
    { intros d Id. destruct (H1 d (or_intror Id)) as [A B]. split; [assumption|]. unfold link_count, r1 in *. cbn [r_links].
      rewrite aget_adel_other; [exact B|apply pair_eqb_ok|].
      intros [= ->]. apply N4. apply in_app_iff. auto. }
    assert (NoDup (akeys (r_links r1))) as C3 by (unfold r1; cbn; now apply adel_nodup).
    destruct l as [|d l].
    - rewrite nth_error_none_from by (rewrite C1, app_length; cbn; lia). cbn [fst snd evens odds].
      split; [reflexivity|assumption].
    - assert (S (length pre) = length (pre ++ [d])) as -> by (rewrite app_length; cbn; lia).
      destruct (IH n (Nat.lt_succ_diag_r n) l (pre ++ [d]) r1) as [I1 I2]; try assumption.
      + cbn in Ln. lia.
      + rewrite <- app_assoc. exact N3.
      + rewrite <- app_assoc. exact C1.
      + intros e Ie. apply C2. now right.
      + destruct (remove_links_from _ _ _ _ _ _ r1). cbn [fst snd evens odds] in *.
        rewrite I1, I2, <- app_assoc. split; reflexivity. }
  apply (G _ (coll_of t r) [] r); auto.
Qed.

(** * Boundedness *)
Lemma ltrace_length name os : length (ltrace name os) = length os.
Proof.
  induction os as [|o os IH] using rev_ind; [reflexivity|].
  destruct (lrun_snoc name os o) as [_ E]. rewrite E, !app_length. cbn. now rewrite IH.
Qed.

Lemma balance_le tr s t : balance tr s t <= Z.of_nat (length tr).
Proof.
  induction tr as [|e tr IH] using rev_ind; [cbv; discriminate|].
  rewrite balance_snoc, app_length. cbn [length].
  destruct e as [[a b|a b|a b|b] x]; cbn [bal_step]; try (destruct x as [| |[]| |]); try destruct (_ && _); lia.
Qed.

Lemma bounded_short name os : Z.of_nat (length os) < 2 ^ 32 -> bounded_links name os.
Proof.
  intros H os1 os2 s t ->. eapply Z.le_lt_trans; [apply balance_le|].
  rewrite ltrace_length. rewrite app_length in H. lia.
Qed.

Lemma adds_state name n :
  link_count 1 2 (fst (lrun name reg_init (repeat (LAdd 1 2) n))) = Z.of_nat n mod u32 /\
  balance (ltrace name (repeat (LAdd 1 2) n)) 1 2 = Z.of_nat n /\
  (n <> O -> aget pair_eqb (1, 2) (r_links (fst (lrun name reg_init (repeat (LAdd 1 2) n)))) <> None).
Proof.
  induction n as [|n IH]; [split; [|split]; [reflexivity|reflexivity|congruence]|].
  assert (repeat (LAdd 1 2) (S n) = repeat (LAdd 1 2) n ++ [LAdd 1 2]) as ->.
  { cbn. clear. induction n; [reflexivity|]. cbn. now rewrite IHn at 1. }
  destruct (lrun_snoc name (repeat (LAdd 1 2) n) (LAdd 1 2)) as [E1 E2]. rewrite E1, E2.
  destruct IH as (I1 & I2 & I3). rewrite balance_snoc, I2. split; [|split].
  - cbn [lstep]. unfold add_link. unfold link_count in I1.
    destruct (aget pair_eqb (1, 2) _) as [m|] eqn:E.
    + cbn [fst]. unfold link_count. cbn [r_links]. rewrite aget_aset_same by apply pair_eqb_ok.
      rewrite I1. rewrite Zplus_mod_idemp_l. f_equal. lia.
    + destruct n; [|exfalso; apply I3; congruence].
      destruct (coll_add name 1 _); cbn [fst]; unfold link_count; cbn [r_links];
        rewrite aget_atry, E by apply pair_eqb_ok; reflexivity.
  - cbn [bal_step]. change ((1 =? 1) && (2 =? 2)) with true. cbn iota. lia.
  - intros _. cbn [lstep]. unfold add_link.
    destruct (aget pair_eqb (1, 2) _) as [m|] eqn:E.
    + cbn [fst r_links]. rewrite aget_aset_same by apply pair_eqb_ok. discriminate.
    + destruct (coll_add name 1 _); cbn [fst r_links]; rewrite aget_atry, E by apply pair_eqb_ok; discriminate.
Qed.
