(** Proofs about the text handling of the logger. *)
From Coq Require Import ZArith List Bool Lia.
From Verif Require Import Base Text UuidModel UuidProofs Assoc LogTextModel LogTextSpec.
Import ListNotations.
Local Open Scope Z_scope.

(** ** trim *)
Lemma is_space_white c : is_space c = true <-> white c.
Proof.
  unfold is_space, white.
  rewrite orb_true_iff, andb_true_iff, Z.eqb_eq, !Z.leb_le. tauto.
Qed.
Lemma is_space_false c : is_space c = false <-> ~ white c.
Proof. rewrite <- is_space_white. destruct (is_space c); split; intros; congruence. Qed.

Lemma ltrim_spec s :
  exists a, s = a ++ ltrim s /\ Forall white a /\ (forall c r, ltrim s = c :: r -> ~ white c).
Proof.
  induction s as [|c s IH]; cbn.
  - exists []. repeat split; [constructor|discriminate].
  - destruct (is_space c) eqn:E.
    + destruct IH as [a [H1 [H2 H3]]]. exists (c :: a). cbn. split; [congruence|].
      split; [|assumption]. constructor; [now apply is_space_white|assumption].
    + exists []. split; [reflexivity|]. split; [constructor|].
      intros c' r [= -> ->]. now apply is_space_false.
Qed.

Lemma rtrim_spec s :
  exists b, s = rtrim s ++ b /\ Forall white b /\ (forall c r, rtrim s = r ++ [c] -> ~ white c).
Proof.
  unfold rtrim. destruct (ltrim_spec (rev s)) as [a [H1 [H2 H3]]].
  exists (rev a). split.
  - rewrite <- rev_app_distr, <- H1. now rewrite rev_involutive.
  - split; [now apply Forall_rev|].
    intros c r E. apply (f_equal (@rev Z)) in E. rewrite rev_involutive, rev_app_distr in E.
    cbn in E. eapply H3; eassumption.
Qed.

Lemma trim_trimmed s : trimmed s (trim s).
Proof.
  unfold trimmed, trim.
  destruct (ltrim_spec s) as [a [A1 [A2 A3]]].
  destruct (rtrim_spec (ltrim s)) as [b [B1 [B2 B3]]].
  split.
  - exists a, b. split; [congruence|]. now split.
  - split; [|assumption].
    intros c r E. apply (A3 c (r ++ b)). rewrite B1, E. reflexivity.
Qed.

Lemma app_snoc_cases {A} (l : list A) : l = [] \/ exists r c, l = r ++ [c].
Proof.
  destruct l using rev_ind; [now left|right; eauto].
Qed.

Lemma white_prefix_unique a t b a' t' b' :
  a ++ t ++ b = a' ++ t' ++ b' ->
  Forall white a -> Forall white a' -> Forall white b -> Forall white b' ->
  (forall c r, t = c :: r -> ~ white c) -> (forall c r, t' = c :: r -> ~ white c) ->
  (forall c r, t = r ++ [c] -> ~ white c) -> (forall c r, t' = r ++ [c] -> ~ white c) ->
  t = t'.
Proof.
  intros E FA FA' FB FB' H1 H1' H2 H2'.
  destruct t as [|c t].
  - destruct t' as [|c' t']; [reflexivity|]. exfalso.
    apply (H1' c' t' eq_refl).
    assert (W : Forall white (a' ++ (c' :: t') ++ b')).
    { rewrite <- E. cbn. apply Forall_app. now split. }
    apply Forall_app in W. destruct W as [_ W]. now inversion W.
  - destruct t' as [|c' t'].
    { exfalso. apply (H1 c t eq_refl).
      assert (W : Forall white (a ++ (c :: t) ++ b)).
      { rewrite E. cbn. apply Forall_app. now split. }
      apply Forall_app in W. destruct W as [_ W]. now inversion W. }
    (* same prefix *)
    assert (P : a = a' /\ (c :: t) ++ b = (c' :: t') ++ b').
    { clear H2 H2' FB FB'. specialize (H1 c t eq_refl). specialize (H1' c' t' eq_refl).
      revert a' FA' E. induction FA as [|x a Wx FA IH]; intros a' FA' E.
      - destruct FA' as [|y a' Wy FA']; [now split|].
        cbn in E. injection E as Ex _. subst y. contradiction.
      - destruct FA' as [|y a' Wy FA'].
        + cbn in E. injection E as Ex _. subst x. contradiction.
        + cbn in E. injection E as Ex E'. subst y.
          destruct (IH a' FA' E') as [-> P]. now split. }
    destruct P as [-> P].
    destruct (app_snoc_cases (c :: t)) as [?|[r [x Hx]]]; [discriminate|].
    destruct (app_snoc_cases (c' :: t')) as [?|[r' [x' Hx']]]; [discriminate|].
    rewrite Hx in *. rewrite Hx' in *.
    specialize (H2 x r eq_refl). specialize (H2' x' r' eq_refl).
    apply (f_equal (@rev Z)) in P. rewrite !rev_app_distr in P. cbn in P.
    apply Forall_rev in FB, FB'.
    assert (Q : rev r ++ [] = rev r ++ [] -> x :: rev r = x' :: rev r').
    { intros _. revert P. generalize dependent (rev b'). generalize dependent (rev b).
      induction l as [|y l IH]; intros FB l' FB' P.
      - destruct FB' as [|y' l' Wy' FB']; [exact P|].
        cbn in P. injection P as Ex _. subst y'. contradiction.
      - inversion FB as [|? ? Wy FB0]; subst.
        destruct FB' as [|y' l' Wy' FB'].
        + cbn in P. injection P as Ex _. subst y. contradiction.
        + cbn in P. injection P as Ex P'. apply (IH FB0 l' FB' P'). }
    specialize (Q eq_refl). injection Q as -> Q.
    apply (f_equal (@rev Z)) in Q. rewrite !rev_involutive in Q. now subst.
Qed.

Theorem trimmed_iff s t : trimmed s t <-> t = trim s.
Proof.
  split; [|intros ->; apply trim_trimmed].
  intros [[a [b [E [FA FB]]]] [H1 H2]].
  destruct (trim_trimmed s) as [[a' [b' [E' [FA' FB']]]] [H1' H2']].
  eapply (white_prefix_unique a t b a' (trim s) b'); eauto. congruence.
Qed.

(** ** unescape *)
Lemma unescape_escape_char c r : unescape (escape_char c ++ r) = c :: unescape r.
Proof.
  unfold escape_char.
  repeat match goal with
  | |- context [if ?c =? ?k then _ else _] =>
      destruct (Z.eqb_spec c k) as [->|?]; [reflexivity|]
  end.
  destruct ((c =? 92) || (c =? 39) || (c =? 34) || (c =? 63)) eqn:E.
  - rewrite !orb_true_iff, !Z.eqb_eq in E.
    destruct E as [[[->| ->]| ->]| ->]; reflexivity.
  - rewrite !orb_false_iff in E. destruct E as [[[E _] _] _].
    cbn [app unescape]. now rewrite E.
Qed.

Theorem unescape_escape s : unescape (escape s) = s.
Proof.
  induction s as [|c s IH]; [reflexivity|]. cbn [escape].
  now rewrite unescape_escape_char, IH.
Qed.

Theorem unescape_plain s : ~ In 92 s -> unescape s = s.
Proof.
  induction s as [|c s IH]; [reflexivity|]. cbn [In]. intros H. cbn [unescape].
  destruct (Z.eqb_spec c 92) as [->|_]; [exfalso; apply H; now left|].
  f_equal. apply IH. tauto.
Qed.

(** a two character escape is one character whatever surrounds it *)
Lemma unescape_app_plain a b : ~ In 92 a -> unescape (a ++ b) = a ++ unescape b.
Proof.
  induction a as [|c a IH]; [reflexivity|]. cbn [In app unescape]. intros H.
  destruct (Z.eqb_spec c 92) as [->|_]; [exfalso; apply H; now left|].
  f_equal. apply IH. tauto.
Qed.

(** ** split *)
Definition drop_last_empty (l : list (list Z)) (f : list Z) : list (list Z) :=
  match trim f with [] => l | t => l ++ [t] end.

Lemma split_from_field d cur f s :
  ~ In d f -> split_from d cur (f ++ s) = split_from d (cur ++ f) s.
Proof.
  revert cur. induction f as [|c f IH]; intros cur H; cbn [app In split_from] in *.
  - now rewrite app_nil_r.
  - destruct (Z.eqb_spec c d) as [->|_]; [exfalso; apply H; now left|].
    rewrite IH by tauto. now rewrite <- app_assoc.
Qed.

Theorem split_join d fs f :
  Forall (fun x => ~ In d x) fs -> ~ In d f ->
  split d (join d (fs ++ [f]))
  = map trim fs ++ match trim f with [] => [] | t => [t] end.
Proof.
  unfold split. intros F Hf. induction F as [|g fs Hg F IH].
  - cbn [app join map]. rewrite <- (app_nil_r f) at 1. rewrite split_from_field by assumption.
    reflexivity.
  - assert (J : join d ((g :: fs) ++ [f]) = g ++ d :: join d (fs ++ [f])).
    { destruct fs; reflexivity. }
    rewrite J, split_from_field by assumption. cbn [app split_from]. rewrite Z.eqb_refl.
    rewrite IH. reflexivity.
Qed.

(** every text is a join of fields without delimiter *)
Lemma join_exists d s :
  exists fs f, s = join d (fs ++ [f]) /\ Forall (fun x => ~ In d x) fs /\ ~ In d f.
Proof.
  induction s as [|c s IH].
  - exists [], []. repeat split; [constructor|intros []].
  - destruct IH as [fs [f [-> [F Hf]]]].
    destruct (Z.eq_dec c d) as [->|N].
    + exists ([] :: fs), f. repeat split; [destruct fs; reflexivity| |assumption].
      constructor; [intros []|assumption].
    + destruct fs as [|g fs].
      * exists [], (c :: f). repeat split; [constructor|]. cbn. tauto.
      * exists ((c :: g) :: fs), f. repeat split; [destruct fs; reflexivity| |assumption].
        inversion F; subst. constructor; [cbn; tauto|assumption].
Qed.

(** ** patterns *)
Section Append.
Variable e : entry.

Definition mode_text (m : mode) : list Z :=
  match m with
  | Normal => [] | Percent => [37] | AfterTime w => [37; letter w]
  | InFormat w fmt => 37 :: letter w :: 123 :: fmt
  end.
Definition mode_ok (m : mode) : Prop :=
  match m with InFormat _ fmt => ~ In 125 fmt | _ => True end.

Lemma time_key_letter c w : time_key c = Some w <-> c = letter w.
Proof.
  unfold time_key. split.
  - repeat (destruct (_ =? _) eqn:E; [apply Z.eqb_eq in E; subst; intros [= <-]; reflexivity|clear E]).
    discriminate.
  - intros ->. destruct w; reflexivity.
Qed.

Lemma unamb_cons_nonnumber i l :
  (forall w, i <> Number w) -> unambiguous l -> unambiguous (i :: l).
Proof. intros H U. destruct i; cbn; auto. exfalso. eapply H. reflexivity. Qed.

Lemma unamb_number_percent w l r :
  Forall item_ok l -> unambiguous l -> 37 :: r = show_all l -> unambiguous (Number w :: l).
Proof.
  intros F U E. destruct l as [|i l]; [exact I|].
  destruct i; try (cbn; exact U).
  cbn in E. injection E as E _. inversion F as [|? ? X]; subst. cbn in X. congruence.
Qed.

Lemma broken_cons i p :
  item_ok i -> (forall w, i <> Number w) -> broken p -> broken (show i ++ p).
Proof.
  intros O N [l [[F U] H]]. exists (i :: l). split.
  - split; [now constructor|now apply unamb_cons_nonnumber].
  - destruct H as [->|[w [fmt [I ->]]]].
    + left. cbn. now rewrite app_assoc.
    + right. exists w, fmt. split; [assumption|]. cbn. now rewrite app_assoc.
Qed.

Lemma wf_cons i l : item_ok i -> (forall w, i <> Number w) -> well_formed l -> well_formed (i :: l).
Proof. intros O N [F U]. split; [now constructor|now apply unamb_cons_nonnumber]. Qed.

Lemma broken_number_percent w r : broken (37 :: r) -> broken (37 :: letter w :: 37 :: r).
Proof.
  intros [l [[F U] H]]. exists (Number w :: l). split.
  - split; [now constructor|].
    destruct l as [|i l]; [exact I|]. destruct i; try (cbn; exact U).
    inversion F as [|? ? X]; subst. cbn in X, H.
    destruct H as [H|[w' [fmt [_ H]]]]; injection H as H _; congruence.
  - destruct H as [H|[w' [fmt [I H]]]].
    + left. cbn. now rewrite H.
    + right. exists w', fmt. split; [assumption|]. cbn. now rewrite H.
Qed.

Definition outcome (t : list Z) (r : res Empty_set (list Z)) : Prop :=
  match r with
  | Ok o => exists l, well_formed l /\ t = show_all l /\ o = render_all e l
  | UB => broken t
  | Throw x => False
  end.

Lemma outcome_item i t r :
  item_ok i -> (forall w, i <> Number w) -> outcome t r ->
  outcome (show i ++ t) (prepend (render e i) r).
Proof.
  intros O N. destruct r as [o|x|]; cbn.
  - intros [l [W [-> ->]]]. exists (i :: l). split; [now apply wf_cons|]. split; reflexivity.
  - tauto.
  - now apply broken_cons.
Qed.

Lemma known_letters : codes "pkmtn%dSEM" = [112; 107; 109; 116; 110; 37; 100; 83; 69; 77].
Proof. reflexivity. Qed.

Lemma key_item c : time_key c = None ->
  exists i, show i = [37; c] /\ render e i = write_key e c /\ item_ok i /\ (forall w, i <> Number w).
Proof.
  intros K. unfold write_key.
  destruct (Z.eqb_spec c 112) as [->|N1]; [exists Path; repeat split; discriminate|].
  destruct (Z.eqb_spec c 107) as [->|N2]; [exists KindName; repeat split; discriminate|].
  destruct (Z.eqb_spec c 109) as [->|N3]; [exists Text; repeat split; discriminate|].
  destruct (Z.eqb_spec c 116) as [->|N4]; [exists Tab; repeat split; discriminate|].
  destruct (Z.eqb_spec c 110) as [->|N5]; [exists Newline; repeat split; discriminate|].
  destruct (Z.eqb_spec c 37) as [->|N6]; [exists PercentSign; repeat split; discriminate|].
  exists (Unknown c). split; [reflexivity|]. split; [reflexivity|]. split; [|discriminate].
  assert (D : forall w, c <> letter w).
  { intros w Hw. apply time_key_letter in Hw. congruence. }
  pose proof (D Zulu); pose proof (D SimTime); pose proof (D Epoch); pose proof (D Mission).
  unfold item_ok. rewrite known_letters. cbn in *. clear D K. intros X.
  repeat (destruct X as [X|X]; [subst c; congruence|]). exact X.
Qed.

Lemma write_time_formatted w fmt : write_time e w fmt = render e (Formatted w fmt).
Proof. now destruct fmt. Qed.

Lemma append_outcome p : forall m, mode_ok m -> outcome (mode_text m ++ p) (append_from e m p).
Proof.
  induction p as [|c p IH]; intros m M.
  - destruct m as [| |w|w fmt]; cbn [append_from mode_text].
    + exists []. repeat split; constructor.
    + exists []. split; [repeat split; constructor|]. now left.
    + exists [Number w]. split; [repeat split; repeat constructor|].
      split; [reflexivity|]. cbn. now rewrite app_nil_r.
    + exists []. split; [repeat split; constructor|]. right. exists w, fmt.
      split; [exact M|]. now rewrite app_nil_r.
  - destruct m as [| |w|w fmt]; cbn [append_from].
    + destruct (Z.eqb_spec c 37) as [->|N]; [exact (IH Percent I)|].
      apply (outcome_item (Char c)); [exact N|discriminate|]. exact (IH Normal I).
    + destruct (time_key c) as [w|] eqn:K.
      * apply time_key_letter in K. subst c. exact (IH (AfterTime w) I).
      * destruct (key_item c K) as [i [S [R [O N]]]]. rewrite <- R.
        change (mode_text Percent ++ c :: p) with ([37; c] ++ p). rewrite <- S.
        apply outcome_item; [assumption|assumption|]. exact (IH Normal I).
    + destruct (Z.eqb_spec c 123) as [->|N].
      { exact (IH (InFormat w []) (fun x => x)). }
      destruct (Z.eqb_spec c 37) as [->|N'].
      * specialize (IH Percent I). destruct (append_from e Percent p) as [o|x|]; cbn in *.
        -- destruct IH as [l [[F U] [H ->]]]. exists (Number w :: l). split.
           ++ split; [now constructor|]. eapply unamb_number_percent; eassumption.
           ++ split; [|reflexivity].
              change (show_all (Number w :: l)) with (37 :: letter w :: show_all l).
              now rewrite <- H.
        -- exact IH.
        -- now apply broken_number_percent.
      * specialize (IH Normal I). cbn in IH.
        destruct (append_from e Normal p) as [o|x|]; cbn in *.
        -- destruct IH as [l [[F U] [-> ->]]]. exists (Number w :: Char c :: l). split.
           ++ split; [constructor; [exact I|now constructor]|]. cbn. now split.
           ++ now split.
        -- exact IH.
        -- destruct IH as [l [[F U] H]]. exists (Number w :: Char c :: l). split.
           ++ split; [constructor; [exact I|now constructor]|]. cbn. now split.
           ++ destruct H as [->|[w' [fmt [X ->]]]]; [now left|]. right. exists w', fmt. now split.
    + destruct (Z.eqb_spec c 125) as [->|N].
      * rewrite write_time_formatted.
        replace (mode_text (InFormat w fmt) ++ 125 :: p) with (show (Formatted w fmt) ++ p).
        2:{ cbn. now rewrite <- app_assoc. }
        apply outcome_item; [exact M|discriminate|]. exact (IH Normal I).
      * specialize (IH (InFormat w (fmt ++ [c]))). cbn [mode_text] in *.
        replace ((37 :: letter w :: 123 :: fmt) ++ c :: p)
          with ((37 :: letter w :: 123 :: fmt ++ [c]) ++ p).
        2:{ cbn. now rewrite <- app_assoc. }
        apply IH. cbn in M |- *. rewrite in_app_iff. cbn. intuition.
Qed.

(** the other direction *)
Lemma in_format w fmt : forall acc tl, ~ In 125 fmt ->
  append_from e (InFormat w acc) (fmt ++ tl) = append_from e (InFormat w (acc ++ fmt)) tl.
Proof.
  induction fmt as [|c fmt IH]; intros acc tl H; cbn [app In] in *.
  - now rewrite app_nil_r.
  - cbn [append_from]. destruct (Z.eqb_spec c 125) as [->|_]; [exfalso; apply H; now left|].
    rewrite IH by tauto. now rewrite <- app_assoc.
Qed.

Lemma prepend_prepend a b r : prepend a (prepend b r) = prepend (a ++ b) r.
Proof. destruct r; cbn; try reflexivity. now rewrite app_assoc. Qed.

Lemma append_app l : forall tl,
  well_formed l -> (forall r, tl <> 123 :: r) ->
  append_from e Normal (show_all l ++ tl) = prepend (render_all e l) (append_from e Normal tl).
Proof.
  induction l as [|i l IH]; intros tl [F U] T.
  - cbn. destruct (append_from e Normal tl); reflexivity.
  - inversion F as [|? ? O F']; subst.
    assert (U' : unambiguous l).
    { destruct i; cbn in U; try exact U. destruct l as [|j l]; [exact I|].
      destruct j; cbn in *; tauto. }
    specialize (IH tl (conj F' U') T).
    cbn [show_all flat_map render_all]. rewrite <- app_assoc. rewrite <- prepend_prepend.
    fold (show_all l). fold (render_all e l). rewrite <- IH. clear IH.
    destruct i as [c| | | | | | |w|w fmt|c]; try reflexivity.
    + cbn in *. destruct (Z.eqb_spec c 37) as [->|_]; [congruence|reflexivity].
    + (* a time without format *)
      change (show (Number w) ++ show_all l ++ tl) with (37 :: letter w :: (show_all l ++ tl)).
      cbn [append_from]. rewrite Z.eqb_refl.
      rewrite (proj2 (time_key_letter (letter w) w) eq_refl).
      destruct (show_all l ++ tl) as [|c r] eqn:E.
      * cbn. now rewrite app_nil_r.
      * assert (N : c <> 123).
        { intros ->. destruct l as [|j l]; [cbn in E; now apply (T r)|].
          destruct j; cbn in E; injection E as E; try discriminate.
          subst. cbn in U. tauto. }
        cbn [append_from]. destruct (Z.eqb_spec c 123) as [|_]; [contradiction|].
        reflexivity.
    + (* with format *)
      cbn [show]. cbn [app append_from]. rewrite Z.eqb_refl.
      rewrite (proj2 (time_key_letter (letter w) w) eq_refl). cbn [append_from].
      rewrite Z.eqb_refl, <- app_assoc, in_format by exact O.
      cbn [app append_from]. rewrite Z.eqb_refl, write_time_formatted. reflexivity.
    + cbn [show app append_from]. rewrite Z.eqb_refl.
      unfold item_ok in O. rewrite known_letters in O.
      destruct (time_key c) as [w|] eqn:K.
      { apply time_key_letter in K. subst c. exfalso. apply O. destruct w; cbn; tauto. }
      unfold write_key.
      repeat match goal with
      | |- context [if c =? ?k then _ else _] =>
          destruct (Z.eqb_spec c k) as [->|?]; [exfalso; apply O; cbn; tauto|]
      end.
      reflexivity.
Qed.

Lemma append_well_formed l : well_formed l -> append e (show_all l) = Ok (render_all e l).
Proof.
  intros W. pose proof (append_app l [] W (fun r => ltac:(discriminate))) as H.
  rewrite app_nil_r in H. unfold append. rewrite H. cbn. now rewrite app_nil_r.
Qed.

Lemma append_broken p : broken p -> append e p = UB.
Proof.
  intros [l [W H]]. unfold append. destruct H as [->|[w [fmt [X ->]]]].
  - rewrite append_app; [reflexivity|assumption|discriminate].
  - rewrite append_app; [|assumption|discriminate].
    cbn [append_from]. rewrite Z.eqb_refl, (proj2 (time_key_letter (letter w) w) eq_refl).
    cbn [append_from]. rewrite Z.eqb_refl.
    rewrite <- (app_nil_r fmt), in_format by assumption. reflexivity.
Qed.

Theorem append_ok_iff p o :
  append e p = Ok o <-> exists l, well_formed l /\ p = show_all l /\ o = render_all e l.
Proof.
  split.
  - intros E. pose proof (append_outcome p Normal I) as H. unfold append in E. rewrite E in H.
    exact H.
  - intros [l [W [-> ->]]]. now apply append_well_formed.
Qed.

Theorem append_ub_iff p : append e p = UB <-> broken p.
Proof.
  split; [|apply append_broken].
  intros E. pose proof (append_outcome p Normal I) as H. unfold append in E. rewrite E in H.
  exact H.
Qed.

Theorem append_total p : (exists o, append e p = Ok o) \/ append e p = UB.
Proof.
  destruct (append e p) as [o|x|]; [left; eauto|destruct x|now right].
Qed.
End Append.

(** ** properties *)
Lemma cut_at_none d s : cut_at d s = None <-> ~ In d s.
Proof.
  induction s as [|c s IH]; cbn; [tauto|].
  destruct (Z.eqb_spec c d) as [->|N]; [split; [discriminate|tauto]|].
  destruct (cut_at d s) as [[a b]|].
  - split; [discriminate|]. intros H. exfalso. destruct IH as [_ IH].
    assert (X : ~ In d s) by tauto. specialize (IH X). discriminate.
  - split; [|reflexivity]. intros _. destruct IH as [IH _]. specialize (IH eq_refl). tauto.
Qed.

Lemma cut_at_some d s a b : cut_at d s = Some (a, b) <-> s = a ++ d :: b /\ ~ In d a.
Proof.
  revert a b. induction s as [|c s IH]; intros a b; cbn.
  - split; [discriminate|]. intros [H _]. destruct a; discriminate.
  - destruct (Z.eqb_spec c d) as [->|N].
    + split.
      * intros [= <- <-]. split; [reflexivity|intros []].
      * intros [H X]. destruct a as [|y a]; [now injection H as ->|].
        cbn in H. injection H as -> _. exfalso. apply X. now left.
    + split.
      * destruct (cut_at d s) as [[a' b']|] eqn:E; [|discriminate].
        intros [= <- <-]. destruct (proj1 (IH a' b') eq_refl) as [-> H].
        split; [reflexivity|]. cbn. tauto.
      * intros [H X]. destruct a as [|y a].
        { cbn in H. injection H as -> _. congruence. }
        cbn in H. injection H as -> H. cbn in X.
        rewrite (proj2 (IH a b)); [reflexivity|]. split; [assumption|tauto].
Qed.

Lemma trim_front_clean s : (forall c r, s = c :: r -> ~ white c) -> ltrim s = s.
Proof.
  intros H. destruct s as [|c s]; [reflexivity|]. cbn.
  destruct (is_space c) eqn:E; [|reflexivity]. exfalso.
  eapply H; [reflexivity|now apply is_space_white].
Qed.
Lemma trim_back_clean s : (forall c r, s = r ++ [c] -> ~ white c) -> rtrim s = s.
Proof.
  intros H. unfold rtrim. rewrite trim_front_clean; [apply rev_involutive|].
  intros c r E. apply (H c (rev r)). rewrite <- (rev_involutive s), E. reflexivity.
Qed.

(** a trimmed line is cut into a name whose front is clean and a value whose back is *)
Lemma parse_line_spec line name value :
  parse_line line = Some (name, value) <-> defines line name value.
Proof.
  unfold parse_line, defines.
  pose proof (trim_trimmed line) as [_ [T1 T2]].
  destruct (trim line) as [|c r] eqn:E.
  { split; [discriminate|]. intros [t [a [b [H [H' _]]]]].
    apply trimmed_iff in H. rewrite E in H. rewrite H in H'. destruct a; discriminate. }
  assert (key : forall a b, c :: r = a ++ 61 :: b -> trim a = rtrim a /\ trim b = ltrim b).
  { intros a b H. split.
    - unfold trim. rewrite trim_front_clean; [reflexivity|].
      intros x y ->. apply (T1 x (y ++ 61 :: b)). rewrite H. reflexivity.
    - unfold trim. apply trim_back_clean. intros x y Hxy.
      destruct (ltrim_spec b) as [w [B1 _]].
      apply (T2 x (a ++ 61 :: w ++ y)). rewrite H, B1, Hxy.
      rewrite <- app_assoc. cbn. now rewrite <- app_assoc. }
  destruct (Z.eqb_spec c 35) as [->|N].
  - split; [discriminate|]. intros [t [a [b [H [_ [_ [X _]]]]]]].
    apply trimmed_iff in H. rewrite E in H. subst t. exfalso. now apply (X r).
  - split.
    + destruct (cut_at 61 (c :: r)) as [[a b]|] eqn:C; [|discriminate].
      intros [= <- <-]. apply cut_at_some in C. destruct C as [C X].
      destruct (key a b C) as [K1 K2].
      exists (c :: r), a, b. split; [now apply trimmed_iff|]. split; [assumption|].
      split; [assumption|]. split; [intros r' [= ? _]; congruence|].
      split; apply trimmed_iff; congruence.
    + intros [t [a [b [H [H' [X [_ [A B]]]]]]]].
      apply trimmed_iff in H, A, B. rewrite E in H. subst t name value.
      destruct (key a b H') as [K1 K2].
      rewrite (proj2 (cut_at_some 61 (c :: r) a b) (conj H' X)). congruence.
Qed.

(** The value of the first line that defines a name. *)
Fixpoint first_definition (n : list Z) (lines : list (list Z)) : option (list Z) :=
  match lines with
  | [] => None
  | l :: ls =>
      match parse_line l with
      | Some (n', v) => if list_eqb n n' then Some v else first_definition n ls
      | None => first_definition n ls
      end
  end.

Lemma list_eqb_iff a b : list_eqb a b = true <-> a = b.
Proof. apply list_eqb_eq. Qed.

Lemma lookup_parse_from lines n m :
  lookup n (fold_left (fun m l => match parse_line l with Some (n, v) => try_emplace n v m | None => m end)
            lines m)
  = match lookup n m with Some v => Some v | None => first_definition n lines end.
Proof.
  unfold lookup. revert m. induction lines as [|l lines IH]; intros m; cbn [fold_left first_definition].
  - destruct (aget list_eqb n m); reflexivity.
  - rewrite IH. destruct (parse_line l) as [[n' v]|]; [|reflexivity].
    unfold try_emplace, atry. destruct (aget list_eqb n' m) as [v'|] eqn:G.
    + destruct (list_eqb n n') eqn:E; [|reflexivity].
      apply list_eqb_iff in E. subst. now rewrite G.
    + rewrite aget_app. cbn. destruct (aget list_eqb n m); [reflexivity|].
      destruct (list_eqb n n'); reflexivity.
Qed.

Lemma lookup_parse lines n : lookup n (parse_properties lines) = first_definition n lines.
Proof. unfold parse_properties. now rewrite lookup_parse_from. Qed.

Lemma first_definition_spec n lines v :
  first_definition n lines = Some v <->
  exists before line after, lines = before ++ line :: after /\ defines line n v
    /\ Forall (fun l => forall v', ~ defines l n v') before.
Proof.
  induction lines as [|l lines IH]; cbn.
  - split; [discriminate|]. intros [b [x [a [H _]]]]. destruct b; discriminate.
  - destruct (parse_line l) as [[n' v']|] eqn:P.
    + destruct (list_eqb n n') eqn:E.
      * apply list_eqb_iff in E. subst n'. split.
        -- intros [= ->]. exists [], l, lines. split; [reflexivity|]. split; [|constructor].
           now apply parse_line_spec.
        -- intros [b [x [a [H [D F]]]]]. destruct b as [|y b].
           ++ injection H as -> _. apply parse_line_spec in D. congruence.
           ++ injection H as -> _. inversion F as [|? ? X]; subst. exfalso.
              apply (X v'). now apply parse_line_spec.
      * rewrite IH. split.
        -- intros [b [x [a [-> [D F]]]]]. exists (l :: b), x, a. split; [reflexivity|].
           split; [assumption|]. constructor; [|assumption].
           intros v'' D'. apply parse_line_spec in D'. rewrite P in D'. injection D' as -> _.
           rewrite (proj2 (list_eqb_iff n n) eq_refl) in E. discriminate.
        -- intros [b [x [a [H [D F]]]]]. destruct b as [|y b].
           ++ injection H as -> _. apply parse_line_spec in D. rewrite P in D.
              injection D as -> _. rewrite (proj2 (list_eqb_iff n n) eq_refl) in E. discriminate.
           ++ injection H as -> ->. inversion F; subst. exists b, x, a. now split.
    + rewrite IH. split.
      * intros [b [x [a [-> [D F]]]]]. exists (l :: b), x, a. split; [reflexivity|].
        split; [assumption|]. constructor; [|assumption].
        intros v'' D'. apply parse_line_spec in D'. congruence.
      * intros [b [x [a [H [D F]]]]]. destruct b as [|y b].
        -- injection H as -> _. apply parse_line_spec in D. congruence.
        -- injection H as -> ->. inversion F; subst. exists b, x, a. now split.
Qed.

Theorem properties_first_wins lines n v :
  lookup n (parse_properties lines) = Some v <->
  exists before line after, lines = before ++ line :: after /\ defines line n v
    /\ Forall (fun l => forall v', ~ defines l n v') before.
Proof. rewrite lookup_parse. apply first_definition_spec. Qed.
