(** Published fields and memory. *)
From Coq Require Import ZArith List Bool Lia.
From Verif Require Import Base Text UuidModel UuidProofs Assoc AnyModel HelperModel HelperSpec HelperProofs TypeModel TypeSpec TypeProofs PlaceModel PlaceSpec.
From Verif Require FieldStoreModel FieldStoreSpec.
Import ListNotations.
Local Open Scope Z_scope.

(** * The fields that are created *)
Lemma collect_nth A (l : list (res texn A)) x : collect l = Ok x -> length x = length l /\ forall i p, nth_error x i = Some p -> nth_error l i = Some (Ok p).
Proof.
  revert x. induction l as [|y l IH]; intros x E; cbn in E.
  - injection E as <-. split; [reflexivity|intros [|i] p; discriminate].
  - destruct y as [a|e|]; cbn in E; try discriminate. destruct (collect l) as [b|e|] eqn:C; cbn in E; try discriminate.
    injection E as <-. destruct (IH b eq_refl) as [L P]. split; [cbn; lia|].
    intros [|i] p H; cbn in *; [congruence|auto].
Qed.

Lemma has_child_in n l : has_child n l = true <-> In n (map fst l).
Proof.
  induction l as [|[m p] l IH]; cbn; [split; [discriminate|tauto]|].
  rewrite orb_true_iff, IH, list_eqb_eq. intuition.
Qed.

Definition sub_flags (f : sfield) (fl : flags) : flags :=
  Flags (sf_state f) (sf_input f || f_input fl) (sf_output f || f_output fl).

Lemma place_fields_ok mk addr fl fs : forall acc l, (forall f, In f fs -> ~ In 0 (sf_name f)) ->
  place_fields mk addr fl fs acc = Ok l -> NoDup (map fst acc) ->
  NoDup (map fst l) /\ map fst l = map fst acc ++ map sf_name fs /\
  (forall i c, nth_error acc i = Some c -> nth_error l i = Some c) /\
  forall i f, nth_error fs i = Some f -> exists c, nth_error l (length acc + i) = Some c /\
    mk (sf_type f) (addr + sf_offset f) (sub_flags f fl) = Some (Ok (snd c)).
Proof.
  induction fs as [|f fs IH]; intros acc l Z0 E N; cbn [place_fields] in E.
  - injection E as <-. rewrite app_nil_r. repeat split; auto. intros [|i] f H; discriminate.
  - fold (sub_flags f fl) in E. destruct (mk (sf_type f) _ _) as [x|] eqn:M; [|discriminate].
    pose proof (cstring_to_nul (sf_name f)) as CS. rewrite (to_nul_id (sf_name f)) in CS by (apply Z0; now left).
    destruct (check_name_ok _ _ CS) as [[C V]|[[e C] V]]; rewrite C in E; [|discriminate].
    destruct x as [p|e|]; [|discriminate|discriminate]. destruct (has_child _ acc) eqn:H; [discriminate|].
    apply IH in E.
    + destruct E as (N' & K & A & P). rewrite map_app, <- app_assoc in K. cbn in K.
      split; [assumption|]. split; [assumption|]. split.
      * intros i c Hi. apply A. rewrite nth_error_app1; [assumption|]. apply nth_error_Some. congruence.
      * intros [|i] g G; cbn in G.
        -- injection G as ->. exists (sf_name g, p). split; [|exact M]. rewrite Nat.add_0_r. apply A. rewrite nth_error_app2, Nat.sub_diag by lia. reflexivity.
        -- destruct (P i g G) as (c&Hc&Hm). exists c. split; [|exact Hm]. rewrite app_length in Hc. cbn in Hc. rewrite <- Hc. f_equal. lia.
    + intros g G. apply Z0. now right.
    + rewrite map_app. apply NoDup_snoc; [assumption|]. intros I. cbn in I. apply has_child_in in I. congruence.
Qed.

(** The names of members are C strings. *)
Definition plain (r : reg) : Prop := forall u t f, get_type r u = Some t -> In f (fields_of t) -> ~ In 0 (sf_name f).

(** The cases of [place]. *)
Lemma place_cases n r u addr fl f : plain r -> place (S n) r u addr fl = Some (Ok f) ->
  exists t, get_type r u = Some t /\
  ((ty_kind t <> KNone /\ u <> uString8 /\ f = MSimple addr (leaf_of t) fl) \/
   (exists item isize count it, ty_def t = DArray item isize count true /\ get_type r item = Some it /\ ty_kind it <> KNone /\
      f = MSArr addr (leaf_of it) isize count fl) \/
   (exists item isize count simple items, ty_def t = DArray item isize count simple /\ f = MArr items fl /\ length items = Z.to_nat count /\
      forall i c, nth_error items i = Some c -> place n r item (addr + Z.of_nat i * isize) fl = Some (Ok c)) \/
   (exists fs cs, (ty_def t = DStruct fs \/ exists base, ty_def t = DClass base fs) /\ f = MStruct cs fl /\
      map fst cs = map sf_name fs /\ NoDup (map fst cs) /\
      forall i g, nth_error fs i = Some g -> exists c, nth_error cs i = Some c /\
        place n r (sf_type g) (addr + sf_offset g) (sub_flags g fl) = Some (Ok (snd c)))).
Proof.
  intros Z0 E. cbn [place] in E. destruct (get_type r u) as [t|] eqn:G; [|discriminate]. exists t. split; [reflexivity|]. injection E as E.
  assert (ST : forall fs, (ty_def t = DStruct fs \/ exists b, ty_def t = DClass b fs) ->
     bind (place_fields (place n r) addr fl fs []) (fun l => Ok (MStruct l fl)) = Ok f ->
     exists fs cs, (ty_def t = DStruct fs \/ exists base, ty_def t = DClass base fs) /\ f = MStruct cs fl /\
      map fst cs = map sf_name fs /\ NoDup (map fst cs) /\
      forall i g, nth_error fs i = Some g -> exists c, nth_error cs i = Some c /\
        place n r (sf_type g) (addr + sf_offset g) (sub_flags g fl) = Some (Ok (snd c))).
  { intros fs D B. destruct (place_fields (place n r) addr fl fs []) as [l|e|] eqn:A; cbn in B; try discriminate. injection B as <-.
    apply place_fields_ok in A; [|intros g V; apply (Z0 u t); [assumption|unfold fields_of; destruct D as [->|[b ->]]; assumption]|constructor].
    destruct A as (N & K & _ & P). exists fs, l. repeat split; auto. }
  destruct (match ty_kind t with KNone => true | _ => false end) eqn:K.
  - assert (K' : ty_kind t = KNone) by (destruct (ty_kind t); congruence). rewrite K' in E.
    destruct (ty_def t) as [k|k l|k a b c d|k a b|l|item isize count simple|fs|b fs] eqn:D; try discriminate.
    + destruct (get_type r item) as [it|] eqn:GI; [|discriminate].
      destruct (simple && negb match ty_kind it with KNone => true | _ => false end) eqn:Q.
      * injection E as <-. apply andb_true_iff in Q. destruct Q as [-> Q]. right; left.
        exists item, isize, count, it. repeat split; auto. intros H. rewrite H in Q. discriminate.
      * destruct (collect _) as [l|e|] eqn:C; cbn in E; try discriminate. injection E as <-.
        apply collect_nth in C. destruct C as [L C]. rewrite map_length, seq_length in L.
        right; right; left. exists item, isize, count, simple, l. repeat split; auto.
        intros i c V. pose proof V as V'. apply C in V. assert (I : (i < Z.to_nat count)%nat) by (rewrite <- L; apply nth_error_Some; congruence).
        rewrite nth_error_map, (nth_error_nth' _ 0%nat), seq_nth in V by (rewrite ?seq_length; lia). cbn in V. injection V as V.
        destruct (place n r item _ fl) as [x|] eqn:X; [now subst|discriminate].
    + right; right; right. apply (ST fs); [now left|assumption].
    + right; right; right. apply (ST fs); [right; eauto|assumption].
  - left. assert (X : (if u =? uString8 then Throw IncompatibleType else Ok (MSimple addr (leaf_of t) fl)) = Ok f) by (destruct (ty_kind t); congruence || assumption).
    destruct (Z.eqb_spec u uString8); [discriminate|]. injection X as <-. repeat split; auto. intros H. rewrite H in K. discriminate.
Qed.

Lemma place_declared n : forall r u addr fl f, plain r -> place n r u addr fl = Some (Ok f) -> declared r u addr fl f.
Proof.
  induction n as [|n IH]; intros r u addr fl f Z0 E; [discriminate|].
  destruct (place_cases n r u addr fl f Z0 E) as (t&G&[(K&U&->)|[(item&isize&count&it&D&GI&K&->)|[(item&isize&count&simple&items&D&->&L&P)|(fs&cs&D&->&M&N&P)]]]).
  - now apply d_simple.
  - eapply d_simple_array; eauto.
  - eapply d_array; eauto.
  - eapply d_struct; eauto. intros i g c Hg Hc. destruct (P i g Hg) as (c'&Hc'&Hp). assert (c' = c) as -> by congruence. eapply IH; eauto.
Qed.

(** * The shape of TypeModel.v *)
Lemma collect_same (l : list (res texn mfield)) (l' : list (res texn pfield)) :
  Forall2 (fun a b => same_outcome (Some a) (Some b)) l l' ->
  match collect l, collect l' with Ok x, Ok y => Forall2 same_field x y | Throw e, Throw e' => e = e' | UB, UB => True | _, _ => False end.
Proof.
  induction 1 as [|a b l l' H _ IH]; cbn; [constructor|]. destruct a, b; cbn in H; try contradiction; cbn; auto.
  destruct (collect l), (collect l'); cbn; auto; try contradiction.
Qed.

Lemma place_fields_same mk mk' addr fl fs : (forall u a g, same_outcome (mk u a g) (mk' u)) ->
  forall acc acc', Forall2 (fun a b => fst a = fst b /\ same_field (snd a) (snd b)) acc acc' ->
  match place_fields mk addr fl fs acc, add_fields mk' fs acc' with
  | Ok l, Ok l' => Forall2 (fun a b => fst a = fst b /\ same_field (snd a) (snd b)) l l'
  | Throw e, Throw e' => e = e' | UB, UB => True | _, _ => False end.
Proof.
  intros Sm. induction fs as [|f fs IH]; intros acc acc' E; cbn [place_fields add_fields]; auto.
  specialize (Sm (sf_type f) (addr + sf_offset f) (Flags (sf_state f) (sf_input f || f_input fl) (sf_output f || f_output fl))).
  destruct (mk (sf_type f) _ _) as [x|], (mk' (sf_type f)) as [x'|]; cbn in Sm; try contradiction; auto.
  2: { destruct x; contradiction. }
  destruct (check_name (Some (sf_name f ++ [0]))) as [n|e|]; auto. destruct x as [p|e|], x' as [p'|e'|]; try contradiction; auto.
  assert (H : has_child n acc = has_name n acc').
  { apply Bool.eq_iff_eq_true. rewrite has_child_in, has_name_in.
    assert (M : map fst acc = map fst acc') by (clear -E; induction E as [|a b ? ? [Q _] _ IHE]; cbn; congruence). rewrite M. tauto. }
  rewrite H. destruct (has_name n acc'); auto. apply IH. apply Forall2_app; auto.
Qed.

Lemma place_same n : forall r u addr fl, same_outcome (place n r u addr fl) (expand n r u).
Proof.
  induction n as [|n IH]; intros r u addr fl; [exact I|]. cbn [place expand]. destruct (get_type r u) as [t|]; [|exact I].
  assert (ST : forall fs, same_outcome (Some (bind (place_fields (place n r) addr fl fs []) (fun l => Ok (MStruct l fl))))
    (Some (bind (add_fields (expand n r) fs []) (fun l => Ok (PStruct l))))).
  { intros fs. pose proof (place_fields_same (place n r) (expand n r) addr fl fs (fun u a g => IH r u a g) [] [] (Forall2_nil _)) as H.
    destruct (place_fields _ _ _ _ _), (add_fields _ _ _); cbn; auto. now constructor. }
  destruct (ty_kind t) eqn:K; try (destruct (u =? uString8); cbn; constructor; fail).
  destruct (ty_def t) as [k|k l|k a b c d|k a b|l|item isize count simple|fs|b fs] eqn:D; try exact eq_refl; auto.
  destruct (get_type r item) as [it|]; [|exact I].
  destruct (simple && _); [constructor|].
  match goal with |- same_outcome (Some (bind ?a _)) (Some (bind ?b _)) =>
    assert (H : match a, b with Ok x, Ok y => Forall2 same_field x y | Throw e, Throw e' => e = e' | UB, UB => True | _, _ => False end) end.
  { apply collect_same. generalize 0%nat. generalize (Z.to_nat count). intros m. induction m as [|m IHm]; intros s; cbn; [constructor|].
    constructor; [|apply IHm]. specialize (IH r item (addr + Z.of_nat s * isize) fl).
    destruct (place n r item _ fl) as [x|], (expand n r item) as [y|]; cbn in *; auto; try contradiction. destruct x; contradiction. }
  destruct (collect _), (collect _); cbn; auto. now constructor.
Qed.

(** * Where the simple fields are *)
Lemma value_size_kind k n : value_size k n -> FieldStoreModel.kind_size k = Some (Z.to_nat n) /\ 0 < n <= 2 ^ 63.
Proof. destruct k; cbn; intros H; try contradiction; subst; (split; [reflexivity|lia]). Qed.
Lemma kind_value_size k n : FieldStoreModel.kind_size k = Some n -> value_size k (Z.of_nat n).
Proof. destruct k; cbn; intros H; try discriminate; injection H as <-; reflexivity. Qed.

(** A slot within a block. *)
Definition within (s : slot) (a n : Z) : Prop := exists m, occupies s m /\ 0 < m <= 2 ^ 63 /\ a <= s_addr s /\ s_addr s + m <= a + n.

Lemma occupies_fun s n m : occupies s n -> occupies s m -> n = m.
Proof.
  unfold occupies. destruct (l_kind (s_leaf s)), (l_len (s_leaf s)); cbn; intros; try contradiction; congruence.
Qed.

Lemma describes_size n r u size : describes n r u size -> 0 <= size.
Proof.
  revert u size. induction n as [|n IH]; intros u size H; [contradiction|]. cbn in H.
  destruct (get_type r u) as [t|]; [|contradiction].
  destruct (ty_def t); try (apply value_size_kind in H; lia); try (destruct H as [H1 H2]; lia).
  destruct H as (H & C & ->). apply IH in H. nia.
Qed.

Lemma describes_leaf n r u size t : describes (S n) r u size -> get_type r u = Some t -> ty_kind t <> KNone ->
  forall a fl, occupies (Slot a (leaf_of t) fl) size /\ 0 < size <= 2 ^ 63.
Proof.
  intros H G K a fl. cbn in H. rewrite G in H. unfold occupies, leaf_of, ty_kind in *. cbn.
  destruct (ty_def t) as [k|k l|k x b c d|k x b|l|item isize count simple|fs|b fs]; cbn in *; try congruence;
    try (pose proof (proj2 (value_size_kind _ _ H)); split; [|assumption]; destruct k; cbn in *; auto; contradiction).
  lia.
Qed.

Lemma leaf_within n : forall r u size addr fl f p s, plain r -> describes n r u size -> place n r u addr fl = Some (Ok f) ->
  leaf_at p f = Some s -> within s addr size.
Proof.
  induction n as [|n IH]; intros r u size addr fl f p s Z0 D E L; [discriminate|].
  destruct (place_cases n r u addr fl f Z0 E) as (t&G&[(K&U&->)|[(item&isize&count&it&TD&GI&K&->)|[(item&isize&count&simple&items&TD&->&LN&P)|(fs&cs&TD&->&M&N&P)]]]).
  - destruct p; [|discriminate]. cbn in L. injection L as <-. destruct (describes_leaf n r u size t D G K addr fl) as [O W].
    exists size. cbn. repeat split; auto; lia.
  - destruct p as [|i [|]]; try discriminate. cbn in L. destruct (Z.ltb_spec (Z.of_nat i) count); [|discriminate]. injection L as <-.
    cbn in D. rewrite G, TD in D. destruct D as (D & C & ->). destruct n as [|n]; [contradiction|].
    destruct (describes_leaf n r item isize it D GI K (addr + Z.of_nat i * isize) fl) as [O W].
    exists isize. cbn [s_addr]. split; [|nia]. exact O.
  - destruct p as [|i q]; [discriminate|]. cbn in L. destruct (nth_error items i) as [c|] eqn:NI; [|discriminate].
    cbn in D. rewrite G, TD in D. destruct D as (D & C & ->).
    destruct (IH _ _ _ _ _ _ _ _ Z0 D (P i c NI) L) as (m&O&W&A&B). exists m. split; [assumption|].
    assert (I : (i < Z.to_nat count)%nat) by (rewrite <- LN; apply nth_error_Some; congruence). nia.
  - destruct p as [|i q]; [discriminate|]. cbn in L. destruct (nth_error cs i) as [[nm c]|] eqn:NI; [|discriminate].
    assert (D' : 0 <= size /\
              exists sizes, Forall2 (fun f s => describes n r (sf_type f) s /\ 0 <= sf_offset f /\ sf_offset f + s <= size) fs sizes).
    { cbn in D. rewrite G in D. destruct TD as [TD|[b TD]]; rewrite TD in D; destruct D as (D0 & sizes & D1 & _); eauto. }
    clear D. destruct D' as (D0 & sizes & D).
    assert (I : exists g, nth_error fs i = Some g).
    { destruct (nth_error fs i) as [g|] eqn:NF; [eauto|]. apply nth_error_None in NF. assert (i < length cs)%nat by (apply nth_error_Some; congruence).
      apply (f_equal (@length _)) in M. rewrite !map_length in M. lia. }
    destruct I as [g NF]. destruct (P i g NF) as ([nm' c']&NI'&PL). rewrite NI in NI'. injection NI' as <- <-. cbn in PL.
    assert (exists si, describes n r (sf_type g) si /\ 0 <= sf_offset g /\ sf_offset g + si <= size) as (si&Ds&O1&O2).
    { clear - D NF. revert i NF. induction D as [|a b l l' H _ IHD]; intros [|i] NF; try discriminate; cbn in NF; [injection NF as ->; eauto|eauto]. }
    destruct (IH _ _ _ _ _ _ _ _ Z0 Ds PL L) as (m&O&W&A&B). exists m. split; [assumption|]. lia.
Qed.

Lemma Forall2_nth_left A B (R : A -> B -> Prop) l l' i a : Forall2 R l l' -> nth_error l i = Some a -> exists b, nth_error l' i = Some b /\ R a b.
Proof. intros H. revert i. induction H as [|x y l l' H _ IH]; intros [|i] E; try discriminate; cbn in *; [injection E as ->; eauto|auto]. Qed.

Lemma leaves_apart n : forall r u size addr fl f p q s s', plain r -> describes n r u size -> place n r u addr fl = Some (Ok f) ->
  leaf_at p f = Some s -> leaf_at q f = Some s' -> p <> q ->
  forall m m', occupies s m -> occupies s' m' -> apart (s_addr s) m (s_addr s') m'.
Proof.
  induction n as [|n IH]; intros r u size addr fl f p q s s' Z0 D E L L' PQ m m' Om Om'; [discriminate|].
  destruct (place_cases n r u addr fl f Z0 E) as (t&G&[(K&U&->)|[(item&isize&count&it&TD&GI&K&->)|[(item&isize&count&simple&items&TD&->&LN&P)|(fs&cs&TD&->&M&N&P)]]]).
  - destruct p, q; try discriminate. congruence.
  - destruct p as [|i [|]]; try discriminate. destruct q as [|j [|]]; try discriminate. cbn in L, L'.
    destruct (Z.ltb_spec (Z.of_nat i) count); [|discriminate]. injection L as <-.
    destruct (Z.ltb_spec (Z.of_nat j) count); [|discriminate]. injection L' as <-.
    cbn in D. rewrite G, TD in D. destruct D as (D & C & ->). destruct n as [|n]; [contradiction|].
    destruct (describes_leaf n r item isize it D GI K (addr + Z.of_nat i * isize) fl) as [O W].
    change (occupies (Slot (addr + Z.of_nat i * isize) (Leaf (l_kind (leaf_of it)) (l_len (leaf_of it)) None) fl) isize) in O.
    rewrite (occupies_fun _ _ _ Om O). rewrite (occupies_fun _ m' isize Om'); [|exact O]. unfold apart. cbn [s_addr].
    assert (i <> j) by congruence. assert (Z.of_nat i < Z.of_nat j \/ Z.of_nat j < Z.of_nat i) as [?|?] by lia; nia.
  - destruct p as [|i p]; [discriminate|]. destruct q as [|j q]; [discriminate|]. cbn in L, L'.
    destruct (nth_error items i) as [c|] eqn:NI; [|discriminate]. destruct (nth_error items j) as [c'|] eqn:NJ; [|discriminate].
    cbn in D. rewrite G, TD in D. destruct D as (D & C & ->).
    destruct (Nat.eq_dec i j) as [->|IJ].
    + assert (c' = c) as -> by congruence. eapply IH; eauto; congruence.
    + destruct (leaf_within _ _ _ _ _ _ _ _ _ Z0 D (P i c NI) L) as (a&O&W&A&B). destruct (leaf_within _ _ _ _ _ _ _ _ _ Z0 D (P j c' NJ) L') as (a'&O'&W'&A'&B').
      rewrite (occupies_fun _ _ _ Om O), (occupies_fun _ _ _ Om' O'). unfold apart.
      pose proof (describes_size _ _ _ _ D). assert (Z.of_nat i < Z.of_nat j \/ Z.of_nat j < Z.of_nat i) as [?|?] by lia; nia.
  - destruct p as [|i p]; [discriminate|]. destruct q as [|j q]; [discriminate|]. cbn in L, L'.
    destruct (nth_error cs i) as [[nm c]|] eqn:NI; [|discriminate]. destruct (nth_error cs j) as [[nm' c']|] eqn:NJ; [|discriminate].
    assert (D' : exists sizes, Forall2 (fun f s => describes n r (sf_type f) s /\ 0 <= sf_offset f /\ sf_offset f + s <= size) fs sizes /\
              forall i j fi fj si sj, i <> j -> nth_error fs i = Some fi -> nth_error fs j = Some fj ->
                nth_error sizes i = Some si -> nth_error sizes j = Some sj -> apart (sf_offset fi) si (sf_offset fj) sj).
    { cbn in D. rewrite G in D. destruct TD as [TD|[b TD]]; rewrite TD in D; destruct D as (D0 & sizes & D1 & D2); eauto. }
    clear D. destruct D' as (sizes & D & AP).
    assert (GF : forall k nm c, nth_error cs k = Some (nm, c) -> exists g sz, nth_error fs k = Some g /\ nth_error sizes k = Some sz /\
              describes n r (sf_type g) sz /\ place n r (sf_type g) (addr + sf_offset g) (sub_flags g fl) = Some (Ok c)).
    { intros k nk ck NK. destruct (nth_error fs k) as [g|] eqn:NF.
      - destruct (Forall2_nth_left _ _ _ _ _ _ _ D NF) as (sz&NS&H). destruct (P k g NF) as ([nm2 c2]&NC&PL). rewrite NK in NC. injection NC as <- <-.
        exists g, sz. repeat split; auto. apply H.
      - apply nth_error_None in NF. assert (k < length cs)%nat by (apply nth_error_Some; congruence).
        apply (f_equal (@length _)) in M. rewrite !map_length in M. lia. }
    destruct (GF i nm c NI) as (g&sz&F1&S1&D1&P1). destruct (GF j nm' c' NJ) as (g'&sz'&F2&S2&D2&P2).
    destruct (Nat.eq_dec i j) as [->|IJ].
    + assert (g' = g) as -> by congruence. assert (c' = c) as -> by congruence. eapply IH; eauto; congruence.
    + destruct (leaf_within _ _ _ _ _ _ _ _ _ Z0 D1 P1 L) as (a&O&W&A&B). destruct (leaf_within _ _ _ _ _ _ _ _ _ Z0 D2 P2 L') as (a'&O'&W'&A'&B').
      rewrite (occupies_fun _ _ _ Om O), (occupies_fun _ _ _ Om' O'). specialize (AP i j g g' sz sz' IJ F1 F2 S1 S2). unfold apart in *. lia.
Qed.

(** * Values *)
Lemma write_out m a bs x : ~ (a <= x < a + Z.of_nat (length bs)) -> write m a bs x = m x.
Proof. intros H. unfold write. destruct (Z.leb_spec a x), (Z.ltb_spec x (a + Z.of_nat (length bs))); cbn; auto; lia. Qed.

Lemma read_agree n : forall m m' a, (forall x, a <= x < a + Z.of_nat n -> m x = m' x) -> read m a n = read m' a n.
Proof. induction n as [|n IH]; intros m m' a H; cbn; [reflexivity|]. f_equal; [apply H; lia|apply IH; intros; apply H; lia]. Qed.

Lemma text_agree n : forall m m' a, (forall x, a <= x < a + Z.of_nat n -> m x = m' x) -> text_at m a n = text_at m' a n.
Proof.
  induction n as [|n IH]; intros m m' a H; cbn; [reflexivity|]. rewrite (H a) by lia. destruct (m' a =? 0); auto.
  rewrite (IH m m'); auto. intros; apply H; lia.
Qed.

Lemma read_nth n : forall m a i, (i < n)%nat -> nth i (read m a n) 0 = m (a + Z.of_nat i).
Proof.
  induction n as [|n IH]; intros m a [|i] H; cbn [read nth]; try lia; [f_equal; lia|]. rewrite IH by lia. f_equal. lia.
Qed.
Lemma read_length n : forall m a, length (read m a n) = n.
Proof. induction n; intros; cbn; auto. Qed.

Lemma read_write m a bs : read (write m a bs) a (length bs) = bs.
Proof.
  apply nth_ext with (d := 0) (d' := 0); [apply read_length|]. intros i H. rewrite read_length in H.
  rewrite read_nth by assumption. unfold write.
  destruct (Z.leb_spec a (a + Z.of_nat i)), (Z.ltb_spec (a + Z.of_nat i) (a + Z.of_nat (length bs))); cbn; try lia.
  f_equal. lia.
Qed.

Lemma text_read t : forall m a n, ~ In 0 t -> read m a (length t + 1) = t ++ [0] -> (length t < n)%nat -> text_at m a n = Some t.
Proof.
  induction t as [|c t IH]; intros m a n N E L; cbn in *.
  - injection E as E. destruct n; [lia|]. cbn. now rewrite E.
  - injection E as E1 E2. destruct n; [lia|]. cbn. rewrite E1. destruct (Z.eqb_spec c 0); [tauto|]. rewrite (IH m (a + 1) n); auto. lia.
Qed.

(** A slot of a described type. *)
Definition sound_slot (s : slot) (n : Z) : Prop := occupies s n /\ 0 < n <= 2 ^ 63.

Lemma get_agree s n m m' : sound_slot s n -> (forall x, s_addr s <= x < s_addr s + n -> m x = m' x) -> get_value m s = get_value m' s.
Proof.
  intros [O B] H. unfold get_value, occupies in *.
  assert (V : forall k, value_size k n -> match FieldStoreModel.kind_size k with Some n => Ok (VBytes (read m (s_addr s) n)) | None => Throw InvalidValueType end =
     match FieldStoreModel.kind_size k with Some n => Ok (VBytes (read m' (s_addr s) n)) | None => Throw InvalidValueType end).
  { intros k V. destruct (value_size_kind _ _ V) as [-> P]. do 2 f_equal. apply read_agree. intros; apply H. lia. }
  destruct (l_kind (s_leaf s)) eqn:K; try (apply V; assumption); try reflexivity.
  destruct (l_len (s_leaf s)) as [len|]; [|reflexivity]. subst n. rewrite (text_agree _ m m'); [reflexivity|]. intros; apply H. lia.
Qed.

Lemma firstn_clean (t : list Z) n : ~ In 0 t -> ~ In 0 (firstn n t).
Proof. intros N H. apply N. rewrite <- (firstn_skipn n t). apply in_or_app. now left. Qed.

Lemma copied_text len t : 0 <= len < 2 ^ 63 -> copied len (Some t) = firstn (Z.to_nat len) t ++ [0].
Proof.
  intros B. unfold copied. rewrite Z.mod_small by lia. destruct (Z.leb_spec (Z.of_nat (length t)) len); [|reflexivity].
  rewrite firstn_all2 by lia. reflexivity.
Qed.

Lemma set_value_ok m s n v : sound_slot s n -> acceptable s v ->
  exists m', set_value m s v = Ok m' /\ get_value m' s = Ok (given_back s v) /\ (forall x, ~ (s_addr s <= x < s_addr s + n) -> m' x = m x).
Proof.
  intros [O B] A. unfold acceptable, occupies in *.
  assert (V : forall b, l_kind (s_leaf s) <> KString8 -> l_kind (s_leaf s) <> KNone -> v = VBytes b -> value_size (l_kind (s_leaf s)) n ->
      value_size (l_kind (s_leaf s)) (Z.of_nat (length b)) ->
      (l_kind (s_leaf s) = KI32 -> forall lits, l_lits (s_leaf s) = Some lits -> In (int32_of b) lits) ->
      exists m', set_value m s v = Ok m' /\ get_value m' s = Ok (given_back s v) /\ (forall x, ~ (s_addr s <= x < s_addr s + n) -> m' x = m x)).
  { intros b K1 K2 -> V1 V2 L. assert (N : n = Z.of_nat (length b)) by (destruct (l_kind (s_leaf s)); cbn in *; try contradiction; congruence).
    destruct (value_size_kind _ _ V2) as [KS _]. rewrite Nat2Z.id in KS.
    assert (Q : set_value m s (VBytes b) = Ok (write m (s_addr s) b)).
    { unfold set_value. destruct (l_kind (s_leaf s)); try congruence; cbn [FieldStoreModel.kind_size] in *; injection KS as KS; rewrite <- KS, Nat.eqb_refl;
        cbn [negb]; try reflexivity. destruct (l_lits (s_leaf s)) as [lits|] eqn:LL; [|reflexivity].
      specialize (L eq_refl lits eq_refl). assert (existsb (Z.eqb (int32_of b)) lits = true) as ->; [|reflexivity].
      apply existsb_exists. exists (int32_of b). split; [assumption|apply Z.eqb_refl]. }
    exists (write m (s_addr s) b). split; [exact Q|]. split.
    - assert (GB : given_back s (VBytes b) = VBytes b) by reflexivity. rewrite GB. pose proof (read_write m (s_addr s) b) as RW. unfold get_value.
      destruct (l_kind (s_leaf s)); try congruence; cbn [FieldStoreModel.kind_size] in *; injection KS as KS; rewrite <- KS in RW; rewrite RW; reflexivity.
    - intros x H. apply write_out. lia. }
  destruct (l_kind (s_leaf s)) eqn:K; try contradiction;
    try (destruct v as [b|]; [|contradiction]; destruct A as [A1 A2]; apply (V b); auto; discriminate).
  clear V. destruct (l_len (s_leaf s)) as [len|] eqn:LN; [|contradiction]. subst n. destruct v as [b|[t|]]; [contradiction| |].
  - exists (write m (s_addr s) (copied len (Some t))). unfold set_value, get_value, given_back. rewrite K, LN. split; [reflexivity|].
    rewrite copied_text by lia. split.
    + rewrite (text_read (firstn (Z.to_nat len) t)); [reflexivity|now apply firstn_clean| |].
      * rewrite <- (read_write m (s_addr s) (firstn (Z.to_nat len) t ++ [0])) at 2. rewrite app_length. reflexivity.
      * rewrite firstn_length. lia.
    + intros x H. apply write_out. rewrite app_length, firstn_length. cbn. lia.
  - exists (write m (s_addr s) (copied len None)). unfold set_value, get_value, given_back. rewrite K, LN. split; [reflexivity|].
    split.
    + rewrite (text_read []); [destruct (s_leaf s) as [? [?|] ?]; reflexivity|auto| |cbn; lia]. cbn [copied length Nat.add app].
      exact (read_write m (s_addr s) [0]).
    + intros x H. apply write_out. cbn. lia.
Qed.

Lemma set_value_refused m s n v : sound_slot s n -> proper v -> ~ acceptable s v -> exists e, set_value m s v = Throw e /\
  (l_lits (s_leaf s) = None -> e = InvalidValueType).
Proof.
  intros [O B] P A. unfold acceptable, occupies, set_value in *.
  destruct (l_kind (s_leaf s)) eqn:K; try contradiction;
    try (destruct v as [b|]; [|eauto]; cbn [FieldStoreModel.kind_size value_size] in *;
         match goal with |- context [Nat.eqb (length b) ?k] => destruct (Nat.eqb_spec (length b) k) as [E|E]; cbn [negb]; [|eauto] end;
         try (exfalso; apply A; split; [rewrite E; reflexivity|discriminate])).
  - destruct (l_lits (s_leaf s)) as [lits|].
    + destruct (existsb _ lits) eqn:X; [|exists InvalidFieldValue; split; [reflexivity|discriminate]].
      exfalso. apply A. split; [rewrite E; reflexivity|]. intros _ lits' Q. injection Q as <-.
      apply existsb_exists in X. destruct X as (y&Y&Z). apply Z.eqb_eq in Z. now subst.
    + exfalso. apply A. split; [rewrite E; reflexivity|discriminate].
  - destruct (l_len (s_leaf s)); [|contradiction]. destruct v as [b|[t|]]; [eauto| |]; exfalso; apply A; auto.
Qed.

(** * Histories *)
(** What the theorems suppose of a published field. *)
Definition sound_field (f : mfield) (addr size : Z) : Prop :=
  (forall p s, leaf_at p f = Some s -> within s addr size) /\
  (forall p q s s', leaf_at p f = Some s -> leaf_at q f = Some s' -> p <> q ->
    forall m m', occupies s m -> occupies s' m' -> apart (s_addr s) m (s_addr s') m').

Lemma placed_sound n r u size addr fl f : plain r -> describes n r u size -> place n r u addr fl = Some (Ok f) -> sound_field f addr size.
Proof.
  intros Z0 D E. split; [intros; eapply leaf_within; eauto|]. intros. eapply leaves_apart; eauto.
Qed.

Definition step1 (m : mem) (f : mfield) (o : list nat * value) : mem :=
  match leaf_at (fst o) f with
  | Some s => match set_value m s (snd o) with Ok m' => m' | _ => m end
  | None => m
  end.

Lemma after_cons m f o r : after m f (o :: r) = after (step1 m f o) f r.
Proof. destruct o. reflexivity. Qed.
Lemma after_app f l l' : forall m, after m f (l ++ l') = after (after m f l) f l'.
Proof. induction l as [|o l IH]; intros m; [reflexivity|]. rewrite <- app_comm_cons, !after_cons. apply IH. Qed.

Lemma step1_frame f addr size m p v : sound_field f addr size -> proper v ->
  forall x, (forall s n, leaf_at p f = Some s -> occupies s n -> ~ (s_addr s <= x < s_addr s + n)) -> step1 m f (p, v) x = m x.
Proof.
  intros [W _] P x H. unfold step1. cbn [fst snd]. destruct (leaf_at p f) as [s|] eqn:L; [|reflexivity].
  destruct (W p s L) as (n&O&B&_). assert (S : sound_slot s n) by (split; assumption).
  destruct (set_value m s v) as [m'|e|] eqn:E; try reflexivity.
  assert (acceptable s v \/ ~ acceptable s v) as [A|A].
  { clear. unfold acceptable. destruct (l_kind (s_leaf s)), v as [b|[t|]]; try tauto;
    try (destruct (in_dec Z.eq_dec 0 t); tauto);
    try (match goal with |- (value_size ?k ?z /\ _) \/ _ => destruct (Z.eq_dec z (match k with KBool | KChar8 | KI8 | KU8 => 1 | KI16 | KU16 => 2 | KI32 | KU32 | KF32 => 4 | _ => 8 end)) as [e|e]; cbn; [|right; intros [H _]; cbn in H; contradiction] end);
    try (left; split; [exact e|discriminate]).
    destruct (l_lits (s_leaf s)) as [lits|]; [|left; split; [exact e|discriminate]].
    destruct (in_dec Z.eq_dec (int32_of b) lits) as [i|i]; [left; split; [exact e|intros _ ? Q; injection Q as <-; exact i]|right; intros [_ Q]; apply i; apply Q; reflexivity]. }
  - destruct (set_value_ok m s n v S A) as (m2&E2&_&F). rewrite E in E2. injection E2 as <-. apply F. now apply H.
  - destruct (set_value_refused m s n v S P A) as (e&Q&_). congruence.
Qed.

Lemma step1_other f addr size m p v q s : sound_field f addr size -> proper v -> leaf_at q f = Some s -> q <> p ->
  get_value (step1 m f (p, v)) s = get_value m s.
Proof.
  intros SF P L N. pose proof SF as [W AP]. destruct (W q s L) as (n&O&B&_). apply (get_agree s n); [split; assumption|].
  intros x X. eapply step1_frame; eauto. intros s' n' L' O' X'. specialize (AP q p s s' L L' N n n' O O'). unfold apart in AP. lia.
Qed.

Lemma step1_refused f addr size m p v s : sound_field f addr size -> proper v -> leaf_at p f = Some s -> ~ acceptable s v -> step1 m f (p, v) = m.
Proof.
  intros [W _] P L A. destruct (W p s L) as (n&O&B&_). unfold step1. cbn [fst snd]. rewrite L.
  destruct (set_value_refused m s n v (conj O B) P A) as (e&->&_). reflexivity.
Qed.

Lemma step1_accepted f addr size m p v s : sound_field f addr size -> leaf_at p f = Some s -> acceptable s v ->
  set_value m s v = Ok (step1 m f (p, v)) /\ get_value (step1 m f (p, v)) s = Ok (given_back s v).
Proof.
  intros [W _] L A. destruct (W p s L) as (n&O&B&_). unfold step1. cbn [fst snd]. rewrite L.
  destruct (set_value_ok m s n v (conj O B) A) as (m'&->&G&_). auto.
Qed.

Lemma history_outside f addr size ops : sound_field f addr size -> (forall o, In o ops -> proper (snd o)) ->
  forall m x, ~ (addr <= x < addr + size) -> after m f ops x = m x.
Proof.
  intros SF. induction ops as [|[p v] ops IH]; intros P m x X; [reflexivity|]. rewrite after_cons, IH; [|intros; apply P; now right|assumption].
  eapply step1_frame; eauto; [apply (P (p, v)); now left|]. intros s n L O H. destruct SF as [W _].
  destruct (W p s L) as (k&O'&B&A1&A2). rewrite (occupies_fun _ _ _ O' O) in *. lia.
Qed.

Lemma history_quiet f addr size ops p s : sound_field f addr size -> (forall o, In o ops -> proper (snd o)) -> leaf_at p f = Some s ->
  (forall v, In (p, v) ops -> ~ acceptable s v) -> forall m, get_value (after m f ops) s = get_value m s.
Proof.
  intros SF. induction ops as [|[q v] ops IH]; intros P L N m; [reflexivity|].
  rewrite after_cons, IH; [|intros; apply P; now right|assumption|intros; apply N; now right].
  destruct (list_eq_dec Nat.eq_dec q p) as [->|D].
  - erewrite step1_refused; eauto; [apply (P (p, v)); now left|apply N; now left].
  - eapply step1_other; eauto. apply (P (q, v)); now left.
Qed.

Lemma history_last f addr size before p v later s : sound_field f addr size ->
  (forall o, In o (before ++ (p, v) :: later) -> proper (snd o)) -> leaf_at p f = Some s -> acceptable s v ->
  (forall w, In (p, w) later -> ~ acceptable s w) -> forall m, get_value (after m f (before ++ (p, v) :: later)) s = Ok (given_back s v).
Proof.
  intros SF P L A N m. rewrite after_app, after_cons.
  rewrite (history_quiet f addr size later p s SF); [|intros; apply P, in_or_app; right; now right|assumption|assumption].
  eapply step1_accepted; eauto.
Qed.

(** * Simple arrays *)
Lemma leaf_part p : forall f g q, part p f = Some g -> leaf_at (p ++ q) f = leaf_at q g.
Proof.
  induction p as [|i p IH]; intros f g q E; cbn in *; [congruence|].
  destruct f as [a l fl|a l z c fl|items fl|fs fl]; try discriminate.
  - destruct (nth_error items i); [|discriminate]. now apply IH.
  - destruct (nth_error fs i) as [[nm c]|]; [|discriminate]. now apply IH.
Qed.

Fixpoint item_ops (p : list nat) (i : nat) (vs : list value) : list (list nat * value) :=
  match vs with [] => [] | v :: r => (p ++ [i], v) :: item_ops p (S i) r end.

Lemma item_ops_app p l l' : forall i, item_ops p i (l ++ l') = item_ops p i l ++ item_ops p (i + length l) l'.
Proof.
  induction l as [|v l IH]; intros i; cbn; [now rewrite Nat.add_0_r|]. rewrite IH. do 3 f_equal. lia.
Qed.
Lemma in_item_ops p vs : forall i q v, In (q, v) (item_ops p i vs) -> exists k, q = p ++ [i + k]%nat /\ nth_error vs k = Some v.
Proof.
  induction vs as [|w vs IH]; intros i q v H; cbn in *; [contradiction|]. destruct H as [H|H].
  - injection H as <- <-. exists 0%nat. rewrite Nat.add_0_r. auto.
  - apply IH in H. destruct H as (k&->&E). exists (S k). split; [do 2 f_equal; lia|assumption].
Qed.

Definition item_slot (a : Z) (l : leaf) (isize : Z) (fl : flags) (i : nat) : slot :=
  Slot (a + Z.of_nat i * isize) (Leaf (l_kind l) (l_len l) None) fl.

Lemma set_items_ok f addr size p a l isize count fl vs : sound_field f addr size -> part p f = Some (MSArr a l isize count fl) ->
  forall i m, Z.of_nat (i + length vs) <= count -> (forall k v, nth_error vs k = Some v -> acceptable (item_slot a l isize fl (i + k)) v) ->
  set_items m (MSArr a l isize count fl) i vs = (after m f (item_ops p i vs), Ok tt).
Proof.
  intros SF PF. induction vs as [|v vs IH]; intros i m C A; [reflexivity|]. cbn [set_items item_ops leaf_at]. cbn [length] in C.
  destruct (Z.ltb_spec (Z.of_nat i) count); [|lia]. fold (item_slot a l isize fl i).
  assert (L : leaf_at (p ++ [i]) f = Some (item_slot a l isize fl i)).
  { rewrite (leaf_part p f _ [i] PF). cbn. destruct (Z.ltb_spec (Z.of_nat i) count); [reflexivity|lia]. }
  assert (A0 : acceptable (item_slot a l isize fl i) v) by (specialize (A 0%nat v eq_refl); rewrite Nat.add_0_r in A; exact A).
  destruct (step1_accepted f addr size m (p ++ [i]) v _ SF L A0) as [E _]. rewrite E.
  rewrite after_cons, IH; [reflexivity|lia|]. intros k w K. specialize (A (S k) w K). rewrite Nat.add_succ_r in A. exact A.
Qed.

Lemma set_items_stop f addr size p a l isize count fl good bad rest : sound_field f addr size -> part p f = Some (MSArr a l isize count fl) ->
  forall i m, Z.of_nat (i + length (good ++ bad :: rest)) <= count ->
  (forall k v, nth_error good k = Some v -> acceptable (item_slot a l isize fl (i + k)) v) ->
  proper bad -> ~ acceptable (item_slot a l isize fl (i + length good)) bad ->
  set_items m (MSArr a l isize count fl) i (good ++ bad :: rest) = (after m f (item_ops p i good), Throw InvalidArrayValue).
Proof.
  intros SF PF. induction good as [|v vs IH]; intros i m C A P B; cbn [app length set_items item_ops leaf_at] in *.
  - destruct (Z.ltb_spec (Z.of_nat i) count); [|lia]. fold (item_slot a l isize fl i). rewrite Nat.add_0_r in B.
    assert (L : leaf_at (p ++ [i]) f = Some (item_slot a l isize fl i)).
    { rewrite (leaf_part p f _ [i] PF). cbn. destruct (Z.ltb_spec (Z.of_nat i) count); [reflexivity|lia]. }
    destruct SF as [W _]. destruct (W _ _ L) as (n&O&Bn&_).
    destruct (set_value_refused m _ n bad (conj O Bn) P B) as (e&E&LT). rewrite E, LT; reflexivity.
  - destruct (Z.ltb_spec (Z.of_nat i) count); [|lia]. fold (item_slot a l isize fl i).
    assert (L : leaf_at (p ++ [i]) f = Some (item_slot a l isize fl i)).
    { rewrite (leaf_part p f _ [i] PF). cbn. destruct (Z.ltb_spec (Z.of_nat i) count); [reflexivity|lia]. }
    assert (A0 : acceptable (item_slot a l isize fl i) v) by (specialize (A 0%nat v eq_refl); rewrite Nat.add_0_r in A; exact A).
    destruct (step1_accepted f addr size m (p ++ [i]) v _ SF L A0) as [E _]. rewrite E.
    rewrite after_cons, IH; [reflexivity|lia| |assumption|].
    + intros k w K. specialize (A (S k) w K). rewrite Nat.add_succ_r in A. exact A.
    + rewrite Nat.add_succ_r in B. exact B.
Qed.

Lemma acceptable_proper s v : acceptable s v -> proper v.
Proof. unfold acceptable, proper. destruct v as [b|[t|]]; auto. destruct (l_kind (s_leaf s)); tauto. Qed.

Lemma given_back_item a l isize fl i j v : given_back (item_slot a l isize fl i) v = given_back (item_slot a l isize fl j) v.
Proof. reflexivity. Qed.
Lemma acceptable_item a l isize fl i j v : acceptable (item_slot a l isize fl i) v -> acceptable (item_slot a l isize fl j) v.
Proof. exact (fun H => H). Qed.

Lemma get_items_all m a l isize count fl vs : forall i, Z.of_nat (i + length vs) <= count ->
  (forall k v, nth_error vs k = Some v -> get_value m (item_slot a l isize fl (i + k)) = Ok v) ->
  get_items m (MSArr a l isize count fl) i (length vs) = Ok vs.
Proof.
  induction vs as [|v vs IH]; intros i C G; [reflexivity|]. cbn [length get_items leaf_at]. cbn [length] in C.
  destruct (Z.ltb_spec (Z.of_nat i) count); [|lia]. fold (item_slot a l isize fl i).
  pose proof (G 0%nat v eq_refl) as G0. rewrite Nat.add_0_r in G0. rewrite G0. cbn [bind]. rewrite IH; [reflexivity|lia|].
  intros k w K. specialize (G (S k) w K). rewrite Nat.add_succ_r in G. exact G.
Qed.

(** The item [k] of the values that were written. *)
Lemma item_written f addr size p a l isize count fl vs m : sound_field f addr size -> part p f = Some (MSArr a l isize count fl) ->
  Z.of_nat (length vs) <= count -> (forall k v, nth_error vs k = Some v -> acceptable (item_slot a l isize fl k) v) ->
  forall k v, nth_error vs k = Some v -> get_value (after m f (item_ops p 0 vs)) (item_slot a l isize fl k) = Ok (given_back (item_slot a l isize fl k) v).
Proof.
  intros SF PF C A k v K. destruct (nth_error_split _ _ K) as (l1&l2&E&LL). subst vs k.
  rewrite item_ops_app. cbn [item_ops Nat.add].
  assert (K' : (length l1 < length (l1 ++ v :: l2))%nat) by (rewrite app_length; cbn; lia).
  apply (history_last f addr size _ (p ++ [length l1]) v); auto.
  - intros o H. assert (In o (item_ops p 0 (l1 ++ v :: l2))) as H' by (rewrite item_ops_app; exact H). destruct o as [q w].
    apply in_item_ops in H'. destruct H' as (j&_&J). eapply acceptable_proper. eauto.
  - rewrite (leaf_part p f _ _ PF). cbn. destruct (Z.ltb_spec (Z.of_nat (length l1)) count); [reflexivity|lia].
  - intros w H. apply in_item_ops in H. destruct H as (j&Q&_). apply app_inv_head in Q. injection Q as Q. lia.
Qed.

Lemma item_ops_proper a l isize fl p vs : (forall k v, nth_error vs k = Some v -> acceptable (item_slot a l isize fl k) v) ->
  forall i o, In o (item_ops p i vs) -> proper (snd o).
Proof.
  intros A i [q w] H. apply in_item_ops in H. destruct H as (j&_&J). eapply acceptable_proper. eauto.
Qed.

(** * Store and Restore *)
Module FS := FieldStoreModel.
Module FP := FieldStoreSpec.

Lemma bytes_value k n : FP.bytes_of k n <-> value_size k (Z.of_nat n).
Proof. destruct k; cbn; split; intros; try lia; try contradiction. Qed.

Lemma placed_creatable n : forall r u size addr fl f, plain r -> describes n r u size -> place n r u addr fl = Some (Ok f) -> FP.creatable (stored f).
Proof.
  induction n as [|n IH]; intros r u size addr fl f Z0 D E; [discriminate|].
  destruct (place_cases n r u addr fl f Z0 E) as (t&G&[(K&U&->)|[(item&isize&count&it&TD&GI&K&->)|[(item&isize&count&simple&items&TD&->&LN&P)|(fs&cs&TD&->&M&N&P)]]]).
  - cbn [stored]. destruct (describes_leaf n r u size t D G K addr fl) as [O W]. unfold occupies in O. cbn [s_leaf] in O.
    assert (V : forall k, l_kind (leaf_of t) = k -> value_size k size -> FP.creatable (FS.PbSimple (f_state fl) (Z.to_nat addr) k (option_map Z.to_nat (l_len (leaf_of t))))).
    { intros k _ V. apply (FP.cr_pub _ _ _ _ (Z.to_nat size)). apply bytes_value. rewrite Z2Nat.id by lia. assumption. }
    destruct (l_kind (leaf_of t)) eqn:Q; try (now apply V); try contradiction.
    destruct (l_len (leaf_of t)) as [len|]; [|contradiction]. apply FP.cr_pub_string.
  - apply FP.cr_pub_sarr.
  - cbn [stored]. apply FP.cr_pub_arr. intros x X. apply in_map_iff in X. destruct X as (c&<-&X). apply In_nth_error in X. destruct X as [i X].
    cbn in D. rewrite G, TD in D. destruct D as (D & _ & _). eapply IH; eauto.
  - cbn [stored]. apply FP.cr_pub_str. intros x X. apply in_map_iff in X. destruct X as ([nm c]&<-&X). apply In_nth_error in X. destruct X as [i X].
    assert (D' : exists sizes, Forall2 (fun f s => describes n r (sf_type f) s /\ 0 <= sf_offset f /\ sf_offset f + s <= size) fs sizes).
    { cbn in D. rewrite G in D. destruct TD as [TD|[b TD]]; rewrite TD in D; destruct D as (D0 & sizes & D1 & D2); eauto. }
    destruct D' as [sizes D']. destruct (nth_error fs i) as [g|] eqn:NF.
    + destruct (Forall2_nth_left _ _ _ _ _ _ _ D' NF) as (sz&_&H&_). destruct (P i g NF) as (c2&NC&PL). assert (c2 = (nm, c)) as -> by congruence.
      eapply IH; eauto.
    + apply nth_error_None in NF. assert (i < length cs)%nat by (apply nth_error_Some; congruence).
      apply (f_equal (@length _)) in M. rewrite !map_length in M. lia.
Qed.

Lemma mfield_ind2 (P : mfield -> Prop) :
  (forall a l fl, P (MSimple a l fl)) -> (forall a l z c fl, P (MSArr a l z c fl)) ->
  (forall items fl, (forall c, In c items -> P c) -> P (MArr items fl)) ->
  (forall fs fl, (forall c, In c fs -> P (snd c)) -> P (MStruct fs fl)) -> forall f, P f.
Proof.
  intros H1 H2 H3 H4. fix IH 1. intros [a l fl|a l z c fl|items fl|fs fl]; [apply H1|apply H2| |].
  - apply H3. apply Forall_forall. induction items as [|x items IHi]; constructor; [apply IH|apply IHi].
  - apply H4. apply Forall_forall. induction fs as [|[nm x] fs IHi]; constructor; [apply IH|apply IHi].
Qed.

Definition in_slot (s : slot) (x : Z) : Prop := exists n, occupies s n /\ s_addr s <= x < s_addr s + n.

(** A published field whose every slot is sound, above address 0. *)
Definition above (f : mfield) : Prop := forall p s, leaf_at p f = Some s -> 0 <= s_addr s /\ exists n, sound_slot s n.

Lemma above_item items fl i c : above (MArr items fl) -> nth_error items i = Some c -> above c.
Proof. intros A N p s L. apply (A (i :: p)). cbn. now rewrite N. Qed.
Lemma above_field fs fl i nm c : above (MStruct fs fl) -> nth_error fs i = Some (nm, c) -> above c.
Proof. intros A N p s L. apply (A (i :: p)). cbn. now rewrite N. Qed.

(** The items of a simple array follow each other. *)
Fixpoint tight (f : mfield) : Prop :=
  match f with
  | MSimple _ _ _ => True
  | MSArr a l isize count fl => 0 <= a /\ 0 <= count /\ 0 < isize /\ occupies (item_slot a l isize fl 0) isize
  | MArr items _ => (fix all l := match l with [] => True | c :: r => tight c /\ all r end) items
  | MStruct fs _ => (fix all l := match l with [] => True | c :: r => tight (snd c) /\ all r end) fs
  end.
Lemma tight_items items fl : tight (MArr items fl) <-> forall c, In c items -> tight c.
Proof.
  cbn. induction items as [|x items IH]; [split; [intros _ c []|auto]|]. rewrite IH. split; [intros [H1 H2] c [<-|H]; auto|].
  intros H. split; [apply H; now left|]. intros c Hc. apply H. now right.
Qed.
Lemma tight_fields fs fl : tight (MStruct fs fl) <-> forall c, In c fs -> tight (snd c).
Proof.
  cbn. induction fs as [|x fs IH]; [split; [intros _ c []|auto]|]. rewrite IH. split; [intros [H1 H2] c [<-|H]; auto|].
  intros H. split; [apply H; now left|]. intros c Hc. apply H. now right.
Qed.

Lemma placed_tight n : forall r u size addr fl f, plain r -> describes n r u size -> 0 <= addr -> place n r u addr fl = Some (Ok f) -> tight f.
Proof.
  induction n as [|n IH]; intros r u size addr fl f Z0 D A E; [discriminate|].
  destruct (place_cases n r u addr fl f Z0 E) as (t&G&[(K&U&->)|[(item&isize&count&it&TD&GI&K&->)|[(item&isize&count&simple&items&TD&->&LN&P)|(fs&cs&TD&->&M&N&P)]]]).
  - exact I.
  - cbn in D. rewrite G, TD in D. destruct D as (D & C & ->). destruct n as [|n]; [contradiction|].
    destruct (describes_leaf n r item isize it D GI K (addr + Z.of_nat 0 * isize) fl) as [O W]. cbn [tight]. repeat split; auto; lia.
  - apply tight_items. intros c X. apply In_nth_error in X. destruct X as [i X].
    cbn in D. rewrite G, TD in D. destruct D as (D & C & _). pose proof (describes_size _ _ _ _ D). eapply IH; [..|eapply P]; eauto. nia.
  - apply tight_fields. intros [nm c] X. apply In_nth_error in X. destruct X as [i X].
    assert (D' : exists sizes, Forall2 (fun f s => describes n r (sf_type f) s /\ 0 <= sf_offset f /\ sf_offset f + s <= size) fs sizes).
    { cbn in D. rewrite G in D. destruct TD as [TD|[b TD]]; rewrite TD in D; destruct D as (D0 & sizes & D1 & D2); eauto. }
    destruct D' as [sizes D']. destruct (nth_error fs i) as [g|] eqn:NF.
    + destruct (Forall2_nth_left _ _ _ _ _ _ _ D' NF) as (sz&_&H&O1&_). destruct (P i g NF) as (c2&NC&PL). assert (c2 = (nm, c)) as -> by congruence.
      eapply IH; [..|exact PL]; eauto. lia.
    + apply nth_error_None in NF. assert (i < length cs)%nat by (apply nth_error_Some; congruence).
      apply (f_equal (@length _)) in M. rewrite !map_length in M. lia.
Qed.

Lemma leaf_kept_state f : forall p s x, above f -> tight f -> leaf_at p f = Some s -> kept p f -> in_slot s (Z.of_nat x) -> FP.state_byte (stored f) x.
Proof.
  induction f as [a l fl|a l z c fl|items fl IH|fs fl IH] using mfield_ind2; intros p s x A T L K (n&O&X).
  - destruct p; [|discriminate]. cbn in L, K. injection L as <-. cbn [stored]. rewrite K. destruct (A [] _ eq_refl) as [A0 (n'&O'&B)].
    rewrite (occupies_fun _ _ _ O' O) in B. cbn [s_addr] in *. unfold occupies in O. cbn [s_leaf] in O.
    assert (V : forall k len, value_size k n -> FP.state_byte (FS.PbSimple true (Z.to_nat a) k len) x).
    { intros k len V. apply (FP.sb_pub_value _ _ _ (Z.to_nat n)); [apply bytes_value; rewrite Z2Nat.id by lia; assumption|]. unfold FP.in_range. lia. }
    destruct (l_kind l); try (now apply V); try contradiction. destruct (l_len l) as [len|]; [|contradiction]. cbn [option_map].
    apply FP.sb_pub_string. unfold FP.in_range. lia.
  - destruct p as [|i [|]]; try discriminate. cbn in L. destruct (Z.ltb_spec (Z.of_nat i) c); [|discriminate]. injection L as <-.
    cbn [kept stored] in *. rewrite K. destruct T as (T1&T2&T3&T4).
    assert (n = z) by exact (occupies_fun (item_slot a l z fl 0) n z O T4). subst n. cbn [s_addr] in X.
    apply FP.sb_pub_items. unfold FP.in_range. assert (Z.of_nat (Z.to_nat z * Z.to_nat c) = z * c) by (rewrite Nat2Z.inj_mul, !Z2Nat.id; lia). nia.
  - destruct p as [|i q]; [discriminate|]. cbn [leaf_at kept] in *. destruct K as [KS K]. destruct (nth_error items i) as [c|] eqn:NI; [|discriminate].
    cbn [stored]. rewrite KS. pose proof (nth_error_In _ _ NI) as I. apply (FP.sb_pub_array _ (stored c)); [now apply in_map|].
    eapply IH; eauto; [eapply above_item; eauto|apply (proj1 (tight_items items fl) T c I)|]. exists n; auto.
  - destruct p as [|i q]; [discriminate|]. cbn [leaf_at kept] in *. destruct K as [KS K]. destruct (nth_error fs i) as [[nm c]|] eqn:NI; [|discriminate].
    cbn [stored]. rewrite KS. pose proof (nth_error_In _ _ NI) as I. apply (FP.sb_pub_structure _ (stored c)).
    + apply in_map_iff. exists (nm, c). auto.
    + apply (IH (nm, c) I q s); auto; [eapply above_field; eauto|apply (proj1 (tight_fields fs fl) T _ I)|]. exists n; auto.
Qed.

Lemma state_kept_leaf f : forall x, above f -> tight f -> FP.state_byte (stored f) x ->
  exists p s, leaf_at p f = Some s /\ kept p f /\ in_slot s (Z.of_nat x).
Proof.
  induction f as [a l fl|a l z c fl|items fl IH|fs fl IH] using mfield_ind2; intros x A T S; cbn [stored] in S.
  - exists [], (Slot a l fl). destruct (A [] _ eq_refl) as [A0 (n'&O'&B)]. cbn [s_addr] in A0.
    inversion S; subst; (split; [reflexivity|]; split; [cbn; congruence|]); exists n'; (split; [exact O'|]); unfold occupies in O'; cbn [s_leaf s_addr] in *; unfold FP.in_range in *.
    + assert (n' = Z.of_nat n); [|lia]. match goal with H : FP.bytes_of _ _ |- _ => apply bytes_value in H; destruct (l_kind l); cbn in *; try contradiction; congruence end.
    + match goal with H : KString8 = _ |- _ => rewrite <- H in O' | H : _ = KString8 |- _ => rewrite H in O' end.
      destruct (l_len l) as [len|]; [|contradiction]. cbn in *. match goal with H : Some _ = Some _ |- _ => injection H as H end. lia.
  - destruct T as (T1&T2&T3&T4). inversion S; subst. unfold FP.in_range in *.
    assert (Q : Z.of_nat (Z.to_nat z * Z.to_nat c) = z * c) by (rewrite Nat2Z.inj_mul, !Z2Nat.id; lia).
    set (d := Z.of_nat x - a). assert (D : 0 <= d < z * c) by lia. pose proof (Z.div_mod d z ltac:(lia)) as DM. pose proof (Z.mod_pos_bound d z T3) as MB.
    assert (0 <= d / z) by (apply Z.div_pos; lia). assert (d / z < c) by (apply Z.div_lt_upper_bound; lia).
    exists [Z.to_nat (d / z)], (item_slot a l z fl (Z.to_nat (d / z))). split; [|split].
    + cbn. rewrite Z2Nat.id by lia. destruct (Z.ltb_spec (d / z) c); [|lia]. unfold item_slot. now rewrite Z2Nat.id by lia.
    + cbn. congruence.
    + exists z. split; [exact T4|]. cbn. rewrite Z2Nat.id by lia. lia.
  - inversion S as [| | | | | | | | | | | |l0 t x0 I B| | | |]; subst. apply in_map_iff in I. destruct I as (c&<-&I).
    destruct (IH c I x) as (p&s&L&K&X); auto; [| |].
    + apply In_nth_error in I. destruct I as [i I]. eapply above_item; eauto.
    + apply (proj1 (tight_items items fl) T c I).
    + apply In_nth_error in I. destruct I as [i I]. exists (i :: p), s. cbn. rewrite I. repeat split; auto.
  - inversion S as [| | | | | | | | | | | | |l0 t x0 I B| | |]; subst. apply in_map_iff in I. destruct I as ([nm c]&<-&I).
    destruct (IH _ I x) as (p&s&L&K&X); auto; [| |].
    + apply In_nth_error in I. destruct I as [i I]. eapply above_field; eauto.
    + apply (proj1 (tight_fields fs fl) T _ I).
    + apply In_nth_error in I. destruct I as [i I]. exists (i :: p), s. cbn. rewrite I. repeat split; auto.
Qed.

Lemma kept_dec f : forall p, kept p f \/ ~ kept p f.
Proof.
  induction f as [a l fl|a l z c fl|items fl IH|fs fl IH] using mfield_ind2; intros p.
  - destruct p; cbn; destruct (f_state fl); auto; right; discriminate.
  - destruct p; cbn; destruct (f_state fl); auto; right; discriminate.
  - destruct p as [|i q]; cbn; [right; tauto|]. destruct (f_state fl); [|right; intros []; discriminate].
    destruct (nth_error items i) as [c|] eqn:N; [|right; tauto]. destruct (IH c (nth_error_In _ _ N) q); [now left|right; tauto].
  - destruct p as [|i q]; cbn; [right; tauto|]. destruct (f_state fl); [|right; intros []; discriminate].
    destruct (nth_error fs i) as [[nm c]|] eqn:N; [|right; tauto]. destruct (IH _ (nth_error_In _ _ N) q); [now left|right; tauto].
Qed.

(** * Depths *)
Lemma describes_mono n : forall r u size, describes n r u size -> describes (S n) r u size.
Proof.
  induction n as [|n IH]; intros r u size D; [contradiction|]. remember (S n) as k. cbn. subst k. cbn in D.
  destruct (get_type r u) as [t|]; [|contradiction].
  assert (F : forall fs sizes, Forall2 (fun f s => describes n r (sf_type f) s /\ 0 <= sf_offset f /\ sf_offset f + s <= size) fs sizes ->
     Forall2 (fun f s => describes (S n) r (sf_type f) s /\ 0 <= sf_offset f /\ sf_offset f + s <= size) fs sizes).
  { intros fs sizes H. induction H as [|a b l l' (H1&H2&H3) _ IHF]; constructor; auto. }
  destruct (ty_def t) as [k|k l|k a b c d|k a b|l|item isize count simple|fs|b fs]; try exact D.
  - destruct D as (D&C). split; [apply IH; exact D|exact C].
  - destruct D as (D0&sizes&D1&D2). split; [exact D0|]. exists sizes. split; [apply F; exact D1|exact D2].
  - destruct D as (D0&sizes&D1&D2). split; [exact D0|]. exists sizes. split; [apply F; exact D1|exact D2].
Qed.

Lemma place_fields_mono (mk mk' : Z -> Z -> flags -> option (res texn mfield)) addr fl fs :
  (forall u a g f, mk u a g = Some (Ok f) -> mk' u a g = Some (Ok f)) ->
  forall acc l, place_fields mk addr fl fs acc = Ok l -> place_fields mk' addr fl fs acc = Ok l.
Proof.
  intros H. induction fs as [|f fs IH]; intros acc l E; cbn [place_fields] in *; auto.
  destruct (mk (sf_type f) _ _) as [x|] eqn:M; [|discriminate]. destruct (check_name (Some (sf_name f ++ [0]))) as [nm|e|] eqn:CN; try discriminate.
  destruct x as [c|e|]; try discriminate. rewrite (H _ _ _ _ M). destruct (has_child nm acc); [discriminate|]. now apply IH.
Qed.

Lemma place_mono n : forall r u addr fl f, place n r u addr fl = Some (Ok f) -> place (S n) r u addr fl = Some (Ok f).
Proof.
  induction n as [|n IH]; intros r u addr fl f E; [discriminate|]. remember (S n) as k. cbn. subst k. cbn in E.
  destruct (get_type r u) as [t|]; [|discriminate]. injection E as E. f_equal.
  assert (F : forall fs, bind (place_fields (place n r) addr fl fs []) (fun l => Ok (MStruct l fl)) = Ok f ->
     bind (place_fields (place (S n) r) addr fl fs []) (fun l => Ok (MStruct l fl)) = Ok f).
  { intros fs H. destruct (place_fields (place n r) addr fl fs []) as [l|e|] eqn:P; try discriminate.
    rewrite (place_fields_mono _ (place (S n) r) _ _ _ (fun u a g f => IH r u a g f) _ _ P). exact H. }
  destruct (ty_kind t); try exact E. destruct (ty_def t) as [k|k l|k a b c d|k a b|l|item isize count simple|fs|b fs]; try exact E; try (apply F; exact E).
  destruct (get_type r item) as [it|]; [|discriminate]. destruct (simple && _); [exact E|].
  assert (Q : forall len s l, collect (map (fun i => match place n r item (addr + Z.of_nat i * isize) fl with Some x => x | None => UB end) (seq s len)) = Ok l ->
     collect (map (fun i => match place (S n) r item (addr + Z.of_nat i * isize) fl with Some x => x | None => UB end) (seq s len)) = Ok l).
  { clear E. induction len as [|len IHl]; intros s l E; [exact E|]. cbn [seq map collect] in *.
    destruct (place n r item (addr + Z.of_nat s * isize) fl) as [[c|e|]|] eqn:P; try discriminate. rewrite (IH _ _ _ _ _ P). cbn [bind] in *.
    destruct (collect (map (fun i => match place n r item _ fl with Some x => x | None => UB end) (seq (S s) len))) as [y|e|] eqn:C; try discriminate.
    rewrite (IHl _ _ C). exact E. }
  destruct (collect (map (fun i => match place n r item _ fl with Some x => x | None => UB end) _)) as [l|e|] eqn:C; try discriminate.
  rewrite (Q _ _ _ C). exact E.
Qed.

Lemma describes_more d k r u size : describes d r u size -> describes (k + d) r u size.
Proof. induction k; intros; [assumption|]. cbn [Nat.add]. apply describes_mono. auto. Qed.
Lemma place_more n k r u addr fl f : place n r u addr fl = Some (Ok f) -> place (k + n) r u addr fl = Some (Ok f).
Proof. induction k; intros; [assumption|]. cbn [Nat.add]. apply place_mono. auto. Qed.

Lemma same_depth d n r u size addr fl f : describes d r u size -> place n r u addr fl = Some (Ok f) ->
  describes (d + n) r u size /\ place (d + n) r u addr fl = Some (Ok f).
Proof. intros D E. split; [rewrite Nat.add_comm; now apply describes_more|now apply place_more]. Qed.

(** * Every described type can be published *)
Definition well_named (r : reg) : Prop := forall u t, get_type r u = Some t ->
  NoDup (map sf_name (fields_of t)) /\ forall f, In f (fields_of t) -> valid_name (sf_name f) /\ ~ In 0 (sf_name f).

Lemma place_fields_all mk addr fl fs : (forall f, In f fs -> valid_name (sf_name f) /\ ~ In 0 (sf_name f)) ->
  (forall f, In f fs -> exists c, mk (sf_type f) (addr + sf_offset f) (sub_flags f fl) = Some (Ok c)) ->
  forall acc, NoDup (map fst acc ++ map sf_name fs) -> exists l, place_fields mk addr fl fs acc = Ok l.
Proof.
  induction fs as [|f fs IH]; intros V H acc N; [eexists; reflexivity|]. cbn [place_fields]. fold (sub_flags f fl).
  destruct (H f (or_introl eq_refl)) as [c ->]. destruct (V f (or_introl eq_refl)) as [V1 V2].
  pose proof (cstring_to_nul (sf_name f)) as CS. rewrite (to_nul_id (sf_name f)) in CS by assumption.
  destruct (check_name_ok _ _ CS) as [[C _]|[[e C] V3]]; [|contradiction]. rewrite C.
  destruct (has_child (sf_name f) acc) eqn:HC.
  - apply has_child_in in HC. cbn in N. apply NoDup_remove_2 in N. exfalso. apply N. apply in_or_app. now left.
  - apply IH; [intros; apply V; now right|intros; apply H; now right|]. rewrite map_app, <- app_assoc. exact N.
Qed.

Lemma collect_all A (l : list (res texn A)) : (forall x, In x l -> exists a, x = Ok a) -> exists y, collect l = Ok y.
Proof.
  induction l as [|x l IH]; intros H; [eexists; reflexivity|]. cbn. destruct (H x (or_introl eq_refl)) as [a ->]. cbn.
  destruct IH as [y ->]; [intros; apply H; now right|]. cbn. eauto.
Qed.

Lemma place_all n : forall r u size addr fl, well_named r -> get_type r uString8 = Some (Ty (codes "String8") (DPrim KString8)) ->
  describes n r u size -> exists f, place n r u addr fl = Some (Ok f).
Proof.
  induction n as [|n IH]; intros r u size addr fl W S8 D; [contradiction|]. cbn [place]. cbn in D.
  destruct (get_type r u) as [t|] eqn:G; [|contradiction].
  assert (U : ty_kind t <> KNone -> (u =? uString8) = false).
  { intros K. apply Z.eqb_neq. intros ->. assert (t = Ty (codes "String8") (DPrim KString8)) as -> by congruence. cbn in D. exact D. }
  assert (F : forall fs, fields_of t = fs -> (exists sizes, Forall2 (fun f s => describes n r (sf_type f) s /\ 0 <= sf_offset f /\ sf_offset f + s <= size) fs sizes) ->
     exists f, Some (bind (place_fields (place n r) addr fl fs []) (fun l => Ok (MStruct l fl))) = Some (Ok f)).
  { intros fs FS (sizes&F2). destruct (W u t G) as [N V]. rewrite FS in N, V.
    destruct (place_fields_all (place n r) addr fl fs V) with (acc := @nil (list Z * mfield)) as [l ->]; [|exact N|eexists; reflexivity].
    intros f I. apply In_nth_error in I. destruct I as [i I]. destruct (Forall2_nth_left _ _ _ _ _ _ _ F2 I) as (sz&_&Ds&_). eapply IH; eauto. }
  unfold ty_kind in *. unfold fields_of in F.
  destruct (ty_def t) as [k|k l|k a b c d|k a b|l|item isize count simple|fs|b fs] eqn:TD.
  1-4: destruct k; try contradiction; rewrite U by discriminate; eexists; reflexivity.
  - rewrite U by discriminate. eexists; reflexivity.
  - destruct D as (D&C&_).
    assert (GI : exists it, get_type r item = Some it) by (destruct n; [contradiction|]; cbn in D; destruct (get_type r item); [eauto|contradiction]).
    destruct GI as [it GI]. rewrite GI. destruct (simple && _); [eexists; reflexivity|].
    match goal with |- context [collect ?l] => assert (Q : exists y, collect l = Ok y) end.
    { apply collect_all. intros x X. apply in_map_iff in X. destruct X as (i&<-&_). destruct (IH r item isize (addr + Z.of_nat i * isize) fl W S8 D) as [f ->]. eauto. }
    destruct Q as [y ->]. eexists; reflexivity.
  - destruct D as (D0&sizes&D1&_). apply F; eauto.
  - destruct D as (D0&sizes&D1&_). apply F; eauto.
Qed.

Lemma child_named_in nm c fs : NoDup (map fst fs) -> In (nm, c) fs -> child_named nm fs = Some c.
Proof.
  induction fs as [|[m d] fs IH]; intros N I; [contradiction|]. cbn in *. inversion N as [|x l NI N']; subst.
  destruct (list_eqb nm m) eqn:E.
  - apply list_eqb_eq in E. subst m. destruct I as [I|I]; [congruence|]. exfalso. apply NI. apply in_map_iff. exists (nm, c). auto.
  - destruct I as [I|I]; [|auto]. injection I as -> ->. assert (list_eqb nm nm = true) by now apply list_eqb_eq. congruence.
Qed.

Lemma bytes32_value z : - 2 ^ 31 <= z < 2 ^ 31 -> int32_of (bytes32 z) = z.
Proof.
  intros B. unfold bytes32. cbn [map]. change 255 with (Z.ones 8). rewrite !Z.land_ones by lia.
  rewrite !Z.shiftr_div_pow2 by lia. unfold int32_of, unsigned. cbv zeta.
  change (8 * 0) with 0. change (8 * 1) with 8. change (8 * 2) with 16. change (8 * 3) with 24.
  change (2 ^ 0) with 1. change (2 ^ 8) with 256. change (2 ^ 16) with 65536. change (2 ^ 24) with 16777216.
  change (2 ^ 31) with 2147483648 in *. change (2 ^ 32) with 4294967296.
  rewrite Z.div_1_r.
  pose proof (Z.div_mod z 256 ltac:(lia)). pose proof (Z.mod_pos_bound z 256 ltac:(lia)).
  assert (E2 : z / 65536 = z / 256 / 256) by (rewrite Z.div_div by lia; reflexivity).
  assert (E3 : z / 16777216 = z / 256 / 256 / 256) by (rewrite !Z.div_div by lia; reflexivity).
  rewrite E2, E3. set (a := z / 256) in *.
  pose proof (Z.div_mod a 256 ltac:(lia)). pose proof (Z.mod_pos_bound a 256 ltac:(lia)). set (b := a / 256) in *.
  pose proof (Z.div_mod b 256 ltac:(lia)). pose proof (Z.mod_pos_bound b 256 ltac:(lia)). set (c := b / 256) in *.
  pose proof (Z.mod_pos_bound c 256 ltac:(lia)).
  assert (C : -128 <= c < 128) by lia.
  assert (D : c mod 256 = c \/ c mod 256 = c + 256).
  { destruct (Z_lt_le_dec c 0).
    - right. rewrite <- (Z_mod_plus_full c 1 256). apply Z.mod_small. lia.
    - left. apply Z.mod_small. lia. }
  destruct (Z.ltb_spec (z mod 256 + 256 * (a mod 256 + 256 * (b mod 256 + 256 * (c mod 256 + 256 * 0)))) 2147483648); destruct D; lia.
Qed.
Lemma enumeration_values m s lits z : l_kind (s_leaf s) = KI32 -> l_lits (s_leaf s) = Some lits -> - 2 ^ 31 <= z < 2 ^ 31 ->
  (In z lits -> set_value m s (VBytes (bytes32 z)) = Ok (write m (s_addr s) (bytes32 z))) /\
  (~ In z lits -> set_value m s (VBytes (bytes32 z)) = Throw InvalidFieldValue).
Proof.
  intros K L B. unfold set_value. rewrite K, L. change (length (bytes32 z)) with 4%nat. cbn [FieldStoreModel.kind_size Nat.eqb negb].
  rewrite bytes32_value by exact B. destruct (existsb (Z.eqb z) lits) eqn:E; split; intros H; try reflexivity.
  - apply existsb_exists in E as (y & I & Q). apply Z.eqb_eq in Q. subst. contradiction.
  - exfalso. assert (X : existsb (Z.eqb z) lits = true); [apply existsb_exists; exists z; split; [exact H|apply Z.eqb_refl]|congruence].
Qed.
