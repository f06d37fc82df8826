(** Proofs about the texts of values. *)
From Verif Require Import Base Text UuidSpec UuidModel AnyModel AnySpec CalSpec CalModel CalProofs OutSpec OutModel.
From Verif Require TimeModel.
From Coq Require Import ZArith List Bool Lia QArith Qabs Floats.SpecFloat.
Import ListNotations.
Local Open Scope Z_scope.

(** * Integers *)

Lemma numeral_integer v : 0 <= v < 10 ^ 64 ->
  numeral 10 v <> [] /\ Forall is_digit (numeral 10 v) /\ decimal_of (numeral 10 v) = v /\
  (hd 0 (numeral 10 v) = 48 -> numeral 10 v = [48]).
Proof.
  intros H. destruct (numeral_spec 10 v ltac:(lia) H) as (D & _ & _ & G & Z0).
  pose proof (numeral10_digits v H) as F. pose proof (numeral10_value v H) as V.
  repeat split; try assumption. intros E.
  destruct (Z.eq_dec v 0) as [X|X]; [now apply Z0|]. exfalso. specialize (G ltac:(lia)).
  destruct (numeral 10 v) as [|c l] eqn:N; [congruence|]. cbn [hd] in E. subst c.
  pose proof (Forall_inv_tail F) as F0. unfold decimal_of in V. cbn [fold_left] in V.
  change (fold_left (fun a c => 10 * a + (c - 48)) l (10 * 0 + (48 - 48))) with (decimal_of l) in V.
  pose proof (decimal_bound l F0) as B. cbn [length] in G.
  replace (Z.of_nat (S (length l)) - 1) with (Z.of_nat (length l)) in G by lia. lia.
Qed.

Lemma signed_integer v : - 10 ^ 60 < v < 10 ^ 60 -> integer (signed v) v.
Proof.
  intros H. assert (10 ^ 60 < 10 ^ 64) by reflexivity.
  unfold signed, integer. destruct (Z.ltb_spec v 0).
  - destruct (numeral_integer (- v) ltac:(lia)) as (D & F & V & L).
    exists (numeral 10 (- v)). repeat split; try assumption. lia.
  - destruct (numeral_integer v ltac:(lia)) as (D & F & V & L).
    exists (numeral 10 v). repeat split; try assumption. lia.
Qed.

(** A number is read up to the first character that is not a digit. *)
Lemma integer_split t t' v v' s s' : integer t v -> integer t' v' ->
  ~ is_digit (hd 0 s) -> ~ is_digit (hd 0 s') -> t ++ s = t' ++ s' -> v = v' /\ s = s'.
Proof.
  intros (ds & -> & D & F & V & _) (ds' & -> & D' & F' & V' & _) N N' E.
  assert (S : forall ds ds' : list Z, Forall is_digit ds -> Forall is_digit ds' -> ds ++ s = ds' ++ s' -> ds = ds' /\ s = s').
  { clear - N N'. intros ds ds' F. revert ds'. induction F as [|c l C F IH]; intros [|c' l'] F' E.
    - auto.
    - cbn in E. subst s. inversion F'; subst. cbn in N. contradiction.
    - cbn in E. subst s'. cbn in N'. contradiction.
    - cbn in E. injection E as -> E. inversion F'; subst. destruct (IH l' ltac:(assumption) E) as (-> & ->). auto. }
  destruct ds as [|c ds]; [congruence|]. destruct ds' as [|c' ds']; [congruence|].
  assert (C : is_digit c) by (inversion F; assumption). assert (C' : is_digit c') by (inversion F'; assumption).
  unfold is_digit in C, C'.
  destruct (Z.ltb_spec v 0), (Z.ltb_spec v' 0).
  - cbn [app] in E. injection E as E1 E2. assert (E : (c :: ds) ++ s = (c' :: ds') ++ s') by (cbn; now rewrite E1, E2).
    destruct (S _ _ F F' E) as (Q & ->). rewrite Q in V. split; [lia|reflexivity].
  - cbn [app] in E. injection E as E1 E2. lia.
  - cbn [app] in E. injection E as E1 E2. lia.
  - destruct (S _ _ F F' E) as (Q & ->). rewrite Q in V. split; [lia|reflexivity].
Qed.

(** * Insertions on a stream in base 10 without width *)

Definition calm (f : form) : Prop := base f = Dec /\ width f = 0%nat.

Lemma put_calm f t : calm f -> put t f = Ok (t, f).
Proof. intros (B & W). destruct f as [b a w c]. cbn in *. subst. reflexivity. Qed.
Lemma put_int_calm f t v : calm f -> put_int t v f = Ok (signed v, f).
Proof. intros C. unfold put_int. rewrite (proj1 C). now apply put_calm. Qed.
Lemma seq_ok (a b : out) f t g t' g' : a f = Ok (t, g) -> b g = Ok (t', g') -> (a ;; b) f = Ok (t ++ t', g').
Proof. unfold andthen. intros -> E. cbn [bind snd]. now rewrite E. Qed.
Lemma put_lib_calm f t : calm f -> put_lib (Ok t) f = Ok (t, f).
Proof. intros (B & W). destruct f as [b a w c]. cbn in *. subst. reflexivity. Qed.

Lemma repeat_none n m (c : Z) : (n <= m)%nat -> repeat c (n - m) = [].
Proof. intros H. replace (n - m)%nat with 0%nat by lia. reflexivity. Qed.

(** What each kind of value writes. *)
Definition char_text (c : Z) : list Z :=
  if c =? 39 then codes "'\''" else if c =? 63 then codes "'\?'" else if c =? 92 then codes "'\\'"
  else if c =? 7 then codes "'\a'" else if c =? 8 then codes "'\b'" else if c =? 12 then codes "'\f'"
  else if c =? 10 then codes "'\n'" else if c =? 13 then codes "'\r'" else if c =? 9 then codes "'\t'"
  else if c =? 11 then codes "'\v'"
  else if (32 <=? c) && (c <=? 126) then [39; c; 39]
  else [39; 92] ++ numeral 8 (cast TU32 c) ++ [39].

Lemma put_char8_calm f c : calm f -> put_char8 c f = Ok (char_text c, f).
Proof.
  intros C. unfold put_char8, char_text.
  repeat match goal with |- context[if ?c =? ?k then _ else _] => destruct (c =? k); [now apply put_calm|] end.
  destruct ((32 <=? c) && (c <=? 126)).
  - erewrite seq_ok; [|now apply put_calm|eapply seq_ok; [now apply put_calm|now apply put_calm]]. reflexivity.
  - destruct f as [b a w k]. destruct C as (B & W). cbn in B, W. subst b w.
    set (n := numeral 8 (cast TU32 c)).
    erewrite seq_ok; [|now apply put_calm|eapply seq_ok; [reflexivity|eapply seq_ok; [reflexivity|eapply seq_ok; [reflexivity|reflexivity]]]].
    cbn [set_base alpha width fill app].
    replace (cast (make_unsigned TU32) (cast TU32 c)) with (cast TU32 c); [fold n; reflexivity|].
    unfold make_unsigned, cast. change (tmin TU32) with 0. rewrite !Z.sub_0_r, !Z.add_0_l. symmetry. apply Z.mod_mod. cbn. lia.
Qed.

Definition any_text (a : any) : res Empty_set (list Z) :=
  match atype a, aval a with
  | KNone, _ => Ok (codes "None")
  | KChar8, PChar c => Ok (char_text c)
  | KBool, PBool b => Ok (codes (if b then "true" else "false"))
  | (KI8 | KU8 | KI16 | KU16 | KI32 | KU32 | KI64 | KU64) as k, PInt v => Ok (signed v ++ suffix k)
  | (KF32 | KF64) as k, PFloat x => Ok (float_text x ++ suffix k)
  | KDuration, PInt v => bind (duration_text v) (fun t => Ok (34 :: t ++ [34]))
  | KDateTime, PInt v => bind (date_text v) (fun t => Ok (34 :: t ++ [34]))
  | KString8, PStr s => match s with Some t => Ok (34 :: t ++ [34]) | None => UB end
  | _, _ => UB
  end.

Definition unalpha (f : form) : form := Form (base f) false (width f) (fill f).

Lemma put_any_calm f a : calm f ->
  put_any a f = bind (any_text a) (fun t => Ok (t, if match atype a with KBool => true | _ => false end then unalpha f else f)).
Proof.
  intros C. unfold put_any, any_text.
  destruct (atype a), (aval a); try reflexivity; cbn [bind];
    try (now apply put_calm);
    try (erewrite seq_ok; [reflexivity|now apply put_int_calm|now apply put_calm]);
    try (erewrite seq_ok; [reflexivity|now apply put_calm|now apply put_calm]).
  - now apply put_char8_calm.
  - destruct f as [b' al w c]. destruct C as (B & W). cbn in B, W. subst b' w. destruct b; reflexivity.
  - destruct (duration_text z) as [t| |]; [|destruct e|].
    + cbn [bind]. erewrite seq_ok; [|now apply put_calm|eapply seq_ok; [now apply put_lib_calm|now apply put_calm]]. reflexivity.
    + unfold andthen. rewrite put_calm by assumption. reflexivity.
  - destruct (date_text z) as [t| |]; [|destruct e|].
    + cbn [bind]. erewrite seq_ok; [|now apply put_calm|eapply seq_ok; [now apply put_lib_calm|now apply put_calm]]. reflexivity.
    + unfold andthen. rewrite put_calm by assumption. reflexivity.
  - destruct s as [t|].
    + cbn [bind put_str]. erewrite seq_ok; [|now apply put_calm|eapply seq_ok; [now apply put_calm|now apply put_calm]]. reflexivity.
    + unfold andthen. rewrite put_calm by assumption. reflexivity.
Qed.

(** * Uuids *)

Lemma hex_digits_numeral f1 : forall f2 n acc, 0 <= n < 16 ^ Z.of_nat (S f1) -> 0 <= n < 16 ^ Z.of_nat (S f2) ->
  hex_digits (S f1) n acc = digits (S f2) 16 n acc.
Proof.
  assert (Q : forall k n, 0 <= n < 16 ^ Z.of_nat (S (S k)) -> 0 <= n / 16 < 16 ^ Z.of_nat (S k)).
  { intros k n H. rewrite (Nat2Z.inj_succ (S k)), Z.pow_succ_r in H by lia.
    split; [apply Z.div_pos; lia|apply Z.div_lt_upper_bound; lia]. }
  induction f1 as [|f1 IH]; intros f2 n acc H1 H2.
  - change (16 ^ Z.of_nat 1) with 16 in H1. cbn [hex_digits digits].
    rewrite (proj2 (Z.ltb_lt n 16)) by lia. reflexivity.
  - destruct f2 as [|f2].
    + change (16 ^ Z.of_nat 1) with 16 in H2. cbn [hex_digits digits].
      rewrite (proj2 (Z.ltb_lt n 16)) by lia. reflexivity.
    + change (hex_digits (S (S f1)) n acc) with
        (if n <? 16 then hexa_char n :: acc else hex_digits (S f1) (n / 16) (hexa_char (n mod 16) :: acc)).
      change (digits (S (S f2)) 16 n acc) with
        (if n <? 16 then hexa_char n :: acc else digits (S f2) 16 (n / 16) (hexa_char (n mod 16) :: acc)).
      destruct (n <? 16); [reflexivity|]. apply IH; apply Q; assumption.
Qed.

Lemma hex_text_numeral n : 0 <= n < 2 ^ 64 -> numeral 16 n = hex_text n.
Proof.
  intros H. symmetry. apply hex_digits_numeral.
  - change (16 ^ Z.of_nat 16) with (2 ^ 64). exact H.
  - split; [lia|]. apply Z.lt_le_trans with (2 ^ 64); [lia|]. vm_compute. discriminate.
Qed.

Lemma cast_same t v : tmin t <= v <= tmax t -> cast t v = v.
Proof.
  intros H. unfold cast. rewrite Z.mod_small; [lia|].
  unfold tmin, tmax in *. destruct (is_signed t); destruct t; cbn [bits] in *; lia.
Qed.

Lemma put_hex t v w a c : (t = TU32 \/ t = TU16) -> 0 <= v <= tmax t ->
  put_int t v (Form Hex a w c) = Ok (repeat c (w - length (hex_text v)) ++ hex_text v, Form Hex a 0 c).
Proof.
  intros T H. unfold put_int. cbn [base]. unfold put. cbn [width fill base alpha].
  assert (M : make_unsigned t = t) by (destruct T; subst; reflexivity). rewrite M.
  rewrite cast_same by (split; [|lia]; destruct T; subst; cbn; lia). rewrite hex_text_numeral; [reflexivity|].
  assert (tmax TU32 < 2 ^ 64) by reflexivity. assert (tmax TU16 < 2 ^ 64) by reflexivity. destruct T; subst; lia.
Qed.

Lemma put_uuid_any f u : uuid_ok u ->
  put_uuid u f = Ok (print u, Form Dec (alpha f) 0 32).
Proof.
  intros (D1 & L2 & F2 & L3 & F3). destruct u as [d1 d2 d3]. cbn [data1 data2 data3] in *.
  destruct d2 as [|x0 [|x1 [|x2 [|]]]]; try discriminate.
  destruct d3 as [|y0 [|y1 [|y2 [|y3 [|y4 [|y5 [|]]]]]]]; try discriminate.
  repeat match goal with H : Forall _ (_ :: _) |- _ => inversion H; clear H; subst end.
  destruct f as [b a w c]. cbn [alpha].
  assert (H32 : tmax TU32 = 2 ^ 32 - 1) by reflexivity. assert (H16 : tmax TU16 = 2 ^ 16 - 1) by reflexivity.
  unfold put_uuid. cbv zeta. cbn [data1 data2 data3 nth fold_right].
  set (F := Form Dec a 0 32).
  assert (E : forall (o : out) g (T : list Z), (exists t, o g = Ok (t, F) /\ t = T) -> o g = Ok (T, F)).
  { intros o g T (t & -> & ->). reflexivity. }
  apply E. eexists. split.
  { eapply seq_ok; [reflexivity|]. eapply seq_ok; [reflexivity|]. eapply seq_ok; [reflexivity|].
    cbn [alpha width fill base].
    eapply seq_ok; [apply put_hex; [auto|lia]|].
    do 3 (eapply seq_ok; [reflexivity|]; eapply seq_ok; [reflexivity|]; cbn [alpha width fill base];
          eapply seq_ok; [apply put_hex; [auto|lia]|]).
    eapply seq_ok; [reflexivity|].
    eapply seq_ok.
    { do 6 (eapply seq_ok; [reflexivity|]; cbn [alpha width fill base];
            eapply seq_ok; [apply put_hex; [auto|lia]|]). reflexivity. }
    eapply seq_ok; reflexivity. }
  unfold print, padded. cbn [data1 data2 data3 nth map concat].
  rewrite !app_nil_r. change (codes "-") with [45]. cbn [length Nat.sub repeat app].
  rewrite <- !app_assoc. cbn [app]. rewrite <- ?app_assoc. reflexivity.
Qed.

(** * Enumerations *)

Definition enum_text (e : enum) (v : Z) : list Z :=
  match find (fun x => fst x =? v) (literals e) with
  | Some x => snd x
  | None => (codes "Unknown " ++ enum_name e ++ codes "(") ++ signed v ++ codes ")"
  end.

Lemma put_enum_calm f e v : calm f -> put_enum e v f = Ok (enum_text e v, f).
Proof.
  intros C. unfold put_enum, enum_text. destruct (find _ _) as [x|]; [now apply put_calm|].
  eapply seq_ok; [now apply put_calm|]. eapply seq_ok; [now apply put_int_calm|now apply put_calm].
Qed.

Fixpoint sameb (s t : list Z) : bool :=
  match s, t with
  | [], [] => true
  | a :: s', b :: t' => (a =? b) && sameb s' t'
  | _, _ => false
  end.
Lemma sameb_refl s : sameb s s = true.
Proof. induction s as [|a s IH]; [reflexivity|]. cbn. now rewrite Z.eqb_refl. Qed.

Lemma enum_names_distinct e : forallb (fun x => forallb (fun y => (fst x =? fst y) || negb (sameb (snd x) (snd y))) (literals e)) (literals e) = true
  /\ forallb (fun x => negb (sameb (firstn 8 (snd x)) (codes "Unknown "))) (literals e) = true.
Proof. destruct e; vm_compute; split; reflexivity. Qed.

Lemma enum_inj e v v' : - 2 ^ 31 <= v < 2 ^ 31 -> - 2 ^ 31 <= v' < 2 ^ 31 -> enum_text e v = enum_text e v' -> v = v'.
Proof.
  intros H H'. assert (2 ^ 31 < 10 ^ 60) by reflexivity. unfold enum_text. destruct (enum_names_distinct e) as (D & U).
  rewrite forallb_forall in D, U.
  destruct (find _ (literals e)) as [x|] eqn:F; destruct (find (fun x => fst x =? v') _) as [y|] eqn:G.
  - intros E. apply find_some in F, G. destruct F as (Fi & Fe), G as (Gi & Ge). apply Z.eqb_eq in Fe, Ge.
    specialize (D x Fi). rewrite forallb_forall in D. specialize (D y Gi).
    rewrite E, sameb_refl, orb_false_r in D. apply Z.eqb_eq in D. lia.
  - intros E. apply find_some in F. destruct F as (Fi & _). specialize (U x Fi). rewrite E in U.
    rewrite <- !app_assoc in U. change (firstn 8 _) with (codes "Unknown ") in U. now rewrite sameb_refl in U.
  - intros E. apply find_some in G. destruct G as (Gi & _). specialize (U y Gi). rewrite <- E in U.
    rewrite <- !app_assoc in U. change (firstn 8 _) with (codes "Unknown ") in U. now rewrite sameb_refl in U.
  - intros E. apply app_inv_head in E.
    eapply (integer_split (signed v) (signed v') v v'); [apply signed_integer; lia|apply signed_integer; lia| | |exact E];
      cbn; unfold is_digit; lia.
Qed.

(** * Messages *)

Definition item_ok (i : item) : Prop := match i with IUuid u => uuid_ok u | _ => True end.

Lemma plain_calm : calm plain.
Proof. split; reflexivity. Qed.

Lemma item_plain i : item_ok i -> (exists t, put_item i plain = Ok (t, plain)) \/ put_item i plain = UB.
Proof.
  pose proof plain_calm as C. intros O. destruct i as [t|t v|a|e v|u|d]; cbn [put_item item_ok] in *.
  - left. eexists. now apply put_calm.
  - left. eexists. now apply put_int_calm.
  - rewrite put_any_calm by assumption. destruct (any_text a) as [t|[]|]; cbn [bind]; [left|now right].
    exists t. destruct (atype a); reflexivity.
  - left. eexists. now apply put_enum_calm.
  - left. eexists. now apply put_uuid_any.
  - destruct (duration_text d) as [t|[]|]; [left|now right]. eexists. reflexivity.
Qed.

Lemma fs_one i : format_string [i] = bind (put_item i plain) (fun x => Ok (fst x)).
Proof.
  unfold format_string. cbn [fold_right]. unfold andthen at 1. destruct (put_item i plain) as [[t f]|[]|]; cbn [bind]; try reflexivity.
  unfold nothing. cbn [bind fst snd]. now rewrite app_nil_r.
Qed.

Lemma fs_cons i l : item_ok i -> format_string (i :: l) =
  bind (format_string [i]) (fun t => bind (format_string l) (fun r => Ok (t ++ r))).
Proof.
  intros O. rewrite fs_one. unfold format_string. cbn [fold_right]. unfold andthen at 1.
  destruct (item_plain i O) as [(t & ->)| ->]; [|reflexivity]. cbn [bind snd fst].
  match goal with |- context[fold_right ?a ?b l plain] => destruct (fold_right a b l plain) as [[r f]|[]|] end; reflexivity.
Qed.

Lemma fs_concat l ts : Forall item_ok l -> Forall2 (fun i t => format_string [i] = Ok t) l ts ->
  format_string l = Ok (concat ts).
Proof.
  intros O F. induction F as [|i t l ts E F IH]; [reflexivity|]. inversion O; subst.
  rewrite fs_cons by assumption. rewrite E. cbn [bind]. rewrite IH by assumption. reflexivity.
Qed.

Lemma fs_defined l : Forall item_ok l -> (format_string l = UB <-> exists i, In i l /\ format_string [i] = UB).
Proof.
  intros O. induction O as [|i l O Ol IH].
  - split; [discriminate|]. intros (i & [] & _).
  - rewrite fs_cons by assumption. split.
    + destruct (format_string [i]) as [t|[]|] eqn:E; cbn [bind]; intros H.
      * destruct (format_string l) as [r|[]|] eqn:E'; cbn [bind] in H; [discriminate|].
        destruct (proj1 IH eq_refl) as (j & J & U). exists j. split; [now right|exact U].
      * exists i. split; [now left|exact E].
    + intros (j & [->|J] & U).
      * now rewrite U.
      * destruct (format_string [i]) as [t|[]|]; cbn [bind]; [|reflexivity].
        rewrite (proj2 IH); [reflexivity|]. eauto.
Qed.

(** * Characters *)

Definition chars : list Z := map (fun n => Z.of_nat n - 128) (seq 0 256).
Lemma in_chars c : -128 <= c <= 127 -> In c chars.
Proof.
  intros H. apply in_map_iff. exists (Z.to_nat (c + 128)). split; [rewrite Z2Nat.id; lia|].
  apply in_seq. split; [lia|]. apply Nat2Z.inj_lt. rewrite Z2Nat.id; cbn; lia.
Qed.

Lemma char_texts_distinct : let l := map (fun c => (c, char_text c)) chars in
  forallb (fun x => forallb (fun y => (fst x =? fst y) || negb (sameb (snd x) (snd y))) l) l = true /\
  forallb (fun x => last (snd x) 0 =? 39) l = true.
Proof. vm_compute. split; reflexivity. Qed.

Lemma char_inj c c' : -128 <= c <= 127 -> -128 <= c' <= 127 -> char_text c = char_text c' -> c = c'.
Proof.
  intros H H' E. pose proof (proj1 char_texts_distinct) as D. rewrite forallb_forall in D.
  assert (I : forall x, -128 <= x <= 127 -> In (x, char_text x) (map (fun c => (c, char_text c)) chars)).
  { intros x X. apply in_map_iff. exists x. split; [reflexivity|now apply in_chars]. }
  specialize (D _ (I c H)). rewrite forallb_forall in D. specialize (D _ (I c' H')). cbn [fst snd] in D.
  rewrite E, sameb_refl, orb_false_r in D. now apply Z.eqb_eq in D.
Qed.

Lemma char_last c : -128 <= c <= 127 -> exists b, char_text c = b ++ [39].
Proof.
  intros H. pose proof (proj2 char_texts_distinct) as D. rewrite forallb_forall in D.
  assert (I : In (c, char_text c) (map (fun c => (c, char_text c)) chars)).
  { apply in_map_iff. exists c. split; [reflexivity|now apply in_chars]. }
  specialize (D _ I). cbn [snd] in D. apply Z.eqb_eq in D.
  destruct (char_text c) as [|x l] eqn:E; [discriminate|]. exists (removelast (x :: l)). rewrite <- D at 1.
  rewrite <- app_removelast_last by discriminate. reflexivity.
Qed.

Lemma octal_value l : Forall (fun c => exists x, 0 <= x < 8 /\ c = hexa_char x) l ->
  Forall octal_digit l /\ octal_of l = value 8 l.
Proof.
  intros F. unfold octal_of, value. split.
  - eapply Forall_impl; [|exact F]. intros c (x & X & ->). unfold octal_digit, hexa_char.
    destruct (Z.ltb_spec x 10); lia.
  - assert (A : forall a, fold_left (fun a x => 8 * a + (x - 48)) l a = fold_left (fun a c => 8 * a + dval c) l a); [|apply A].
    induction F as [|c l (x & X & ->) F IH]; intros a; [reflexivity|]. cbn [fold_left].
    rewrite IH. f_equal. f_equal. rewrite dval_hexa by lia. unfold hexa_char. destruct (Z.ltb_spec x 10); lia.
Qed.

Lemma char_literal_ok c : 0 <= c <= 127 -> char_literal (char_text c) c.
Proof.
  intros H. unfold char_text.
  repeat match goal with |- context[if c =? ?k then _ else _] =>
    destruct (Z.eqb_spec c k) as [->|]; [eexists [92; _]; split; [reflexivity|right; eexists; split; [reflexivity|constructor]]|] end.
  destruct (Z.leb_spec 32 c), (Z.leb_spec c 126); cbn [andb].
  1: { exists [c]. split; [reflexivity|]. left. repeat split; lia. }
  all: change (cast TU32 c) with (0 + (c - 0) mod 2 ^ 32); rewrite Z.sub_0_r, Z.add_0_l, Z.mod_small by lia;
    (destruct (numeral_spec 8 c) as (D & V & F & G & Z0); [lia|split; [lia|apply Z.lt_le_trans with (8 ^ 3); [cbn; lia|apply Z.pow_le_mono_r; lia]]|]);
    destruct (octal_value _ F) as (O & OV);
    exists (92 :: numeral 8 c); (split; [reflexivity|]); right; exists (numeral 8 c); (split; [reflexivity|]);
    rewrite <- V at 1; rewrite <- OV; constructor; try assumption;
    (split; [destruct (numeral 8 c); [congruence|cbn; lia]|]);
    (destruct (Z.eq_dec c 0) as [E|E]; [rewrite (Z0 E); cbn; lia|]); specialize (G ltac:(lia));
    (destruct (le_lt_dec (length (numeral 8 c)) 3) as [L|L]; [exact L|]);
    (assert (8 ^ 3 <= 8 ^ (Z.of_nat (length (numeral 8 c)) - 1)) by (apply Z.pow_le_mono_r; lia));
    change (8 ^ 3) with 512 in *; lia.
Qed.

(** * Identification of the kind and of the value *)

Definition shape (k : kind) (t : list Z) : Prop :=
  match k with
  | KNone => t = codes "None"
  | KBool => t = codes "true" \/ t = codes "false"
  | KChar8 => exists b, t = b ++ [39]
  | KDuration | KDateTime | KString8 => exists b, t = b ++ [34]
  | k => exists b, t = b ++ suffix k
  end.

Lemma any_shape a t : value_ok a -> any_text a = Ok t -> shape (atype a) t.
Proof.
  intros (_ & C) E. unfold any_text in E. destruct a as [k v]. cbn [atype aval] in *.
  destruct k, v; try discriminate; cbn [shape]; try (injection E as <-; eauto; fail).
  - injection E as <-. apply char_last. auto.
  - injection E as <-. destruct b; auto.
  - destruct (duration_text z) as [x|[]|]; [|discriminate]. injection E as <-. exists (34 :: x). reflexivity.
  - destruct (date_text z) as [x|[]|]; [|discriminate]. injection E as <-. exists (34 :: x). reflexivity.
  - destruct s as [x|]; [|discriminate]. injection E as <-. exists (34 :: x). reflexivity.
Qed.

Lemma shape_kind k k' t : shape k t -> shape k' t -> k = k' \/ (quoted k /\ quoted k').
Proof.
  unfold quoted. destruct k, k'; cbn [shape]; intros H H'; try (left; reflexivity); try (right; tauto); exfalso;
    repeat match goal with
           | H : exists _, _ |- _ => destruct H as (? & H)
           | H : _ \/ _ |- _ => destruct H as [H|H]
           end; rewrite H in H'; apply (f_equal (@rev Z)) in H'; rewrite ?rev_app_distr in H'; cbn in H'; discriminate.
Qed.

Lemma duration_date d dt t : i64_min <= d <= i64_max -> i64_min <= dt <= i64_max ->
  duration_text d = Ok t -> date_text dt = Ok t -> False.
Proof.
  intros H H' E E'. assert (d <> i64_min) by (intros ->; discriminate).
  destruct (duration_text_ok d ltac:(lia)) as (b & T & C). rewrite T in E. injection E as <-.
  rewrite date_defined in E' by assumption. destruct (Z.leb_spec (dt + TimeModel.epoch_to_mjd) i64_max); [|discriminate].
  pose proof (time_point_date dt (proj1 H') ltac:(assumption)) as D. injection E' as E'. rewrite E' in D.
  destruct D as (td & tc & n & [[y m] dd] & s & TX & (ty & tm & tdd & -> & Ny & _) & _).
  destruct C as (th & tmm & ts & tf & h & mm & ss & f & -> & Nh & _).
  assert (N45 : ~ is_digit 45) by (unfold is_digit; lia). assert (N58 : ~ is_digit 58) by (unfold is_digit; lia).
  destruct (d <? 0).
  - rewrite <- !app_assoc in TX. destruct ty as [|c ty]; [destruct Ny as (_ & L & _); discriminate|].
    cbn [app] in TX. injection TX as TC _. destruct Ny as (F & _). apply Forall_inv in F. unfold is_digit in F. lia.
  - rewrite <- !app_assoc in TX. cbn [app] in TX.
    destruct (digits_split _ _ 58 45 _ _ (proj1 Nh) (proj1 Ny) N58 N45 TX) as (_ & B & _). discriminate.
Qed.

Lemma quote_inj (b b' : list Z) : 34 :: b ++ [34] = 34 :: b' ++ [34] -> b = b'.
Proof. intros E. injection E as E. now apply app_inv_tail in E. Qed.

Definition i64_type v : of_type TI64 v -> i64_min <= v <= i64_max.
Proof. unfold of_type. cbn. unfold i64_min, i64_max. lia. Qed.

Lemma int_bound t v : of_type t v -> - 10 ^ 60 < v < 10 ^ 60.
Proof.
  intros H. assert (- 10 ^ 60 < -9223372036854775808) by reflexivity. assert (18446744073709551615 < 10 ^ 60) by reflexivity.
  unfold of_type in H. destruct t; cbn [fst snd type_range] in H; lia.
Qed.

Lemma any_inj_kind a a' t : value_ok a -> value_ok a' -> any_text a = Ok t -> any_text a' = Ok t ->
  ~ is_float (atype a) -> atype a = atype a' -> a = a'.
Proof.
  intros V V' E E' NF K.
  destruct V as (V & C), V' as (V' & C'). destruct a as [k p], a' as [k' p']. cbn [atype aval] in *. subst k'. f_equal.
  unfold any_ok in V, V'. unfold any_text in E, E'. cbn [atype aval] in *. unfold is_float in NF.
  destruct k; cbn [kind_type] in V, V'; try (exfalso; tauto);
    try (destruct V as (v & -> & B), V' as (v' & -> & B');
         injection E as <-; injection E' as E'; f_equal;
         refine (eq_sym (proj1 (integer_split _ _ _ _ _ _ (signed_integer v' _) (signed_integer v _) _ _ E')));
         [exact (int_bound _ _ B')|exact (int_bound _ _ B)|cbn; unfold is_digit; lia|cbn; unfold is_digit; lia]).
  - congruence.
  - destruct V as (v & ->), V' as (v' & ->). injection E as <-. injection E' as E'. f_equal. symmetry. apply char_inj; auto.
  - destruct V as (v & ->), V' as (v' & ->). injection E as <-. injection E' as E'. destruct v, v'; try reflexivity; discriminate.
  - destruct V as (v & -> & B), V' as (v' & -> & B'). apply i64_type in B, B'.
    destruct (duration_text v) as [x|[]|] eqn:X; [|discriminate]. destruct (duration_text v') as [x'|[]|] eqn:X'; [|discriminate].
    cbn [bind] in E, E'. rewrite <- E in E'. injection E' as E'. apply app_inv_tail in E'. subst x'. f_equal.
    assert (v <> i64_min) by (intros ->; discriminate). assert (v' <> i64_min) by (intros ->; discriminate).
    eapply duration_inj; try eassumption; lia.
  - destruct V as (v & -> & B), V' as (v' & -> & B'). apply i64_type in B, B'.
    destruct (date_text v) as [x|[]|] eqn:X; [|discriminate]. destruct (date_text v') as [x'|[]|] eqn:X'; [|discriminate].
    cbn [bind] in E, E'. rewrite <- E in E'. injection E' as E'. apply app_inv_tail in E'. subst x'. f_equal.
    rewrite date_defined in X, X' by assumption.
    destruct (Z.leb_spec (v + TimeModel.epoch_to_mjd) i64_max) as [L|]; [|discriminate].
    destruct (Z.leb_spec (v' + TimeModel.epoch_to_mjd) i64_max) as [L'|]; [|discriminate].
    pose proof (time_point_date v (proj1 B) L) as D. pose proof (time_point_date v' (proj1 B') L') as D'.
    injection X as X. injection X' as X'. rewrite X in D. rewrite X' in D'.
    destruct (Z.lt_trichotomy v v') as [A|[A|A]]; [exfalso| exact A|exfalso].
    + exact (before_irrefl x (date_order _ _ _ _ D D' A)).
    + exact (before_irrefl x (date_order _ _ _ _ D' D A)).
  - destruct V as (v & ->), V' as (v' & ->). destruct v as [x|], v' as [x'|]; try discriminate.
    rewrite <- E in E'. injection E' as E'. apply app_inv_tail in E'. now subst x'.
Qed.

Lemma quoted_kinds a a' t : value_ok a -> value_ok a' -> any_text a = Ok t -> any_text a' = Ok t ->
  atype a = KDuration -> atype a' = KDateTime -> False.
Proof.
  intros (V & _) (V' & _) E E' K K'. destruct a as [k p], a' as [k' p']. cbn [atype] in *. subst k k'.
  unfold any_ok in V, V'. cbn [atype aval kind_type] in *. destruct V as (v & -> & B), V' as (v' & -> & B').
  apply i64_type in B, B'. unfold any_text in E, E'. cbn [atype aval] in *.
  destruct (duration_text v) as [x|[]|] eqn:X; [|discriminate]. destruct (date_text v') as [x'|[]|] eqn:X'; [|discriminate].
  cbn [bind] in E, E'. rewrite <- E in E'. injection E' as E'. apply app_inv_tail in E'. subst x'.
  exact (duration_date v v' x B B' X X').
Qed.

Lemma any_inj a a' t : value_ok a -> value_ok a' -> any_text a = Ok t -> any_text a' = Ok t ->
  ~ is_float (atype a) -> (atype a = KString8 <-> atype a' = KString8) -> a = a'.
Proof.
  intros V V' E E' NF ST.
  destruct (shape_kind _ _ _ (any_shape _ _ V E) (any_shape _ _ V' E')) as [K|(Q & Q')].
  - eapply any_inj_kind; eassumption.
  - unfold quoted in *. destruct Q as [K|[K|K]], Q' as [K'|[K'|K']];
      try (eapply any_inj_kind; [exact V|exact V'|exact E|exact E'|exact NF|congruence]).
    + exfalso. eapply (quoted_kinds a a'); eassumption.
    + apply ST in K'. congruence.
    + exfalso. eapply (quoted_kinds a' a); eassumption.
    + apply ST in K'. congruence.
    + apply ST in K. congruence.
    + apply ST in K. congruence.
Qed.

Lemma sameb_eq s : forall t, sameb s t = true -> s = t.
Proof.
  induction s as [|a s IH]; intros [|b t] E; try discriminate; [reflexivity|]. cbn in E.
  apply andb_prop in E. destruct E as (A & E). apply Z.eqb_eq in A. subst. f_equal. auto.
Qed.
