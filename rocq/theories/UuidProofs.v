From Verif Require Import Base UuidModel UuidSpec.
Local Open Scope Z_scope.

(** * Scanning *)
Fixpoint check2 (fmt : list ctest) (t : list Z) : option bool :=
  match fmt with
  | [] => Some true
  | x :: r => match t with
              | [] => None
              | c :: t => if test_char x c then check2 r t else Some false
              end
  end.

Lemma peek_skipn s k :
  peek s k = match skipn k (s ++ [0]) with c :: _ => Some c | [] => None end.
Proof.
  unfold peek. revert s. induction k as [|k IH]; intros [|a s]; cbn.
  - reflexivity.
  - reflexivity.
  - now destruct k.
  - specialize (IH s). cbn in IH. exact IH.
Qed.

Lemma skipn_S_tail {A} k (l : list A) c t : skipn k l = c :: t -> skipn (S k) l = t.
Proof.
  revert l. induction k; intros [|a l]; cbn; intros H; try discriminate.
  - now injection H.
  - apply IHk in H. exact H.
Qed.

Lemma check_format_check2 fmt k s : check_format fmt k s = check2 fmt (skipn k (s ++ [0])).
Proof.
  revert k. induction fmt as [|x r IH]; intros k; [reflexivity|].
  cbn [check_format check2]. rewrite peek_skipn.
  destruct (skipn k (s ++ [0])) as [|c t] eqn:E; [reflexivity|].
  destruct (test_char x c); [|reflexivity].
  rewrite IH. now rewrite (skipn_S_tail _ _ _ _ E).
Qed.

Lemma check2_hexa n f t :
  check2 (repeat Hexa n ++ f) t = Some true <->
  exists d t', t = d ++ t' /\ length d = n /\ Forall (fun c => is_hexa c = true) d /\ check2 f t' = Some true.
Proof.
  revert t. induction n as [|n IH]; intros t; cbn [repeat app].
  - split.
    + intros H. exists [], t. repeat split; auto.
    + intros (d & t' & -> & L & _ & H). destruct d; [exact H|discriminate].
  - split.
    + destruct t as [|c t]; cbn; [discriminate|]. destruct (is_hexa c) eqn:E; [|discriminate].
      intros H. apply IH in H. destruct H as (d & t' & -> & L & F & H).
      exists (c :: d), t'. cbn. repeat split; auto.
    + intros (d & t' & -> & L & F & H). destruct d as [|c d]; [discriminate|].
      inversion F; subst. cbn. rewrite H2. apply IH. exists d, t'. repeat split; auto.
Qed.

Lemma check2_char x f t :
  check2 (Char x :: f) t = Some true <-> exists t', t = x :: t' /\ check2 f t' = Some true.
Proof.
  split.
  - destruct t as [|c t]; cbn; [discriminate|]. destruct (c =? x) eqn:E; [|discriminate].
    apply Z.eqb_eq in E. subst. eauto.
  - intros (t' & -> & H). cbn. now rewrite Z.eqb_refl.
Qed.

Lemma is_hexa_spec c : is_hexa c = true <-> hexa_digit c.
Proof.
  unfold is_hexa, hexa_digit. rewrite !orb_true_iff, !andb_true_iff, !Z.leb_le. tauto.
Qed.

Definition hexas (n : nat) (d : list Z) : Prop := length d = n /\ Forall (fun c => is_hexa c = true) d.

Definition fields (s a b c d e : list Z) : Prop :=
  s = a ++ 45 :: b ++ 45 :: c ++ 45 :: d ++ 45 :: e /\
  hexas 8 a /\ hexas 4 b /\ hexas 4 c /\ hexas 4 d /\ hexas 12 e.

Lemma hexas_no0 n d : hexas n d -> ~ In 0 d.
Proof.
  intros [_ F] I. rewrite Forall_forall in F. specialize (F _ I). discriminate F.
Qed.

Lemma nul_split (X t' s : list Z) : ~ In 0 s -> ~ In 0 X -> s ++ [0] = X ++ 0 :: t' -> s = X.
Proof.
  revert X. induction s as [|a s IH]; intros [|x X] Hs HX H; cbn in *; auto.
  - injection H as H1 H2. subst. tauto.
  - injection H as H1 H2. subst. tauto.
  - injection H as H1 H2. subst. f_equal. apply (IH X); tauto.
Qed.

Lemma check_format_spec s : c_string s ->
  (check_format uuid_format 0 s = Some true <-> exists a b c d e, fields s a b c d e).
Proof.
  intros C. rewrite check_format_check2. unfold uuid_format, skipn.
  rewrite check2_hexa. split.
  - intros (a & t1 & E1 & La & Fa & H). rewrite check2_char in H. destruct H as (t2 & -> & H).
    rewrite check2_hexa in H. destruct H as (b & t3 & -> & Lb & Fb & H).
    rewrite check2_char in H. destruct H as (t4 & -> & H).
    rewrite check2_hexa in H. destruct H as (c & t5 & -> & Lc & Fc & H).
    rewrite check2_char in H. destruct H as (t6 & -> & H).
    rewrite check2_hexa in H. destruct H as (d & t7 & -> & Ld & Fd & H).
    rewrite check2_char in H. destruct H as (t8 & -> & H).
    rewrite check2_hexa in H. destruct H as (e & t9 & -> & Le & Fe & H).
    rewrite check2_char in H. destruct H as (t10 & -> & H).
    assert (hexas 8 a /\ hexas 4 b /\ hexas 4 c /\ hexas 4 d /\ hexas 12 e) as (Ha & Hb & Hc & Hd & He)
      by (unfold hexas; auto 20).
    exists a, b, c, d, e. split; [|auto].
    apply (nul_split _ t10); [exact C| |].
    + intros I. repeat (rewrite in_app_iff in I; cbn [In] in I).
      pose proof (hexas_no0 _ _ Ha). pose proof (hexas_no0 _ _ Hb). pose proof (hexas_no0 _ _ Hc).
      pose proof (hexas_no0 _ _ Hd). pose proof (hexas_no0 _ _ He).
      repeat (destruct I as [I|I]; [first [tauto|discriminate I]|]); tauto.
    + rewrite E1. repeat (rewrite <- app_assoc; cbn [app]). reflexivity.
  - intros (a & b & c & d & e & -> & [La Fa] & [Lb Fb] & [Lc Fc] & [Ld Fd] & [Le Fe]).
    exists a, (45 :: b ++ 45 :: c ++ 45 :: d ++ 45 :: e ++ [0]).
    split; [repeat (rewrite <- app_assoc; cbn [app]); reflexivity|]. do 2 (split; [assumption|]).
    apply check2_char. eexists; split; [reflexivity|].
    apply check2_hexa. exists b. eexists. split; [reflexivity|]. do 2 (split; [assumption|]).
    apply check2_char. eexists; split; [reflexivity|].
    apply check2_hexa. exists c. eexists. split; [reflexivity|]. do 2 (split; [assumption|]).
    apply check2_char. eexists; split; [reflexivity|].
    apply check2_hexa. exists d. eexists. split; [reflexivity|]. do 2 (split; [assumption|]).
    apply check2_char. eexists; split; [reflexivity|].
    apply check2_hexa. exists e. eexists. split; [reflexivity|]. do 2 (split; [assumption|]).
    apply check2_char. eexists; split; reflexivity.
Qed.

(** The scan never reads past the NUL: every test but the last rejects it. *)
Lemma check2_no_overread fmt s :
  Forall (fun t => test_char t 0 = false) fmt -> check2 fmt (s ++ [0]) <> None.
Proof.
  intros F. revert s. induction F as [|x r Hx F IH]; intros s; cbn [check2]; [discriminate|].
  destruct s as [|c s]; cbn [app].
  - rewrite Hx. discriminate.
  - destruct (test_char x c); [apply IH|discriminate].
Qed.

Lemma check2_last fmt x s :
  Forall (fun t => test_char t 0 = false) fmt -> check2 (fmt ++ [x]) (s ++ [0]) <> None.
Proof.
  intros F. revert s. induction F as [|y r Hx F IH]; intros s.
  - cbn. destruct s; cbn; destruct (test_char _ _); discriminate.
  - cbn [app check2]. destruct s as [|c s]; cbn [app].
    + rewrite Hx. discriminate.
    + destruct (test_char y c); [apply IH|discriminate].
Qed.

Lemma check_format_no_ub s : check_format uuid_format 0 s <> None.
Proof.
  rewrite check_format_check2. cbn [skipn].
  replace uuid_format with (removelast uuid_format ++ [Char 0]) by reflexivity.
  apply check2_last. repeat constructor.
Qed.

(** * The text form and its fields *)
Lemma nth_hexas n d k : hexas n d -> (k < n)%nat -> hexa_digit (nth k d 0).
Proof.
  intros [L F] H. apply is_hexa_spec. rewrite Forall_forall in F. apply F. apply nth_In. lia.
Qed.

Lemma fields_text s : (exists a b c d e, fields s a b c d e) <-> uuid_text s.
Proof.
  split.
  - intros (a & b & c & d & e & -> & Ha & Hb & Hc & Hd & He).
    pose proof Ha as [La Fa]. pose proof Hb as [Lb Fb]. pose proof Hc as [Lc Fc].
    pose proof Hd as [Ld Fd]. pose proof He as [Le Fe].
    do 9 (destruct a as [|? a]; try discriminate La).
    do 5 (destruct b as [|? b]; try discriminate Lb).
    do 5 (destruct c as [|? c]; try discriminate Lc).
    do 5 (destruct d as [|? d]; try discriminate Ld).
    do 13 (destruct e as [|? e]; try discriminate Le).
    repeat match goal with H : Forall _ (_ :: _) |- _ => inversion H; clear H; subst end.
    split; [reflexivity|]. intros k Hk. unfold dash_at.
    do 36 (destruct k as [|k];
      [split; cbn; intros ?; [first [reflexivity|exfalso; lia]|first [apply is_hexa_spec; assumption|exfalso; lia]]|]).
    exfalso; lia.
  - intros [L H].
    exists (firstn 8 s), (firstn 4 (skipn 9 s)), (firstn 4 (skipn 14 s)), (firstn 4 (skipn 19 s)), (skipn 24 s).
    assert (forall k, (k < 36)%nat -> dash_at k -> nth k s 0 = 45) as D by (intros; now apply H).
    assert (forall k, (k < 36)%nat -> ~ dash_at k -> is_hexa (nth k s 0) = true) as X
      by (intros; now apply is_hexa_spec, H).
    clear H. unfold dash_at in *.
    do 37 (destruct s as [|? s]; try discriminate L).
    pose proof (D 8%nat ltac:(lia) ltac:(lia)) as D1. pose proof (D 13%nat ltac:(lia) ltac:(lia)) as D2.
    pose proof (D 18%nat ltac:(lia) ltac:(lia)) as D3. pose proof (D 23%nat ltac:(lia) ltac:(lia)) as D4.
    cbn in D1, D2, D3, D4. subst. clear D.
    split; [reflexivity|].
    unfold hexas. cbn [firstn skipn length].
    Ltac pos X k := apply (X k); lia.
    split; [split; [reflexivity|]|split; [split; [reflexivity|]|split; [split; [reflexivity|]|split; [split; [reflexivity|]|split; [reflexivity|]]]]].
    + repeat constructor; [pos X 0%nat|pos X 1%nat|pos X 2%nat|pos X 3%nat|pos X 4%nat|pos X 5%nat|pos X 6%nat|pos X 7%nat].
    + repeat constructor; [pos X 9%nat|pos X 10%nat|pos X 11%nat|pos X 12%nat].
    + repeat constructor; [pos X 14%nat|pos X 15%nat|pos X 16%nat|pos X 17%nat].
    + repeat constructor; [pos X 19%nat|pos X 20%nat|pos X 21%nat|pos X 22%nat].
    + repeat constructor; [pos X 24%nat|pos X 25%nat|pos X 26%nat|pos X 27%nat|pos X 28%nat|pos X 29%nat|pos X 30%nat|pos X 31%nat|pos X 32%nat|pos X 33%nat|pos X 34%nat|pos X 35%nat].
Qed.

(** * Numbers and digits *)
Definition value (d : list Z) : Z := fold_left (fun a c => a * 16 + hexa_value c) d 0.

Lemma hexa_value_range c : is_hexa c = true -> 0 <= hexa_value c < 16.
Proof.
  intros H%is_hexa_spec. unfold hexa_digit in H. unfold hexa_value.
  destruct (c <=? 57) eqn:E1; [lia|]. destruct (c <=? 70) eqn:E2; lia.
Qed.

Lemma hexa_char_value c : is_hexa c = true -> hexa_char (hexa_value c) = lower c.
Proof.
  intros H%is_hexa_spec. unfold hexa_digit in H. unfold hexa_value, hexa_char, lower.
  destruct (c <=? 57) eqn:E1; destruct (c <=? 70) eqn:E2; destruct (65 <=? c) eqn:E3; cbn [andb];
    match goal with |- context [?x <? 10] => destruct (x <? 10) eqn:E4 end; lia.
Qed.

Lemma hexa_value_char n : 0 <= n < 16 -> hexa_value (hexa_char n) = n.
Proof.
  intros H. unfold hexa_value, hexa_char. destruct (n <? 10) eqn:E.
  - destruct (48 + n <=? 57) eqn:E1; lia.
  - destruct (87 + n <=? 57) eqn:E1; [lia|]. destruct (87 + n <=? 70) eqn:E2; lia.
Qed.

Lemma hexa_char_hexa n : 0 <= n < 16 -> is_hexa (hexa_char n) = true.
Proof.
  intros H. apply is_hexa_spec. unfold hexa_digit, hexa_char. destruct (n <? 10) eqn:E; lia.
Qed.

Lemma strtou_acc_run a d r :
  Forall (fun c => is_hexa c = true) d ->
  match r with c :: _ => is_hexa c = false | [] => True end ->
  strtou_acc a (d ++ r) = fold_left (fun a c => a * 16 + hexa_value c) d a.
Proof.
  intros F. revert a. induction F as [|c d Hc F IH]; intros a Hr; cbn [app].
  - destruct r as [|c r]; cbn; [reflexivity|]. now rewrite Hr.
  - cbn [strtou_acc fold_left]. rewrite Hc. now apply IH.
Qed.

Lemma value_snoc d c : value (d ++ [c]) = value d * 16 + hexa_value c.
Proof. unfold value. now rewrite fold_left_app. Qed.

Lemma value_range n d : hexas n d -> 0 <= value d < 16 ^ Z.of_nat n.
Proof.
  intros [L F]. subst n. induction d as [|c d IH] using rev_ind; [cbn; lia|].
  rewrite Forall_app in F. destruct F as [F Fc]. inversion Fc; subst.
  rewrite value_snoc, app_length. cbn [length]. rewrite Nat.add_1_r, Nat2Z.inj_succ, Z.pow_succ_r by lia.
  pose proof (hexa_value_range _ H1). specialize (IH F). lia.
Qed.

Lemma strtou_run n d r :
  hexas n d -> (n <= 15)%nat -> match r with c :: _ => is_hexa c = false | [] => True end ->
  strtou (d ++ r) = value d.
Proof.
  intros H Hn Hr. unfold strtou. destruct H as [L F] eqn:EH.
  rewrite strtou_acc_run by assumption. fold (value d).
  pose proof (value_range _ _ H) as R.
  assert (16 ^ Z.of_nat n <= 16 ^ 15) by (apply Z.pow_le_mono_r; lia).
  change (2 ^ 64 - 1) with 18446744073709551615. change (16 ^ 15) with 1152921504606846976 in *. lia.
Qed.

(** The [w] digits of [n]. *)
Fixpoint dig (w : nat) (n : Z) : list Z :=
  match w with O => [] | S w => dig w (n / 16) ++ [hexa_char (n mod 16)] end.

Lemma dig_length w n : length (dig w n) = w.
Proof. revert n. induction w; intros; cbn; auto. rewrite app_length, IHw. cbn. lia. Qed.

Lemma dig_hexas w n : hexas w (dig w n).
Proof.
  split; [apply dig_length|]. revert n. induction w; intros n; cbn; [constructor|].
  apply Forall_app. split; [auto|]. constructor; [|constructor].
  apply hexa_char_hexa. apply Z.mod_pos_bound. lia.
Qed.

Lemma value_dig w n : 0 <= n < 16 ^ Z.of_nat w -> value (dig w n) = n.
Proof.
  revert n. induction w as [|w IH]; intros n H.
  - change (16 ^ Z.of_nat 0) with 1 in H. cbn. lia.
  - cbn [dig]. rewrite value_snoc, hexa_value_char by (apply Z.mod_pos_bound; lia).
    rewrite IH. { pose proof (Z.div_mod n 16). lia. }
    rewrite Nat2Z.inj_succ, Z.pow_succ_r in H by lia.
    split; [apply Z.div_pos; lia|]. apply Z.div_lt_upper_bound; lia.
Qed.

Lemma dig_value d : Forall (fun c => is_hexa c = true) d -> dig (length d) (value d) = map lower d.
Proof.
  induction d as [|c d IH] using rev_ind; intros F; [reflexivity|].
  rewrite Forall_app in F. destruct F as [F Fc]. inversion Fc; subst.
  rewrite app_length. cbn [length]. rewrite Nat.add_1_r. cbn [dig].
  rewrite value_snoc. pose proof (hexa_value_range _ H1).
  rewrite Z.add_comm, Z_div_plus_full, Z_mod_plus_full by lia.
  rewrite Z.div_small, Z.mod_small, Z.add_0_l by lia.
  rewrite IH by assumption. rewrite map_app. cbn. now rewrite hexa_char_value.
Qed.

Lemma dig_zero w : dig w 0 = repeat 48 w.
Proof.
  induction w; [reflexivity|]. cbn [dig]. change (0 / 16) with 0. change (0 mod 16) with 0.
  rewrite IHw. change (hexa_char 0) with 48. now rewrite <- repeat_cons.
Qed.

Lemma hex_digits_dig f w n acc :
  (w <= f)%nat -> (1 <= w)%nat -> 0 <= n < 16 ^ Z.of_nat w ->
  exists m, (1 <= m <= w)%nat /\ hex_digits f n acc = dig m n ++ acc /\ dig w n = repeat 48 (w - m) ++ dig m n.
Proof.
  revert w n acc. induction f as [|f IH]; intros w n acc Hf Hw Hn; [lia|].
  cbn [hex_digits]. destruct w as [|w]; [lia|]. destruct (n <? 16) eqn:E.
  - apply Z.ltb_lt in E. exists 1%nat. split; [lia|].
    assert (dig 1 n = [hexa_char n]) as D1 by (cbn; rewrite Z.mod_small by lia; reflexivity).
    split; [now rewrite D1|]. rewrite D1. cbn [dig]. rewrite Z.div_small, Z.mod_small by lia.
    rewrite dig_zero. f_equal. f_equal. lia.
  - apply Z.ltb_ge in E. destruct w as [|w].
    + change (16 ^ Z.of_nat 1) with 16 in Hn. lia.
    + destruct (IH (S w) (n / 16) (hexa_char (n mod 16) :: acc)) as (m & Hm & E1 & E2); [lia|lia| |].
      { rewrite (Nat2Z.inj_succ (S w)), Z.pow_succ_r in Hn by lia.
        split; [apply Z.div_pos; lia|]. apply Z.div_lt_upper_bound; lia. }
      exists (S m). split; [lia|]. split.
      * rewrite E1. cbn [dig]. now rewrite <- app_assoc.
      * change (dig (S (S w)) n) with (dig (S w) (n / 16) ++ [hexa_char (n mod 16)]).
        rewrite E2. cbn [dig]. rewrite <- app_assoc. f_equal.
Qed.

Lemma padded_dig w n : (1 <= w <= 16)%nat -> 0 <= n < 16 ^ Z.of_nat w -> padded w n = dig w n.
Proof.
  intros Hw Hn. unfold padded, hex_text.
  destruct (hex_digits_dig 16 w n []) as (m & Hm & E1 & E2); [lia|lia|assumption|].
  rewrite E1, app_nil_r, dig_length. now rewrite E2.
Qed.

Lemma dig_app a b n : 0 <= n -> dig (a + b) n = dig a (n / 16 ^ Z.of_nat b) ++ dig b n.
Proof.
  intros Hn. revert n Hn. induction b as [|b IH]; intros n Hn.
  - rewrite Nat.add_0_r. change (16 ^ Z.of_nat 0) with 1. rewrite Z.div_1_r. cbn. now rewrite app_nil_r.
  - rewrite Nat.add_succ_r. cbn [dig]. rewrite IH by (apply Z.div_pos; lia).
    rewrite Nat2Z.inj_succ, Z.pow_succ_r by lia.
    rewrite Z.div_div by (try apply Z.pow_pos_nonneg; lia). now rewrite <- app_assoc.
Qed.

Lemma dig_mod w n : 0 <= n -> dig w (n mod 16 ^ Z.of_nat w) = dig w n.
Proof.
  revert n. induction w as [|w IH]; intros n Hn; [reflexivity|].
  cbn [dig]. rewrite Nat2Z.inj_succ, Z.pow_succ_r by lia.
  assert (0 < 16 ^ Z.of_nat w) by (apply Z.pow_pos_nonneg; lia).
  rewrite Z.rem_mul_r by lia.
  rewrite (Z.mul_comm 16), Z_div_plus_full, Z_mod_plus_full by lia.
  rewrite Z.div_small by (apply Z.mod_pos_bound; lia). rewrite Z.mod_mod, Z.add_0_l by lia.
  rewrite IH by (apply Z.div_pos; lia). reflexivity.
Qed.

Lemma byte_of n sh : 0 <= n -> 0 <= sh -> Z.land (Z.shiftr n sh) 255 = (n / 2 ^ sh) mod 256.
Proof.
  intros. rewrite Z.shiftr_div_pow2 by lia. change 255 with (Z.ones 8).
  rewrite Z.land_ones by lia. reflexivity.
Qed.

Definition bytes6 (n : Z) : list Z := map (fun sh => Z.land (Z.shiftr n sh) 255) [40; 32; 24; 16; 8; 0].

Lemma byte_range n sh : 0 <= Z.land (Z.shiftr n sh) 255 < 256.
Proof. change 255 with (Z.ones 8). rewrite Z.land_ones by lia. apply Z.mod_pos_bound. lia. Qed.

Lemma bytes6_range n : Forall (fun x => 0 <= x < 2 ^ 8) (bytes6 n).
Proof. unfold bytes6. cbn [map]. repeat (constructor; [apply byte_range|]). constructor. Qed.

Lemma bytes6_print n : 0 <= n -> concat (map (padded 2) (bytes6 n)) = dig 12 n.
Proof.
  intros Hn. unfold bytes6. cbn [map concat].
  rewrite !padded_dig by (try lia; apply byte_range).
  rewrite !byte_of by lia.
  change 256 with (16 ^ Z.of_nat 2).
  rewrite !dig_mod by (try apply Z.div_pos; lia).
  change (2 ^ 0) with 1. rewrite Z.div_1_r, app_nil_r.
  change 12%nat with (10 + 2)%nat. rewrite dig_app by lia.
  change 10%nat with (8 + 2)%nat. rewrite dig_app by (apply Z.div_pos; lia).
  change 8%nat with (6 + 2)%nat. rewrite dig_app by (repeat apply Z.div_pos; lia).
  change 6%nat with (4 + 2)%nat. rewrite dig_app by (repeat apply Z.div_pos; lia).
  change 4%nat with (2 + 2)%nat. rewrite dig_app by (repeat apply Z.div_pos; lia).
  rewrite !Z.div_div by lia. rewrite <- !app_assoc. reflexivity.
Qed.

Definition num6 (l : list Z) : Z := fold_left (fun a b => a * 256 + b) l 0.

Lemma bytes6_num l : length l = 6%nat -> Forall (fun x => 0 <= x < 2 ^ 8) l -> bytes6 (num6 l) = l.
Proof.
  intros L F. do 7 (destruct l as [|? l]; try discriminate L).
  repeat match goal with H : Forall _ (_ :: _) |- _ => inversion H; clear H; subst end.
  change (2 ^ 8) with 256 in *. unfold num6. cbn [fold_left].
  unfold bytes6. cbn [map]. rewrite !byte_of by lia.
  change (2 ^ 40) with (256 * (256 * (256 * (256 * 256)))). change (2 ^ 32) with (256 * (256 * (256 * 256))).
  change (2 ^ 24) with (256 * (256 * 256)). change (2 ^ 16) with (256 * 256). change (2 ^ 8) with 256.
  change (2 ^ 0) with 1. rewrite <- !Z.div_div by lia. rewrite Z.div_1_r.
  assert (forall a b, 0 <= b < 256 -> (a * 256 + b) / 256 = a) as D
    by (intros; rewrite Z.div_add_l, Z.div_small by lia; lia).
  assert (forall a b, 0 <= b < 256 -> (a * 256 + b) mod 256 = b) as M
    by (intros; rewrite Z.add_comm, Z_mod_plus_full, Z.mod_small by lia; reflexivity).
  rewrite !D by assumption. rewrite !M by assumption. reflexivity.
Qed.

Lemma num6_range l : length l = 6%nat -> Forall (fun x => 0 <= x < 2 ^ 8) l -> 0 <= num6 l < 16 ^ Z.of_nat 12.
Proof.
  intros L F. do 7 (destruct l as [|? l]; try discriminate L).
  repeat match goal with H : Forall _ (_ :: _) |- _ => inversion H; clear H; subst end.
  change (2 ^ 8) with 256 in *. unfold num6. cbn [fold_left].
  change (16 ^ Z.of_nat 12) with (256 * 256 * 256 * 256 * 256 * 256). lia.
Qed.

Lemma skipn_skipn' {A} a b (l : list A) : skipn a (skipn b l) = skipn (a + b) l.
Proof.
  revert l. induction b; intros l; [now rewrite Nat.add_0_r|].
  rewrite Nat.add_succ_r. destruct l; cbn; [now destruct a|apply IHb].
Qed.

(** * Parsing and printing *)
Lemma from_fields s a b c d e : fields s a b c d e -> c_string s ->
  from (Some s) = Ok (Uuid (value a) [value b; value c; value d] (bytes6 (value e))).
Proof.
  intros F C. unfold from.
  assert (check_format uuid_format 0 s = Some true) as -> by (apply check_format_spec; eauto 10).
  destruct F as (E & Ha & Hb & Hc & Hd & He).
  assert (strtou s = value a) as E1.
  { rewrite E. apply (strtou_run 8); [assumption|lia|reflexivity]. }
  pose proof Ha as [La _]. pose proof Hb as [Lb _]. pose proof Hc as [Lc _]. pose proof Hd as [Ld _].
  pose proof He as [Le _].
  assert (skipn 9 s = b ++ 45 :: c ++ 45 :: d ++ 45 :: e) as S1.
  { rewrite E. do 9 (destruct a as [|? a]; try discriminate La). reflexivity. }
  assert (skipn 14 s = c ++ 45 :: d ++ 45 :: e) as S2.
  { change 14%nat with (5 + 9)%nat. rewrite <- skipn_skipn'. rewrite S1.
    do 5 (destruct b as [|? b]; try discriminate Lb). reflexivity. }
  assert (skipn 19 s = d ++ 45 :: e) as S3.
  { change 19%nat with (5 + 14)%nat. rewrite <- skipn_skipn'. rewrite S2.
    do 5 (destruct c as [|? c]; try discriminate Lc). reflexivity. }
  assert (skipn 24 s = e) as S4.
  { change 24%nat with (5 + 19)%nat. rewrite <- skipn_skipn'. rewrite S3.
    do 5 (destruct d as [|? d]; try discriminate Ld). reflexivity. }
  rewrite E1, S1, S2, S3, S4.
  rewrite (strtou_run 4 b), (strtou_run 4 c), (strtou_run 4 d) by (try assumption; try lia; reflexivity).
  assert (strtou e = value e) as E5.
  { rewrite <- (app_nil_r e) at 1. now apply (strtou_run 12 e); [|lia|]. }
  rewrite E5.
  pose proof (value_range _ _ Ha). pose proof (value_range _ _ Hb). pose proof (value_range _ _ Hc).
  pose proof (value_range _ _ Hd).
  change (16 ^ Z.of_nat 8) with (2 ^ 32) in *. change (16 ^ Z.of_nat 4) with (2 ^ 16) in *.
  rewrite !Z.mod_small by assumption. reflexivity.
Qed.

Lemma fields_uuid_ok a b c d e : hexas 8 a -> hexas 4 b -> hexas 4 c -> hexas 4 d ->
  uuid_ok (Uuid (value a) [value b; value c; value d] (bytes6 (value e))).
Proof.
  intros Ha Hb Hc Hd.
  pose proof (value_range _ _ Ha). pose proof (value_range _ _ Hb). pose proof (value_range _ _ Hc).
  pose proof (value_range _ _ Hd).
  change (16 ^ Z.of_nat 8) with (2 ^ 32) in *. change (16 ^ Z.of_nat 4) with (2 ^ 16) in *.
  unfold uuid_ok. cbn [data1 data2 data3]. split; [assumption|]. split; [reflexivity|].
  split; [auto|]. split; [reflexivity|]. apply bytes6_range.
Qed.

Lemma print_dig u : uuid_ok u ->
  print u = dig 8 (data1 u) ++ 45 :: dig 4 (nth 0 (data2 u) 0) ++ 45 :: dig 4 (nth 1 (data2 u) 0)
            ++ 45 :: dig 4 (nth 2 (data2 u) 0) ++ 45 :: dig 12 (num6 (data3 u)).
Proof.
  intros (H1 & L2 & F2 & L3 & F3). unfold print.
  destruct u as [d1 d2 d3]; cbn [data1 data2 data3] in *.
  do 4 (destruct d2 as [|? d2]; try discriminate L2).
  repeat match goal with H : Forall _ (_ :: _) |- _ => inversion H; clear H; subst end.
  cbn [nth].
  rewrite padded_dig by (try lia; change (16 ^ Z.of_nat 8) with (2 ^ 32); assumption).
  rewrite !padded_dig by (try lia; change (16 ^ Z.of_nat 4) with (2 ^ 16); assumption).
  rewrite <- bytes6_print.
  - rewrite bytes6_num by assumption. reflexivity.
  - apply num6_range; assumption.
Qed.

Lemma print_fields u : uuid_ok u ->
  fields (print u) (dig 8 (data1 u)) (dig 4 (nth 0 (data2 u) 0)) (dig 4 (nth 1 (data2 u) 0))
    (dig 4 (nth 2 (data2 u) 0)) (dig 12 (num6 (data3 u))).
Proof.
  intros H. split; [now apply print_dig|]. auto 10 using dig_hexas.
Qed.

Lemma fields_c_string s a b c d e : fields s a b c d e -> c_string s.
Proof.
  intros (-> & Ha & Hb & Hc & Hd & He) I. repeat (rewrite in_app_iff in I; cbn [In] in I).
  pose proof (hexas_no0 _ _ Ha). pose proof (hexas_no0 _ _ Hb). pose proof (hexas_no0 _ _ Hc).
  pose proof (hexas_no0 _ _ Hd). pose proof (hexas_no0 _ _ He).
  repeat (destruct I as [I|I]; [first [tauto|discriminate I]|]); tauto.
Qed.

Lemma from_print u : uuid_ok u -> from (Some (print u)) = Ok u.
Proof.
  intros H. pose proof (print_fields u H) as F.
  rewrite (from_fields _ _ _ _ _ _ F (fields_c_string _ _ _ _ _ _ F)).
  destruct H as (H1 & L2 & F2 & L3 & F3). destruct u as [d1 d2 d3]; cbn [data1 data2 data3] in *.
  do 4 (destruct d2 as [|? d2]; try discriminate L2).
  repeat match goal with H : Forall _ (_ :: _) |- _ => inversion H; clear H; subst end.
  cbn [nth].
  rewrite !value_dig; [now rewrite bytes6_num| | | | |];
    first [now apply num6_range | assumption].
Qed.

Lemma lower_dash : lower 45 = 45. Proof. reflexivity. Qed.

Lemma print_from s u : c_string s -> from (Some s) = Ok u -> uuid_text s /\ uuid_ok u /\ print u = map lower s.
Proof.
  intros C H. assert (exists a b c d e, fields s a b c d e) as E.
  { apply check_format_spec; [assumption|]. unfold from in H.
    destruct (check_format uuid_format 0 s) as [[]|]; try discriminate H. reflexivity. }
  split; [now apply fields_text|].
  destruct E as (a & b & c & d & e & F). rewrite (from_fields _ _ _ _ _ _ F C) in H.
  injection H as <-. pose proof F as (-> & Ha & Hb & Hc & Hd & He).
  assert (uuid_ok (Uuid (value a) [value b; value c; value d] (bytes6 (value e)))) as OK
    by now apply fields_uuid_ok.
  split; [assumption|].
  rewrite print_dig by assumption. cbn [data1 data2 data3 nth].
  pose proof (value_range _ _ He) as Re.
  assert (dig 12 (num6 (bytes6 (value e))) = dig 12 (value e)) as ->.
  { rewrite <- (bytes6_print (value e)) by lia. rewrite <- bytes6_print.
    - rewrite bytes6_num; [reflexivity|reflexivity|apply bytes6_range].
    - apply num6_range; [reflexivity|apply bytes6_range]. }
  repeat (rewrite map_app; cbn [map]). rewrite !lower_dash.
  destruct Ha as [La Fa], Hb as [Lb Fb], Hc as [Lc Fc], Hd as [Ld Fd], He as [Le Fe].
  rewrite <- La at 1. rewrite <- Lb at 1. rewrite <- Lc at 1. rewrite <- Ld at 1. rewrite <- Le at 1.
  rewrite !dig_value by assumption. reflexivity.
Qed.

Lemma from_text s : c_string s ->
  match from (Some s) with Ok _ => uuid_text s | Throw _ => ~ uuid_text s | UB => False end.
Proof.
  intros C. destruct (from (Some s)) eqn:E.
  - now apply print_from in E.
  - intros T%fields_text. destruct T as (a' & b & c & d & f & F).
    rewrite (from_fields _ _ _ _ _ _ F C) in E. discriminate E.
  - unfold from in E. pose proof (check_format_no_ub s).
    destruct (check_format uuid_format 0 s) as [[]|]; try discriminate E. congruence.
Qed.

(** * Order *)
Lemma list_eqb_eq a b : list_eqb a b = true <-> a = b.
Proof.
  revert b. induction a as [|x a IH]; intros [|y b]; cbn; try (split; congruence).
  rewrite andb_true_iff, Z.eqb_eq, IH. split; [intros [-> ->]; reflexivity|intros [= -> ->]; auto].
Qed.

Lemma uuid_eq_eq a b : uuid_eq a b = true <-> a = b.
Proof.
  destruct a, b. unfold uuid_eq. cbn. rewrite !andb_true_iff, Z.eqb_eq, !list_eqb_eq.
  split; [intros [[-> ->] ->]; reflexivity|intros [= -> -> ->]; auto].
Qed.

(** Numbers in base [B]. *)
Definition num (B : Z) (l : list Z) (a : Z) : Z := fold_left (fun a b => a * B + b) l a.

Lemma num_bounds B l a : 0 < B -> Forall (fun x => 0 <= x < B) l ->
  a * B ^ Z.of_nat (length l) <= num B l a < (a + 1) * B ^ Z.of_nat (length l).
Proof.
  intros HB F. revert a. induction F as [|x l Hx F IH]; intros a.
  - cbn. lia.
  - cbn [num fold_left length]. fold (num B l (a * B + x)). specialize (IH (a * B + x)).
    rewrite Nat2Z.inj_succ, Z.pow_succ_r by lia.
    assert (0 < B ^ Z.of_nat (length l)) by (apply Z.pow_pos_nonneg; lia). nia.
Qed.

Lemma num_lex B l l' a a' : 0 < B -> length l = length l' ->
  Forall (fun x => 0 <= x < B) l -> Forall (fun x => 0 <= x < B) l' ->
  (num B l a < num B l' a' <-> a < a' \/ (a = a' /\ lex_lt l l' = true)).
Proof.
  intros HB. revert l' a a'. induction l as [|x l IH]; intros [|y l'] a a' L F F'; try discriminate L.
  - cbn. split; [auto|]. intros [H|[_ H]]; [auto|discriminate].
  - inversion F; inversion F'; subst. cbn [num fold_left]. fold (num B l (a * B + x)). fold (num B l' (a' * B + y)).
    injection L as L. rewrite IH by assumption. cbn [lex_lt].
    destruct (x <? y) eqn:E1; [apply Z.ltb_lt in E1|apply Z.ltb_ge in E1; destruct (y <? x) eqn:E2; [apply Z.ltb_lt in E2|apply Z.ltb_ge in E2]].
    + split; [intros [H|[H _]]|intros [H|[-> _]]]; try nia.
      all: destruct (Z.eq_dec a a') as [->|]; [right; auto|left; nia].
    + split.
      * intros [H|[H _]]; left; nia.
      * intros [H|[_ H]]; [left; nia|discriminate].
    + assert (x = y) by lia. subst y. split.
      * intros [H|[K1 K2]]; [left; nia|right; split; [nia|assumption]].
      * intros [H|[-> H]]; [left; nia|right; auto].
Qed.

Lemma uuid_number_num u : uuid_number u = num (2 ^ 8) (data3 u) (num (2 ^ 16) (data2 u) (data1 u)).
Proof. reflexivity. Qed.

Lemma lex_lt_irrefl a : lex_lt a a = false.
Proof. induction a; cbn; auto. now rewrite Z.ltb_irrefl. Qed.

Lemma lex_total a b : length a = length b -> lex_lt a b = false -> lex_lt b a = false -> a = b.
Proof.
  revert b. induction a as [|x a IH]; intros [|y b] L H1 H2; try discriminate L; auto.
  cbn in *. destruct (x <? y) eqn:E1; [discriminate|]. destruct (y <? x) eqn:E2; [discriminate|].
  f_equal; [lia|]. apply IH; auto.
Qed.

Lemma uuid_lt_number a b : uuid_ok a -> uuid_ok b -> (uuid_lt a b = true <-> uuid_number a < uuid_number b).
Proof.
  intros (_ & L2 & F2 & L3 & F3) (_ & L2' & F2' & L3' & F3').
  rewrite !uuid_number_num. rewrite num_lex by (try assumption; lia || congruence).
  rewrite num_lex by (try assumption; lia || congruence).
  assert (forall l l' : list Z, length l = length l' -> lex_lt l l' = false -> lex_lt l' l = false -> l = l') as T
    by (intros; now apply lex_total).
  unfold uuid_lt.
  destruct (data1 a <? data1 b) eqn:E1.
  { apply Z.ltb_lt in E1. tauto. }
  apply Z.ltb_ge in E1. destruct (data1 b <? data1 a) eqn:E2.
  { apply Z.ltb_lt in E2. split; [discriminate|].
    intros [[H|[H _]]|[H _]]; try lia.
    assert (num (2 ^ 16) (data2 b) (data1 b) < num (2 ^ 16) (data2 a) (data1 a)).
    { apply num_lex; try assumption; try lia. }
    lia. }
  apply Z.ltb_ge in E2. assert (data1 a = data1 b) as E by lia.
  destruct (lex_lt (data2 a) (data2 b)) eqn:E3; [tauto|].
  destruct (lex_lt (data2 b) (data2 a)) eqn:E4.
  { split; [discriminate|].
    assert (num (2 ^ 16) (data2 b) (data1 b) < num (2 ^ 16) (data2 a) (data1 a)).
    { apply num_lex; try assumption; try lia. right. auto. }
    intros [[K|[_ K]]|[K _]]; first [lia|discriminate K]. }
  assert (data2 a = data2 b) as E5 by (apply T; congruence).
  rewrite E, E5. split; [auto|]. intros [[K|[_ K]]|[_ K]]; [lia|first [discriminate K|rewrite lex_lt_irrefl in K; discriminate K]|exact K].
Qed.

Lemma uuid_number_inj a b : uuid_ok a -> uuid_ok b -> uuid_number a = uuid_number b -> a = b.
Proof.
  intros Ha Hb E.
  assert (uuid_lt a b = false) as H1.
  { destruct (uuid_lt a b) eqn:X; [|reflexivity]. apply uuid_lt_number in X; try assumption. lia. }
  assert (uuid_lt b a = false) as H2.
  { destruct (uuid_lt b a) eqn:X; [|reflexivity]. apply uuid_lt_number in X; try assumption. lia. }
  destruct Ha as (_ & L2 & F2 & L3 & F3), Hb as (_ & L2' & F2' & L3' & F3').
  unfold uuid_lt in *.
  destruct (data1 a <? data1 b) eqn:E1; [discriminate|]. destruct (data1 b <? data1 a) eqn:E2; [discriminate|].
  destruct (lex_lt (data2 a) (data2 b)) eqn:E3; [discriminate|].
  destruct (lex_lt (data2 b) (data2 a)) eqn:E4; [discriminate|].
  destruct a, b; cbn in *. f_equal; [lia| |]; apply lex_total; congruence.
Qed.

(** * The number written by the text *)
Lemma text_number_acc d a :
  Forall (fun c => is_hexa c = true) d ->
  fold_left (fun a c => if c =? 45 then a else a * 16 + hexa_value c) d a
  = a * 16 ^ Z.of_nat (length d) + value d.
Proof.
  revert a. induction d as [|c d IH] using rev_ind; intros a F.
  - cbn. lia.
  - rewrite Forall_app in F. destruct F as [F Fc]. inversion Fc; subst.
    rewrite fold_left_app. cbn [fold_left]. rewrite IH by assumption.
    destruct (c =? 45) eqn:E. { apply Z.eqb_eq in E. subst c. discriminate H1. }
    rewrite value_snoc, app_length. cbn [length]. rewrite Nat.add_1_r, Nat2Z.inj_succ, Z.pow_succ_r by lia. lia.
Qed.

Lemma num6_bytes6 n : 0 <= n < 16 ^ Z.of_nat 12 -> num6 (bytes6 n) = n.
Proof.
  intros H. rewrite <- (value_dig 12 n) at 2 by assumption. rewrite <- bytes6_print by lia.
  pose proof (num6_range (bytes6 n) eq_refl (bytes6_range n)) as R.
  rewrite <- (value_dig 12 (num6 (bytes6 n))) by assumption.
  rewrite <- bytes6_print by lia. rewrite (bytes6_num (bytes6 n)); [reflexivity|reflexivity|apply bytes6_range].
Qed.

Lemma num_num6 l a : length l = 6%nat -> num (2 ^ 8) l a = a * 16 ^ Z.of_nat 12 + num6 l.
Proof.
  intros L. do 7 (destruct l as [|? l]; try discriminate L).
  unfold num, num6. cbn [fold_left]. change (16 ^ Z.of_nat 12) with (256 * 256 * 256 * 256 * 256 * 256).
  change (2 ^ 8) with 256. ring.
Qed.

Lemma from_number s u : c_string s -> from (Some s) = Ok u -> uuid_number u = text_number s.
Proof.
  intros C H. assert (exists a b c d e, fields s a b c d e) as E.
  { apply check_format_spec; [assumption|]. unfold from in H.
    destruct (check_format uuid_format 0 s) as [[]|]; try discriminate H. reflexivity. }
  destruct E as (a & b & c & d & e & F). rewrite (from_fields _ _ _ _ _ _ F C) in H.
  injection H as <-. pose proof F as (-> & Ha & Hb & Hc & Hd & He).
  rewrite uuid_number_num. cbn [data1 data2 data3]. rewrite num_num6 by reflexivity.
  rewrite num6_bytes6 by now apply value_range.
  unfold text_number.
  destruct Ha as [La Fa], Hb as [Lb Fb], Hc as [Lc Fc], Hd as [Ld Fd], He as [Le Fe].
  repeat (rewrite fold_left_app; cbn [fold_left]). cbn [Z.eqb Pos.eqb].
  rewrite !text_number_acc by assumption. rewrite La, Lb, Lc, Ld, Le.
  unfold num. cbn [fold_left]. change (2 ^ 16) with (16 ^ Z.of_nat 4). lia.
Qed.
