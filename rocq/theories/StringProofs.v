From Verif Require Import Base StringModel StringSpec.
Local Open Scope nat_scope.

Lemma text_app_nul t r : ~ In 0%Z t -> text (t ++ 0%Z :: r) = t.
Proof.
  induction t as [|c t IH]; intros H; [reflexivity|]. cbn in *.
  destruct (c =? 0)%Z eqn:E; [apply Z.eqb_eq in E; subst; tauto|]. f_equal. apply IH. tauto.
Qed.

Lemma text_no_nul b : ~ In 0%Z (text b).
Proof.
  induction b as [|c b IH]; cbn; [tauto|]. destruct (c =? 0)%Z eqn:E; [tauto|].
  apply Z.eqb_neq in E. intros [H|H]; congruence || tauto.
Qed.

Lemma text_id t : ~ In 0%Z t -> text t = t.
Proof.
  induction t as [|c t IH]; intros H; [reflexivity|]. cbn in *.
  destruct (c =? 0)%Z eqn:E; [apply Z.eqb_eq in E; subst; tauto|]. f_equal. apply IH. tauto.
Qed.

Lemma text_split b : In 0%Z b -> exists r, b = text b ++ 0%Z :: r.
Proof.
  induction b as [|c b IH]; cbn; [tauto|]. destruct (c =? 0)%Z eqn:E.
  - apply Z.eqb_eq in E. subst. intros _. now exists b.
  - intros [H|H]; [subst; discriminate|]. destruct (IH H) as [r Hr]. exists r. cbn. now rewrite <- Hr.
Qed.

Lemma strlen_split t r : ~ In 0%Z t -> strlen (t ++ 0%Z :: r) = Ok (length t).
Proof.
  induction t as [|c t IH]; intros H; [reflexivity|]. cbn in *.
  destruct (c =? 0)%Z eqn:E; [apply Z.eqb_eq in E; subst; tauto|]. rewrite IH by tauto. reflexivity.
Qed.

Lemma is_string_split N b : is_string N b ->
  exists t r, b = t ++ 0%Z :: r /\ ~ In 0%Z t /\ text b = t /\ strlen b = Ok (length t) /\ length t + length r = N.
Proof.
  intros [L I]. destruct (text_split b I) as [r E]. exists (text b), r.
  split; [exact E|]. split; [apply text_no_nul|]. split; [reflexivity|]. split.
  - rewrite E at 1. apply strlen_split, text_no_nul.
  - rewrite E, app_length in L. cbn in L. lia.
Qed.

Lemma put_ok b pos v : pos + length v <= length b ->
  put b pos v = Ok (firstn pos b ++ v ++ skipn (pos + length v) b).
Proof. intros H. unfold put. now apply Nat.leb_le in H as ->. Qed.

(** Writing [v] after a prefix of the array. *)
Lemma put_at (p m v r : list Z) : length m = length v -> put (p ++ m ++ r) (length p) v = Ok (p ++ v ++ r).
Proof.
  intros H. rewrite put_ok by (rewrite !app_length; lia). f_equal.
  rewrite firstn_app, firstn_all, Nat.sub_diag. cbn [firstn]. rewrite app_nil_r. f_equal. f_equal.
  rewrite <- H. rewrite app_assoc. rewrite skipn_app.
  rewrite skipn_all2 by (rewrite app_length; lia). rewrite app_length.
  replace (_ - _) with 0 by lia. reflexivity.
Qed.

Lemma is_string_intro N t r : length t + length r = N -> ~ In 0%Z t ->
  is_string N (t ++ 0%Z :: r) /\ text (t ++ 0%Z :: r) = t.
Proof.
  intros L H. split; [split|].
  - rewrite app_length. cbn. lia.
  - apply in_app_iff. cbn. auto.
  - now apply text_app_nul.
Qed.

Lemma text_app t v : ~ In 0%Z t -> text (t ++ v) = t ++ text v.
Proof.
  induction t as [|c t IH]; intros H; [reflexivity|]. cbn in *.
  destruct (c =? 0)%Z eqn:E; [apply Z.eqb_eq in E; subst; tauto|]. f_equal. apply IH. tauto.
Qed.

(** Any array with a NUL at the place [length v] after [v] has the text of [v]. *)
Lemma text_closed v r : text (v ++ 0%Z :: r) = text v.
Proof.
  induction v as [|c v IH]; [reflexivity|]. cbn. destruct (c =? 0)%Z; [reflexivity|]. now rewrite IH.
Qed.

Lemma closed N v r : length v + length r = N ->
  is_string N (v ++ 0%Z :: r) /\ text (v ++ 0%Z :: r) = text v.
Proof.
  intros L. split; [split|].
  - rewrite app_length. cbn. lia.
  - apply in_app_iff. cbn. auto.
  - apply text_closed.
Qed.

Lemma split_at {A} (b : list A) n : n <= length b -> exists p q, b = p ++ q /\ length p = n.
Proof.
  intros H. exists (firstn n b), (skipn n b). split; [now rewrite firstn_skipn|]. rewrite firstn_length. lia.
Qed.

Lemma assign_ok N b v : length b = S N ->
  exists b', assign N b v = Ok b' /\ is_string N b' /\ text b' = text (firstn N v).
Proof.
  intros L. unfold assign.
  set (len := Nat.min (length v) N).
  assert (length (firstn len v) = len) as Lv by (rewrite firstn_length; lia).
  assert (firstn len v = firstn N v) as Ev.
  { unfold len. destruct (Nat.le_gt_cases (length v) N).
    - rewrite Nat.min_l by lia. rewrite !firstn_all2 by lia. reflexivity.
    - rewrite Nat.min_r by lia. reflexivity. }
  destruct (split_at b len) as (m & q & -> & Lm); [lia|].
  change (m ++ q) with ([] ++ m ++ q). change 0 with (@length Z []) at 1.
  rewrite put_at by lia. cbn [bind app].
  rewrite app_length in L. destruct q as [|c q]; [cbn in L; lia|].
  change (c :: q) with ([c] ++ q).
  replace (put (firstn len v ++ [c] ++ q) len [0%Z])
    with (put (firstn len v ++ [c] ++ q) (length (firstn len v)) [0%Z]) by now rewrite Lv.
  rewrite put_at by reflexivity.
  eexists. split; [reflexivity|]. cbn [app].
  rewrite <- Ev. apply closed. cbn in L. lia.
Qed.

Lemma append_ok N b v : is_string N b ->
  exists b', append N b v = Ok b' /\ is_string N b' /\
             text b' = text b ++ text (firstn (N - length (text b)) v).
Proof.
  intros H. destruct (is_string_split _ _ H) as (t & r & -> & T & Et & Es & L).
  rewrite Et. unfold append. rewrite Es. cbn [bind].
  destruct (N <? length t) eqn:E; [apply Nat.ltb_lt in E; lia|]. clear E.
  set (k := Nat.min (length v) (N - length t)).
  assert (length (firstn k v) = k) as Lv by (rewrite firstn_length; lia).
  assert (firstn k v = firstn (N - length t) v) as Ev.
  { unfold k. destruct (Nat.le_gt_cases (length v) (N - length t)).
    - rewrite Nat.min_l by lia. rewrite !firstn_all2 by lia. reflexivity.
    - rewrite Nat.min_r by lia. reflexivity. }
  destruct (split_at (0%Z :: r) k) as (m & q & Eq & Lm); [cbn; lia|].
  rewrite Eq. destruct q as [|c q].
  { apply (f_equal (@length Z)) in Eq. rewrite app_nil_r in Eq. cbn in Eq. lia. }
  replace (t ++ m ++ c :: q) with ((t ++ m) ++ [c] ++ q) by (rewrite <- app_assoc; reflexivity).
  replace (length t + k) with (length (t ++ m)) by (rewrite app_length; lia).
  rewrite put_at by reflexivity. cbn [bind]. rewrite <- app_assoc.
  rewrite put_at by lia. eexists. split; [reflexivity|].
  apply (f_equal (@length Z)) in Eq. rewrite app_length in Eq. cbn in Eq.
  destruct (closed N (t ++ firstn k v) q) as [X Y]; [rewrite app_length; lia|].
  rewrite <- app_assoc in X, Y. cbn [app] in *. split; [exact X|].
  rewrite Y, text_app by assumption. now rewrite Ev.
Qed.

Lemma truncate_ok N b k : is_string N b -> k <= length (text b) ->
  exists b', put b k [0%Z] = Ok b' /\ is_string N b' /\ text b' = firstn k (text b).
Proof.
  intros H Hk. destruct (is_string_split _ _ H) as (t & r & -> & T & Et & Es & L).
  rewrite Et in *.
  destruct (split_at t k Hk) as (p & q & -> & Lp).
  rewrite <- app_assoc.
  assert (exists c q', q ++ 0%Z :: r = [c] ++ q' /\ length q' = length q + length r) as (c & q' & E & Lq').
  { destruct q as [|c q]; [exists 0%Z, r; auto|]. exists c, (q ++ 0%Z :: r). split; [reflexivity|].
    rewrite app_length. cbn. lia. }
  rewrite E. rewrite <- Lp. rewrite put_at by reflexivity. eexists. split; [reflexivity|].
  rewrite app_length in L. cbn [app].
  destruct (is_string_intro N p q') as [X Y]; [lia| |].
  { intros I. apply T. apply in_app_iff. auto. }
  split; [exact X|]. rewrite Y. rewrite firstn_app, firstn_all, Nat.sub_diag. cbn. now rewrite app_nil_r.
Qed.

Lemma firstn_text N b : is_string N b -> firstn (length (text b)) b = text b.
Proof.
  intros H. destruct (is_string_split _ _ H) as (t & r & -> & T & Et & Es & L).
  rewrite Et. rewrite firstn_app, firstn_all, Nat.sub_diag. cbn. now rewrite app_nil_r.
Qed.

Lemma text_length N b : is_string N b -> length (text b) <= N.
Proof. intros H. destruct (is_string_split _ _ H) as (t & r & -> & T & Et & Es & L). rewrite Et. lia. Qed.

Lemma strlen_ok N b : is_string N b -> strlen b = Ok (length (text b)).
Proof. intros H. destruct (is_string_split _ _ H) as (t & r & -> & T & Et & Es & L). now rewrite Et. Qed.

Lemma In_skipn {A} (x : A) n l : In x (skipn n l) -> In x l.
Proof. intros H. rewrite <- (firstn_skipn n l). apply in_app_iff. auto. Qed.
Lemma In_firstn {A} (x : A) n l : In x (firstn n l) -> In x l.
Proof. intros H. rewrite <- (firstn_skipn n l). apply in_app_iff. auto. Qed.

Lemma remove_prefix_ok N b n : is_string N b -> n <= length (text b) ->
  exists b', remove_prefix b n = Ok b' /\ is_string N b' /\ text b' = skipn n (text b).
Proof.
  intros H Hn. unfold remove_prefix. rewrite (strlen_ok N b H). cbn [bind].
  destruct (length (text b) <? n) eqn:E; [apply Nat.ltb_lt in E; lia|]. clear E.
  rewrite (firstn_text N b H).
  destruct (is_string_split _ _ H) as (t & r & -> & T & Et & Es & L). rewrite Et in *.
  set (s := skipn n t). assert (length s = length t - n) as Ls by (unfold s; apply skipn_length).
  destruct (split_at t (length s)) as (p & q & Eq & Lp); [lia|].
  replace (t ++ 0%Z :: r) with (p ++ q ++ 0%Z :: r) by now rewrite Eq, <- app_assoc.
  change (p ++ q ++ 0%Z :: r) with ([] ++ p ++ q ++ 0%Z :: r). change 0 with (@length Z []) at 1.
  rewrite put_at by lia. cbn [bind app].
  assert (exists c q', q ++ 0%Z :: r = [c] ++ q' /\ length q' = length q + length r) as (c & q' & E & Lq').
  { destruct q as [|c q]; [exists 0%Z, r; auto|]. exists c, (q ++ 0%Z :: r). split; [reflexivity|].
    rewrite app_length. cbn. lia. }
  rewrite E. rewrite <- Ls. rewrite put_at by reflexivity. eexists. split; [reflexivity|].
  apply (f_equal (@length Z)) in Eq. rewrite app_length in Eq. cbn [app].
  apply is_string_intro; [lia|]. intros I. apply T. unfold s in I. now apply In_skipn in I.
Qed.

Lemma text_firstn_string S other : is_string S other -> text (firstn S other) = text other.
Proof.
  intros H. destruct (is_string_split _ _ H) as (t & r & -> & T & Et & Es & L). rewrite Et.
  destruct r as [|c r] using rev_ind.
  - cbn in L. replace S with (length t) by lia. rewrite firstn_app, firstn_all, Nat.sub_diag. cbn.
    rewrite app_nil_r. now apply text_id.
  - clear IHr. rewrite app_length in L. cbn in L.
    rewrite firstn_app. rewrite firstn_all2 by lia.
    replace (S - length t) with (Datatypes.S (length r)) by lia. cbn [firstn].
    now apply text_app_nul.
Qed.

Lemma text_firstn_firstn N S other : is_string S other ->
  text (firstn N (firstn S other)) = firstn N (text other).
Proof.
  intros H. rewrite <- (text_firstn_string S other H). generalize (firstn S other). clear.
  intros l. revert N. induction l as [|c l IH]; intros [|N]; cbn; try reflexivity.
  destruct (c =? 0)%Z; [reflexivity|]. cbn. now rewrite IH.
Qed.

Lemma text_update N b pos c : is_string N b -> pos < length (text b) ->
  exists b', put b pos [c] = Ok b' /\ is_string N b' /\
             text b' = text (firstn pos (text b) ++ c :: skipn (S pos) (text b)).
Proof.
  intros H Hp. destruct (is_string_split _ _ H) as (t & r & -> & T & Et & Es & L). rewrite Et in *.
  destruct (split_at t pos) as (p & q & -> & Lp); [lia|].
  rewrite app_length in *. destruct q as [|x q]; [cbn in Hp; lia|].
  rewrite <- app_assoc. change ((x :: q) ++ 0%Z :: r) with ([x] ++ (q ++ 0%Z :: r)).
  subst pos. rewrite put_at by reflexivity. eexists. split; [reflexivity|].
  destruct (closed N (p ++ c :: q) r) as [X Y]; [rewrite app_length; cbn in *; lia|].
  rewrite <- app_assoc in X, Y. cbn [app] in *. split; [exact X|]. rewrite Y. f_equal.
  rewrite firstn_app, firstn_all, Nat.sub_diag. cbn [firstn]. rewrite app_nil_r. f_equal. f_equal.
  rewrite skipn_app, skipn_all2 by lia. replace (S (length p) - length p) with 1 by lia. reflexivity.
Qed.

(** One operation. *)
Lemma sexec_ok N b o : is_string N b -> good_arg o ->
  match intended N (text b) o with
  | None => sexec N b o = UB
  | Some t' => (exists b', sexec N b o = Ok b' /\ is_string N b' /\ text b' = t') \/
               (sexec N b o = Throw OutOfRange /\ t' = text b /\
                match o with SSetAt pos _ => length (text b) <= pos | _ => False end)
  end.
Proof.
  intros H G. destruct o; cbn [intended sexec].
  - left. apply assign_ok. apply H.
  - left. cbn in G. unfold assign_string. destruct G as [G1 G2] eqn:EG.
    destruct (cap <=? length other) eqn:E; [|apply Nat.leb_gt in E; lia].
    destruct (assign_ok N b (firstn cap other)) as (b' & E1 & E2 & E3); [apply H|].
    exists b'. split; [exact E1|]. split; [exact E2|]. rewrite E3. now apply text_firstn_firstn.
  - left. now apply append_ok.
  - left. destruct G as [S G]. unfold append_string. rewrite (strlen_ok S other G). cbn [bind].
    rewrite (firstn_text S other G).
    destruct (append_ok N b (text other) H) as (b' & E1 & E2 & E3). exists b'. split; [exact E1|].
    split; [exact E2|]. rewrite E3. rewrite firstn_app, (firstn_all2 (text b)) by now apply (text_length N).
    f_equal. apply text_id. intros I. apply In_firstn in I. now apply text_no_nul in I.
  - left. unfold push_back. destruct (append_ok N b [c] H) as (b' & E1 & E2 & E3). exists b'.
    split; [exact E1|]. split; [exact E2|]. rewrite E3. pose proof (text_length N b H) as L.
    destruct (c =? 0)%Z eqn:Ec.
    + destruct (N - length (text b)) as [|k]; cbn; [now rewrite app_nil_r|]. rewrite firstn_nil.
      rewrite Ec. now rewrite app_nil_r.
    + rewrite firstn_app, (firstn_all2 (text b)) by assumption. f_equal.
      destruct (N - length (text b)) as [|k]; cbn; [reflexivity|]. rewrite firstn_nil. rewrite Ec. reflexivity.
  - left. unfold pop_back, remove_suffix. rewrite (strlen_ok N b H). cbn [bind].
    destruct (length (text b) <? 1) eqn:E.
    + apply Nat.ltb_lt in E. replace (length (text b) - 1) with 0 by lia. apply truncate_ok; [exact H|lia].
    + apply truncate_ok; [exact H|lia].
  - destruct (n <=? length (text b)) eqn:E.
    + left. apply remove_prefix_ok; [exact H|]. now apply Nat.leb_le.
    + unfold remove_prefix. rewrite (strlen_ok N b H). cbn [bind].
      apply Nat.leb_gt in E. apply Nat.ltb_lt in E. now rewrite E.
  - left. unfold remove_suffix. rewrite (strlen_ok N b H). cbn [bind].
    destruct (length (text b) <? n) eqn:E.
    + apply Nat.ltb_lt in E. replace (length (text b) - n) with 0 by lia. apply truncate_ok; [exact H|lia].
    + apply truncate_ok; [exact H|lia].
  - left. unfold clear. destruct (truncate_ok N b 0 H) as (b' & E); [lia|]. eauto.
  - unfold set_at. rewrite (strlen_ok N b H). cbn [bind].
    destruct (pos <? length (text b)) eqn:E.
    + apply Nat.ltb_lt in E. destruct (length (text b) <=? pos) eqn:E'; [apply Nat.leb_le in E'; lia|].
      left. now apply text_update.
    + apply Nat.ltb_ge in E. right. apply Nat.leb_le in E as E'. rewrite E'. auto.
Qed.

Lemma sexec_all_ok N b os : is_string N b -> Forall good_arg os ->
  match intended_all N (text b) os with
  | None => sexec_all N b os = UB
  | Some t' => exists b', sexec_all N b os = Ok b' /\ is_string N b' /\ text b' = t'
  end.
Proof.
  intros H F. revert b H. induction F as [|o os G F IH]; intros b H; cbn [intended_all sexec_all]; [eauto|].
  pose proof (sexec_ok N b o H G) as X. destruct (intended N (text b) o) as [t'|].
  - destruct X as [(b' & -> & S' & <-)|(-> & -> & _)]; now apply IH.
  - now rewrite X.
Qed.

(** * Comparison *)
Local Open Scope Z_scope.

Lemma memcmp_spec a b : let n := Nat.min (length a) (length b) in
  (memcmp a b n < 0 -> lexlt a b) /\ (0 < memcmp a b n -> lexlt b a) /\
  (memcmp a b n = 0 -> firstn n a = firstn n b).
Proof.
  cbv zeta. revert b. induction a as [|x a IH]; intros [|y b]; cbn; try (split; [lia|split; [lia|reflexivity]]).
  destruct (x <? y) eqn:E1.
  { apply Z.ltb_lt in E1. split; [constructor; assumption|]. split; lia. }
  destruct (y <? x) eqn:E2.
  { apply Z.ltb_lt in E2. split; [lia|]. split; [constructor; assumption|lia]. }
  assert (x = y) by lia. subst y. destruct (IH b) as (H1 & H2 & H3).
  split; [intros; apply lexlt_tail; auto|]. split; [intros; apply lexlt_tail; auto|]. intros. f_equal. auto.
Qed.

Lemma lexlt_prefix p y b : lexlt p (p ++ y :: b).
Proof. induction p; cbn; [constructor|now apply lexlt_tail]. Qed.

Lemma firstn_min_eq (a b : list Z) :
  firstn (Nat.min (length a) (length b)) a = firstn (Nat.min (length a) (length b)) b ->
  (length a < length b)%nat -> exists y c, b = a ++ y :: c.
Proof.
  intros E L. rewrite Nat.min_l in E by lia. rewrite firstn_all in E.
  destruct (skipn (length a) b) as [|y c] eqn:S.
  - apply (f_equal (@length Z)) in S. rewrite skipn_length in S. cbn in S. lia.
  - exists y, c. rewrite <- S, E at 1. rewrite E at 1. rewrite firstn_length, Nat.min_l by lia.
    now rewrite firstn_skipn.
Qed.

Lemma compare_ranges_spec a b :
  (compare_ranges a b < 0 <-> lexlt a b) /\ (0 < compare_ranges a b <-> lexlt b a) /\
  (compare_ranges a b = 0 <-> a = b).
Proof.
  assert ((compare_ranges a b < 0 -> lexlt a b) /\ (0 < compare_ranges a b -> lexlt b a) /\
          (compare_ranges a b = 0 -> a = b)) as (H1 & H2 & H3).
  { unfold compare_ranges. destruct (memcmp_spec a b) as (M1 & M2 & M3).
    set (r := memcmp a b _) in *. destruct (r =? 0) eqn:E.
    - apply Z.eqb_eq in E. specialize (M3 E). clear M1 M2.
      assert (i32_max > 0 /\ i32_min < 0) as [? ?] by (vm_compute; split; reflexivity).
      destruct (Nat.lt_trichotomy (length a) (length b)) as [L|[L|L]].
      + destruct (firstn_min_eq a b M3 L) as (y & c & ->).
        split; [intros _; apply lexlt_prefix|].
        destruct (i32_max <? _) eqn:E1; [apply Z.ltb_lt in E1; lia|].
        destruct (_ <? i32_min) eqn:E2; lia.
      + split; [|split].
        * destruct (i32_max <? _) eqn:E1; [lia|]. destruct (_ <? i32_min) eqn:E2; lia.
        * destruct (i32_max <? _) eqn:E1; [lia|]. destruct (_ <? i32_min) eqn:E2; lia.
        * intros _. rewrite <- L, Nat.min_id in M3. rewrite firstn_all in M3. rewrite L, firstn_all in M3. exact M3.
      + rewrite Nat.min_comm in M3. symmetry in M3. destruct (firstn_min_eq b a M3 L) as (y & c & ->).
        split; [|split; [intros _; apply lexlt_prefix|]].
        * destruct (i32_max <? _) eqn:E1; [lia|]. destruct (_ <? i32_min) eqn:E2; [apply Z.ltb_lt in E2|]; lia.
        * destruct (i32_max <? _) eqn:E1; [lia|]. destruct (_ <? i32_min) eqn:E2; lia.
    - apply Z.eqb_neq in E. split; [exact M1|]. split; [exact M2|]. lia. }
  assert (forall a, ~ lexlt a a) as Irr.
  { clear. intros a. induction a; intros H; inversion H; subst; [lia|auto]. }
  assert (forall a b, lexlt a b -> ~ lexlt b a) as Asym.
  { clear. intros a b H. induction H; intros K; inversion K; subst; try lia; auto. }
  split; [split; [auto|]|split; split; auto].
  - intros L. destruct (Z.lt_trichotomy (compare_ranges a b) 0) as [X|[X|X]]; auto.
    + apply H3 in X. subst. now apply Irr in L.
    + apply H2 in X. now apply Asym in L.
  - intros L. destruct (Z.lt_trichotomy (compare_ranges a b) 0) as [X|[X|X]]; auto.
    + apply H1 in X. now apply Asym in L.
    + apply H3 in X. subst. now apply Irr in L.
  - intros ->. destruct (Z.lt_trichotomy (compare_ranges b b) 0) as [X|[X|X]]; auto.
    + apply H1 in X. now apply Irr in X.
    + apply H2 in X. now apply Irr in X.
Qed.

Lemma of_sign_ranges o a b : of_sign o (compare_ranges a b) = true <-> op_meaning o a b.
Proof.
  destruct (compare_ranges_spec a b) as (H1 & H2 & H3).
  destruct o; cbn [of_sign op_meaning].
  - now rewrite Z.eqb_eq.
  - rewrite negb_true_iff, Z.eqb_neq. tauto.
  - now rewrite Z.ltb_lt.
  - now rewrite Z.ltb_lt.
  - rewrite Z.leb_le, <- H1, <- H3. lia.
  - rewrite Z.leb_le, <- H2, <- H3. lia.
Qed.

Lemma lexlt_irrefl a : ~ lexlt a a.
Proof. induction a; intros H; inversion H; subst; [lia|auto]. Qed.

Lemma lexlt_trans a b c : lexlt a b -> lexlt b c -> lexlt a c.
Proof.
  intros H. revert c. induction H as [y b|x y a b L|x a b H IH]; intros c K; inversion K; subst;
    try (constructor; fail); try (apply lexlt_head; lia). apply lexlt_tail. auto.
Qed.

Lemma lexlt_total a b : lexlt a b \/ a = b \/ lexlt b a.
Proof.
  revert b. induction a as [|x a IH]; intros [|y b].
  - auto.
  - left. constructor.
  - right. right. constructor.
  - destruct (Z.lt_trichotomy x y) as [H|[->|H]].
    + left. now constructor.
    + destruct (IH b) as [H|[->|H]]; [left; now apply lexlt_tail|auto|right; right; now apply lexlt_tail].
    + right. right. now constructor.
Qed.
