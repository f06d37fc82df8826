From Coq Require Import ZArith List Bool Lia.
From Verif Require Import Base StringModel StringSpec StringProofs OwnModel OwnSpec.
Import ListNotations.
Local Open Scope nat_scope.

Lemma piece_length p n t : length (piece p n t) = Nat.min n (length t - p).
Proof. unfold piece. now rewrite firstn_length, skipn_length. Qed.

Lemma part_ok N b p n : is_string N b ->
  part b p n = if length (text b) <? p then Throw OutOfRange else Ok (p, length (piece p n (text b))).
Proof. intros H. unfold part. rewrite (strlen_ok N b H), piece_length. reflexivity. Qed.

(** A view of the object designates the piece of its text. *)
Lemma view_is_piece N b p n : is_string N b -> p <= length (text b) ->
  firstn (length (piece p n (text b))) (skipn p b) = piece p n (text b).
Proof.
  intros H P. destruct (is_string_split _ _ H) as (t & r & -> & T & Et & Es & L). rewrite Et in *.
  rewrite piece_length. unfold piece. rewrite skipn_app, (proj2 (Nat.sub_0_le p (length t)) P). cbn [skipn].
  rewrite firstn_app. rewrite skipn_length.
  replace (Nat.min n (length t - p) - (length t - p)) with 0 by lia. cbn [firstn]. rewrite app_nil_r.
  destruct (Nat.le_ge_cases n (length t - p)) as [C|C].
  - now rewrite Nat.min_l by lia.
  - rewrite Nat.min_r by lia. rewrite !firstn_all2 by (rewrite skipn_length; lia). reflexivity.
Qed.

Lemma no_nul_piece p n b : ~ In 0%Z (piece p n (text b)).
Proof. intros I. apply In_firstn, In_skipn in I. now apply text_no_nul in I. Qed.

(** * assign *)
Lemma assign_own_ok N b p n : is_string N b -> p <= length (text b) -> length (piece p n (text b)) <= p ->
  exists b', assign_own N b p (length (piece p n (text b))) = Ok b' /\ is_string N b' /\ text b' = piece p n (text b).
Proof.
  intros H P A. set (v := piece p n (text b)) in *.
  assert (V : length v <= length (text b) - p) by (unfold v; rewrite piece_length; lia).
  assert (LN := text_length N b H). assert (LB := proj1 H).
  assert (E : assign_own N b p (length v) = assign N b v).
  { unfold assign_own, assign. rewrite Nat.min_l by lia. unfold traits_copy.
    replace (p <? length v) with false by (symmetry; apply Nat.ltb_ge; lia).
    replace (length b <? p + length v) with false by (symmetry; apply Nat.ltb_ge; lia).
    unfold v at 1. rewrite (view_is_piece N b p n H P). fold v. now rewrite firstn_all. }
  rewrite E. destruct (assign_ok N b v LB) as (b' & Eb & S & T). exists b'. split; [exact Eb|]. split; [exact S|].
  rewrite T, firstn_all2 by lia. apply text_id. apply no_nul_piece.
Qed.

Lemma assign_own_ub N b p n : is_string N b -> p < length (piece p n (text b)) ->
  assign_own N b p (length (piece p n (text b))) = UB.
Proof.
  intros H A. assert (LN := text_length N b H).
  assert (V : length (piece p n (text b)) <= N) by (rewrite piece_length; lia).
  unfold assign_own, traits_copy. rewrite Nat.min_l by exact V. apply Nat.ltb_lt in A. now rewrite A.
Qed.

(** * append *)
Lemma move_each_ok : forall v w m z from x,
  length w = length v -> from + length v <= length x ->
  firstn (length v) (skipn from x) = v ->
  move_each (x ++ m ++ w ++ z) from (length (x ++ m)) (length v) = Ok (x ++ m ++ v ++ z).
Proof.
  induction v as [|c v IH]; intros w m z from x Lw Lx Ev.
  - destruct w; [reflexivity|discriminate].
  - destruct w as [|d w]; [discriminate|]. cbn [length move_each] in *.
    assert (Nf : nth_error x from = Some c).
    { destruct (skipn from x) as [|c' s] eqn:Es; [cbn in Ev; discriminate|]. cbn in Ev. injection Ev as -> _.
      rewrite <- (firstn_skipn from x), nth_error_app2; rewrite firstn_length; [|lia].
      rewrite Es. now replace (from - Nat.min from (length x)) with 0 by lia. }
    unfold move_one. rewrite nth_error_app1 by lia. rewrite Nf.
    replace (x ++ m ++ (d :: w) ++ z) with ((x ++ m) ++ [d] ++ (w ++ z)) by now rewrite <- !app_assoc.
    rewrite put_at by reflexivity. cbn [bind].
    replace ((x ++ m) ++ [c] ++ w ++ z) with (x ++ (m ++ [c]) ++ w ++ z) by now rewrite <- !app_assoc.
    replace (S (length (x ++ m))) with (length (x ++ (m ++ [c]))) by (rewrite !app_length; cbn; lia).
    rewrite (IH w (m ++ [c]) z (S from) x); [now rewrite <- !app_assoc|lia|lia|].
    replace (skipn (S from) x) with (skipn 1 (skipn from x)).
    + destruct (skipn from x) as [|c' s]; [cbn in Ev; discriminate|]. cbn in Ev |- *. now injection Ev.
    + clear. revert from. induction x as [|a x IH]; intros [|from]; try reflexivity. exact (IH from).
Qed.

Lemma append_own_ok N b p n : is_string N b -> p <= length (text b) ->
  exists b', append_own N b p (length (piece p n (text b))) = Ok b' /\ is_string N b' /\
             text b' = firstn N (text b ++ piece p n (text b)).
Proof.
  intros H P. assert (LN := text_length N b H).
  set (v := piece p n (text b)). set (k := Nat.min (length v) (N - length (text b))).
  assert (V : length v <= length (text b) - p) by (unfold v; rewrite piece_length; lia).
  assert (K1 : k <= N - length (text b)) by apply Nat.le_min_r. assert (Kv : k <= length v) by apply Nat.le_min_l.
  destruct (append_ok N b v H) as (b' & Eb & S & T). exists b'. split; [|split; [exact S|]].
  - rewrite <- Eb. unfold append_own, append. rewrite (strlen_ok N b H). cbn [bind].
    destruct (N <? length (text b)); [reflexivity|]. fold k. clearbody k.
    assert (HV : firstn (length v) (skipn p (text b)) = v).
    { unfold v. rewrite piece_length. unfold piece.
      destruct (Nat.le_ge_cases n (length (text b) - p)) as [C|C].
      - now rewrite Nat.min_l by exact C.
      - rewrite Nat.min_r by exact C. now rewrite !firstn_all2 by (rewrite skipn_length; lia). }
    clearbody v.
    destruct (is_string_split _ _ H) as (t & r & Er & Tn & Et & _ & L). rewrite Et in *. subst b.
    (* the array after the terminator has been written *)
    destruct (split_at (0%Z :: r) k) as (w & z & Ew & Lw); [cbn; lia|]. rewrite Ew.
    destruct z as [|z0 z].
    { exfalso. rewrite app_nil_r in Ew. rewrite <- Ew in Lw. cbn in Lw. lia. }
    assert (Ep : put (t ++ w ++ z0 :: z) (length t + k) [0%Z] = Ok (t ++ w ++ 0%Z :: z)).
    { replace (length t + k) with (length (t ++ w)) by (rewrite app_length; lia).
      change (z0 :: z) with ([z0] ++ z). rewrite (app_assoc t w ([z0] ++ z)).
      rewrite put_at by reflexivity. now rewrite <- app_assoc. }
    rewrite Ep. cbn [bind]. unfold std_copy.
    replace ((p <=? length t) && (length t <? p + k)) with false
      by (symmetry; apply andb_false_iff; right; apply Nat.ltb_ge; lia).
    assert (Lf : length (firstn k v) = k) by (rewrite firstn_length; lia).
    rewrite (put_at t w (firstn k v) (0%Z :: z)) by (rewrite Lf; exact Lw).
    assert (X := move_each_ok (firstn k v) w [] (0%Z :: z) p t). rewrite Lf, app_nil_r in X. cbn [List.app] in X.
    apply X; [exact Lw|lia|].
    rewrite <- HV. rewrite firstn_firstn. now rewrite Nat.min_l by lia.
  - rewrite T, firstn_app. rewrite (firstn_all2 (text b)) by lia. f_equal. apply text_id.
    intros I. apply In_firstn in I. now apply no_nul_piece in I.
Qed.

Lemma piece_all t : piece 0 (length t) t = t.
Proof. unfold piece. cbn [skipn]. apply firstn_all. Qed.

Lemma append_self_ok N b : is_string N b ->
  exists b', append_own N b 0 (length (text b)) = Ok b' /\ is_string N b' /\ text b' = firstn N (text b ++ text b).
Proof.
  intros H. assert (X := append_own_ok N b 0 (length (text b)) H (Nat.le_0_l _)). now rewrite piece_all in X.
Qed.

Lemma set_part_ok N b u p n : is_string N b -> length u = S N -> p <= length (text b) ->
  exists b', assign N u (firstn (length (piece p n (text b))) (skipn p b)) = Ok b' /\ is_string N b' /\
             text b' = piece p n (text b).
Proof.
  intros H U P. rewrite (view_is_piece N b p n H P).
  destruct (assign_ok N u (piece p n (text b)) U) as (b' & Eb & S & T). exists b'. split; [exact Eb|]. split; [exact S|].
  assert (LN := text_length N b H). rewrite T, firstn_all2 by (rewrite piece_length; lia). apply text_id, no_nul_piece.
Qed.

Lemma oexec_ok N b o : is_string N b -> allowed N (text b) o ->
  (exists b', oexec N b o = Ok b' /\ is_string N b' /\ text b' = meant N (text b) o) \/
  (oexec N b o = Throw OutOfRange /\ meant N (text b) o = text b).
Proof.
  intros H A. destruct o as [o|u p n|p n|p n| |]; cbn [oexec meant allowed] in *.
  - destruct A as [G I]. assert (X := sexec_ok N b o H G). destruct (intended N (text b) o) as [t|]; [|contradiction].
    destruct X as [X|(X & E & _)]; [now left|right; now split].
  - rewrite (part_ok N b p n H). destruct (Nat.ltb_spec (length (text b)) p) as [L|L].
    + right. split; [reflexivity|]. apply Nat.leb_gt in L. now rewrite L.
    + left. cbn [bind fst snd]. apply Nat.leb_le in L as L'. rewrite L'. now apply set_part_ok.
  - rewrite (part_ok N b p n H). destruct (Nat.ltb_spec (length (text b)) p) as [L|L].
    + right. split; [reflexivity|]. apply Nat.leb_gt in L. now rewrite L.
    + left. cbn [bind fst snd]. apply Nat.leb_le in L as L'. rewrite L'. apply assign_own_ok; [exact H|exact L|].
      destruct A as [A|A]; [lia|exact A].
  - rewrite (part_ok N b p n H). destruct (Nat.ltb_spec (length (text b)) p) as [L|L].
    + right. split; [reflexivity|]. apply Nat.leb_gt in L. now rewrite L.
    + left. cbn [bind fst snd]. apply Nat.leb_le in L as L'. rewrite L'. now apply append_own_ok.
  - left. subst N. assert (LT := text_length 0 b H).
    assert (T : text b = []) by (destruct (text b); [reflexivity|cbn in LT; lia]).
    assert (X := assign_own_ok 0 b 0 0 H). rewrite T in X. cbn in X. rewrite T. cbn. apply X; lia.
  - left. rewrite (strlen_ok N b H). cbn [bind]. now apply append_self_ok.
Qed.

Lemma oexec_all_ok N os : forall b, is_string N b -> allowed_all N (text b) os ->
  exists b', oexec_all N b os = Ok b' /\ is_string N b' /\ text b' = meant_all N (text b) os.
Proof.
  induction os as [|o os IH]; intros b H A; [exists b; now repeat split; try apply H|].
  destruct A as [A1 A2]. cbn [oexec_all meant_all].
  destruct (oexec_ok N b o H A1) as [(b' & E & S & T)|(E & T)]; rewrite E.
  - rewrite <- T in A2 |- *. now apply IH.
  - rewrite T in A2 |- *. now apply IH.
Qed.

Lemma not_allowed_ub N b o : is_string N b ->
  match o with OPlain _ => False | OSetPart _ _ _ => False | _ => True end ->
  ~ allowed N (text b) o -> oexec N b o = UB.
Proof.
  intros H G A. destruct o as [o|u p n|p n|p n| |]; cbn [oexec allowed] in *; try contradiction; try (exfalso; apply A; exact I).
  - rewrite (part_ok N b p n H). destruct (Nat.ltb_spec (length (text b)) p) as [L|L]; [exfalso; apply A; now left|].
    cbn [bind fst snd]. apply assign_own_ub; [exact H|]. apply Nat.lt_nge. intros X. apply A. now right.
  - unfold assign_own, traits_copy. rewrite Nat.min_id. destruct N as [|N]; [exfalso; apply A; reflexivity|]. reflexivity.
Qed.

(** * Streams *)
Lemma is_blank_ok c : is_blank c = true <-> blank c.
Proof. unfold is_blank, blank. rewrite orb_true_iff, andb_true_iff, Z.eqb_eq, !Z.leb_le. tauto. Qed.

Lemma skip_ok l w : Forall blank l -> Forall (fun c => ~ blank c) (firstn 1 w) -> skip_blanks (l ++ w) = w.
Proof.
  intros B W. induction B as [|c l C B IH].
  - destruct w as [|c w]; [reflexivity|]. cbn in *. inversion W as [|? ? N _]; subst.
    destruct (is_blank c) eqn:E; [|reflexivity]. exfalso. apply N. now apply is_blank_ok.
  - cbn. apply is_blank_ok in C. now rewrite C.
Qed.

Lemma word_ok w r : Forall (fun c => ~ blank c) w -> Forall blank (firstn 1 r) ->
  take_word (w ++ r) = w /\ drop_word (w ++ r) = r.
Proof.
  intros W R. induction W as [|c w C W IH].
  - destruct r as [|c r]; [split; reflexivity|]. cbn in *. inversion R as [|? ? B _]; subst.
    apply is_blank_ok in B. rewrite B. now split.
  - cbn. destruct (is_blank c) eqn:E; [exfalso; apply C; now apply is_blank_ok|]. destruct IH as [-> ->]. now split.
Qed.

Lemma read_ok N u l w r : length u = S N -> Forall blank l -> Forall (fun c => ~ blank c) w -> Forall blank (firstn 1 r) ->
  (w = [] -> r = []) ->
  exists b, read N u (l ++ w ++ r) = Ok (b, r, negb (length w =? 0)) /\ is_string N b /\ text b = text (firstn N w).
Proof.
  intros U B W R Z. unfold read, construct.
  assert (K : skip_blanks (l ++ w ++ r) = w ++ r).
  { apply skip_ok; [exact B|]. destruct w as [|c w]; [rewrite Z by reflexivity; constructor|].
    cbn. constructor; [now inversion W|constructor]. }
  rewrite K. destruct (word_ok w r W R) as [-> ->].
  destruct (assign_ok N u w U) as (b & E & S & T). rewrite E. cbn [bind]. exists b. now repeat split; try apply S.
Qed.
