(** Properties C35 and C36. *)
From Verif Require Import Base Text StringModel StringSpec StringProofs.

(** C35: from any construction and through any sequence of operations, the object
    stays NUL terminated inside its N+1 bytes and its text is the intended one:
    assign and append keep the longest prefix that fits.  No operation reads or
    writes outside the array, except remove_prefix with a count larger than the
    length, for which the intended effect is undefined ([None]). *)
Theorem C35_strings_stay_within_capacity N unknown v os :
  length unknown = S N -> Forall good_arg os ->
  match intended_all N (text (firstn N v)) os with
  | Some t => exists b0 b, construct N unknown v = Ok b0 /\ sexec_all N b0 os = Ok b /\
                           is_string N b /\ text b = t /\ (length t <= N)%nat
  | None => exists b0, construct N unknown v = Ok b0 /\ sexec_all N b0 os = UB
  end.
Proof.
  intros L F. destruct (assign_ok N unknown v L) as (b0 & E0 & S0 & T0).
  pose proof (sexec_all_ok N b0 os S0 F) as H. rewrite T0 in H.
  destruct (intended_all N (text (firstn N v)) os) as [t|].
  - destruct H as (b & E & S & T). exists b0, b. repeat split; try assumption; try apply S.
    rewrite <- T. now apply text_length.
  - exists b0. auto.
Qed.

(** The default constructor gives the empty string. *)
Theorem C35_default_is_empty N : is_string N (default_string N) /\ text (default_string N) = [].
Proof.
  split; [split|].
  - unfold default_string. apply repeat_length.
  - now left.
  - reflexivity.
Qed.

(** The size reported is the length of the text, at(pos) reads it or throws. *)
Theorem C35_observers N b : is_string N b ->
  strlen b = Ok (length (text b)) /\
  (forall pos, get_at b pos = if (pos <? length (text b))%nat then Ok (nth pos (text b) 0) else Throw OutOfRange).
Proof.
  intros H. split; [now apply (strlen_ok N)|]. intros pos. unfold get_at. rewrite (strlen_ok N b H). cbn [bind].
  destruct (Nat.ltb_spec pos (length (text b))) as [L|L].
  - apply Nat.leb_gt in L as L'. rewrite L'. f_equal.
    destruct (is_string_split _ _ H) as (t & r & E & _ & Et & _). rewrite Et in *. rewrite E. now apply app_nth1.
  - apply Nat.leb_le in L. now rewrite L.
Qed.

Example C35_witness : exists b,
  construct 5 [1; 2; 3; 4; 5; 6] (codes "satellite") = Ok b /\ text b = codes "satel" /\
  (exists b', sexec_all 5 b [SRemovePrefix 2; SAppend (codes "xyz"); SPop; SSetAt 9 65; SPush 66; SPush 67] = Ok b' /\
              text b' = codes "telxB") /\
  sexec_all 5 b [SRemovePrefix 6] = UB.
Proof. eexists. split; [reflexivity|]. split; [reflexivity|]. split; [|reflexivity]. eexists. split; reflexivity. Qed.

(** C36: the six comparison operators, between strings of any capacities, decide the
    lexicographic order of the texts. *)
Theorem C36_operators_are_lexicographic N M a b o : is_string N a -> is_string M b ->
  exists r, string_op o a b = Ok r /\ (r = true <-> op_meaning o (text a) (text b)).
Proof.
  intros Ha Hb. unfold string_op, compare_string.
  rewrite (strlen_ok N a Ha), (strlen_ok M b Hb). cbn [bind].
  rewrite (firstn_text N a Ha), (firstn_text M b Hb). eexists. split; [reflexivity|]. apply of_sign_ranges.
Qed.

(** The same against a string_view. *)
Theorem C36_compare_view N a v : is_string N a ->
  exists r, compare_view a v = Ok r /\
    (r < 0 <-> lexlt (text a) v) /\ (r = 0 <-> text a = v) /\ (0 < r <-> lexlt v (text a)) /\
    -2147483648 <= r <= 2147483647.
Proof.
  intros Ha. change (-2147483648) with i32_min. change 2147483647 with i32_max. unfold compare_view. rewrite (strlen_ok N a Ha). cbn [bind].
  rewrite (firstn_text N a Ha). eexists. split; [reflexivity|].
  destruct (compare_ranges_spec (text a) v) as (H1 & H2 & H3).
  split; [exact H1|]. split; [exact H3|]. split; [exact H2|].
  unfold compare_ranges. destruct (_ =? 0) eqn:E.
  - assert (i32_max > 0 /\ i32_min < 0) as [? ?] by (vm_compute; split; reflexivity).
    destruct (i32_max <? _) eqn:E1; [lia|]. destruct (_ <? i32_min) eqn:E2; lia.
  - assert (forall x y n, -1 <= memcmp x y n <= 1) as M.
    { clear. intros x y n. revert x y. induction n; intros [|c x] [|d y]; cbn; try lia.
      destruct (c <? d); [lia|]. destruct (d <? c); [lia|apply IHn]. }
    specialize (M (text a) v (Nat.min (length (text a)) (length v))).
    assert (i32_max > 1 /\ i32_min < -1) as [? ?] by (vm_compute; split; reflexivity). lia.
Qed.

(** The lexicographic order is a strict total order. *)
Theorem C36_total_order :
  (forall a, ~ lexlt a a) /\ (forall a b c, lexlt a b -> lexlt b c -> lexlt a c) /\
  (forall a b, lexlt a b \/ a = b \/ lexlt b a).
Proof. split; [exact lexlt_irrefl|]. split; [exact lexlt_trans|exact lexlt_total]. Qed.

Example C36_witness :
  string_op OLt (codes "ab" ++ [0; 7]) (codes "aba" ++ [0]) = Ok true /\
  string_op OEq (codes "ab" ++ [0; 7]) (codes "ab" ++ [0; 9; 9]) = Ok true /\
  string_op OGt (200 :: [0]) (codes "z" ++ [0]) = Ok true.
Proof. repeat split. Qed.
