(** Property C105: strings, their own parts, concatenation and streams. *)
From Coq Require Import ZArith List Bool Lia.
From Verif Require Import Base Text StringModel StringSpec StringProofs OwnModel OwnSpec OwnProofs.
Import ListNotations.
Local Open Scope nat_scope.

(** Any sequence of calls, some of which are given pieces of the string itself, has the
    effect it has with copies of these pieces, and stays within the array.  Missing:
    assign with a piece that overlaps the beginning of the string, see below. *)
Theorem C105_histories_partial N os b : is_string N b -> allowed_all N (text b) os ->
  exists b', oexec_all N b os = Ok b' /\ is_string N b' /\ text b' = meant_all N (text b) os.
Proof. exact (oexec_all_ok N os b). Qed.

Definition x_string : list Z := codes "orbit" ++ [0; 7; 7; 7]%Z.
Example C105_histories_example :
  let os := [OAppendPart 3 9; OAppendPart 9 1; OSetPart (repeat 1%Z 9) 1 6; OAppendSelf; OAssignPart 5 2] in
  is_string 8 x_string /\ allowed_all 8 (text x_string) os /\
  meant_all 8 (text x_string) (firstn 4 os) = codes "rbititrb" /\ meant_all 8 (text x_string) os = codes "tr".
Proof.
  cbv zeta. split; [split; [reflexivity|vm_compute; tauto]|]. split; [|split; vm_compute; reflexivity].
  cbn -[piece]. repeat split; try exact I. right. vm_compute. lia.
Qed.

(** append, on its own: always defined, with the object itself and with every part of
    it; what does not fit is cut; a position beyond the end is refused. *)
Theorem C105_append N b p n : is_string N b ->
  (p <= length (text b) -> exists b', oexec N b (OAppendPart p n) = Ok b' /\ is_string N b' /\
     text b' = firstn N (text b ++ firstn n (skipn p (text b)))) /\
  (length (text b) < p -> oexec N b (OAppendPart p n) = Throw OutOfRange) /\
  (exists b', oexec N b OAppendSelf = Ok b' /\ is_string N b' /\ text b' = firstn N (text b ++ text b)).
Proof.
  intros H. split; [|split].
  - intros P. cbn [oexec]. rewrite (part_ok N b p n H). apply Nat.ltb_ge in P as Q. rewrite Q. now apply append_own_ok.
  - intros P. cbn [oexec]. rewrite (part_ok N b p n H). apply Nat.ltb_lt in P. now rewrite P.
  - cbn [oexec]. rewrite (strlen_ok N b H). now apply append_self_ok.
Qed.
Example C105_append_example :
  oexec 8 x_string OAppendSelf = Ok (codes "orbitorb" ++ [0%Z]) /\
  oexec 8 x_string (OAppendPart 6 1) = Throw OutOfRange /\ oexec 8 x_string (OAppendPart 5 1) = Ok x_string.
Proof. vm_compute. repeat split. Qed.

(** assign with a part of the string: defined exactly when the part does not overlap the
    characters it replaces, which are as many as it has; then the text is that part. *)
Theorem C105_assign_partial N b p n : is_string N b -> p <= length (text b) ->
  let v := firstn n (skipn p (text b)) in
  (length v <= p -> exists b', oexec N b (OAssignPart p n) = Ok b' /\ is_string N b' /\ text b' = v) /\
  (p < length v -> oexec N b (OAssignPart p n) = UB) /\
  (0 < N -> oexec N b OAssignSelf = UB).
Proof.
  intros H P v. split; [|split].
  - intros A. cbn [oexec]. rewrite (part_ok N b p n H). apply Nat.ltb_ge in P as Q. rewrite Q. now apply assign_own_ok.
  - intros A. apply not_allowed_ub; [exact H|exact I|]. cbn. fold (piece p n (text b)) in v. fold v. lia.
  - intros A. apply not_allowed_ub; [exact H|exact I|]. cbn. lia.
Qed.

(** The same part is assigned without harm by the assignment operator, which makes a
    copy first: for every string and every part. *)
Theorem C105_set N b u p n : is_string N b -> length u = S N -> p <= length (text b) ->
  exists b', oexec N b (OSetPart u p n) = Ok b' /\ is_string N b' /\ text b' = firstn n (skipn p (text b)).
Proof.
  intros H U P. cbn [oexec]. rewrite (part_ok N b p n H). apply Nat.ltb_ge in P as Q. rewrite Q. now apply set_part_ok.
Qed.
Example C105_set_example :
  (exists b, oexec 8 x_string (OSetPart (repeat 1%Z 9) 1 9) = Ok b /\ text b = codes "rbit") /\
  (exists b, oexec 8 x_string (OAssignPart 3 2) = Ok b /\ text b = codes "it").
Proof. split; eexists; split; vm_compute; reflexivity. Qed.

(** Not so with assign: taking the first character away is undefined. *)
Theorem C105_assign_refuted : exists N b p n,
  is_string N b /\ p <= length (text b) /\ text b = codes "orbit" /\
  meant N (text b) (OAssignPart p n) = codes "rbit" /\ oexec N b (OAssignPart p n) = UB.
Proof.
  exists 8, x_string, 1, 9. split; [split; [reflexivity|vm_compute; tauto]|]. split; [vm_compute; lia|].
  repeat split; vm_compute; reflexivity.
Qed.

(** Concatenation gives both texts one after the other and never cuts them, whatever
    the capacities. *)
Theorem C105_concatenation N M a b v c : is_string N a -> is_string M b ->
  plus_strings a b = Ok (text a ++ text b) /\
  plus_view_string v b = Ok (v ++ text b) /\ plus_string_view a v = Ok (text a ++ v) /\
  plus_char_string c b = Ok (c :: text b) /\ plus_string_char a c = Ok (text a ++ [c]).
Proof.
  intros A B. unfold plus_strings, plus_view_string, plus_string_view, plus_char_string, plus_string_char, c_str.
  rewrite (strlen_ok N a A), (strlen_ok M b B). cbn [bind]. rewrite (firstn_text N a A), (firstn_text M b B).
  repeat split.
Qed.
Example C105_concatenation_example :
  plus_strings x_string (codes "al" ++ [0%Z]) = Ok (codes "orbital") /\ plus_char_string 88 x_string = Ok (codes "Xorbit").
Proof. vm_compute. split; reflexivity. Qed.

(** A string that is written to a stream and read back, also from the middle of other
    texts, is the same, cut at the capacity of the string that reads; the stream is good
    and goes on behind it.  Missing: empty strings and strings with blanks. *)
Theorem C105_stream_partial N M a u before after : is_string N a -> length u = S M ->
  text a <> [] -> Forall (fun c => ~ blank c) (text a) -> Forall blank before -> Forall blank (firstn 1 after) ->
  exists t b, write a = Ok t /\ read M u (before ++ t ++ after) = Ok (b, after, true) /\
              is_string M b /\ text b = firstn M (text a).
Proof.
  intros A U E W B R. exists (text a). unfold write, c_str. rewrite (strlen_ok N a A). cbn [bind].
  rewrite (firstn_text N a A).
  destruct (read_ok M u before (text a) after U B W R) as (b & Eb & S & T); [intros X; contradiction|].
  exists b. split; [reflexivity|]. split.
  - rewrite Eb. destruct (text a); [contradiction|reflexivity].
  - split; [exact S|]. rewrite T. apply text_id. intros X. apply In_firstn in X. now apply text_no_nul in X.
Qed.
Example C105_stream_example : exists b,
  write x_string = Ok (codes "orbit") /\
  read 4 [1; 2; 3; 4; 5]%Z ([32; 9]%Z ++ codes "orbit 42") = Ok (b, codes " 42", true) /\ text b = codes "orbi".
Proof. eexists. repeat split; vm_compute; reflexivity. Qed.

(** When nothing but blanks is left, the stream is no longer good and the string is
    emptied, whatever it was. *)
Theorem C105_stream_end N u l : length u = S N -> Forall blank l ->
  exists b, read N u l = Ok (b, [], false) /\ is_string N b /\ text b = [].
Proof.
  intros U B. destruct (read_ok N u l [] [] U B) as (b & E & S & T); try constructor.
  rewrite !app_nil_r in E. exists b. split; [exact E|]. split; [exact S|]. rewrite T. now rewrite firstn_nil.
Qed.
Example C105_stream_end_example : exists b, read 2 [65; 66; 67]%Z [32; 10]%Z = Ok (b, [], false) /\ text b = [].
Proof. eexists. split; vm_compute; reflexivity. Qed.

(** A string with a blank is not read back. *)
Theorem C105_stream_refuted : exists N a u t b rest ok,
  is_string N a /\ length u = S N /\ write a = Ok t /\ read N u t = Ok (b, rest, ok) /\ ok = true /\ text b <> text a.
Proof.
  exists 5, (codes "a b" ++ [0; 0; 0]%Z), (repeat 1%Z 6). do 4 eexists.
  split; [split; [reflexivity|vm_compute; tauto]|]. split; [reflexivity|]. split; [vm_compute; reflexivity|].
  split; [vm_compute; reflexivity|]. split; [reflexivity|]. vm_compute. discriminate.
Qed.

Print Assumptions C105_histories_partial.
Print Assumptions C105_append.
Print Assumptions C105_stream_partial.
