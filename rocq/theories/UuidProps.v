(** Properties C33 and C34. *)
From Verif Require Import Base Text UuidModel UuidSpec UuidProofs.

(** C33: printing a UUID gives a text of the 8-4-4-4-12 form, in lower case, that
    parses to the same UUID. *)
Theorem C33_print_then_parse u : uuid_ok u ->
  uuid_text (print u) /\ map lower (print u) = print u /\ from (Some (print u)) = Ok u.
Proof.
  intros H. pose proof (from_print u H) as E. pose proof (print_fields u H) as F.
  pose proof (fields_c_string _ _ _ _ _ _ F) as C.
  destruct (print_from _ _ C E) as (T & _ & P). auto.
Qed.

(** C33: a C string is accepted exactly when it has the 8-4-4-4-12 form, every
    other one (and the null pointer) is rejected by the exception, and the scan
    never reads past the end of the text. *)
Theorem C33_parse_accepts_exactly_the_form s : c_string s ->
  ((exists u, from (Some s) = Ok u) <-> uuid_text s) /\
  (from (Some s) = Throw tt <-> ~ uuid_text s) /\ from (Some s) <> UB /\ from None = Throw tt.
Proof.
  intros C. pose proof (from_text s C) as H. destruct (from (Some s)) as [u|[]|] eqn:E.
  - split; [split; [auto|intros _; eauto]|]. split; [split; [discriminate|tauto]|]. split; [discriminate|reflexivity].
  - split; [split; [intros [u X]; discriminate|tauto]|]. split; [tauto|]. split; [discriminate|reflexivity].
  - contradiction.
Qed.

(** C33: the UUID parsed from a text denotes the 128-bit number the text writes, its
    fields are in range, and printing it gives the text back in lower case. *)
Theorem C33_parse_then_print s u : c_string s -> from (Some s) = Ok u ->
  uuid_ok u /\ uuid_number u = text_number s /\ print u = map lower s.
Proof.
  intros C H. destruct (print_from s u C H) as (_ & K & P). auto using from_number.
Qed.

Example C33_witness :
  from (Some (codes "0123ABCD-4567-89eF-0a1b-00C0ffee0042"))
  = Ok (Uuid 19114957 [17767; 35311; 2587] [0; 192; 255; 238; 0; 66]) /\
  print (Uuid 19114957 [17767; 35311; 2587] [0; 192; 255; 238; 0; 66])
  = codes "0123abcd-4567-89ef-0a1b-00c0ffee0042" /\
  from (Some (codes "0123abcd-4567-89ef-0a1b-00c0ffee004")) = Throw tt /\
  from (Some (codes "0123abcd-4567-89ef-0a1b-00c0ffee00422")) = Throw tt.
Proof. repeat split. Qed.

(** C34: the order of UUIDs is the order of the 128-bit numbers they denote, and
    equality is identity of the fields: a strict total order. *)
Theorem C34_order_is_numeric a b : uuid_ok a -> uuid_ok b ->
  (uuid_lt a b = true <-> uuid_number a < uuid_number b) /\
  (uuid_eq a b = true <-> a = b) /\ (uuid_number a = uuid_number b -> a = b) /\
  uuid_ne a b = negb (uuid_eq a b).
Proof.
  intros Ha Hb. split; [now apply uuid_lt_number|]. split; [apply uuid_eq_eq|].
  split; [now apply uuid_number_inj|]. unfold uuid_ne, uuid_eq. now rewrite !negb_andb.
Qed.

Theorem C34_strict_total_order :
  (forall a, uuid_ok a -> uuid_lt a a = false) /\
  (forall a b c, uuid_ok a -> uuid_ok b -> uuid_ok c ->
     uuid_lt a b = true -> uuid_lt b c = true -> uuid_lt a c = true) /\
  (forall a b, uuid_ok a -> uuid_ok b ->
     (uuid_lt a b = true /\ uuid_eq a b = false /\ uuid_lt b a = false) \/
     (uuid_lt a b = false /\ uuid_eq a b = true /\ uuid_lt b a = false) \/
     (uuid_lt a b = false /\ uuid_eq a b = false /\ uuid_lt b a = true)).
Proof.
  assert (forall a b, uuid_ok a -> uuid_ok b -> uuid_lt a b = (uuid_number a <? uuid_number b)) as L.
  { intros a b Ha Hb. apply Bool.eq_iff_eq_true. rewrite Z.ltb_lt. now apply uuid_lt_number. }
  split; [intros a Ha; rewrite L by assumption; apply Z.ltb_irrefl|]. split.
  - intros a b c Ha Hb Hc. rewrite !L, !Z.ltb_lt by assumption. lia.
  - intros a b Ha Hb. rewrite !L by assumption.
    destruct (uuid_eq a b) eqn:E.
    + apply uuid_eq_eq in E. subst b. rewrite Z.ltb_irrefl. auto.
    + assert (uuid_number a <> uuid_number b).
      { intros X. apply uuid_number_inj in X; try assumption. apply uuid_eq_eq in X. congruence. }
      destruct (Z.ltb_spec (uuid_number a) (uuid_number b));
        destruct (Z.ltb_spec (uuid_number b) (uuid_number a)); try lia; auto.
Qed.

(** C34: UUIDs that compare equal have the same hash. *)
Theorem C34_equal_hash a b : uuid_eq a b = true -> uuid_hash a = uuid_hash b.
Proof. intros H. apply uuid_eq_eq in H. now subst. Qed.

Example C34_witness :
  uuid_ok (Uuid 7 [1; 2; 65535] [0; 0; 0; 0; 0; 255]) /\ uuid_ok (Uuid 7 [1; 3; 0] [0; 0; 0; 0; 0; 0]) /\
  uuid_lt (Uuid 7 [1; 2; 65535] [0; 0; 0; 0; 0; 255]) (Uuid 7 [1; 3; 0] [0; 0; 0; 0; 0; 0]) = true.
Proof.
  unfold uuid_ok. cbn. split; [|split; [|reflexivity]].
  all: split; [lia|split; [reflexivity|split; [|split; [reflexivity|]]]]; repeat (constructor; [lia|]); constructor.
Qed.
