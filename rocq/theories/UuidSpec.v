(** What the UUID properties talk about. *)
From Verif Require Import Base UuidModel.

(** Positions of the dashes of the 8-4-4-4-12 form. *)
Definition dash_at (k : nat) : Prop := k = 8%nat \/ k = 13%nat \/ k = 18%nat \/ k = 23%nat.

Definition hexa_digit (c : Z) : Prop :=
  48 <= c <= 57 (* 0-9 *) \/ 65 <= c <= 70 (* A-F *) \/ 97 <= c <= 102 (* a-f *).

(** The text form: 36 characters, dashes at the four positions, digits elsewhere. *)
Definition uuid_text (s : list Z) : Prop :=
  length s = 36%nat /\
  forall k, (k < 36)%nat ->
    (dash_at k -> nth k s 0 = 45) /\ (~ dash_at k -> hexa_digit (nth k s 0)).

(** A C string has no NUL before its end. *)
Definition c_string (s : list Z) : Prop := ~ In 0 s.

Definition lower (c : Z) : Z := if (65 <=? c) && (c <=? 70) then c + 32 else c.

(** The values of the C++ fields. *)
Definition uuid_ok (u : uuid) : Prop :=
  0 <= data1 u < 2 ^ 32 /\
  length (data2 u) = 3%nat /\ Forall (fun x => 0 <= x < 2 ^ 16) (data2 u) /\
  length (data3 u) = 6%nat /\ Forall (fun x => 0 <= x < 2 ^ 8) (data3 u).

(** The UUID read as one 128-bit number, most significant field first. *)
Definition uuid_number (u : uuid) : Z :=
  fold_left (fun a b => a * 2 ^ 8 + b) (data3 u)
    (fold_left (fun a b => a * 2 ^ 16 + b) (data2 u) (data1 u)).

(** The number written by the hexadecimal digits of a text (dashes skipped). *)
Definition text_number (s : list Z) : Z :=
  fold_left (fun a c => if c =? 45 then a else a * 16 + hexa_value c) s 0.
