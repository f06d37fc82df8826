(** Literals for texts: the list of the byte values of a string. *)
From Coq Require Export String Ascii.
From Coq Require Export List. From Verif Require Export Base.

Fixpoint codes (s : string) : list Z :=
  match s with
  | EmptyString => []
  | String c r => Z.of_nat (nat_of_ascii c) :: codes r
  end.

Arguments codes _%string_scope.
