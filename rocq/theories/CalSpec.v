(** What is meant by the texts of durations and dates. *)
From Verif Require Import Base.
From Coq Require Import ZArith List Bool.
Import ListNotations.
Local Open Scope Z_scope.

(** Order of texts, character by character (as strcmp or sort(1) on ASCII). *)
Fixpoint before (s t : list Z) : Prop :=
  match s, t with
  | _, [] => False
  | [], _ :: _ => True
  | a :: s', b :: t' => a < b \/ (a = b /\ before s' t')
  end.

(** The value of a sequence of decimal digits. *)
Definition is_digit (c : Z) : Prop := 48 <= c <= 57.
Definition decimal_of (l : list Z) : Z := fold_left (fun a c => 10 * a + (c - 48)) l 0.

(** [number w t v]: [t] is the number [v] in decimal on [w] digits. *)
Definition number (w : nat) (t : list Z) (v : Z) : Prop :=
  Forall is_digit t /\ length t = w /\ decimal_of t = v.

(** The civil calendar, day after day. *)
Definition leap (y : Z) : bool :=
  (y mod 4 =? 0) && (negb (y mod 100 =? 0) || (y mod 400 =? 0)).
Definition month_length (y m : Z) : Z :=
  if m =? 2 then (if leap y then 29 else 28)
  else if (m =? 4) || (m =? 6) || (m =? 9) || (m =? 11) then 30 else 31.
Definition next_day (x : Z * Z * Z) : Z * Z * Z :=
  let '(y, m, d) := x in
  if d <? month_length y m then (y, m, d + 1)
  else if m <? 12 then (y, m + 1, 1) else (y + 1, 1, 1).
Definition real_day (x : Z * Z * Z) : Prop :=
  let '(y, m, d) := x in 1 <= m <= 12 /\ 1 <= d <= month_length y m.

(** [on_day n x]: the day [x] is [n] days after the first of January 2000 (before it
    when [n] is negative). *)
Inductive on_day : Z -> Z * Z * Z -> Prop :=
| day_first : on_day 0 (2000, 1, 1)
| day_next n x : on_day n x -> on_day (n + 1) (next_day x)
| day_back n x : on_day n (next_day x) -> real_day x -> on_day (n - 1) x.

(** Writing of the hours, minutes and seconds of [t] nanoseconds: the fields are
    written on [wh], 2, 2 and 9 digits. *)
Definition clock (wh : nat) (text : list Z) (t : Z) : Prop :=
  exists th tm ts tf h m s f,
    text = th ++ [58] ++ tm ++ [58] ++ ts ++ [46] ++ tf /\
    number wh th h /\ number 2 tm m /\ number 2 ts s /\ number 9 tf f /\
    m < 60 /\ s < 60 /\
    t = ((h * 60 + m) * 60 + s) * 1000000000 + f.

(** Writing of a day: year, month and day on 4, 2 and 2 digits. *)
Definition day_text (text : list Z) (x : Z * Z * Z) : Prop :=
  let '(y, m, d) := x in
  exists ty tm td, text = ty ++ [45] ++ tm ++ [45] ++ td /\ number 4 ty y /\ number 2 tm m /\ number 2 td d.

(** Writing of a date-time: [dt] nanoseconds after the first of January 2000 at noon. *)
Definition day_length : Z := 24 * 60 * 60 * 1000000000.
Definition noon : Z := 12 * 60 * 60 * 1000000000.
Definition date (text : list Z) (dt : Z) : Prop :=
  exists tday tclock n x t,
    text = tday ++ [32] ++ tclock /\ day_text tday x /\ on_day n x /\ clock 2 tclock t /\
    0 <= t < day_length /\ dt + noon = n * day_length + t.
