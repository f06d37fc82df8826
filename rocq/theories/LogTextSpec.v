(** What the configuration texts of the logger mean, independently of how they are
    read. *)
From Coq Require Import ZArith List Bool.
From Verif Require Import Base Text LogTextModel.
Import ListNotations.
Local Open Scope Z_scope.

(** White space of the C locale. *)
Definition white (c : Z) : Prop := c = 32 \/ 9 <= c <= 13.

(** [t] is [s] without the white space around it. *)
Definition trimmed (s t : list Z) : Prop :=
  (exists a b, s = a ++ t ++ b /\ Forall white a /\ Forall white b)
  /\ (forall c r, t = c :: r -> ~ white c)
  /\ (forall c r, t = r ++ [c] -> ~ white c).

(** The fields joined with a delimiter. *)
Fixpoint join (d : Z) (fs : list (list Z)) : list Z :=
  match fs with
  | [] => []
  | [f] => f
  | f :: fs => f ++ d :: join d fs
  end.

(** One way to write a text so that it survives [unescape]. *)
Definition escape_char (c : Z) : list Z :=
  if c =? 7 then codes "\a" else if c =? 8 then codes "\b" else if c =? 12 then codes "\f"
  else if c =? 10 then codes "\n" else if c =? 13 then codes "\r" else if c =? 9 then codes "\t"
  else if c =? 11 then codes "\v"
  else if (c =? 92) || (c =? 39) || (c =? 34) || (c =? 63) then [92; c]
  else [c].
Fixpoint escape (s : list Z) : list Z :=
  match s with [] => [] | c :: r => escape_char c ++ escape r end.

(** ** Patterns *)

(** What a pattern is made of. *)
Inductive item :=
| Char (c : Z)                       (** a character written as it is *)
| Path | KindName | Text             (** %p %k %m *)
| Tab | Newline | PercentSign        (** %t %n %% *)
| Number (w : when)                  (** %d %S %E %M *)
| Formatted (w : when) (fmt : list Z)(** the same followed by {...} *)
| Unknown (c : Z)                    (** % and any other character *).

Definition letter (w : when) : Z :=
  match w with Zulu => 100 | SimTime => 83 | Epoch => 69 | Mission => 77 end.

(** How an item is written in a pattern. *)
Definition show (i : item) : list Z :=
  match i with
  | Char c => [c]
  | Path => codes "%p" | KindName => codes "%k" | Text => codes "%m"
  | Tab => codes "%t" | Newline => codes "%n" | PercentSign => codes "%%"
  | Number w => [37; letter w]
  | Formatted w fmt => 37 :: letter w :: 123 :: fmt ++ [125]
  | Unknown c => [37; c]
  end.
Definition show_all (l : list item) : list Z := flat_map show l.

(** What it stands for in a message; an empty format is no format. *)
Definition render (e : entry) (i : item) : list Z :=
  match i with
  | Char c => [c]
  | Path => sender e | KindName => kind e | Text => message e
  | Tab => [9] | Newline => [10] | PercentSign => [37]
  | Number w => number e w
  | Formatted w [] => number e w
  | Formatted w fmt => formatted e w fmt
  | Unknown c => [37; c]
  end.
Definition render_all (e : entry) (l : list item) : list Z := flat_map (render e) l.

(** Items that are what they look like: a character is not a %, a format has no
    closing brace, an unknown letter is not a known one. *)
Definition item_ok (i : item) : Prop :=
  match i with
  | Char c => c <> 37
  | Formatted _ fmt => ~ In 125 fmt
  | Unknown c => ~ In c (codes "pkmtn%dSEM")
  | _ => True
  end.

(** ... and a time without format is not followed by an opening brace. *)
Fixpoint unambiguous (l : list item) : Prop :=
  match l with
  | Number _ :: ((Char c :: _) as l') => c <> 123 /\ unambiguous l'
  | _ :: l' => unambiguous l'
  | [] => True
  end.

Definition well_formed (l : list item) : Prop := Forall item_ok l /\ unambiguous l.

(** The two ways in which a pattern can be broken: it ends with a lonely %, or in a
    format that is not closed. *)
Definition broken (p : list Z) : Prop :=
  exists l, well_formed l /\
    (p = show_all l ++ [37]
     \/ exists w fmt, ~ In 125 fmt /\ p = show_all l ++ 37 :: letter w :: 123 :: fmt).

(** ** The properties file *)

(** A line that defines [name] as [value]: not a comment, and cut at its first
    equal sign, without the white space around the line and the two parts. *)
Definition defines (line name value : list Z) : Prop :=
  exists t a b,
    trimmed line t /\ t = a ++ 61 :: b /\ ~ In 61 a
    /\ (forall r, t <> 35 :: r)
    /\ trimmed a name /\ trimmed b value.
