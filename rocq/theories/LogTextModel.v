(** Model of the text handling of src/Xsmp/Services/XsmpLogger.cpp: trim, unescape,
    split, the properties file and the layouts.  Texts are lists of byte values. *)
From Coq Require Import ZArith List Bool.
From Verif Require Import Base Text UuidModel Assoc.
Import ListNotations.
Local Open Scope Z_scope.

(** std::isspace in the C locale *)
Definition is_space (c : Z) : bool := (c =? 32) || ((9 <=? c) && (c <=? 13)).

(** XsmpLogger.cpp:55-60, ltrim *)
Fixpoint ltrim (s : list Z) : list Z :=
  match s with
  | [] => []
  | c :: r => if is_space c then ltrim r else s
  end.

(** XsmpLogger.cpp:62-68, rtrim: the same from the end *)
Definition rtrim (s : list Z) : list Z := rev (ltrim (rev s)).

(** XsmpLogger.cpp:70-74, trim *)
Definition trim (s : list Z) : list Z := rtrim (ltrim s).

(** XsmpLogger.cpp:82-118, the character after a backslash *)
Definition unescape_char (c : Z) : Z :=
  if c =? 97 then 7          (* \a *)
  else if c =? 98 then 8     (* \b *)
  else if c =? 102 then 12   (* \f *)
  else if c =? 110 then 10   (* \n *)
  else if c =? 114 then 13   (* \r *)
  else if c =? 116 then 9    (* \t *)
  else if c =? 118 then 11   (* \v *)
  else c.                    (* quotes, question mark, backslash, any other *)

(** XsmpLogger.cpp:75-129, unescape; a backslash at the end disappears. *)
Fixpoint unescape (s : list Z) : list Z :=
  match s with
  | [] => []
  | c :: r =>
      if c =? 92 then
        match r with
        | [] => []
        | k :: r' => unescape_char k :: unescape r'
        end
      else c :: unescape r
  end.

(** XsmpLogger.cpp:131-151, split; [cur] is the part since the last delimiter. *)
Fixpoint split_from (d : Z) (cur s : list Z) : list (list Z) :=
  match s with
  | [] => match trim cur with [] => [] | t => [t] end
  | c :: r =>
      if c =? d then trim cur :: split_from d [] r
      else split_from d (cur ++ [c]) r
  end.
Definition split (d : Z) (s : list Z) : list (list Z) := split_from d [] s.

(** XsmpLogger.cpp:496-514, one line of the properties file: name and value. *)
Fixpoint cut_at (d : Z) (s : list Z) : option (list Z * list Z) :=
  match s with
  | [] => None
  | c :: r =>
      if c =? d then Some ([], r)
      else match cut_at d r with Some (a, b) => Some (c :: a, b) | None => None end
  end.

Definition parse_line (line : list Z) : option (list Z * list Z) :=
  match trim line with
  | [] => None
  | c :: r =>
      if c =? 35 then None
      else match cut_at 61 (c :: r) with
           | Some (name, value) => Some (rtrim name, ltrim value)
           | None => None
           end
  end.

(** The lines in order; try_emplace keeps what is there already. *)
Definition lookup (n : list Z) (m : list (list Z * list Z)) : option (list Z) :=
  aget list_eqb n m.
Definition try_emplace (n v : list Z) (m : list (list Z * list Z)) : list (list Z * list Z) :=
  atry list_eqb n v m.

Definition parse_properties (lines : list (list Z)) : list (list Z * list Z) :=
  fold_left (fun m l => match parse_line l with Some (n, v) => try_emplace n v m | None => m end)
            lines [].

(** * Layouts *)

Inductive when := Zulu | SimTime | Epoch | Mission.

(** What a layout writes for a log entry: the texts of the entry, its times as
    numbers, and its times in a format. *)
Record entry := Entry {
  sender : list Z; kind : list Z; message : list Z;
  number : when -> list Z;
  sim_text : list Z;
  formatted : when -> list Z -> list Z
}.

Definition time_key (c : Z) : option when :=
  if c =? 100 then Some Zulu else if c =? 83 then Some SimTime
  else if c =? 69 then Some Epoch else if c =? 77 then Some Mission else None.

(** GetFormatting (XsmpLogger.cpp:287-297) then the lambda [format]
    (XsmpLogger.cpp:202-209). *)
Definition write_time (e : entry) (w : when) (fmt : list Z) : list Z :=
  match fmt with [] => number e w | _ => formatted e w fmt end.

Definition write_key (e : entry) (c : Z) : list Z :=
  if c =? 112 then sender e
  else if c =? 107 then kind e
  else if c =? 109 then message e
  else if c =? 116 then [9]
  else if c =? 110 then [10]
  else if c =? 37 then [37]
  else [37; c].

(** Where Append is in the pattern. *)
Inductive mode :=
| Normal
| Percent                            (** just after a % *)
| AfterTime (w : when)               (** just after %d, %S, %E or %M *)
| InFormat (w : when) (fmt : list Z) (** after the opening brace *).

Definition prepend (o : list Z) (r : res Empty_set (list Z)) : res Empty_set (list Z) :=
  bind r (fun l => Ok (o ++ l)).

(** XsmpLogger.cpp:199-257, PatternLayout::Append, on the rest of the pattern.  The
    byte after the last one is the terminating zero; after a final % the loop
    steps over it, and GetFormatting without a closing brace does too: both read
    outside the pattern. *)
Fixpoint append_from (e : entry) (m : mode) (p : list Z) : res Empty_set (list Z) :=
  match m, p with
  | Normal, [] => Ok []
  | Normal, c :: r =>
      if c =? 37 then append_from e Percent r else prepend [c] (append_from e Normal r)
  | Percent, [] => UB
  | Percent, c :: r =>
      match time_key c with
      | Some w => append_from e (AfterTime w) r
      | None => prepend (write_key e c) (append_from e Normal r)
      end
  | AfterTime w, [] => Ok (write_time e w [])
  | AfterTime w, c :: r =>
      if c =? 123 then append_from e (InFormat w []) r
      else prepend (write_time e w [])
             (if c =? 37 then append_from e Percent r else prepend [c] (append_from e Normal r))
  | InFormat w fmt, [] => UB
  | InFormat w fmt, c :: r =>
      if c =? 125 then prepend (write_time e w fmt) (append_from e Normal r)
      else append_from e (InFormat w (fmt ++ [c])) r
  end.

Definition append (e : entry) (p : list Z) : res Empty_set (list Z) := append_from e Normal p.

Inductive layout := Simple | Pattern (p : list Z).

(** XsmpLogger.cpp:284-285 *)
Definition default_pattern : list Z := codes "%d{%F %T}%t%S%t%p%t%k%t%m%n".

(** XsmpLogger.cpp:263-286, ComputePatternLayout *)
Definition pattern_of (path : list Z) (props : list (list Z * list Z)) : list Z :=
  match lookup (path ++ codes ".conversionPattern") props with
  | Some p => unescape p
  | None => default_pattern
  end.

(** XsmpLogger.cpp:301-321, the layout of an appender; an unknown name leaves it
    null. *)
Definition make_layout (path : list Z) (props : list (list Z * list Z)) : option layout :=
  let key := path ++ codes ".layout" in
  match lookup key props with
  | Some n =>
      if list_eqb n (codes "SimpleLayout") then Some Simple
      else if list_eqb n (codes "PatternLayout") then Some (Pattern (pattern_of key props))
      else None
  | None => Some (Pattern (pattern_of key props))
  end.

(** XsmpLogger.cpp:355-357 and 182-185: _layout->Append. *)
Definition write_entry (l : option layout) (e : entry) : res Empty_set (list Z) :=
  match l with
  | None => UB
  | Some Simple =>
      Ok (sim_text e ++ [9] ++ sender e ++ [9] ++ kind e ++ [9] ++ message e ++ [10])
  | Some (Pattern p) => append e p
  end.

(** XsmpLogger.cpp:300-343, an appender: its layout, its levels, and its filter on
    paths ([path_ok]; std::regex is not modelled, an absent or invalid expression
    accepts every path). *)
Record appender := Appender {
  lay : option layout; levels : list (list Z); path_ok : list Z -> bool
}.

Definition make_appender (path : list Z) (props : list (list Z * list Z))
    (path_ok : list Z -> bool) : appender :=
  Appender (make_layout path props)
    (match lookup (path ++ codes ".levels") props with
     | Some v => split 44 v
     | None => []
     end) path_ok.

(** XsmpLogger.cpp:345-351, Appender::Append: what is added to the output. *)
Definition appender_append (a : appender) (e : entry) : res Empty_set (list Z) :=
  if (match levels a with [] => true | l => existsb (list_eqb (kind e)) l end)
     && path_ok a (sender e)
  then write_entry (lay a) e else Ok [].
