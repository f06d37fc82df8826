(** The appenders of the logger: src/Xsmp/Services/XsmpLogger.cpp, the reading of the
    properties file, the creation of the appenders and what they write.  Texts are lists of
    byte values. *)
From Coq Require Import ZArith List Bool.
From Verif Require Import Base Text UuidModel Assoc LogTextModel.
Import ListNotations.
Local Open Scope Z_scope.

(** Where an appender writes: XsmpLogger.cpp:365-407. *)
Inductive dest := Console | File (name : list Z).
Record made := Made { dst : dest; app : appender }.

(** What is written to std::cerr. *)
Inductive report :=
| InvalidLine (line : list Z)      (** 510-512 *)
| NoSuchLayout (name : list Z)     (** 311-315 *)
| InvalidRegex (text : list Z)     (** 335-338 *)
| NoSuchClass (name : list Z)      (** 529-533 *)
| NoSuchAppender (name : list Z)   (** 536-541 *).

Section Config.
  (** std::regex: the paths that an expression matches, if it is valid. *)
  Variable regex : list Z -> option (list Z -> bool).

  (** XsmpLogger.cpp:496-514, the lines that are neither empty, nor a comment, nor a
      definition. *)
  Definition line_report (line : list Z) : list report :=
    match trim line with
    | [] => []
    | c :: r => if c =? 35 then [] else match cut_at 61 (c :: r) with Some _ => [] | None => [InvalidLine (trim line)] end
    end.

  (** XsmpLogger.cpp:300-343, the constructor of Appender *)
  Definition path_filter (path : list Z) (props : list (list Z * list Z)) : (list Z -> bool) * list report :=
    match lookup (path ++ codes ".path") props with
    | Some r => match regex (unescape r) with Some f => (f, []) | None => (fun _ => true, [InvalidRegex r]) end
    | None => (fun _ => true, [])
    end.
  Definition layout_report (path : list Z) (props : list (list Z * list Z)) : list report :=
    match make_layout path props, lookup (path ++ codes ".layout") props with
    | None, Some n => [NoSuchLayout n]
    | _, _ => []
    end.
  Definition new_appender (d : dest) (path : list Z) (props : list (list Z * list Z)) : made * list report :=
    let '(ok, rs) := path_filter path props in
    (Made d (make_appender path props ok), layout_report path props ++ rs).

  (** XsmpLogger.cpp:398-405, GetFileName *)
  Definition file_name (path : list Z) (props : list (list Z * list Z)) : list Z :=
    match lookup (path ++ codes ".File") props with Some f => f | None => codes "simulator.log" end.

  (** XsmpLogger.cpp:518-543, CreateAppender *)
  Definition create_appender (name : list Z) (props : list (list Z * list Z)) : list made * list report :=
    let path := codes "log.appender." ++ name in
    match lookup path props with
    | Some c =>
        if list_eqb c (codes "ConsoleAppender") then let '(m, r) := new_appender Console path props in ([m], r)
        else if list_eqb c (codes "FileAppender")
             then let '(m, r) := new_appender (File (file_name path props)) path props in ([m], r)
        else ([], [NoSuchClass c])
    | None => ([], [NoSuchAppender name])
    end.
  Fixpoint create_all (names : list (list Z)) (props : list (list Z * list Z)) : list made * list report :=
    match names with
    | [] => ([], [])
    | n :: r =>
        let '(ms, rs) := create_appender n props in
        let '(ms', rs') := create_all r props in
        (ms ++ ms', rs ++ rs')
    end.

  (** XsmpLogger.cpp:410-424, the constructor of LoggerProcessor, with the lines of
      XsmpLogger.properties (no line when there is no such file: 490-517). *)
  Definition configure (lines : list (list Z)) : list made * list report :=
    let props := parse_properties lines in
    let rs := flat_map line_report lines in
    match lookup (codes "log.rootLogger") props with
    | Some names => let '(ms, rs') := create_all (split 44 names) props in (ms, rs ++ rs')
    | None => let '(m, rs') := new_appender Console (codes "log.appender.default") props in ([m], rs ++ rs')
    end.
End Config.

(** * Writing *)

(** The console, the contents of the files, and how far each stream has written in its
    file.  XsmpLogger.cpp:388-392: every file appender opens its file on its own, which
    empties it.  Simplified: what is written reaches the file at once. *)
Record outputs := Outputs { con : list Z; files : list Z -> list Z; pos : nat -> nat }.
Definition fresh : outputs := Outputs [] (fun _ => []) (fun _ => O).

(** Writing [t] in [old] at position [p]. *)
Definition overwrite (old : list Z) (p : nat) (t : list Z) : list Z := firstn p old ++ t ++ skipn (p + length t) old.

(** XsmpLogger.cpp:377-380 and 396, DoAppend of the [k]th appender *)
Definition emit (k : nat) (d : dest) (t : list Z) (s : outputs) : outputs :=
  match d with
  | Console => Outputs (con s ++ t) (files s) (pos s)
  | File f =>
      Outputs (con s)
        (fun g => if list_eqb g f then overwrite (files s f) (pos s k) t else files s g)
        (fun j => if Nat.eqb j k then (pos s k + length t)%nat else pos s j)
  end.

(** XsmpLogger.cpp:470-472 and 482-484: an entry is given to every appender. *)
Fixpoint to_all (k : nat) (ms : list made) (e : entry) (s : outputs) : res Empty_set outputs :=
  match ms with
  | [] => Ok s
  | m :: r => bind (appender_append (app m) e) (fun t => to_all (S k) r e (emit k (dst m) t s))
  end.
(** XsmpLogger.cpp:463-488, the entries in the order of the queue. *)
Fixpoint log_all (ms : list made) (es : list entry) (s : outputs) : res Empty_set outputs :=
  match es with
  | [] => Ok s
  | e :: r => bind (to_all 0 ms e s) (fun s' => log_all ms r s')
  end.
