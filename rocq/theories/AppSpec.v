(** What is expected of the appenders of the logger. *)
From Coq Require Import ZArith List Bool.
From Verif Require Import Base Text UuidModel Assoc LogTextModel LogTextSpec AppModel.
Import ListNotations.
Local Open Scope Z_scope.

(** The file defines a name: the first line that gives it a value counts. *)
Definition configured (lines : list (list Z)) (name value : list Z) : Prop :=
  exists before line after, lines = before ++ line :: after /\ defines line name value /\
    Forall (fun l => forall v, ~ defines l name v) before.
Definition not_configured (lines : list (list Z)) (name : list Z) : Prop :=
  Forall (fun l => forall v, ~ defines l name v) lines.

(** The appender of a name writes to the destination given by its class, if it is one of
    the two. *)
Inductive chosen (lines : list (list Z)) : list Z -> list dest -> Prop :=
| C_console n : configured lines (codes "log.appender." ++ n) (codes "ConsoleAppender") -> chosen lines n [Console]
| C_file n f : configured lines (codes "log.appender." ++ n) (codes "FileAppender") ->
    configured lines (codes "log.appender." ++ n ++ codes ".File") f -> chosen lines n [File f]
| C_default n : configured lines (codes "log.appender." ++ n) (codes "FileAppender") ->
    not_configured lines (codes "log.appender." ++ n ++ codes ".File") -> chosen lines n [File (codes "simulator.log")]
| C_unknown n c : configured lines (codes "log.appender." ++ n) c ->
    c <> codes "ConsoleAppender" -> c <> codes "FileAppender" -> chosen lines n []
| C_none n : not_configured lines (codes "log.appender." ++ n) -> chosen lines n [].

(** What an appender writes for an entry (C53 and C66 say what that is). *)
Definition text (m : made) (e : entry) : list Z :=
  match appender_append (app m) e with Ok t => t | _ => [] end.
Definition on_console (m : made) : bool := match dst m with Console => true | _ => false end.
