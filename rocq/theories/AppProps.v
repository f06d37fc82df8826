(** C101: the appenders of the logger. *)
From Coq Require Import ZArith List Bool Lia.
From Verif Require Import Base Text UuidModel UuidProofs Assoc LogTextModel LogTextSpec LogTextProofs LogTextProps AppModel AppSpec AppProofs.
Import ListNotations.
Local Open Scope Z_scope.

Definition any_regex (r : list Z) : option (list Z -> bool) :=
  match r with 42 :: _ => None | _ => Some (list_eqb r) end.
Definition sample_lines : list (list Z) :=
  [ codes "# the appenders"; codes "log.rootLogger = c, f,x,g"; codes "log.appender.c = ConsoleAppender";
    codes "log.appender.f=FileAppender"; codes "log.appender.f.File = out.log"; codes "log.appender.x = Nothing";
    codes "log.appender.f = ConsoleAppender"; codes "what"; codes "log.appender.c.path = *";
    codes "log.appender.f.layout.conversionPattern = %m\n" ].

(** The appenders are those of the names listed by log.rootLogger, in that order; each
    writes where its class says and has the levels, the layout and the filter given under
    its own name.  A name without a class, or with an unknown one, gives no appender. *)
Theorem C101_selected (regex : list Z -> option (list Z -> bool)) (lines : list (list Z)) (names : list Z) :
  configured lines (codes "log.rootLogger") names ->
  exists mss, fst (configure regex lines) = concat mss /\
    Forall2 (fun n ms =>
        chosen lines n (map dst ms) /\
        Forall (fun m => exists ok,
          app m = make_appender (codes "log.appender." ++ n) (parse_properties lines) ok /\
          (not_configured lines (codes "log.appender." ++ n ++ codes ".path") -> forall p, ok p = true) /\
          (forall r, configured lines (codes "log.appender." ++ n ++ codes ".path") r ->
             match regex (unescape r) with Some f => ok = f | None => forall p, ok p = true end)) ms)
      (split 44 names) mss.
Proof.
  intros C. apply configured_lookup in C. unfold configure. rewrite C.
  destruct (create_all_ok regex lines (split 44 names)) as (mss & E & F).
  exists mss. split; [destruct (create_all regex (split 44 names) (parse_properties lines)); exact E|].
  clear E. induction F as [|n ms ns mss [H1 H2] F IH]; constructor; [|exact IH]. split; [exact H1|].
  eapply Forall_impl; [|exact H2]. intros m (ok & A & B). exists ok. split; [exact A|].
  unfold filter_of in B. now rewrite <- app_assoc in B.
Qed.

Example C101_selected_example :
  map dst (fst (configure any_regex sample_lines)) = [Console; File (codes "out.log")] /\
  snd (configure any_regex sample_lines) =
    [InvalidLine (codes "what"); InvalidRegex (codes "*"); NoSuchClass (codes "Nothing"); NoSuchAppender (codes "g")] /\
  configured sample_lines (codes "log.rootLogger") (codes "c, f,x,g").
Proof.
  split; [vm_compute; reflexivity|]. split; [vm_compute; reflexivity|].
  apply configured_lookup. vm_compute. reflexivity.
Qed.

(** Without such a list, one appender writes to the console. *)
Theorem C101_default (regex : list Z -> option (list Z -> bool)) (lines : list (list Z)) :
  not_configured lines (codes "log.rootLogger") ->
  exists m ok, fst (configure regex lines) = [m] /\ dst m = Console /\
    app m = make_appender (codes "log.appender.default") (parse_properties lines) ok /\
    (not_configured lines (codes "log.appender.default.path") -> forall p, ok p = true).
Proof.
  intros N. apply not_configured_lookup in N. unfold configure. rewrite N.
  destruct (new_appender_ok regex lines (codes "log.appender.default") Console) as [D (ok & A & F)].
  destruct (new_appender regex Console (codes "log.appender.default") (parse_properties lines)) as [m rs].
  cbn [fst] in *. exists m, ok. repeat split; try assumption. exact (proj1 F).
Qed.

Example C101_default_example :
  not_configured [codes "log.appender.default.levels = Error"] (codes "log.rootLogger") /\
  map dst (fst (configure any_regex [])) = [Console].
Proof. split; [apply not_configured_lookup; vm_compute; reflexivity|vm_compute; reflexivity]. Qed.

(** What cannot be used is reported: a line that is not a definition, a listed name
    without a class, an unknown class, and an invalid expression or an unknown layout of an
    appender; and nothing else is. *)
Theorem C101_reports (regex : list Z -> option (list Z -> bool)) (lines : list (list Z)) (names : list Z) :
  configured lines (codes "log.rootLogger") names ->
  let rs := snd (configure regex lines) in
  (forall l, In l lines -> trim l <> [] -> hd 0 (trim l) <> 35 -> (forall n v, ~ defines l n v) -> In (InvalidLine (trim l)) rs) /\
  (forall n, In n (split 44 names) -> not_configured lines (codes "log.appender." ++ n) -> In (NoSuchAppender n) rs) /\
  (forall n c, In n (split 44 names) -> configured lines (codes "log.appender." ++ n) c ->
     c <> codes "ConsoleAppender" -> c <> codes "FileAppender" -> In (NoSuchClass c) rs) /\
  (forall n c t, In n (split 44 names) -> configured lines (codes "log.appender." ++ n) c ->
     c = codes "ConsoleAppender" \/ c = codes "FileAppender" ->
     (configured lines (codes "log.appender." ++ n ++ codes ".path") t -> regex (unescape t) = None -> In (InvalidRegex t) rs) /\
     (configured lines (codes "log.appender." ++ n ++ codes ".layout") t ->
      t <> codes "SimpleLayout" -> t <> codes "PatternLayout" -> In (NoSuchLayout t) rs)) /\
  (forall r, In r rs -> match r with
     | InvalidLine t => exists l, In l lines /\ t = trim l /\ forall n v, ~ defines l n v
     | NoSuchAppender n => In n (split 44 names) /\ not_configured lines (codes "log.appender." ++ n)
     | NoSuchClass c => exists n, In n (split 44 names) /\ configured lines (codes "log.appender." ++ n) c /\
         c <> codes "ConsoleAppender" /\ c <> codes "FileAppender"
     | InvalidRegex t => exists n, In n (split 44 names) /\
         configured lines (codes "log.appender." ++ n ++ codes ".path") t /\ regex (unescape t) = None
     | NoSuchLayout t => exists n, In n (split 44 names) /\
         configured lines (codes "log.appender." ++ n ++ codes ".layout") t /\
         t <> codes "SimpleLayout" /\ t <> codes "PatternLayout"
     end).
Proof. exact (reports_ok regex lines names). Qed.

Example C101_reports_example :
  In (codes "g") (split 44 (codes "c, f,x,g")) /\ not_configured sample_lines (codes "log.appender." ++ codes "g") /\
  configured sample_lines (codes "log.appender." ++ codes "x") (codes "Nothing").
Proof.
  split; [vm_compute; tauto|]. split; [apply not_configured_lookup|apply configured_lookup]; vm_compute; reflexivity.
Qed.

(** The console shows, entry by entry and for each entry appender by appender, what the
    console appenders write. *)
Theorem C101_console (ms : list made) (es : list entry) (s : outputs) :
  log_all ms es fresh = Ok s ->
  con s = flat_map (fun e => flat_map (fun m => if on_console m then text m e else []) ms) es.
Proof. intros H. now rewrite (log_all_console ms es fresh s H). Qed.

(** A file used by one appender contains what that appender writes for the entries, in
    order. *)
Theorem C101_file_partial (before : list made) (m : made) (after : list made) (f : list Z) (es : list entry) (s : outputs) :
  dst m = File f -> (forall x, In x (before ++ after) -> dst x <> File f) ->
  log_all (before ++ m :: after) es fresh = Ok s ->
  files s f = flat_map (text m) es.
Proof. intros D N H. exact (log_all_file f before m after es D N fresh s eq_refl H). Qed.

Definition two_files : list (list Z) :=
  [ codes "log.rootLogger = a,b"; codes "log.appender.a = FileAppender"; codes "log.appender.b = FileAppender";
    codes "log.appender.a.layout.conversionPattern = %m+%m\n"; codes "log.appender.b.layout.conversionPattern = %k\n" ].
Definition twice : list entry := [sample; sample].

Example C101_file_example :
  exists s, log_all (fst (configure any_regex sample_lines)) twice fresh = Ok s /\
    files s (codes "out.log") = codes "hello" ++ [10] ++ codes "hello" ++ [10] /\
    files s (codes "simulator.log") = [] /\ con s <> [].
Proof.
  destruct (log_all (fst (configure any_regex sample_lines)) twice fresh) as [s|[]|] eqn:E; [|vm_compute in E; discriminate].
  exists s. vm_compute in E. injection E as <-. repeat split; try (vm_compute; reflexivity). vm_compute. discriminate.
Qed.

(** With two appenders on one file (here both without a name for it), the second writes
    over what the first has written. *)
Theorem C101_file_refuted :
  exists lines es s ms, fst (configure any_regex lines) = ms /\ log_all ms es fresh = Ok s /\
    map dst ms = [File (codes "simulator.log"); File (codes "simulator.log")] /\
    flat_map (text (nth 0 ms (Made Console (make_appender [] [] (fun _ => true))))) es
      = codes "hello+hello" ++ [10] ++ codes "hello+hello" ++ [10] /\
    flat_map (text (nth 1 ms (Made Console (make_appender [] [] (fun _ => true))))) es
      = codes "Info" ++ [10] ++ codes "Info" ++ [10] /\
    files s (codes "simulator.log") = codes "Info" ++ [10] ++ codes "Info" ++ [10] ++ codes "o" ++ [10] ++ codes "hello+hello" ++ [10].
Proof.
  exists two_files, twice.
  destruct (log_all (fst (configure any_regex two_files)) twice fresh) as [s|[]|] eqn:E; [|vm_compute in E; discriminate].
  exists s, (fst (configure any_regex two_files)). split; [reflexivity|]. split; [exact E|].
  vm_compute in E. injection E as <-. repeat split; vm_compute; reflexivity.
Qed.

(** With layouts that are known and patterns that are complete, every entry can be
    logged. *)
Theorem C101_defined (regex : list Z -> option (list Z -> bool)) (lines : list (list Z)) (names : list Z) (es : list entry) :
  configured lines (codes "log.rootLogger") names ->
  (forall n, In n (split 44 names) -> sound_layout (codes "log.appender." ++ n) (parse_properties lines)) ->
  exists s, log_all (fst (configure regex lines)) es fresh = Ok s.
Proof.
  intros C L. apply log_all_defined. intros m e I.
  destruct (C101_selected regex lines names C) as (mss & E & F). rewrite E in I. apply in_concat in I as (ms & I1 & I2).
  assert (X : exists n, In n (split 44 names) /\ exists ok, app m = make_appender (codes "log.appender." ++ n) (parse_properties lines) ok).
  { clear E L. induction F as [|n ms' ns mss [_ H] F IH]; [contradiction|]. destruct I1 as [->|I1].
    - rewrite Forall_forall in H. destruct (H m I2) as (ok & A & _). exists n. split; [now left|eauto].
    - destruct (IH I1) as (n' & J & K). exists n'. split; [now right|exact K]. }
  destruct X as (n & J & ok & ->). apply C66_configuration_safe_partial. now apply L.
Qed.

Example C101_defined_example :
  (forall n, In n (split 44 (codes "c, f,x,g")) -> sound_layout (codes "log.appender." ++ n) (parse_properties sample_lines)).
Proof.
  intros n I. vm_compute in I. destruct I as [<-|[<-|[<-|[<-|[]]]]]; split; intros x H; vm_compute in H; try discriminate.
  injection H as <-. exists [Text; Char 10]. split; [|vm_compute; reflexivity].
  split; [|vm_compute; tauto]. repeat constructor; cbn; discriminate.
Qed.

Print Assumptions C101_selected.
Print Assumptions C101_reports.
Print Assumptions C101_file_partial.
