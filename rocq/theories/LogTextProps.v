(** C53 and C66: the configuration texts of the logger. *)
From Coq Require Import ZArith List Bool Lia.
From Verif Require Import Base Text UuidModel UuidProofs Assoc LogTextModel LogTextSpec LogTextProofs.
Import ListNotations.
Local Open Scope Z_scope.

(** The whole text is cut at every delimiter and each field trimmed; the last field
    is left out when nothing remains of it. *)
Theorem C53_split_fields (d : Z) (s : list Z) :
  exists fs f, s = join d (fs ++ [f]) /\ Forall (fun x => ~ In d x) (fs ++ [f]) /\
    exists ts t, Forall2 trimmed fs ts /\ trimmed f t /\
      split d s = ts ++ (if list_eqb t [] then [] else [t]).
Proof.
  destruct (join_exists d s) as [fs [f [-> [F Hf]]]].
  exists fs, f. split; [reflexivity|]. split; [apply Forall_app; split; [assumption|now constructor]|].
  exists (map trim fs), (trim f). split.
  - clear F. induction fs; cbn; constructor; [apply trim_trimmed|assumption].
  - split; [apply trim_trimmed|]. rewrite split_join by assumption.
    destruct (trim f); reflexivity.
Qed.

(** The fields are determined by the text, so this says all about the result. *)
Theorem C53_fields_unique (d : Z) (fs gs : list (list Z)) :
  fs <> [] -> gs <> [] ->
  Forall (fun x => ~ In d x) fs -> Forall (fun x => ~ In d x) gs ->
  join d fs = join d gs -> fs = gs.
Proof.
  assert (cut : forall a b : list Z, ~ In d a -> ~ In d b -> forall x y,
            a ++ d :: x = b ++ d :: y -> a = b /\ x = y).
  { induction a as [|c a IH]; intros b Ha Hb x y E.
    - destruct b as [|c' b]; [now injection E as ->|].
      cbn in E. injection E as <- _. exfalso. apply Hb. now left.
    - destruct b as [|c' b].
      + cbn in E. injection E as -> _. exfalso. apply Ha. now left.
      + cbn in E. injection E as -> E. cbn in Ha, Hb.
        destruct (IH b ltac:(tauto) ltac:(tauto) x y E) as [-> ->]. now split. }
  assert (cons2 : forall f g (r : list (list Z)), join d (f :: g :: r) = f ++ d :: join d (g :: r))
    by reflexivity.
  intros Nf Ng Ff. revert gs Ng. induction Ff as [|f fs Hf Ff IH]; intros gs Ng Fg E; [congruence|].
  destruct Fg as [|g gs Hg Fg]; [congruence|].
  destruct fs as [|f2 fs]; destruct gs as [|g2 gs].
  - cbn in E. now subst.
  - rewrite cons2 in E. cbn in E. exfalso. apply Hf. rewrite E, in_app_iff. right. now left.
  - rewrite cons2 in E. cbn in E. exfalso. apply Hg. rewrite <- E, in_app_iff. right. now left.
  - rewrite !cons2 in E. destruct (cut f g Hf Hg _ _ E) as [-> E'].
    f_equal. apply IH; [discriminate|discriminate|assumption|assumption].
Qed.

(** A trimmed text is unique too. *)
Theorem C53_trimmed_unique (s t t' : list Z) : trimmed s t -> trimmed s t' -> t = t'.
Proof. rewrite !trimmed_iff. congruence. Qed.

Theorem C53_unescape_inverts (s : list Z) : unescape (escape s) = s.
Proof. apply unescape_escape. Qed.

Theorem C53_unescape_plain (s : list Z) : ~ In 92 s -> unescape s = s.
Proof. apply unescape_plain. Qed.

(** A well formed pattern is written item by item, whatever the entry. *)
Theorem C53_pattern_meaning (e : entry) (l : list item) :
  well_formed l -> append e (show_all l) = Ok (render_all e l).
Proof. apply append_well_formed. Qed.

(** Every pattern either is well formed, and read inside its bounds, or ends in a
    lonely percent sign or an unclosed format, and then is read beyond its end. *)
Theorem C53_pattern_reads_inside_partial (e : entry) (p : list Z) :
  ((exists l, well_formed l /\ p = show_all l /\ append e p = Ok (render_all e l)) /\ ~ broken p)
  \/ (broken p /\ append e p = UB /\ ~ exists l, well_formed l /\ p = show_all l).
Proof.
  destruct (append_total e p) as [[o E]|E].
  - left. split.
    + pose proof E as E'. apply append_ok_iff in E. destruct E as [l [W [P ->]]].
      exists l. now split.
    + intros B. apply append_ub_iff with (e := e) in B. congruence.
  - right. split; [now apply (append_ub_iff e)|]. split; [assumption|].
    intros [l [W ->]]. rewrite append_well_formed in E by assumption. discriminate.
Qed.

(** Such patterns are read beyond their end: nothing refuses them. *)
Theorem C53_pattern_reads_inside_refuted :
  exists p1 p2 : list Z, forall e, append e p1 = UB /\ append e p2 = UB.
Proof. exists (codes "%m 100%"), (codes "%d{%F %m"). intros e. split; reflexivity. Qed.

(** The first line that defines a name counts. *)
Theorem C53_properties_first_wins (lines : list (list Z)) (n v : list Z) :
  lookup n (parse_properties lines) = Some v <->
  exists before line after, lines = before ++ line :: after /\ defines line n v
    /\ Forall (fun l => forall v', ~ defines l n v') before.
Proof. apply properties_first_wins. Qed.

(** Non-vacuity *)
Example C53_split_example :
  split 44 (codes " Error, Warning ,, Info , ") = [codes "Error"; codes "Warning"; []; codes "Info"].
Proof. reflexivity. Qed.

Example C53_escape_example :
  escape [65; 10; 92; 66] = codes "A\n\\B" /\ unescape (codes "A\n\\B\q\") = [65; 10; 92; 66; 113].
Proof. split; reflexivity. Qed.

Definition sample : entry :=
  Entry (codes "/Models/m") (codes "Info") (codes "hello")
    (fun _ => codes "12") (codes "0:12") (fun _ f => codes "<" ++ f ++ codes ">").

Example C53_pattern_example :
  well_formed [Formatted Zulu (codes "%F %T"); Tab; Number SimTime; Tab; Path; Tab; KindName; Tab;
               Text; Newline]
  /\ show_all [Formatted Zulu (codes "%F %T"); Tab; Number SimTime; Tab; Path; Tab; KindName; Tab;
               Text; Newline] = default_pattern
  /\ append sample default_pattern
     = Ok (codes "<%F %T>" ++ [9] ++ codes "12" ++ [9] ++ codes "/Models/m" ++ [9] ++ codes "Info"
           ++ [9] ++ codes "hello" ++ [10]).
Proof.
  split; [|split; reflexivity]. split; [|vm_compute; tauto].
  repeat constructor. vm_compute. intuition discriminate.
Qed.

Example C53_properties_example :
  lookup (codes "log.a")
    (parse_properties [codes "# log.a = 0"; codes "no equal sign"; codes " log.a = 1 = 2 "; codes "log.a=3"])
  = Some (codes "1 = 2").
Proof. reflexivity. Qed.

(** ** C66: a logger configuration never makes logging undefined *)

(** What is needed: the layout is absent or one of the two names, and the pattern
    well formed. *)
Definition sound_layout (path : list Z) (props : list (list Z * list Z)) : Prop :=
  let key := path ++ codes ".layout" in
  (forall n, lookup key props = Some n -> n = codes "SimpleLayout" \/ n = codes "PatternLayout")
  /\ (forall p, lookup (key ++ codes ".conversionPattern") props = Some p ->
      exists l, well_formed l /\ unescape p = show_all l).

Theorem C66_configuration_safe_partial
    (path : list Z) (props : list (list Z * list Z)) (ok : list Z -> bool) (e : entry) :
  sound_layout path props ->
  exists o, appender_append (make_appender path props ok) e = Ok o.
Proof.
  intros [H1 H2]. unfold appender_append, make_appender. cbn [levels path_ok lay].
  destruct (_ && _); [|eauto].
  assert (Pat : exists o, append e (pattern_of (path ++ codes ".layout") props) = Ok o).
  { unfold pattern_of.
    destruct (lookup ((path ++ codes ".layout") ++ codes ".conversionPattern") props) as [p|] eqn:E.
    - destruct (H2 p eq_refl) as [l [W ->]]. exists (render_all e l). now apply append_well_formed.
    - eexists. reflexivity. }
  unfold make_layout.
  destruct (lookup (path ++ codes ".layout") props) as [n|] eqn:E; [|exact Pat].
  destruct (H1 n eq_refl) as [->| ->].
  - rewrite (proj2 (list_eqb_eq _ _) eq_refl). cbn. eauto.
  - rewrite (proj2 (list_eqb_eq (codes "PatternLayout") _) eq_refl).
    destruct (list_eqb (codes "PatternLayout") (codes "SimpleLayout")); [cbn; eauto|exact Pat].
Qed.

(** An entry the filters refuse is never written; an empty list of levels accepts
    every kind. *)
Theorem C66_filters (a : appender) (e : entry) :
  (levels a <> [] /\ ~ In (kind e) (levels a)) \/ path_ok a (sender e) = false ->
  appender_append a e = Ok [].
Proof.
  unfold appender_append. intros [[N H]| ->]; [|now rewrite andb_false_r].
  destruct (levels a) as [|l ls] eqn:L; [congruence|].
  replace (existsb (list_eqb (kind e)) (l :: ls)) with false; [reflexivity|].
  symmetry. apply not_true_is_false. intros X. apply existsb_exists in X.
  destruct X as [x [I E]]. apply list_eqb_eq in E. subst. contradiction.
Qed.

(** The levels of an appender are the words between the commas of its property, without the
    white space around them (an empty last one does not count); without the property every
    level is accepted. *)
Theorem C66_levels (path : list Z) (props : list (list Z * list Z)) (ok : list Z -> bool) :
  let a := make_appender path props ok in
  (lookup (path ++ codes ".levels") props = None -> levels a = []) /\
  (forall fs f, lookup (path ++ codes ".levels") props = Some (join 44 (fs ++ [f])) -> Forall (fun x => ~ In 44 x) (fs ++ [f]) ->
     forall k, In k (levels a) <-> (exists x, In x fs /\ trimmed x k) \/ (trimmed f k /\ k <> [])).
Proof.
  cbv zeta. cbn [levels make_appender]. split; [now intros ->|]. intros fs f -> F k.
  apply Forall_app in F as [F1 F2]. inversion F2; subst. rewrite split_join by assumption. rewrite in_app_iff, in_map_iff.
  split.
  - intros [(x & <- & I)|I]; [left; exists x; split; [exact I|apply trim_trimmed]|]. right. destruct (trim f) eqn:T; [destruct I|].
    destruct I as [<-|[]]. split; [apply trimmed_iff; now rewrite T|discriminate].
  - intros [(x & I & T)|[T N]]; apply trimmed_iff in T; subst k; [left; eauto|]. right. destruct (trim f); [congruence|now left].
Qed.

Example C66_levels_example :
  lookup (codes "log.appender.c" ++ codes ".levels") (parse_properties [codes "log.appender.c.levels = Error, Info"])
    = Some (join 44 ([codes "Error"] ++ [codes " Info"])) /\
  levels (make_appender (codes "log.appender.c") (parse_properties [codes "log.appender.c.levels = Error, Info"]) (fun _ => true))
    = [codes "Error"; codes "Info"].
Proof. vm_compute. split; reflexivity. Qed.

(** What an accepted entry adds to the output: with the simple layout the simulation time,
    the path of the sender, the kind and the message separated by tabulations; with the
    pattern layout, which is the default, the rendering of the pattern configured or of the
    default one (date, simulation time, path, kind and message separated by tabulations). *)
Theorem C66_writes (path : list Z) (props : list (list Z * list Z)) (ok : list Z -> bool) (e : entry) (l : list item) :
  let key := path ++ codes ".layout" in
  let a := make_appender path props ok in
  levels a = [] \/ In (kind e) (levels a) -> ok (sender e) = true ->
  (lookup key props = Some (codes "SimpleLayout") ->
     appender_append a e = Ok (sim_text e ++ [9] ++ sender e ++ [9] ++ kind e ++ [9] ++ message e ++ [10])) /\
  (lookup key props = None \/ lookup key props = Some (codes "PatternLayout") ->
     (forall p, lookup (key ++ codes ".conversionPattern") props = Some p -> well_formed l -> unescape p = show_all l ->
        appender_append a e = Ok (render_all e l)) /\
     (lookup (key ++ codes ".conversionPattern") props = None ->
        appender_append a e = Ok (formatted e Zulu (codes "%F %T") ++ [9] ++ number e SimTime ++ [9] ++ sender e ++ [9] ++ kind e ++ [9] ++ message e ++ [10]))).
Proof.
  intros key a L O. assert (A : appender_append a e = write_entry (make_layout path props) e).
  { unfold appender_append. change (path_ok a) with ok. rewrite O, andb_true_r. change (lay a) with (make_layout path props).
    destruct (levels a) as [|x r] eqn:V; [reflexivity|]. destruct L as [L|L]; [discriminate|].
    replace (existsb (list_eqb (kind e)) (x :: r)) with true; [reflexivity|]. symmetry. apply existsb_exists. exists (kind e).
    split; [assumption|now apply list_eqb_eq]. }
  rewrite A. unfold make_layout. fold key. split.
  - intros K. rewrite K. now rewrite (proj2 (list_eqb_eq (codes "SimpleLayout") _) eq_refl).
  - intros K. assert (M : match lookup key props with
      | Some n => if list_eqb n (codes "SimpleLayout") then Some Simple
                  else if list_eqb n (codes "PatternLayout") then Some (Pattern (pattern_of key props)) else None
      | None => Some (Pattern (pattern_of key props)) end = Some (Pattern (pattern_of key props))).
    { destruct K as [->| ->]; reflexivity. }
    rewrite M. cbn [write_entry]. unfold pattern_of. split.
    + intros p -> W ->. now apply append_well_formed.
    + intros ->. reflexivity.
Qed.

(** A misspelled layout, a pattern that ends in %, and one with an unclosed brace
    are all accepted, and the first message is then undefined behaviour. *)
Theorem C66_configuration_safe_refuted :
  exists lines1 lines2 lines3 : list (list Z), forall e,
    appender_append (make_appender (codes "log.appender.c") (parse_properties lines1) (fun _ => true)) e = UB
    /\ appender_append (make_appender (codes "log.appender.c") (parse_properties lines2) (fun _ => true)) e = UB
    /\ appender_append (make_appender (codes "log.appender.c") (parse_properties lines3) (fun _ => true)) e = UB.
Proof.
  exists [codes "log.appender.c.layout = Patternlayout"],
         [codes "log.appender.c.layout.conversionPattern = %m %"],
         [codes "log.appender.c.layout.conversionPattern = %d{%T %m"].
  intros e. repeat split; vm_compute; reflexivity.
Qed.

Example C66_example :
  sound_layout (codes "log.appender.c")
    (parse_properties [codes "log.appender.c.levels = Error, Info";
                       codes "log.appender.c.layout.conversionPattern = %k: %m\n"])
  /\ appender_append (make_appender (codes "log.appender.c")
       (parse_properties [codes "log.appender.c.levels = Error, Info";
                          codes "log.appender.c.layout.conversionPattern = %k: %m\n"])
       (fun _ => true)) sample = Ok (codes "Info: hello" ++ [10]).
Proof.
  split; [|vm_compute; reflexivity]. split.
  - intros n H. vm_compute in H. discriminate.
  - intros p H. exists [KindName; Char 58; Char 32; Text; Char 10]. split.
    + split; [|vm_compute; tauto]. repeat constructor; cbn; discriminate.
    + vm_compute in H. injection H as <-. vm_compute. reflexivity.
Qed.

Print Assumptions C53_pattern_reads_inside_partial.
Print Assumptions C53_properties_first_wins.
Print Assumptions C66_configuration_safe_partial.
