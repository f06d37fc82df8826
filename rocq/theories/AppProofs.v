(** Proofs about the appenders of the logger. *)
From Coq Require Import ZArith List Bool Lia.
From Verif Require Import Base Text UuidModel UuidProofs Assoc LogTextModel LogTextSpec LogTextProofs LogTextProps AppModel AppSpec.
Import ListNotations.
Local Open Scope Z_scope.

Lemma configured_lookup lines n v : configured lines n v <-> lookup n (parse_properties lines) = Some v.
Proof. symmetry. apply properties_first_wins. Qed.

Lemma not_configured_lookup lines n : not_configured lines n <-> lookup n (parse_properties lines) = None.
Proof.
  rewrite lookup_parse. unfold not_configured. induction lines as [|l lines IH]; cbn [first_definition].
  - split; [reflexivity|constructor].
  - destruct (parse_line l) as [[n' v]|] eqn:P.
    + destruct (list_eqb n n') eqn:E.
      * apply list_eqb_iff in E. subst n'. split; [|discriminate]. inversion 1 as [|? ? X]; subst.
        destruct (X v). now apply parse_line_spec.
      * rewrite <- IH. split; [now inversion 1|]. intros F. constructor; [|exact F]. intros v' D.
        apply parse_line_spec in D. rewrite P in D. injection D as -> _.
        rewrite (proj2 (list_eqb_iff n n) eq_refl) in E. discriminate.
    + rewrite <- IH. split; [now inversion 1|]. intros F. constructor; [|exact F]. intros v' D.
      apply parse_line_spec in D. congruence.
Qed.

Section Config.
  Variable regex : list Z -> option (list Z -> bool).

  (** The filter that an appender gets. *)
  Definition filter_of (lines : list (list Z)) (path : list Z) (ok : list Z -> bool) : Prop :=
    (not_configured lines (path ++ codes ".path") -> forall p, ok p = true) /\
    (forall r, configured lines (path ++ codes ".path") r ->
       match regex (unescape r) with Some f => ok = f | None => forall p, ok p = true end).

  Lemma path_filter_ok lines path : filter_of lines path (fst (path_filter regex path (parse_properties lines))).
  Proof.
    unfold path_filter. split.
    - intros N. apply not_configured_lookup in N as ->. reflexivity.
    - intros r C. apply configured_lookup in C as ->. destruct (regex (unescape r)); reflexivity.
  Qed.

  Definition appender_of (lines : list (list Z)) (path : list Z) (m : made) : Prop :=
    exists ok, app m = make_appender path (parse_properties lines) ok /\ filter_of lines path ok.

  Lemma new_appender_ok lines path d :
    dst (fst (new_appender regex d path (parse_properties lines))) = d /\
    appender_of lines path (fst (new_appender regex d path (parse_properties lines))).
  Proof.
    unfold new_appender. pose proof (path_filter_ok lines path) as F.
    destruct (path_filter regex path (parse_properties lines)) as [ok rs]. cbn in *. split; [reflexivity|]. now exists ok.
  Qed.

  Lemma create_ok lines n :
    chosen lines n (map dst (fst (create_appender regex n (parse_properties lines)))) /\
    Forall (appender_of lines (codes "log.appender." ++ n)) (fst (create_appender regex n (parse_properties lines))).
  Proof.
    unfold create_appender. cbv zeta. set (props := parse_properties lines). set (path := codes "log.appender." ++ n).
    destruct (lookup path props) as [c|] eqn:E.
    - apply configured_lookup in E. destruct (list_eqb c (codes "ConsoleAppender")) eqn:E1.
      + apply list_eqb_iff in E1. subst c. destruct (new_appender_ok lines path Console) as [D A]. fold props in D, A.
        destruct (new_appender regex Console path props) as [m r]. cbn [fst snd map] in *. rewrite D.
        split; [now constructor|]. repeat constructor. exact A.
      + destruct (list_eqb c (codes "FileAppender")) eqn:E2.
        * apply list_eqb_iff in E2. subst c. destruct (new_appender_ok lines path (File (file_name path props))) as [D A]. fold props in D, A.
          destruct (new_appender regex (File (file_name path props)) path props) as [m r]. cbn [fst snd map] in *. rewrite D.
          split; [|repeat constructor; exact A]. unfold file_name.
          destruct (lookup (path ++ codes ".File") props) as [f|] eqn:L.
          -- apply C_file; [exact E|]. apply configured_lookup. unfold path in L. now rewrite <- app_assoc in L.
          -- apply C_default; [exact E|]. apply not_configured_lookup. unfold path in L. now rewrite <- app_assoc in L.
        * split; [|constructor]. cbn. eapply C_unknown; [exact E| |].
          -- intros ->. rewrite (proj2 (list_eqb_iff _ _) eq_refl) in E1. discriminate.
          -- intros ->. rewrite (proj2 (list_eqb_iff _ _) eq_refl) in E2. discriminate.
    - split; [|constructor]. cbn. apply C_none. now apply not_configured_lookup.
  Qed.

  Lemma create_all_ok lines names : exists mss, fst (create_all regex names (parse_properties lines)) = concat mss /\
    Forall2 (fun n ms => chosen lines n (map dst ms) /\ Forall (appender_of lines (codes "log.appender." ++ n)) ms) names mss.
  Proof.
    induction names as [|n names (mss & E & F)]; [exists []; split; [reflexivity|constructor]|].
    cbn [create_all]. pose proof (create_ok lines n) as C.
    destruct (create_appender regex n (parse_properties lines)) as [ms rs].
    destruct (create_all regex names (parse_properties lines)) as [ms' rs']. cbn in *.
    exists (ms :: mss). split; [cbn; now rewrite E|now constructor].
  Qed.

  Lemma create_all_reports names props n : In n names ->
    forall r, In r (snd (create_appender regex n props)) -> In r (snd (create_all regex names props)).
  Proof.
    induction names as [|x names IH]; intros I r R; [contradiction|]. cbn [create_all].
    destruct (create_appender regex x props) as [ms rs] eqn:E. destruct (create_all regex names props) as [ms' rs'] eqn:E'.
    cbn. apply in_or_app. destruct I as [->|I].
    - left. now rewrite E in R.
    - right. apply (IH I r R).
  Qed.
End Config.

(** * Writing *)

Lemma to_all_console ms e : forall k s s', to_all k ms e s = Ok s' ->
  con s' = con s ++ flat_map (fun m => if on_console m then text m e else []) ms.
Proof.
  induction ms as [|m ms IH]; intros k s s'; cbn [to_all flat_map].
  - intros H. injection H as <-. now rewrite app_nil_r.
  - unfold on_console, text. destruct (appender_append (app m) e) as [t|[]|] eqn:E; cbn [bind]; [|discriminate].
    intros H. rewrite (IH _ _ _ H). unfold emit. destruct (dst m); cbn [con]; [|reflexivity].
    now rewrite <- app_assoc.
Qed.

Lemma log_all_console ms es : forall s s', log_all ms es s = Ok s' ->
  con s' = con s ++ flat_map (fun e => flat_map (fun m => if on_console m then text m e else []) ms) es.
Proof.
  induction es as [|e es IH]; intros s s'; cbn [log_all flat_map].
  - intros H. injection H as <-. now rewrite app_nil_r.
  - destruct (to_all 0 ms e s) as [s1|[]|] eqn:E; cbn [bind]; [|discriminate].
    intros H. rewrite (IH _ _ H), (to_all_console ms e _ _ _ E). now rewrite <- app_assoc.
Qed.

Lemma overwrite_end old t : overwrite old (length old) t = old ++ t.
Proof. unfold overwrite. rewrite firstn_all, skipn_all2 by lia. now rewrite app_nil_r. Qed.

Lemma list_eqb_neq a b : a <> b -> list_eqb a b = false.
Proof. intros N. apply not_true_is_false. rewrite list_eqb_iff. exact N. Qed.

(** Appenders that write elsewhere do not touch the file. *)
Lemma to_all_others f j ms e : (forall m, In m ms -> dst m <> File f) -> forall k s s',
  (j < k \/ k + length ms <= j)%nat -> to_all k ms e s = Ok s' -> files s' f = files s f /\ pos s' j = pos s j.
Proof.
  induction ms as [|m ms IH]; intros N k s s' J; cbn [to_all].
  - intros H. injection H as <-. auto.
  - destruct (appender_append (app m) e) as [t|[]|]; cbn [bind]; [|discriminate].
    intros H. cbn in J. apply (IH (fun m I => N m (or_intror I))) in H as [H1 H2]; [|lia].
    rewrite H1, H2. pose proof (N m (or_introl eq_refl)) as D. unfold emit. destruct (dst m) as [|g]; [auto|]. cbn.
    rewrite list_eqb_neq by congruence. split; [reflexivity|].
    assert (X : Nat.eqb j k = false) by (apply Nat.eqb_neq; lia). now rewrite X.
Qed.

Lemma to_all_app k l1 l2 e s : to_all k (l1 ++ l2) e s = bind (to_all k l1 e s) (to_all (k + length l1) l2 e).
Proof.
  revert k s. induction l1 as [|m l1 IH]; intros k s; cbn [to_all List.app length].
  - cbn. now rewrite Nat.add_0_r.
  - destruct (appender_append (app m) e) as [t|[]|]; cbn [bind]; [|reflexivity]. rewrite IH.
    now rewrite Nat.add_succ_comm.
Qed.

(** The one appender of the file writes at its end. *)
Lemma to_all_file f l1 m l2 e : dst m = File f -> (forall x, In x (l1 ++ l2) -> dst x <> File f) ->
  forall s s', pos s (length l1) = length (files s f) -> to_all 0 (l1 ++ m :: l2) e s = Ok s' ->
  files s' f = files s f ++ text m e /\ pos s' (length l1) = length (files s' f).
Proof.
  intros D N s s' P. rewrite to_all_app. destruct (to_all 0 l1 e s) as [s1|[]|] eqn:E1; cbn [bind]; [|discriminate].
  apply (to_all_others f (length l1)) in E1 as [F1 P1]; [|intros x I; apply N, in_or_app; now left|right; lia].
  cbn [to_all]. unfold text. destruct (appender_append (app m) e) as [t|[]|]; cbn [bind]; [|discriminate].
  intros H. apply (to_all_others f (length l1)) in H as [F2 P2]; [|intros x I; apply N, in_or_app; now right|left; lia].
  rewrite F2, P2, D. cbn [emit files pos Nat.add]. rewrite Nat.eqb_refl, (proj2 (list_eqb_iff f f) eq_refl).
  rewrite P1, P, F1, overwrite_end. split; [reflexivity|]. now rewrite app_length.
Qed.

Lemma log_all_file f l1 m l2 es : dst m = File f -> (forall x, In x (l1 ++ l2) -> dst x <> File f) ->
  forall s s', pos s (length l1) = length (files s f) -> log_all (l1 ++ m :: l2) es s = Ok s' ->
  files s' f = files s f ++ flat_map (text m) es.
Proof.
  intros D N. induction es as [|e es IH]; intros s s' P; cbn [log_all flat_map].
  - intros H. injection H as <-. now rewrite app_nil_r.
  - destruct (to_all 0 (l1 ++ m :: l2) e s) as [s1|[]|] eqn:E; cbn [bind]; [|discriminate].
    destruct (to_all_file f l1 m l2 e D N s s1 P E) as [F Q]. intros H.
    rewrite (IH s1 s' Q H), F. now rewrite <- app_assoc.
Qed.

Lemma to_all_defined ms e : (forall m, In m ms -> exists t, appender_append (app m) e = Ok t) ->
  forall k s, exists s', to_all k ms e s = Ok s'.
Proof.
  induction ms as [|m ms IH]; intros H k s; cbn [to_all]; [eauto|].
  destruct (H m (or_introl eq_refl)) as (t & ->). cbn [bind]. apply IH. intros x I. apply H. now right.
Qed.

Lemma log_all_defined ms es : (forall m e, In m ms -> exists t, appender_append (app m) e = Ok t) ->
  forall s, exists s', log_all ms es s = Ok s'.
Proof.
  intros H. induction es as [|e es IH]; intros s; cbn [log_all]; [eauto|].
  destruct (to_all_defined ms e (fun m => H m e) 0 s) as (s1 & ->). cbn [bind]. apply IH.
Qed.

(** * The reports *)
Section Reports.
  Variable regex : list Z -> option (list Z -> bool).

  Lemma line_report_spec l r : In r (line_report l) <->
    r = InvalidLine (trim l) /\ trim l <> [] /\ hd 0 (trim l) <> 35 /\ parse_line l = None.
  Proof.
    unfold line_report, parse_line. destruct (trim l) as [|c t]; cbn [hd].
    - split; [intros []|intros (_ & X & _); now destruct X].
    - destruct (Z.eqb_spec c 35) as [->|N].
      + split; [intros []|intros (_ & _ & X & _); now destruct X].
      + destruct (cut_at 61 (c :: t)) as [[? ?]|].
        * split; [intros []|intros (_ & _ & _ & X); discriminate].
        * split.
          -- intros [<-|[]]. repeat split; [discriminate|exact N].
          -- intros (-> & _). now left.
  Qed.

  Lemma parse_line_none l : parse_line l = None <-> forall n v, ~ defines l n v.
  Proof.
    split.
    - intros P n v D. apply parse_line_spec in D. congruence.
    - intros H. destruct (parse_line l) as [[n v]|] eqn:P; [|reflexivity]. destruct (H n v). now apply parse_line_spec.
  Qed.

  Lemma create_all_only names props r : In r (snd (create_all regex names props)) ->
    exists n, In n names /\ In r (snd (create_appender regex n props)).
  Proof.
    induction names as [|x names IH]; [contradiction|]. cbn [create_all].
    destruct (create_appender regex x props) as [ms rs] eqn:E. destruct (create_all regex names props) as [ms' rs'] eqn:E'.
    cbn [snd] in *. intros I. apply in_app_or in I as [I|I].
    - exists x. split; [now left|]. now rewrite E.
    - destruct (IH I) as (n & J & K). exists n. split; [now right|exact K].
  Qed.

  Definition report_of (lines : list (list Z)) (n : list Z) (r : report) : Prop :=
    match r with
    | InvalidLine _ => False
    | NoSuchAppender n' => n' = n /\ not_configured lines (codes "log.appender." ++ n)
    | NoSuchClass c => configured lines (codes "log.appender." ++ n) c /\ c <> codes "ConsoleAppender" /\ c <> codes "FileAppender"
    | InvalidRegex t => configured lines (codes "log.appender." ++ n ++ codes ".path") t /\ regex (unescape t) = None
    | NoSuchLayout t => configured lines (codes "log.appender." ++ n ++ codes ".layout") t /\
        t <> codes "SimpleLayout" /\ t <> codes "PatternLayout"
    end.

  Lemma new_appender_reports lines n d r :
    In r (snd (new_appender regex d (codes "log.appender." ++ n) (parse_properties lines))) -> report_of lines n r.
  Proof.
    unfold new_appender, path_filter.
    intros H. assert (X : In r (layout_report (codes "log.appender." ++ n) (parse_properties lines)) \/
      exists t, r = InvalidRegex t /\ lookup ((codes "log.appender." ++ n) ++ codes ".path") (parse_properties lines) = Some t /\ regex (unescape t) = None).
    { destruct (lookup ((codes "log.appender." ++ n) ++ codes ".path") (parse_properties lines)) as [t|] eqn:L.
      - destruct (regex (unescape t)) eqn:R; cbn [snd] in H; apply in_app_or in H as [H|H]; auto; [contradiction|].
        destruct H as [<-|[]]. right. exists t. auto.
      - cbn [snd] in H. apply in_app_or in H as [H|[]]. now left. }
    clear H. destruct X as [H|(t & -> & L & R)].
    - unfold layout_report, make_layout in H.
      destruct (lookup ((codes "log.appender." ++ n) ++ codes ".layout") (parse_properties lines)) as [t|] eqn:L.
      + destruct (list_eqb t (codes "SimpleLayout")) eqn:E1; [destruct H|].
        destruct (list_eqb t (codes "PatternLayout")) eqn:E2; [destruct H|].
        destruct H as [<-|[]]. cbn [report_of]. rewrite <- app_assoc in L. split; [now apply configured_lookup|].
        split; intros ->; [rewrite (proj2 (list_eqb_iff _ _) eq_refl) in E1|rewrite (proj2 (list_eqb_iff _ _) eq_refl) in E2]; discriminate.
      + destruct H.
    - cbn [report_of]. rewrite <- app_assoc in L. split; [now apply configured_lookup|exact R].
  Qed.

  Lemma create_reports lines n r :
    In r (snd (create_appender regex n (parse_properties lines))) -> report_of lines n r.
  Proof.
    unfold create_appender. cbv zeta. destruct (lookup (codes "log.appender." ++ n) (parse_properties lines)) as [c|] eqn:L.
    - destruct (list_eqb c (codes "ConsoleAppender")) eqn:E1.
      + pose proof (new_appender_reports lines n Console r) as X. destruct (new_appender _ _ _ _). exact X.
      + destruct (list_eqb c (codes "FileAppender")) eqn:E2.
        * pose proof (new_appender_reports lines n (File (file_name (codes "log.appender." ++ n) (parse_properties lines))) r) as X.
          destruct (new_appender _ _ _ _). exact X.
        * intros [<-|[]]. cbn [report_of]. split; [now apply configured_lookup|].
          split; intros ->; [rewrite (proj2 (list_eqb_iff _ _) eq_refl) in E1|rewrite (proj2 (list_eqb_iff _ _) eq_refl) in E2]; discriminate.
    - intros [<-|[]]. cbn [report_of]. split; [reflexivity|now apply not_configured_lookup].
  Qed.

  Lemma configure_reports lines names : configured lines (codes "log.rootLogger") names ->
    snd (configure regex lines) = flat_map line_report lines ++ snd (create_all regex (split 44 names) (parse_properties lines)).
  Proof.
    intros C. apply configured_lookup in C. unfold configure. rewrite C.
    now destruct (create_all regex (split 44 names) (parse_properties lines)).
  Qed.

  Lemma reports_ok lines names : configured lines (codes "log.rootLogger") names ->
    let rs := snd (configure regex lines) in
    (forall l, In l lines -> trim l <> [] -> hd 0 (trim l) <> 35 -> (forall n v, ~ defines l n v) -> In (InvalidLine (trim l)) rs) /\
    (forall n, In n (split 44 names) -> not_configured lines (codes "log.appender." ++ n) -> In (NoSuchAppender n) rs) /\
    (forall n c, In n (split 44 names) -> configured lines (codes "log.appender." ++ n) c ->
       c <> codes "ConsoleAppender" -> c <> codes "FileAppender" -> In (NoSuchClass c) rs) /\
    (forall n c t, In n (split 44 names) -> configured lines (codes "log.appender." ++ n) c ->
       c = codes "ConsoleAppender" \/ c = codes "FileAppender" ->
       (configured lines (codes "log.appender." ++ n ++ codes ".path") t -> regex (unescape t) = None -> In (InvalidRegex t) rs) /\
       (configured lines (codes "log.appender." ++ n ++ codes ".layout") t ->
        t <> codes "SimpleLayout" -> t <> codes "PatternLayout" -> In (NoSuchLayout t) rs)) /\
    (forall r, In r rs -> match r with
       | InvalidLine t => exists l, In l lines /\ t = trim l /\ forall n v, ~ defines l n v
       | NoSuchAppender n => In n (split 44 names) /\ not_configured lines (codes "log.appender." ++ n)
       | NoSuchClass c => exists n, In n (split 44 names) /\ configured lines (codes "log.appender." ++ n) c /\
           c <> codes "ConsoleAppender" /\ c <> codes "FileAppender"
       | InvalidRegex t => exists n, In n (split 44 names) /\
           configured lines (codes "log.appender." ++ n ++ codes ".path") t /\ regex (unescape t) = None
       | NoSuchLayout t => exists n, In n (split 44 names) /\
           configured lines (codes "log.appender." ++ n ++ codes ".layout") t /\
           t <> codes "SimpleLayout" /\ t <> codes "PatternLayout"
       end).
  Proof.
    intros C. cbv zeta. rewrite (configure_reports lines names C). split; [|split; [|split; [|split]]].
    - intros l I T Hh D. apply in_or_app. left. apply in_flat_map. exists l. split; [exact I|].
      apply line_report_spec. repeat split; try assumption. now apply parse_line_none.
    - intros n I N. apply in_or_app. right. apply (create_all_reports regex _ _ n I).
      apply not_configured_lookup in N. unfold create_appender. cbv zeta. rewrite N. now left.
    - intros n c I K N1 N2. apply in_or_app. right. apply (create_all_reports regex _ _ n I).
      apply configured_lookup in K. unfold create_appender. cbv zeta. rewrite K, !list_eqb_neq by assumption. now left.
    - intros n c t I K O. apply configured_lookup in K.
      assert (X : exists d, snd (create_appender regex n (parse_properties lines)) =
        snd (new_appender regex d (codes "log.appender." ++ n) (parse_properties lines))).
      { unfold create_appender. cbv zeta. rewrite K. destruct O as [->| ->].
        - exists Console. rewrite (proj2 (list_eqb_iff _ _) eq_refl). now destruct (new_appender _ _ _ _).
        - exists (File (file_name (codes "log.appender." ++ n) (parse_properties lines))).
          rewrite (proj2 (list_eqb_iff _ _) eq_refl), list_eqb_neq by (vm_compute; discriminate). now destruct (new_appender _ _ _ _). }
      destruct X as (d & X). split.
      + intros P R. apply in_or_app. right. apply (create_all_reports regex _ _ n I). rewrite X.
        apply configured_lookup in P. rewrite app_assoc in P. unfold new_appender, path_filter. rewrite P, R.
        cbn [snd]. apply in_or_app. right. now left.
      + intros P N1 N2. apply in_or_app. right. apply (create_all_reports regex _ _ n I). rewrite X.
        apply configured_lookup in P. rewrite app_assoc in P. unfold new_appender.
        destruct (path_filter regex (codes "log.appender." ++ n) (parse_properties lines)) as [ok rs].
        cbn [snd]. apply in_or_app. left. unfold layout_report, make_layout. rewrite P, !list_eqb_neq by assumption. now left.
    - intros r I. apply in_app_or in I as [I|I].
      + apply in_flat_map in I as (l & J & R). apply line_report_spec in R as (-> & _ & _ & P).
        exists l. split; [exact J|]. split; [reflexivity|]. now apply parse_line_none.
      + apply create_all_only in I as (n & J & R). apply create_reports in R. destruct r; cbn [report_of] in R.
        * destruct R.
        * exists n. tauto.
        * exists n. tauto.
        * exists n. tauto.
        * destruct R as [-> R]. split; assumption.
  Qed.
End Reports.
