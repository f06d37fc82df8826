From Verif Require Import Text HintModel HintSpec.

(** * Identifiers and dotted names *)
Definition wcb (c : Z) : bool :=
  ((65 <=? c) && (c <=? 90)) || ((97 <=? c) && (c <=? 122)) || ((48 <=? c) && (c <=? 57)) || (c =? 95).
Lemma wcb_iff c : wcb c = true <-> word_char c.
Proof.
  unfold wcb, word_char. rewrite !orb_true_iff, !andb_true_iff, !Z.leb_le, Z.eqb_eq. lia.
Qed.
Definition is_ident (s : list Z) : bool :=
  match s with [] => false | c :: _ => negb ((48 <=? c) && (c <=? 57)) end && forallb wcb s &&
  (if in_dec (list_eq_dec Z.eq_dec) s keywords then false else true).
Lemma is_ident_iff s : is_ident s = true <-> identifier s.
Proof.
  unfold is_ident, identifier. rewrite !andb_true_iff.
  assert (A : match s with [] => false | c :: _ => negb ((48 <=? c) && (c <=? 57)) end = true <-> exists c r, s = c :: r /\ ~ 48 <= c <= 57).
  { destruct s as [|c r]; [split; [discriminate|intros (c & r & E & _); discriminate E]|].
    rewrite negb_true_iff, andb_false_iff, !Z.leb_gt. split.
    - intros H. exists c, r. split; [reflexivity|lia].
    - intros (c' & r' & E & H). injection E as <- <-. lia. }
  assert (B : forallb wcb s = true <-> Forall word_char s).
  { rewrite forallb_forall, Forall_forall. split; intros H x I; apply wcb_iff; auto. }
  destruct (in_dec (list_eq_dec Z.eq_dec) s keywords) as [I|I]; [|tauto].
  split; [intros [_ E]; discriminate E|tauto].
Qed.

Fixpoint dots (l : list (list Z)) : list Z :=
  match l with [] => [] | [a] => a | a :: r => a ++ 46 :: dots r end.
Lemma dotted_dots l s : dots l = s -> l <> [] -> forallb is_ident l = true -> dotted s.
Proof.
  revert s. induction l as [|a r IH]; intros s E N F; [easy|].
  cbn [forallb] in F. apply andb_true_iff in F. destruct F as [A F]. apply is_ident_iff in A.
  destruct r as [|b r]; cbn [dots] in E; subst s; [now constructor|].
  apply do_more; [assumption|]. now apply IH.
Qed.
Fixpoint split_dots (s w : list Z) : list (list Z) :=
  match s with [] => [w] | c :: s => if c =? 46 then w :: split_dots s [] else split_dots s (w ++ [c]) end.
Ltac dotted_c := match goal with |- dotted ?s => apply (dotted_dots (split_dots s [])); vm_compute; solve [reflexivity|discriminate] end.
Lemma spelled_dotted i : dotted (spelled i).
Proof. destruct i; dotted_c. Qed.

Lemma keyword_head s : In s keywords -> exists c r, s = c :: r /\ c <> 95.
Proof.
  intros I. assert (F : forallb (fun s => match s with [] => false | c :: _ => negb (c =? 95) end) keywords = true) by (vm_compute; reflexivity).
  rewrite forallb_forall in F. specialize (F s I). destruct s as [|c r]; [discriminate|].
  exists c, r. split; [reflexivity|]. apply negb_true_iff, Z.eqb_neq in F. exact F.
Qed.
Lemma identifier_score s : identifier s -> identifier (95 :: s).
Proof.
  intros (_ & W & _). split; [exists 95, s; split; [reflexivity|lia]|]. split.
  - constructor; [unfold word_char; lia|assumption].
  - intros I. apply keyword_head in I. destruct I as (c & r & E & N). injection E as <- _. lia.
Qed.

(** Structure fields. *)
Definition plain (o : obj) : Prop := nests (has (inf o)) = has (inf o) IStructureField.
Lemma regular_plain o : regular (has (inf o)) -> plain o.
Proof.
  intros [C K V F]. unfold plain, nests. destruct (has (inf o) IStructureField) eqn:E; [|now rewrite andb_false_r].
  assert (FI : has (inf o) IField = true).
  { apply (C IStructureField); [|assumption]. eapply ih_up; [cbn [In]; tauto|constructor]. }
  assert (FP : has (inf o) IPersist = true).
  { apply (C IField); [|assumption]. eapply ih_up; [cbn [In]; tauto|constructor]. }
  destruct (F FI) as (m & _ & _ & U). rewrite FI, FP. pose proof (U IStructureField) as US.
  assert (N : forall j, In j [ISimpleField; IArrayField; ISimpleArrayField] -> has (inf o) j = false).
  { intros j I. destruct (has (inf o) j) eqn:X; [|reflexivity].
    assert (j = IStructureField) by (rewrite (U j), US; cbn [In] in *; tauto). subst j. cbn [In] in I. intuition discriminate. }
  rewrite !N by (cbn; tauto). reflexivity.
Qed.
Lemma spelled_class i : python_class i (spelled i).
Proof. split; destruct i; cbn [services In]; intros H; try reflexivity; exfalso; intuition discriminate. Qed.

(** * Blocks *)
Lemma block_app d t l t' l' : block d t l -> block d t' l' -> block d (t ++ t') (l ++ l').
Proof.
  intros B B'.
  induction B; repeat first [rewrite <- app_assoc | progress cbn [List.app]].
  - exact B'.
  - apply bk_blank. now apply IHB.
  - apply bk_pass. now apply IHB.
  - apply bk_import; [assumption|now apply IHB].
  - apply bk_attr; [assumption|assumption|now apply IHB].
  - apply bk_fun; [assumption|now apply IHB].
  - apply (bk_doc d s (t ++ t')); [assumption|now apply IHB].
  - pose proof (bk_class d c bs bt body (t ++ t') (l ++ l') H H0 B1 H1 (IHB2 B')) as Q. exact Q.
Qed.

(** The text is empty if there are no statements. *)
Definition fine (d : nat) (t : list Z) (l : list stmt) : Prop := block d t l /\ (l = [] -> t = []).
Lemma fine_nil d : fine d [] [].
Proof. split; [constructor|reflexivity]. Qed.
Lemma fine_app d t l t' l' : fine d t l -> fine d t' l' -> fine d (t ++ t') (l ++ l').
Proof.
  intros [A B] [A' B']. split; [now apply block_app|]. intros E. apply app_eq_nil in E. destruct E as [E E'].
  now rewrite B, B'.
Qed.
Lemma fine_concat {A} d (f : A -> list Z) (g : A -> list stmt) l : (forall x, In x l -> fine d (f x) (g x)) ->
  fine d (concat (map f l)) (concat (map g l)).
Proof.
  induction l as [|a l IH]; intros H; [apply fine_nil|]. cbn [map concat]. apply fine_app; [now apply H; left|].
  apply IH. intros x I. apply H. now right.
Qed.
Lemma fine_blank d t l : l <> [] -> fine d t l -> fine d (t ++ [10]) l.
Proof.
  intros N [B _]. split; [|easy]. rewrite <- (app_nil_r l). apply block_app; [assumption|]. apply bk_blank, bk_end.
Qed.
Lemma fine_attr d n ty : identifier n -> dotted ty -> fine d (attr d n ty) [SAttr n ty].
Proof. intros H T. split; [|discriminate]. unfold attr, indent. apply bk_attr; [assumption|assumption|constructor]. Qed.
Lemma fine_fun d n : identifier n -> fine d (fun_line d n) [SFun n].
Proof. intros H. split; [|discriminate]. unfold fun_line, indent. apply (bk_fun d n []); [assumption|constructor]. Qed.

(** * The statements of the file *)
Definition lst (l : option (list (list Z))) : list (list Z) := match l with Some l => l | None => [] end.
Definition a1 (ty n : list Z) : list stmt := [SAttr n ty].
Definition body_stmts (i : info) (fs : list (list stmt)) (cs : list (list Z * list (list stmt))) : list stmt :=
  let h := has i in
  (if h IComponent then
     (if h IAggregate then concat (map (fun n => a1 (codes "ecss_smp.Smp.IReference") ([95] ++ n)) (lst (refs i))) else []) ++
     (if h IDynamicInvocation then concat (map (fun n => [SFun n]) (lst (ops i))) ++
        concat (map (a1 (codes "ecss_smp.Smp.IProperty")) (lst (props i))) else []) ++
     (if h IEventConsumer then concat (map (fun n => a1 (codes "ecss_smp.Smp.IEventSink") ([] ++ n)) (lst (sinks i))) else []) ++
     (if h IEventProvider then concat (map (fun n => a1 (codes "ecss_smp.Smp.IEventSource") ([] ++ n)) (lst (sources i))) else []) ++
     concat fs
   else []) ++
  (if h IComposite && contained i then
     concat (map (fun c => SAttr (95 :: fst c) (codes "ecss_smp.Smp.IContainer") :: concat (snd c)) cs) else []) ++
  (if h IEntryPointPublisher then concat (map (a1 (codes "ecss_smp.Smp.IEntryPoint")) (eps i)) else []) ++
  (if nests h then concat fs else []).
Definition or_pass (l : list stmt) : list stmt := match l with [] => [SPass] | _ => l end.
Definition tail_stmts (i : info) : list stmt := match descr i with [] => [] | s => [SDoc s] end.
Definition wrap_stmts (i : info) (body : list stmt) : list stmt :=
  let bs := map spelled (bases (has i)) in
  if has i ISimulator then [SClass (codes "Simulator") bs (or_pass body)]
  else SClass (95 :: 95 :: name i) bs (or_pass body) :: SAttr (name i) (95 :: 95 :: name i) :: tail_stmts i.
Fixpoint stmts (o : obj) : list stmt :=
  match o with
  | Obj i fs cs => wrap_stmts i (body_stmts i (map stmts fs) (map (fun c => (fst c, map stmts (snd c))) cs))
  end.
Definition inner (o : obj) : list stmt :=
  match o with Obj i fs cs => body_stmts i (map stmts fs) (map (fun c => (fst c, map stmts (snd c))) cs) end.
Lemma stmts_eq o : stmts o = wrap_stmts (inf o) (inner o).
Proof. destruct o. reflexivity. Qed.

Lemma cat_cons r l t : cat (r :: l) = Ok t -> exists a b, r = Ok a /\ cat l = Ok b /\ t = a ++ b.
Proof.
  cbn [cat]. destruct r as [a|e|]; [|destruct e|discriminate]. cbn [bind].
  destruct (cat l) as [b|e|]; [|destruct e|discriminate]. cbn [bind]. intros E. injection E as <-. now exists a, b.
Qed.
Lemma cat_nil t : cat [] = Ok t -> t = [].
Proof. cbn. intros E. now injection E. Qed.

Lemma cat_fine d (l : list obj) t : (forall x, In x l -> forall t, gen d x = Ok t -> fine d t (stmts x)) ->
  cat (map (gen d) l) = Ok t -> fine d t (concat (map stmts l)).
Proof.
  revert t. induction l as [|x l IH]; intros t H E.
  - apply cat_nil in E. subst. apply fine_nil.
  - cbn [map] in *. apply cat_cons in E. destruct E as (a & b & Ea & Eb & ->). cbn [concat]. apply fine_app.
    + apply H; [now left|assumption].
    + apply IH; [|assumption]. intros y I. apply H. now right.
Qed.

Lemma attrs_sp_fine d pre ty l : dotted ty -> (forall n, listed l n -> identifier (pre ++ n)) ->
  fine d (attrs_sp d pre ty l) (concat (map (fun n => a1 ty (pre ++ n)) (lst l))).
Proof.
  intros T H. destruct l as [l|]; [|apply fine_nil]. cbn [attrs_sp lst]. apply fine_concat. intros n I.
  apply fine_blank; [discriminate|]. apply fine_attr; [|assumption]. apply H. now exists l.
Qed.
Lemma attrs_fine d ty l : dotted ty -> (forall n, In n l -> identifier n) -> fine d (attrs d ty l) (concat (map (a1 ty) l)).
Proof. intros T H. apply fine_concat. intros n I. apply fine_attr; auto. Qed.

Lemma body_fine d o t : plain o ->
  (forall n ty, port o n ty -> identifier n) -> (forall n, operation o n -> identifier n) ->
  (forall x, member o x -> forall t, gen d x = Ok t -> fine d t (stmts x)) ->
  body_of d (inf o) (map (gen d) (fields_of o)) (map (fun c => (fst c, map (gen d) (snd c))) (containers_of o)) = Ok t ->
  fine d t (inner o).
Proof.
  intros R. unfold plain in R. destruct o as [i fs cs]. cbn [inf fields_of containers_of inner] in *. intros P Q M E.
  unfold body_of in E. cbv zeta in E. unfold body_stmts. cbv zeta.
  apply cat_cons in E. destruct E as (t1 & u & E1 & E & ->).
  apply cat_cons in E. destruct E as (t2 & u2 & E2 & E & ->).
  apply cat_cons in E. destruct E as (t3 & u3 & E3 & E & ->).
  apply cat_cons in E. destruct E as (t4 & u4 & E4 & E & ->). apply cat_nil in E. subst u4. rewrite app_nil_r.
  apply fine_app; [|apply fine_app; [|apply fine_app]].
  - destruct (has i IComponent) eqn:HC; [|injection E1 as <-; apply fine_nil].
    apply cat_cons in E1. destruct E1 as (s1 & v & F1 & E & ->). injection F1 as <-.
    apply cat_cons in E. destruct E as (s2 & v2 & F2 & E & ->).
    apply cat_cons in E. destruct E as (s3 & v3 & F3 & E & ->). injection F3 as <-.
    apply cat_cons in E. destruct E as (s4 & v4 & F4 & E & ->). injection F4 as <-.
    apply cat_cons in E. destruct E as (s5 & v5 & F5 & E & ->). apply cat_nil in E. subst v5. rewrite app_nil_r.
    apply fine_app; [|apply fine_app; [|apply fine_app; [|apply fine_app]]].
    + destruct (has i IAggregate) eqn:HA; [|apply fine_nil]. apply attrs_sp_fine; [dotted_c|].
      intros n L. eapply P. apply po_reference; assumption.
    + destruct (has i IDynamicInvocation) eqn:HD; [|injection F2 as <-; apply fine_nil].
      destruct (ops i) as [a|] eqn:EO; [|discriminate]. destruct (props i) as [b|] eqn:EP; [|discriminate].
      injection F2 as <-. cbn [lst]. apply fine_app.
      * apply fine_concat. intros n I. apply fine_fun. apply Q. split; [assumption|]. split; [assumption|]. now exists a.
      * apply attrs_fine; [dotted_c|]. intros n I. eapply P. apply po_property; [assumption..|]. now exists b.
    + destruct (has i IEventConsumer) eqn:HA; [|apply fine_nil]. apply attrs_sp_fine; [dotted_c|].
      intros n L. eapply P. apply po_sink; assumption.
    + destruct (has i IEventProvider) eqn:HA; [|apply fine_nil]. apply attrs_sp_fine; [dotted_c|].
      intros n L. eapply P. apply po_source; assumption.
    + destruct (published i); [|discriminate]. apply cat_fine; [|assumption]. intros x I. apply M. apply mb_field; [now left|assumption].
  - destruct (has i IComposite && contained i) eqn:HC; [|injection E2 as <-; apply fine_nil].
    apply andb_true_iff in HC. destruct HC as [HC HK].
    assert (X : forall ys, (forall c, In c ys -> In c cs) -> forall t,
      cat (map (fun c => cat (Ok (attr d (95 :: fst c) (codes "ecss_smp.Smp.IContainer") ++ [10]) :: snd c)) (map (fun c => (fst c, map (gen d) (snd c))) ys)) = Ok t ->
      fine d t (concat (map (fun c => SAttr (95 :: fst c) (codes "ecss_smp.Smp.IContainer") :: concat (snd c)) (map (fun c => (fst c, map stmts (snd c))) ys)))).
    { induction ys as [|[c l] ys IH]; intros S t E; [apply cat_nil in E; subst; apply fine_nil|].
      cbn [map fst snd concat] in *. apply cat_cons in E. destruct E as (a & b & Ea & Eb & ->).
      apply cat_cons in Ea. destruct Ea as (a' & b' & Ea & Eb' & ->). injection Ea as <-.
      change (?x :: concat ?y) with ([x] ++ concat y). apply fine_app; [apply fine_app|].
      - apply fine_blank; [discriminate|]. apply fine_attr; [|dotted_c]. eapply P. eapply po_container; [assumption|assumption|].
        apply (S (c, l)). now left.
      - apply cat_fine; [|assumption]. intros x I. apply M. eapply mb_component; [assumption|assumption|apply (S (c, l)); now left|assumption].
      - apply IH; [|assumption]. intros y I. apply S. now right. }
    apply X; auto.
  - injection E3 as <-. destruct (has i IEntryPointPublisher) eqn:HE; [|apply fine_nil].
    apply attrs_fine; [dotted_c|]. intros n I. eapply P. apply po_entry_point; assumption.
  - destruct (nests (has i)) eqn:HN; [|injection E4 as <-; apply fine_nil].
    apply cat_fine; [|assumption]. intros x I. apply M. apply mb_field; [right; cbn [inf]; congruence|assumption].
Qed.

Lemma block_empty d l : block d [] l -> l = [].
Proof.
  intros B. remember [] as t eqn:E. destruct B; try reflexivity; exfalso.
  - discriminate E.
  - apply (f_equal (@length Z)) in E. rewrite !app_length in E. cbn in E. lia.
  - apply (f_equal (@length Z)) in E. rewrite !app_length in E. cbn in E. lia.
  - apply (f_equal (@length Z)) in E. rewrite !app_length in E. cbn in E. lia.
  - apply (f_equal (@length Z)) in E. rewrite !app_length in E. cbn in E. lia.
  - apply (f_equal (@length Z)) in E. rewrite !app_length in E. cbn in E. lia.
  - apply (f_equal (@length Z)) in E. rewrite !app_length in E. cbn in E. lia.
Qed.
Lemma or_pass_block d t l : fine d t l ->
  block d (match t with [] => indent d ++ codes "pass" ++ [10] | _ => t end) (or_pass l) /\ or_pass l <> [].
Proof.
  intros [B E]. destruct l as [|s l]; cbn [or_pass].
  - rewrite E by reflexivity. split; [|discriminate]. apply bk_pass. constructor.
  - destruct t as [|c t]; [apply block_empty in B; discriminate B|split; [assumption|discriminate]].
Qed.

Lemma concat_map_map (bs : list iface) :
  concat (map (fun b => b ++ codes ", ") (map spelled bs)) = bases_text bs.
Proof. unfold bases_text. now rewrite map_map. Qed.

Lemma class_block d c i bt body t l : identifier c -> fine (S d) bt body -> block d t l ->
  block d (indent d ++ codes "class " ++ c ++ codes "(" ++ bases_text (bases (has i)) ++ codes "):" ++ [10]
           ++ (match bt with [] => indent (S d) ++ codes "pass" ++ [10] | _ => bt end) ++ t)
    (SClass c (map spelled (bases (has i))) (or_pass body) :: l).
Proof.
  intros C F B. apply or_pass_block in F. destruct F as [F N]. rewrite <- concat_map_map.
  apply (bk_class d c (map spelled (bases (has i))) _ (or_pass body) t l); [assumption| |assumption|assumption|assumption].
  apply Forall_forall. intros b I. apply in_map_iff in I. destruct I as (j & <- & _). apply spelled_dotted.
Qed.

Lemma wrap_fine d i bt body : has i ISimulator = false -> identifier (name i) -> quotable (descr i) ->
  fine (S d) bt body -> fine d (wrap d i bt) (wrap_stmts i body).
Proof.
  intros S N Q F. unfold wrap, wrap_stmts. rewrite S. split; [|discriminate].
  apply class_block; [now apply identifier_score, identifier_score|assumption|].
  cbn [List.app]. apply bk_blank. unfold attr, indent. repeat first [rewrite <- app_assoc | progress cbn [List.app]].
  pose proof (bk_attr d (name i) (95 :: 95 :: name i)) as X. cbn [List.app] in X. apply X; clear X;
    [assumption|apply do_one; now apply identifier_score, identifier_score|].
  unfold tail_stmts. destruct (descr i) as [|c s]; [apply bk_blank, bk_end|].
  repeat first [rewrite <- app_assoc | progress cbn [List.app]].
  pose proof (bk_doc d (c :: s) [10] [] Q) as X. cbn [List.app] in X. apply X. apply bk_blank, bk_end.
Qed.

(** Induction over the objects below. *)
Section Below.
Variable P : obj -> Prop.
Hypothesis H : forall o, (forall x, In x (fields_of o) -> P x) -> (forall c l, In (c, l) (containers_of o) -> forall x, In x l -> P x) -> P o.
Lemma obj_below : forall o, P o.
Proof.
  fix F 1. intros [i fs cs]. apply H; cbn [fields_of containers_of].
  - induction fs as [|y l IH]; [intros x []|]. intros x [<-|I]; [apply F|now apply IH].
  - induction cs as [|[c' l'] cs IH]; [intros c l []|]. intros c l [E|I]; [|now apply (IH c l)].
    injection E as <- <-. induction l' as [|y l IHl]; [intros x []|]. intros x [<-|I]; [apply F|now apply IHl].
Qed.
End Below.
Lemma member_ind (P : obj -> Prop) : (forall o, (forall x, member o x -> P x) -> P o) -> forall o, P o.
Proof.
  intros H. apply obj_below. intros o A B. apply H. intros x [? I|c l _ _ I J]; [now apply A|]. eapply B; eassumption.
Qed.

Lemma gen_eq d o : gen d o =
  bind (body_of (S d) (inf o) (map (gen (S d)) (fields_of o)) (map (fun c => (fst c, map (gen (S d)) (snd c))) (containers_of o)))
       (fun b => Ok (wrap d (inf o) b)).
Proof. destruct o. reflexivity. Qed.

Lemma gen_fine o : (forall p x, inside o p x -> plain x /\ has (inf x) ISimulator = false /\ identifier (name (inf x)) /\ quotable (descr (inf x)) /\
    (forall n ty, port x n ty -> identifier n) /\ (forall n, operation x n -> identifier n)) ->
  forall d t, gen d o = Ok t -> fine d t (stmts o).
Proof.
  induction o as [o IH] using member_ind. intros A d t E. rewrite gen_eq in E. rewrite stmts_eq.
  destruct (body_of _ _ _ _) as [b|e|] eqn:EB; [|destruct e|discriminate E]. cbn [bind] in E. injection E as <-.
  destruct (A [] o (in_here o)) as (R & S & N & Q & P & O).
  apply wrap_fine; [assumption..|]. eapply body_fine; [exact R|exact P|exact O| |exact EB].
  intros x M t E. eapply IH; [exact M| |exact E]. intros p y I. eapply A. eapply in_next; eassumption.
Qed.

Lemma write_block s t : readable s -> write s = Ok t ->
  block 0 t [SImport (codes "ecss_smp"); SClass (codes "Simulator") (map spelled (bases (has (inf s)))) (or_pass (inner s))].
Proof.
  intros [R S S' N P O] E. unfold write in E. rewrite gen_eq in E.
  destruct (body_of _ _ _ _) as [b|e|] eqn:EB; [|destruct e|discriminate E]. cbn [bind] in E. injection E as <-.
  assert (F : fine 1 b (inner s)).
  { eapply body_fine; [| | | |exact EB].
    - apply regular_plain. apply (R []). constructor.
    - intros n ty. apply (P []). constructor.
    - intros n. apply (O []). constructor.
    - intros x M t E. eapply gen_fine; [|exact E]. intros p y I.
      assert (J : inside s (name (inf x) :: p) y) by (eapply in_next; eassumption).
      split; [apply regular_plain; eapply R; exact J|].
      split; [eapply S'; [exact J|discriminate]|]. destruct (N _ _ J) as [A B]; [discriminate|].
      split; [assumption|]. split; [assumption|]. split; [intros n ty; now apply (P _ _ n ty J)|intros n; now apply (O _ _ n J)]. }
  unfold wrap. rewrite S. apply (bk_import 0 (codes "ecss_smp")); [apply is_ident_iff; vm_compute; reflexivity|].
  apply bk_blank, bk_blank. repeat first [rewrite <- app_assoc | progress cbn [List.app]].
  apply (class_block 0 (codes "Simulator") (inf s) b (inner s) (10 :: [10])); [apply is_ident_iff; vm_compute; reflexivity|assumption|].
  apply bk_blank, bk_blank, bk_end.
Qed.

(** * What the statements say *)
Lemma in_a1 s ty (pre : list Z) l : In s (concat (map (fun n => a1 ty (pre ++ n)) l)) <-> exists n, In n l /\ s = SAttr (pre ++ n) ty.
Proof.
  rewrite in_concat. split.
  - intros (x & I & J). apply in_map_iff in I. destruct I as (n & <- & I). destruct J as [<-|[]]. now exists n.
  - intros (n & I & ->). exists [SAttr (pre ++ n) ty]. split; [|now left]. apply in_map_iff. now exists n.
Qed.
Lemma in_a1' s ty l : In s (concat (map (a1 ty) l)) <-> exists n, In n l /\ s = SAttr n ty.
Proof. apply (in_a1 s ty [] l). Qed.
Lemma in_funs s l : In s (concat (map (fun n => [SFun n]) l)) <-> exists n, In n l /\ s = SFun n.
Proof.
  rewrite in_concat. split.
  - intros (x & I & J). apply in_map_iff in I. destruct I as (n & <- & I). destruct J as [<-|[]]. now exists n.
  - intros (n & I & ->). exists [SFun n]. split; [|now left]. apply in_map_iff. now exists n.
Qed.
Lemma in_stmts s l : In s (concat (map stmts l)) <-> exists x, In x l /\ In s (stmts x).
Proof.
  rewrite in_concat. split.
  - intros (y & I & J). apply in_map_iff in I. destruct I as (x & <- & I). now exists x.
  - intros (x & I & J). exists (stmts x). split; [|assumption]. now apply in_map.
Qed.
Lemma listed_lst l n : listed l n <-> In n (lst l).
Proof. destruct l as [l|]; cbn; split; [intros (k & E & I); now injection E as ->|intros I; now exists l|intros (k & E & _); discriminate E|intros []]. Qed.
Lemma in_if {A} (b : bool) (x : A) l : In x (if b then l else []) <-> b = true /\ In x l.
Proof. destruct b; cbn; intuition discriminate. Qed.

Lemma in_inner o s : plain o -> In s (inner o) <->
  (exists n ty, s = SAttr n ty /\ port o n ty) \/ (exists n, s = SFun n /\ operation o n) \/ (exists x, member o x /\ In s (stmts x)).
Proof.
  intros R. unfold plain in R. destruct o as [i fs cs]. cbn [inner inf] in *. unfold body_stmts. cbv zeta. rewrite R.
  repeat (rewrite in_app_iff || rewrite in_if). rewrite !in_a1, !in_a1', in_funs, !in_stmts, andb_true_iff.
  assert (K : In s (concat (map (fun c => SAttr (95 :: fst c) (codes "ecss_smp.Smp.IContainer") :: concat (snd c))
      (map (fun c => (fst c, map stmts (snd c))) cs))) <->
    exists c l, In (c, l) cs /\ (s = SAttr (95 :: c) (codes "ecss_smp.Smp.IContainer") \/ exists x, In x l /\ In s (stmts x))).
  { rewrite map_map, in_concat. cbn [fst snd]. split.
    - intros (y & I & J). apply in_map_iff in I. destruct I as ([c l] & <- & I). exists c, l. split; [assumption|].
      cbn [fst snd In] in J. destruct J as [<-|J]; [now left|right]. now apply in_stmts.
    - intros (c & l & I & J). eexists. split; [apply in_map_iff; exists (c, l); split; [reflexivity|assumption]|].
      cbn [fst snd In]. destruct J as [->|J]; [now left|right]. now apply in_stmts. }
  rewrite K. clear K. split.
  - intros [(C & [(A & n & I & ->)|[(A & [(n & I & ->)|(n & I & ->)])|[(A & n & I & ->)|[(A & n & I & ->)|(x & I & J)]]]])
          |[([A B] & c & l & I & [->|(x & J & L)])|[(A & n & I & ->)|(A & x & I & J)]]].
    + left. eexists _, _. split; [reflexivity|]. apply po_reference; [assumption..|now apply listed_lst].
    + right. left. exists n. split; [reflexivity|]. split; [assumption|]. split; [assumption|now apply listed_lst].
    + left. eexists _, _. split; [reflexivity|]. apply po_property; [assumption..|now apply listed_lst].
    + left. eexists _, _. split; [reflexivity|]. apply po_sink; [assumption..|now apply listed_lst].
    + left. eexists _, _. split; [reflexivity|]. apply po_source; [assumption..|now apply listed_lst].
    + right. right. exists x. split; [|assumption]. apply mb_field; [now left|assumption].
    + left. eexists _, _. split; [reflexivity|]. eapply po_container; eassumption.
    + right. right. exists x. split; [|assumption]. eapply mb_component; eassumption.
    + left. eexists _, _. split; [reflexivity|]. apply po_entry_point; assumption.
    + right. right. exists x. split; [|assumption]. apply mb_field; [now right|assumption].
  - intros [(n & ty & -> & P)|[(n & -> & A & B & L)|(x & M & J)]].
    + inversion P as [m A B L|m A B L|m A B L|m A B L|m l A B L|m A L]; subst; cbn [inf containers_of] in A, L.
      1,2,3,4: apply listed_lst in L.
      * left. split; [assumption|]. left. split; [assumption|]. now exists m.
      * left. split; [assumption|]. right. left. split; [assumption|]. right. now exists n.
      * left. split; [assumption|]. right. right. left. split; [assumption|]. now exists n.
      * left. split; [assumption|]. right. right. right. left. split; [assumption|]. now exists n.
      * right. left. split; [now split|]. exists m, l. split; [assumption|]. now left.
      * right. right. left. split; [assumption|]. now exists n.
    + left. split; [assumption|]. right. left. split; [assumption|]. left. exists n. split; [now apply listed_lst|reflexivity].
    + destruct M as [[A|A] I|c l A B I K]; cbn [inf fields_of containers_of] in *.
      * left. split; [assumption|]. right. right. right. right. now exists x.
      * right. right. right. split; [assumption|]. now exists x.
      * right. left. split; [now split|]. exists c, l. split; [assumption|]. right. now exists x.
Qed.

Lemma in_or_pass l s : s <> SPass -> In s (or_pass l) <-> In s l.
Proof. intros N. destruct l; cbn; [|tauto]. split; [intros [E|[]]; now destruct N|intros []]. Qed.
Lemma stmts_not o : has (inf o) ISimulator = false -> stmts o =
  SClass (95 :: 95 :: name (inf o)) (map spelled (bases (has (inf o)))) (or_pass (inner o)) ::
  SAttr (name (inf o)) (95 :: 95 :: name (inf o)) :: tail_stmts (inf o).
Proof. intros S. rewrite stmts_eq. unfold wrap_stmts. now rewrite S. Qed.
Lemma in_tail i s : In s (tail_stmts i) -> exists t, s = SDoc t.
Proof. unfold tail_stmts. destruct (descr i); [intros []|]. intros [<-|[]]. eauto. Qed.

(** The bases. *)
Ltac one_base :=
  match goal with I : In _ (if ?b then _ else []) |- _ =>
    let E := fresh in destruct b eqn:E; [destruct I as [<-|[]]; exact E|destruct I] end.
Lemma bases_sound h i : In i (bases h) -> h i = true.
Proof.
  unfold bases, one. repeat rewrite in_app_iff. intros [I|[I|[I|I]]].
  - destruct (h IComponent) eqn:E0; [|destruct I]. repeat rewrite in_app_iff in I.
    destruct I as [I|[I|[I|[I|[I|I]]]]].
    2,3,4,5,6: one_base.
    repeat match type of I with In i (if h ?x then _ else _) => destruct (h x) eqn:? end; first [destruct I as [<-|[]]; assumption | destruct I].
  - repeat match type of I with In i (if h ?x then _ else _) => destruct (h x) eqn:? end; first [destruct I as [<-|[]]; assumption | destruct I].
  - one_base.
  - destruct (h IPersist) eqn:E0; [|destruct I]. destruct (h IField) eqn:E1.
    + repeat rewrite in_app_iff in I. destruct I as [I|[I|I]].
      2,3: one_base.
      repeat match type of I with In i (if h ?x then _ else _) => destruct (h x) eqn:? end; first [destruct I as [<-|[]]; assumption | destruct I].
    + destruct (h IFailure) eqn:E2; destruct I as [<-|[]]; assumption.
Qed.

Ltac up := eapply ih_up; [cbn [In]; intuition reflexivity|].
Ltac inh := solve [apply ih_same | eapply ih_up; [cbn [In]; tauto|apply ih_same] | eapply ih_up; [cbn [In]; tauto|eapply ih_up; [cbn [In]; tauto|apply ih_same]]
  | eapply ih_up; [cbn [In]; tauto|eapply ih_up; [cbn [In]; tauto|eapply ih_up; [cbn [In]; tauto|apply ih_same]]]].

Lemma bases_all h i : regular h -> h i = true -> exists j, In j (bases h) /\ inherits j i.
Proof.
  intros [C K V F] H.
  assert (CC : forall j, inherits j i -> True) by trivial. clear CC.
  assert (comp : h IComponent = true -> exists j, In j [IModel; IEventManager; ILinkRegistry; ILogger; IResolver; IScheduler; ITimeKeeper; IService] /\ In j (bases h) /\
     (h IModel = true -> inherits j IModel) /\ (h IService = true -> inherits j IService) /\
     (forall k, In k [IEventManager; ILinkRegistry; ILogger; IResolver; IScheduler; ITimeKeeper] -> h k = true -> j = k)).
  { intros HC. destruct (K HC) as (m & Im & Hm & Um). destruct Im as [<-|[<-|[]]].
    - exists IModel. split; [now left|]. split; [unfold bases; rewrite HC, Hm; now left|].
      assert (NS : h IService <> true).
      { intros X. specialize (Um IService). discriminate Um; [cbn; tauto|assumption]. }
      split; [intros _; constructor|]. split; [intros X; now destruct NS|].
      intros k Ik Hk. exfalso. apply NS. apply (C k); [|assumption]. cbn [In] in Ik.
      intuition (subst; eapply ih_up; [cbn [In]; tauto|constructor]).
    - assert (NM : h IModel = false).
      { destruct (h IModel) eqn:X; [|reflexivity]. specialize (Um IModel). discriminate Um; [cbn; tauto|assumption]. }
      assert (B : exists j, In j [IEventManager; ILinkRegistry; ILogger; IResolver; IScheduler; ITimeKeeper; IService] /\ In j (bases h) /\
        (forall k, In k [IEventManager; ILinkRegistry; ILogger; IResolver; IScheduler; ITimeKeeper] -> h k = true -> j = k)).
      { unfold bases. rewrite HC, NM, Hm.
        destruct (h IEventManager) eqn:E1; [exists IEventManager; split; [cbn; tauto|]; split; [now left|]; intros k Ik Hk; apply V; cbn in *; tauto|].
        destruct (h ILinkRegistry) eqn:E2; [exists ILinkRegistry; split; [cbn; tauto|]; split; [now left|]; intros k Ik Hk; apply V; cbn in *; tauto|].
        destruct (h ILogger) eqn:E3; [exists ILogger; split; [cbn; tauto|]; split; [now left|]; intros k Ik Hk; apply V; cbn in *; tauto|].
        destruct (h IResolver) eqn:E4; [exists IResolver; split; [cbn; tauto|]; split; [now left|]; intros k Ik Hk; apply V; cbn in *; tauto|].
        destruct (h IScheduler) eqn:E5; [exists IScheduler; split; [cbn; tauto|]; split; [now left|]; intros k Ik Hk; apply V; cbn in *; tauto|].
        destruct (h ITimeKeeper) eqn:E6; [exists ITimeKeeper; split; [cbn; tauto|]; split; [now left|]; intros k Ik Hk; apply V; cbn in *; tauto|].
        exists IService. split; [cbn; tauto|]. split; [now left|]. intros k Ik Hk. cbn [In] in Ik.
        intuition (subst; congruence). }
      destruct B as (j & Ij & Jj & Uj). exists j. split; [cbn [In] in *; tauto|]. split; [assumption|].
      split; [intros X; congruence|]. split; [intros _|assumption].
      cbn [In] in Ij. intuition (subst; inh). }
  assert (fld : h IField = true -> h IPersist = true -> exists j, In j [ISimpleField; IForcibleField; IArrayField; ISimpleArrayField; IStructureField] /\ In j (bases h) /\
     (forall k, In k [ISimpleField; IArrayField; ISimpleArrayField; IStructureField] -> h k = true -> inherits j k) /\
     (h IForcibleField = true -> j = IForcibleField)).
  { intros HF HP. destruct (F HF) as (m & Im & Hm & Um).
    assert (FS : h IForcibleField = true -> m = ISimpleField).
    { intros X. symmetry. apply Um; [cbn; tauto|]. apply (C IForcibleField); [inh|assumption]. }
    assert (U : forall k, In k [ISimpleField; IArrayField; ISimpleArrayField; IStructureField] -> h k = true -> k = m) by (intros k Ik Hk; now apply Um).
    assert (N : forall k, In k [ISimpleField; IArrayField; ISimpleArrayField; IStructureField] -> k <> m -> h k = false).
    { intros k Ik Nk. destruct (h k) eqn:X; [|reflexivity]. now destruct Nk; apply U. }
    assert (Q : forall j, In j [ISimpleField; IForcibleField; IArrayField; ISimpleArrayField; IStructureField] ->
      In j (if h ISimpleField then if h IForcibleField then [IForcibleField] else [ISimpleField]
           else if h IArrayField then [IArrayField]
           else if h ISimpleArrayField then [ISimpleArrayField]
           else if h IStructureField then [IStructureField]
           else []) -> inherits j m -> (h IForcibleField = true -> j = IForcibleField) ->
      exists j, In j [ISimpleField; IForcibleField; IArrayField; ISimpleArrayField; IStructureField] /\ In j (bases h) /\
     (forall k, In k [ISimpleField; IArrayField; ISimpleArrayField; IStructureField] -> h k = true -> inherits j k) /\
     (h IForcibleField = true -> j = IForcibleField)).
    { intros j Ij Jj Hj Fj. exists j. split; [assumption|]. split.
      - unfold bases. rewrite HF, HP. rewrite !in_app_iff. tauto.
      - split; [|assumption]. intros k Ik Hk. now rewrite (U k Ik Hk). }
    cbn [In] in Im. destruct Im as [<-|[<-|[<-|[<-|[]]]]].
    - destruct (h IForcibleField) eqn:X.
      + apply (Q IForcibleField); [cbn; tauto|rewrite Hm; now left|inh|trivial].
      + apply (Q ISimpleField); [cbn; tauto|rewrite Hm; now left|inh|discriminate].
    - apply (Q IArrayField); [cbn; tauto| |inh|intros X; specialize (FS X); discriminate FS].
      rewrite (N ISimpleField) by (cbn; tauto || discriminate). rewrite Hm. now left.
    - apply (Q ISimpleArrayField); [cbn; tauto| |inh|intros X; specialize (FS X); discriminate FS].
      rewrite (N ISimpleField), (N IArrayField) by (cbn; tauto || discriminate). rewrite Hm. now left.
    - apply (Q IStructureField); [cbn; tauto| |inh|intros X; specialize (FS X); discriminate FS].
      rewrite (N ISimpleField), (N IArrayField), (N ISimpleArrayField) by (cbn; tauto || discriminate). rewrite Hm. now left. }
  assert (cl : forall j k, inherits j k -> h j = true -> h k = true) by exact C.
  assert (direct : forall k, In k [IAggregate; IDynamicInvocation; IEventConsumer; IEventProvider; ILinkingComponent] -> h k = true -> In k (bases h)).
  { intros k Ik Hk. assert (HC : h IComponent = true) by (apply (C k); [cbn [In] in Ik; intuition (subst; inh)|assumption]).
    unfold bases, one. rewrite HC. repeat rewrite in_app_iff. left. right. repeat rewrite in_app_iff.
    cbn [In] in Ik. intuition (subst; rewrite Hk; cbn; tauto). }
  assert (fields2 : forall k, In k [IDataflowField; IFailure] -> h k = true -> In k (bases h)).
  { intros k Ik Hk. assert (HP : h IPersist = true) by (apply (C k); [cbn [In] in Ik; intuition (subst; inh)|assumption]).
    unfold bases, one. rewrite HP. repeat rewrite in_app_iff. right. right. right. cbn [In] in Ik.
    destruct Ik as [<-|[<-|[]]].
    - assert (HF : h IField = true) by (apply (C IDataflowField); [inh|assumption]). rewrite HF, Hk.
      repeat rewrite in_app_iff. right. left. now left.
    - rewrite Hk. destruct (h IField); [repeat rewrite in_app_iff; right; right; now left|now left]. }
  destruct i.
  - destruct (comp H) as (j & Ij & Jj & _). exists j. split; [assumption|]. cbn [In] in Ij. intuition (subst; inh).
  - destruct (comp) as (j & Ij & Jj & Hj & _); [apply (C IModel); [inh|assumption]|]. exists j. split; [assumption|auto].
  - destruct (comp) as (j & Ij & Jj & _ & Hj & _); [apply (C IService); [inh|assumption]|]. exists j. split; [assumption|auto].
  - destruct (comp) as (j & Ij & Jj & _ & _ & Hj); [apply (C IEventManager); [inh|assumption]|]. exists j. split; [assumption|]. rewrite (Hj IEventManager) by (cbn; tauto || assumption). constructor.
  - destruct (comp) as (j & Ij & Jj & _ & _ & Hj); [apply (C ILinkRegistry); [inh|assumption]|]. exists j. split; [assumption|]. rewrite (Hj ILinkRegistry) by (cbn; tauto || assumption). constructor.
  - destruct (comp) as (j & Ij & Jj & _ & _ & Hj); [apply (C ILogger); [inh|assumption]|]. exists j. split; [assumption|]. rewrite (Hj ILogger) by (cbn; tauto || assumption). constructor.
  - destruct (comp) as (j & Ij & Jj & _ & _ & Hj); [apply (C IResolver); [inh|assumption]|]. exists j. split; [assumption|]. rewrite (Hj IResolver) by (cbn; tauto || assumption). constructor.
  - destruct (comp) as (j & Ij & Jj & _ & _ & Hj); [apply (C IScheduler); [inh|assumption]|]. exists j. split; [assumption|]. rewrite (Hj IScheduler) by (cbn; tauto || assumption). constructor.
  - destruct (comp) as (j & Ij & Jj & _ & _ & Hj); [apply (C ITimeKeeper); [inh|assumption]|]. exists j. split; [assumption|]. rewrite (Hj ITimeKeeper) by (cbn; tauto || assumption). constructor.
  - exists IAggregate. split; [apply direct; [cbn; tauto|assumption]|constructor].
  - exists IDynamicInvocation. split; [apply direct; [cbn; tauto|assumption]|constructor].
  - exists IEventConsumer. split; [apply direct; [cbn; tauto|assumption]|constructor].
  - exists IEventProvider. split; [apply direct; [cbn; tauto|assumption]|constructor].
  - exists ILinkingComponent. split; [apply direct; [cbn; tauto|assumption]|constructor].
  - exists ISimulator. split; [|constructor]. unfold bases. repeat rewrite in_app_iff. right. left.
    rewrite (C ISimulator IComposite) by (inh || assumption). rewrite H. now left.
  - destruct (h ISimulator) eqn:X.
    + exists ISimulator. split; [|inh]. unfold bases. repeat rewrite in_app_iff. right. left. rewrite H, X. now left.
    + exists IComposite. split; [|inh]. unfold bases. repeat rewrite in_app_iff. right. left. rewrite H, X. now left.
  - exists IEntryPointPublisher. split; [|constructor]. unfold bases, one. rewrite H. repeat rewrite in_app_iff. right. right. left. now left.
  - destruct (h IField) eqn:X.
    + destruct (fld eq_refl H) as (j & Ij & Jj & _). exists j. split; [assumption|]. cbn [In] in Ij. intuition (subst; inh).
    + destruct (h IFailure) eqn:Y.
      * exists IFailure. split; [apply fields2; [cbn; tauto|assumption]|inh].
      * exists IPersist. split; [|constructor]. unfold bases. rewrite H, X, Y. repeat rewrite in_app_iff. right. right. right. now left.
  - destruct (fld H) as (j & Ij & Jj & _); [apply (C IField); [inh|assumption]|]. exists j. split; [assumption|]. cbn [In] in Ij. intuition (subst; inh).
  - destruct fld as (j & Ij & Jj & Hj & _); [apply (C ISimpleField); [inh|assumption]|apply (C ISimpleField); [inh|assumption]|]. exists j. split; [assumption|]. apply Hj; [cbn; tauto|assumption].
  - destruct fld as (j & Ij & Jj & _ & Hj); [apply (C IForcibleField); [inh|assumption]|apply (C IForcibleField); [inh|assumption]|]. exists j. split; [assumption|]. rewrite (Hj H). constructor.
  - destruct fld as (j & Ij & Jj & Hj & _); [apply (C IArrayField); [inh|assumption]|apply (C IArrayField); [inh|assumption]|]. exists j. split; [assumption|]. apply Hj; [cbn; tauto|assumption].
  - destruct fld as (j & Ij & Jj & Hj & _); [apply (C ISimpleArrayField); [inh|assumption]|apply (C ISimpleArrayField); [inh|assumption]|]. exists j. split; [assumption|]. apply Hj; [cbn; tauto|assumption].
  - destruct fld as (j & Ij & Jj & Hj & _); [apply (C IStructureField); [inh|assumption]|apply (C IStructureField); [inh|assumption]|]. exists j. split; [assumption|]. apply Hj; [cbn; tauto|assumption].
  - exists IDataflowField. split; [apply fields2; [cbn; tauto|assumption]|constructor].
  - exists IFailure. split; [apply fields2; [cbn; tauto|assumption]|constructor].
Qed.

Definition class_of (o : obj) : list (list Z) * list stmt := (map spelled (bases (has (inf o))), or_pass (inner o)).
Lemma class_describes o : regular (has (inf o)) -> (forall x, member o x -> has (inf x) ISimulator = false) -> describes o (fst (class_of o)) (snd (class_of o)).
Proof.
  intros R S. pose proof (regular_plain o R) as RP. split; cbn [class_of fst snd].
  - intros b I. apply in_map_iff in I. destruct I as (i & <- & I). exists i. split; [apply spelled_class|now apply bases_sound].
  - intros i H. destruct (bases_all _ i R H) as (j & I & J). exists j, (spelled j). split; [now apply in_map|]. split; [apply spelled_class|assumption].
  - intros n ty. rewrite in_or_pass by discriminate. rewrite in_inner by assumption. split.
    + intros [(m & ty' & E & P)|[(m & E & _)|(x & M & I)]]; [injection E as -> ->; now left|discriminate E|].
      right. exists x. split; [assumption|]. rewrite (stmts_not x (S x M)) in I. destruct I as [E|[E|I]]; [discriminate E| |].
      * injection E as <- <-. now split.
      * apply in_tail in I. destruct I as [t E]. discriminate E.
    + intros [P|(x & M & -> & ->)]; [left; eauto|]. right. right. exists x. split; [assumption|].
      rewrite (stmts_not x (S x M)). right. now left.
  - intros n. rewrite in_or_pass by discriminate. rewrite in_inner by assumption. split.
    + intros [(m & ty' & E & P)|[(m & E & P)|(x & M & I)]]; [discriminate E|now injection E as ->|].
      rewrite (stmts_not x (S x M)) in I. destruct I as [E|[E|I]]; [discriminate E|discriminate E|].
      apply in_tail in I. destruct I as [t E]. discriminate E.
    + intros P. right. left. eauto.
Qed.

Lemma port_type o n ty : port o n ty -> exists r, ty = 101 :: r.
Proof. intros P. inversion P; eexists; reflexivity. Qed.

Lemma concat_infix {A} (x : list A) l : In x l -> exists a b, concat l = a ++ x ++ b.
Proof.
  induction l as [|y l IH]; [intros []|intros [->|I]].
  - exists [], (concat l). reflexivity.
  - destruct (IH I) as (a & b & E). exists (y ++ a), b. cbn [concat]. now rewrite E, <- app_assoc.
Qed.
Definition infix {A} (x l : list A) : Prop := exists a b, l = a ++ x ++ b.
Lemma infix_l {A} (x l r : list A) : infix x l -> infix x (l ++ r).
Proof. intros (a & b & ->). exists a, (b ++ r). now rewrite <- !app_assoc. Qed.
Lemma infix_r {A} (x l r : list A) : infix x r -> infix x (l ++ r).
Proof. intros (a & b & ->). exists (l ++ a), b. now rewrite <- !app_assoc. Qed.
Lemma member_infix o x : plain o -> member o x -> infix (stmts x) (inner o).
Proof.
  unfold plain. destruct o as [i fs cs]. intros R [[A|A] I|c l A B I K]; cbn [inf fields_of containers_of inner] in *; unfold body_stmts; cbv zeta.
  - rewrite A. apply infix_l. repeat apply infix_r. apply concat_infix. now apply in_map.
  - rewrite R, A. repeat apply infix_r. apply concat_infix. now apply in_map.
  - rewrite A, B. cbn [andb]. apply infix_r, infix_l.
    assert (X : infix (concat (map stmts l)) (concat (map (fun c => SAttr (95 :: fst c) (codes "ecss_smp.Smp.IContainer") :: concat (snd c))
      (map (fun c => (fst c, map stmts (snd c))) cs)))).
    { rewrite map_map. cbn [fst snd].
      destruct (concat_infix (SAttr (95 :: c) (codes "ecss_smp.Smp.IContainer") :: concat (map stmts l))
        (map (fun c => SAttr (95 :: fst c) (codes "ecss_smp.Smp.IContainer") :: concat (map stmts (snd c))) cs)) as (a & b & E).
      - apply in_map_iff. now exists (c, l).
      - rewrite E. exists (a ++ [SAttr (95 :: c) (codes "ecss_smp.Smp.IContainer")]), b. rewrite <- app_assoc. reflexivity. }
    destruct X as (a & b & ->). destruct (concat_infix (stmts x) (map stmts l)) as (a' & b' & E); [now apply in_map|].
    rewrite E. exists (a ++ a'), (b' ++ b). now rewrite <- !app_assoc.
Qed.

Lemma class_inside k p k' : class_at k p k' -> forall o, k = class_of o -> (forall p x, inside o p x -> regular (has (inf x))) -> (forall p x, inside o p x -> p <> [] -> has (inf x) ISimulator = false) ->
  exists x, inside o p x /\ k' = class_of x.
Proof.
  induction 1 as [k|bs l1 c k l2 n l3 p k' K IH]; intros o E R S.
  - exists o. split; [constructor|assumption].
  - unfold class_of in E. injection E as _ E.
    assert (M0 : forall x, member o x -> has (inf x) ISimulator = false).
    { intros x M. eapply S; [eapply in_next; [exact M|constructor]|discriminate]. }
    assert (IC : In (SClass c (fst k) (snd k)) (inner o)).
    { apply in_or_pass; [discriminate|]. rewrite <- E. apply in_app_iff. right. now left. }
    assert (IA : In (SAttr n c) (inner o)).
    { apply in_or_pass; [discriminate|]. rewrite <- E. apply in_app_iff. right. right. apply in_app_iff. right. now left. }
    apply in_inner in IC; [|apply regular_plain, (R []); constructor]. destruct IC as [(m & ty & X & _)|[(m & X & _)|(x & M & I)]]; [discriminate X|discriminate X|].
    rewrite (stmts_not x (M0 x M)) in I. destruct I as [X|[X|I]]; [|discriminate X|apply in_tail in I; destruct I as [t X]; discriminate X].
    injection X as Ec E1 E2. subst c.
    assert (En : n = name (inf x)).
    { pose proof (class_describes o (R [] o (in_here o)) M0) as D. destruct (proj1 (ds_attributes _ _ _ D n (95 :: 95 :: name (inf x)))) as [P|(y & _ & Y1 & Y2)].
      - cbn [class_of snd]. apply in_or_pass; [discriminate|assumption].
      - apply port_type in P. destruct P as [r P]. discriminate P.
      - injection Y2 as Y2. congruence. }
    subst n. destruct (IH x) as (y & Iy & Ey).
    + unfold class_of. rewrite E1, E2. now destruct k.
    + intros q y Iy. eapply R. eapply in_next; [exact M|exact Iy].
    + intros q y Iy N. eapply S; [eapply in_next; [exact M|exact Iy]|discriminate].
    + exists y. split; [now apply in_next|assumption].
Qed.

Lemma inside_class o p x : inside o p x -> (forall p x, inside o p x -> regular (has (inf x))) -> (forall p x, inside o p x -> p <> [] -> has (inf x) ISimulator = false) ->
  class_at (class_of o) p (class_of x).
Proof.
  induction 1 as [o|o x p y M I IH]; intros R S; [constructor|].
  assert (Sx : has (inf x) ISimulator = false) by (eapply S; [eapply in_next; [exact M|constructor]|discriminate]).
  destruct (member_infix o x (regular_plain o (R [] o (in_here o))) M) as (a & b & E). rewrite (stmts_not x Sx) in E.
  unfold class_of at 1. rewrite E.
  assert (X : or_pass (a ++ (SClass (95 :: 95 :: name (inf x)) (map spelled (bases (has (inf x)))) (or_pass (inner x)) ::
      SAttr (name (inf x)) (95 :: 95 :: name (inf x)) :: tail_stmts (inf x)) ++ b) =
    a ++ SClass (95 :: 95 :: name (inf x)) (fst (class_of x)) (snd (class_of x)) :: [] ++
      SAttr (name (inf x)) (95 :: 95 :: name (inf x)) :: tail_stmts (inf x) ++ b) by (destruct a; reflexivity).
  rewrite X. apply ca_next. apply IH; [intros q z Iz; eapply R; eapply in_next; [exact M|exact Iz]|]. intros q z Iz N. eapply S; [eapply in_next; [exact M|exact Iz]|discriminate].
Qed.

Lemma inside_app o p x y : inside o p x -> member x y -> inside o (p ++ [name (inf y)]) y.
Proof.
  induction 1 as [o|o x p z M I IH]; intros N; cbn [List.app]; [eapply in_next; [exact N|constructor]|].
  eapply in_next; [exact M|now apply IH].
Qed.

Lemma write_describes s t : readable s -> write s = Ok t -> describes_all s t.
Proof.
  intros R E. exists (map spelled (bases (has (inf s)))), (or_pass (inner s)).
  split; [now apply write_block|]. destruct R as [R _ S _ _ _].
  assert (D : forall p o, inside s p o -> describes o (fst (class_of o)) (snd (class_of o))).
  { intros p o I. apply class_describes; [eapply R; exact I|]. intros x M. eapply S; [eapply inside_app; eassumption|]. now destruct p. }
  split.
  - intros p k K. destruct (class_inside _ _ _ K s eq_refl R S) as (o & I & ->). exists o. split; [assumption|]. eapply D; eassumption.
  - intros p o I. exists (class_of o). split; [now apply inside_class|]. eapply D; eassumption.
Qed.

(** * When it is defined *)
Definition defined (r : out) : Prop := exists t, r = Ok t.
Lemma cat_defined l : defined (cat l) <-> Forall defined l.
Proof.
  induction l as [|r l IH]; [split; [constructor|now exists []]|]. split.
  - intros [t E]. apply cat_cons in E. destruct E as (a & b & Ea & Eb & _). constructor; [now exists a|].
    apply IH. now exists b.
  - intros F. inversion F as [|? ? [a A] B]; subst. apply IH in B. destruct B as [b B]. cbn [cat bind]. rewrite B. now exists (a ++ b).
Qed.
Lemma cat_gen_defined d l : defined (cat (map (gen d) l)) <-> forall x, In x l -> defined (gen d x).
Proof. rewrite cat_defined, Forall_map, Forall_forall. reflexivity. Qed.
Lemma defined_ok t : defined (Ok t).
Proof. now exists t. Qed.
Lemma not_defined_ub : ~ defined UB.
Proof. intros [t E]. discriminate E. Qed.

Lemma body_defined d o : plain o ->
  defined (body_of d (inf o) (map (gen d) (fields_of o)) (map (fun c => (fst c, map (gen d) (snd c))) (containers_of o))) <->
  ~ unpublished o /\ forall x, member o x -> defined (gen d x).
Proof.
  unfold plain. destruct o as [i fs cs]. cbn [inf fields_of containers_of]. intros R. unfold body_of. cbv zeta. rewrite cat_defined, R.
  rewrite !Forall_cons_iff. unfold unpublished. cbn [inf].
  assert (K : defined (cat (map (fun c => cat (Ok (attr d (95 :: fst c) (codes "ecss_smp.Smp.IContainer") ++ [10]) :: snd c))
      (map (fun c => (fst c, map (gen d) (snd c))) cs))) <-> forall c l, In (c, l) cs -> forall x, In x l -> defined (gen d x)).
  { rewrite map_map, cat_defined, Forall_map, Forall_forall. cbn [fst snd]. split.
    - intros H c l I. specialize (H (c, l) I). cbn [fst snd] in H. rewrite cat_defined, Forall_cons_iff in H.
      destruct H as [_ H]. rewrite Forall_map, Forall_forall in H. exact H.
    - intros H [c l] I. cbn [fst snd]. rewrite cat_defined, Forall_cons_iff. split; [apply defined_ok|].
      rewrite Forall_map, Forall_forall. intros x J. eapply H; eassumption. }
  pose proof (cat_gen_defined d fs) as KF. split.
  - intros (A & B & _ & D & _).
    assert (NU : ~ (has i IComponent = true /\ (published i = false \/ has i IDynamicInvocation = true /\ (ops i = None \/ props i = None)))).
    { intros [HC U]. rewrite HC in A. rewrite cat_defined, !Forall_cons_iff in A. destruct A as (_ & A2 & _ & _ & A5 & _).
      destruct U as [U|[U1 U2]]; [rewrite U in A5; now apply not_defined_ub|]. rewrite U1 in A2.
      destruct (ops i); [|now apply not_defined_ub]. destruct (props i); [|now apply not_defined_ub]. destruct U2; discriminate. }
    split; [exact NU|]. intros x [[HC|HN] I|c l HC HK I J]; cbn [inf fields_of containers_of] in *.
    + rewrite HC in A. rewrite cat_defined, !Forall_cons_iff in A. destruct A as (_ & _ & _ & _ & A5 & _).
      destruct (published i) eqn:P; [|now destruct (not_defined_ub A5)]. now apply KF.
    + rewrite HN in D. now apply KF.
    + rewrite HC, HK in B. cbn [andb] in B. eapply (proj1 K); eassumption.
  - intros [NU H].
    assert (HF : has i IComponent = true \/ has i IStructureField = true -> forall x, In x fs -> defined (gen d x)).
    { intros X x I. apply H. apply mb_field; assumption. }
    split; [|split; [|split; [|split; [|constructor]]]].
    + destruct (has i IComponent) eqn:HC; [|apply defined_ok]. rewrite cat_defined, !Forall_cons_iff.
      split; [apply defined_ok|]. split; [|split; [apply defined_ok|split; [apply defined_ok|split; [|constructor]]]].
      * destruct (has i IDynamicInvocation) eqn:HD; [|apply defined_ok].
        destruct (ops i) eqn:EO; [|destruct NU; tauto]. destruct (props i) eqn:EP; [apply defined_ok|destruct NU; tauto].
      * destruct (published i) eqn:P; [|destruct NU; tauto]. apply KF. apply HF. now left.
    + destruct (has i IComposite) eqn:HC; [|apply defined_ok]. destruct (contained i) eqn:HK; [|apply defined_ok]. cbn [andb].
      apply K. intros c l I x J. apply H. eapply mb_component; eassumption.
    + apply defined_ok.
    + destruct (has i IStructureField) eqn:HN; [|apply defined_ok]. apply KF. apply HF. now right.
Qed.

Lemma gen_defined o : (forall p x, inside o p x -> plain x) -> forall d, defined (gen d o) <-> forall p x, inside o p x -> ~ unpublished x.
Proof.
  induction o as [o IH] using member_ind. intros R d. rewrite gen_eq.
  assert (R' : forall x, member o x -> forall p y, inside x p y -> plain y) by (intros x M p y I; eapply R; eapply in_next; eassumption).
  assert (E : defined (bind (body_of (S d) (inf o) (map (gen (S d)) (fields_of o)) (map (fun c => (fst c, map (gen (S d)) (snd c))) (containers_of o)))
       (fun b => Ok (wrap d (inf o) b))) <->
    defined (body_of (S d) (inf o) (map (gen (S d)) (fields_of o)) (map (fun c => (fst c, map (gen (S d)) (snd c))) (containers_of o)))).
  { destruct (body_of _ _ _ _) as [b|e|]; cbn [bind]; [split; intros _; apply defined_ok|destruct e|tauto]. }
  rewrite E, body_defined by (apply (R []); constructor). clear E. split.
  - intros [N H] p x I. destruct I as [o|o x p y M I]; [assumption|]. apply (proj1 (IH x M (R' x M) (S d)) (H x M) p y I).
  - intros H. split; [apply (H [] o); constructor|]. intros x M. apply IH; [assumption|now apply R'|]. intros p y I.
    eapply H. eapply in_next; eassumption.
Qed.

Lemma write_defined s : (forall p x, inside s p x -> regular (has (inf x))) -> (exists t, write s = Ok t) <-> forall p o, inside s p o -> ~ unpublished o.
Proof.
  intros R. rewrite <- (gen_defined s (fun p x I => regular_plain x (R p x I)) 0). unfold write, defined. destruct (gen 0 s) as [t|e|]; cbn [bind]; [|destruct e|].
  - split; intros _; eauto.
  - split; intros [t E]; discriminate E.
Qed.

(** * The lines of a file without quotes *)
Fixpoint lines (t : list Z) : list (list Z) :=
  match t with
  | [] => [[]]
  | c :: t => if c =? 10 then [] :: lines t else match lines t with [] => [[c]] | l :: r => (c :: l) :: r end
  end.
Fixpoint skip_blanks (l : list Z) : list Z := match l with 32 :: l => skip_blanks l | _ => l end.
Fixpoint word (l : list Z) : list Z * list Z :=
  match l with
  | [] => ([], [])
  | c :: l' => if wcb c then let (w, r) := word l' in (c :: w, r) else ([], l)
  end.
(** The first word is there, and is an identifier if a colon follows. *)
Definition ok_line (l : list Z) : bool :=
  match skip_blanks l with
  | [] => true
  | r => match word r with ([], _) => false | (w, 58 :: _) => is_ident w | _ => true end
  end.

Lemma lines_line a t : ~ In 10 a -> lines (a ++ 10 :: t) = a :: lines t.
Proof.
  induction a as [|c a IH]; intros N; [reflexivity|]. cbn [List.app lines].
  destruct (Z.eqb_spec c 10) as [->|_]; [destruct N; now left|].
  rewrite IH; [reflexivity|]. intros I. apply N. now right.
Qed.
Lemma skip_repeat n l : skip_blanks (repeat 32 n ++ l) = skip_blanks l.
Proof. induction n; [reflexivity|]. exact IHn. Qed.
Lemma word_split w c r : Forall word_char w -> wcb c = false -> word (w ++ c :: r) = (w, c :: r).
Proof.
  induction 1 as [|x w X _ IH]; intros C; cbn [List.app word]; [now rewrite C|].
  apply wcb_iff in X. rewrite X, IH by assumption. reflexivity.
Qed.
Lemma word_all w : Forall word_char w -> word w = (w, []).
Proof. induction 1 as [|x w X _ IH]; [reflexivity|]. cbn [word]. apply wcb_iff in X. now rewrite X, IH. Qed.
Lemma skip_word w l : Forall word_char w -> w <> [] -> skip_blanks (w ++ l) = w ++ l.
Proof.
  intros F N. destruct w as [|c w]; [easy|]. inversion F as [|? ? X _]; subst. cbn [List.app skip_blanks].
  assert (c <> 32) by (unfold word_char in X; lia).
  destruct c as [|c|c]; try reflexivity. repeat (destruct c as [c|c|]; try reflexivity). lia.
Qed.
Lemma ok_word n w c r : Forall word_char w -> w <> [] -> wcb c = false -> (c = 58 -> is_ident w = true) ->
  ok_line (repeat 32 n ++ w ++ c :: r) = true.
Proof.
  intros F N C I. unfold ok_line. rewrite skip_repeat, skip_word by assumption. destruct w as [|x w]; [easy|].
  pose proof (word_split (x :: w) c r F C) as E. cbn [List.app] in *. rewrite E. clear E.
  destruct (Z.eq_dec c 58) as [->|X]; [now apply I|].
  destruct c as [|c|c]; try reflexivity. repeat (destruct c as [c|c|]; try reflexivity). lia.
Qed.
Lemma ok_word_end n w : Forall word_char w -> w <> [] -> ok_line (repeat 32 n ++ w) = true.
Proof.
  intros F N. unfold ok_line. rewrite <- (app_nil_r w), skip_repeat, skip_word, app_nil_r by assumption. destruct w as [|x w]; [easy|].
  now rewrite word_all by assumption.
Qed.
Lemma literal_word w : forallb wcb w = true -> Forall word_char w.
Proof. rewrite forallb_forall, Forall_forall. intros H x I. apply wcb_iff. auto. Qed.
Lemma word_no_newline w : Forall word_char w -> ~ In 10 w.
Proof. rewrite Forall_forall. intros F I. specialize (F 10 I). unfold word_char in F. lia. Qed.
Lemma dotted_no_newline s : dotted s -> ~ In 10 s.
Proof.
  induction 1 as [s (_ & F & _)|s t (_ & F & _) D IH]; [now apply word_no_newline|].
  intros I. apply in_app_iff in I. destruct I as [I|[I|I]]; [now apply (word_no_newline s)|discriminate I|now apply IH].
Qed.
Lemma repeat_no_newline n : ~ In 10 (repeat 32 n).
Proof. intros I. apply repeat_spec in I. discriminate I. Qed.
Lemma identifier_ne s : identifier s -> s <> [].
Proof. intros ((c & r & -> & _) & _). discriminate. Qed.

Ltac no_newline := repeat rewrite in_app_iff; let I := fresh in intros I;
  repeat match type of I with _ \/ _ => destruct I as [I|I] end;
  try solve [now apply repeat_no_newline in I | eapply word_no_newline; [|exact I]; assumption | eapply dotted_no_newline; [|exact I]; assumption
    | vm_compute in I; repeat (destruct I as [I|I]; [discriminate I|]); destruct I].

Lemma block_lines d t l : block d t l -> ~ In 34 t -> forall u, forallb ok_line (lines u) = true -> forallb ok_line (lines (t ++ u)) = true.
Proof.
  induction 1 as [d|d t l B IH|d t l B IH|d n t l N B IH|d n ty t l N T B IH|d n t l N B IH|d s t l Q B IH|d c bs bt body t l N F B1 IH1 NE B2 IH2];
    intros Q34 u U.
  - exact U.
  - cbn [List.app lines]. change (10 =? 10) with true. cbn [forallb]. change (ok_line []) with true. cbn [andb]. apply IH; [|assumption].
    intros I. apply Q34. now right.
  - assert (X : (repeat 32 (4 * d) ++ codes "pass" ++ 10 :: t) ++ u = (repeat 32 (4 * d) ++ codes "pass") ++ 10 :: (t ++ u)) by (now rewrite <- !app_assoc).
    rewrite X, lines_line by no_newline. cbn [forallb]. rewrite ok_word_end; [|apply literal_word; reflexivity|discriminate]. cbn [andb].
    apply IH; [|assumption]. intros I. apply Q34. rewrite !in_app_iff. right. right. now right.
  - destruct N as (NN & W & K).
    assert (X : (repeat 32 (4 * d) ++ codes "import " ++ n ++ 10 :: t) ++ u = (repeat 32 (4 * d) ++ codes "import" ++ 32 :: n) ++ 10 :: (t ++ u)).
    { change (codes "import ") with (codes "import" ++ [32]). repeat first [rewrite <- app_assoc | progress cbn [List.app]]. reflexivity. }
    rewrite X, lines_line. 2: { change (codes "import" ++ 32 :: n) with (codes "import " ++ n). no_newline. }
    cbn [forallb]. rewrite ok_word; [|apply literal_word; reflexivity|discriminate|reflexivity|discriminate]. cbn [andb].
    apply IH; [|assumption]. intros I. apply Q34. rewrite !in_app_iff. right. right. right. now right.
  - pose proof N as (NN & W & K).
    assert (X : (repeat 32 (4 * d) ++ n ++ codes ": " ++ ty ++ 10 :: t) ++ u = (repeat 32 (4 * d) ++ n ++ codes ": " ++ ty) ++ 10 :: (t ++ u)) by (now rewrite <- !app_assoc).
    rewrite X, lines_line by no_newline. cbn [forallb].
    change (codes ": " ++ ty) with (58 :: 32 :: ty). rewrite ok_word; [|assumption|now apply identifier_ne|reflexivity|intros _; now apply is_ident_iff].
    cbn [andb]. apply IH; [|assumption]. intros I. apply Q34. rewrite !in_app_iff. right. right. right. right. now right.
  - destruct N as (NN & W & K).
    assert (X : (repeat 32 (4 * d) ++ codes "def " ++ n ++ codes "(self, ): ..." ++ 10 :: t) ++ u =
      (repeat 32 (4 * d) ++ codes "def" ++ 32 :: n ++ codes "(self, ): ...") ++ 10 :: (t ++ u)).
    { change (codes "def ") with (codes "def" ++ [32]). repeat first [rewrite <- app_assoc | progress cbn [List.app]]. reflexivity. }
    rewrite X, lines_line. 2: { change (codes "def" ++ 32 :: n ++ codes "(self, ): ...") with (codes "def " ++ n ++ codes "(self, ): ..."). no_newline. }
    cbn [forallb]. rewrite ok_word; [|apply literal_word; reflexivity|discriminate|reflexivity|discriminate]. cbn [andb].
    apply IH; [|assumption]. intros I. apply Q34. rewrite !in_app_iff. right. right. right. right. now right.
  - destruct Q34. rewrite !in_app_iff. right. left. now left.
  - destruct N as (NN & W & K).
    assert (X : (repeat 32 (4 * d) ++ codes "class " ++ c ++ codes "(" ++ concat (map (fun b => b ++ codes ", ") bs) ++ codes "):" ++ 10 :: bt ++ t) ++ u =
      (repeat 32 (4 * d) ++ codes "class" ++ 32 :: c ++ codes "(" ++ concat (map (fun b => b ++ codes ", ") bs) ++ codes "):") ++ 10 :: (bt ++ (t ++ u))).
    { change (codes "class ") with (codes "class" ++ [32]). repeat first [rewrite <- app_assoc | progress cbn [List.app]]. reflexivity. }
    assert (NB : ~ In 10 (concat (map (fun b => b ++ codes ", ") bs))).
    { rewrite in_concat. intros (x & I & J). apply in_map_iff in I. destruct I as (b & <- & I).
      rewrite Forall_forall in F. specialize (F b I). revert J. no_newline. }
    rewrite X, lines_line.
    2: { change (codes "class" ++ 32 :: c ++ ?y) with (codes "class " ++ c ++ y). no_newline. now apply NB. }
    cbn [forallb]. rewrite ok_word; [|apply literal_word; reflexivity|discriminate|reflexivity|discriminate]. cbn [andb].
    apply IH1; [|apply IH2; [|assumption]].
    + intros I. apply Q34. rewrite !in_app_iff. right. right. right. right. right. right. right. rewrite in_app_iff. now left.
    + intros I. apply Q34. rewrite !in_app_iff. right. right. right. right. right. right. right. rewrite in_app_iff. now right.
Qed.

Lemma not_python t : ~ In 34 t -> forallb ok_line (lines t) = false -> forall l, ~ block 0 t l.
Proof.
  intros Q F l B. pose proof (block_lines 0 t l B Q [] eq_refl) as X. rewrite app_nil_r in X. congruence.
Qed.

(** * A check of [readable] *)
Fixpoint below (o : obj) : list obj :=
  match o with Obj _ fs cs => o :: concat (map below fs) ++ concat (map (fun c => concat (map below (snd c))) cs) end.
Lemma below_self o : In o (below o).
Proof. destruct o. now left. Qed.
Lemma member_below o x y : member o x -> In y (below x) -> In y (tl (below o)).
Proof.
  destruct o as [i fs cs]. cbn [below tl]. intros [_ I|c l _ _ I K] J; cbn [fields_of containers_of] in I; rewrite in_app_iff.
  - left. rewrite in_concat. exists (below x). split; [now apply in_map|assumption].
  - right. rewrite in_concat. exists (concat (map below l)). split; [apply in_map_iff; now exists (c, l)|].
    rewrite in_concat. exists (below x). split; [now apply in_map|assumption].
Qed.
Lemma in_tl {A} (x : A) l : In x (tl l) -> In x l.
Proof. destruct l; [easy|]. intros I. now right. Qed.
Lemma inside_below o p x : inside o p x -> In x (below o) /\ (p <> [] -> In x (tl (below o))).
Proof.
  induction 1 as [o|o x p y M I [IH _]]; [split; [apply below_self|easy]|].
  pose proof (member_below o x y M IH) as T. split; [now apply in_tl|auto].
Qed.

Definition names_of (o : obj) : list (list Z) :=
  let i := inf o in
  map (cons 95) (lst (refs i)) ++ lst (ops i) ++ lst (props i) ++ lst (sinks i) ++ lst (sources i)
  ++ map (fun c => 95 :: fst c) (containers_of o) ++ eps i.
Definition pairs : list (iface * iface) := [(IModel, IComponent); (IService, IComponent); (IEventManager, IService); (ILinkRegistry, IService);
    (ILogger, IService); (IResolver, IService); (IScheduler, IService); (ITimeKeeper, IService); (IAggregate, IComponent);
    (IDynamicInvocation, IComponent); (IEventConsumer, IComponent); (IEventProvider, IComponent); (ILinkingComponent, IComponent);
    (ISimulator, IComposite); (IField, IPersist); (ISimpleField, IField); (IForcibleField, ISimpleField); (IArrayField, IField);
    (ISimpleArrayField, IField); (IStructureField, IField); (IDataflowField, IField); (IFailure, IPersist)].
Definition held (h : iface -> bool) (l : list iface) : list iface := filter h l.
Definition regular_b (h : iface -> bool) : bool :=
  forallb (fun p => implb (h (fst p)) (h (snd p))) pairs &&
  implb (h IComponent) (match held h [IModel; IService] with [_] => true | _ => false end) &&
  match held h services with [] | [_] => true | _ => false end &&
  implb (h IField) (match held h [ISimpleField; IArrayField; ISimpleArrayField; IStructureField] with [_] => true | _ => false end).
Lemma held_one h l i : held h l = [i] -> In i l /\ h i = true /\ forall j, In j l -> h j = true -> j = i.
Proof.
  intros E. assert (X : forall j, In j (held h l) <-> In j l /\ h j = true) by (intros j; apply filter_In). rewrite E in X.
  destruct (proj1 (X i) (or_introl eq_refl)) as [A B]. split; [assumption|]. split; [assumption|].
  intros j J H. destruct (proj2 (X j) (conj J H)) as [Y|[]]. now symmetry.
Qed.
Lemma regular_check h : regular_b h = true -> regular h.
Proof.
  unfold regular_b. rewrite !andb_true_iff, forallb_forall. intros [[[A B] C] D]. split.
  - intros i j I. induction I as [i|i j k I H IH]; [trivial|]. intros X. apply IH. specialize (A (i, j) I). cbn [fst snd] in A.
    rewrite X in A. exact A.
  - intros H. rewrite H in B. cbn [implb] in B. destruct (held h [IModel; IService]) as [|i [|? ?]] eqn:E; try discriminate B.
    apply held_one in E. destruct E as (E1 & E2 & E3). exists i. auto.
  - intros i j I J Hi Hj. destruct (held h services) as [|k [|? ?]] eqn:E; try discriminate C.
    + assert (In i (held h services)) by (now apply filter_In). rewrite E in H. destruct H.
    + apply held_one in E. destruct E as (_ & _ & E). now rewrite (E i I Hi), (E j J Hj).
  - intros H. rewrite H in D. cbn [implb] in D. destruct (held h [ISimpleField; IArrayField; ISimpleArrayField; IStructureField]) as [|i [|? ?]] eqn:E; try discriminate D.
    apply held_one in E. destruct E as (E1 & E2 & E3). exists i. auto.
Qed.
Definition check (s : obj) : bool :=
  forallb (fun o => regular_b (has (inf o))) (below s) &&
  has (inf s) ISimulator &&
  forallb (fun o => negb (has (inf o) ISimulator) && is_ident (name (inf o)) &&
                    forallb (fun c => negb (c =? 34) && negb (c =? 92)) (descr (inf o))) (tl (below s)) &&
  forallb (fun o => forallb is_ident (names_of o)) (below s).
Lemma plain_quotable s : forallb (fun c => negb (c =? 34) && negb (c =? 92)) s = true -> quotable s.
Proof.
  intros F. rewrite forallb_forall in F.
  assert (N : forall c, In c s -> c <> 34 /\ c <> 92).
  { intros c I. specialize (F c I). rewrite andb_true_iff, !negb_true_iff, !Z.eqb_neq in F. exact F. }
  clear F. split; [intros I; now apply N in I|]. induction s as [|c s IH]; intros a b E.
  - apply (f_equal (@length Z)) in E. rewrite !app_length in E. cbn [length] in E. destruct b; [reflexivity|cbn [length] in E; lia].
  - destruct a as [|x a]; cbn [List.app] in E.
    + injection E as E _. destruct (N c) as [X _]; [now left|]. now destruct X.
    + injection E as _ E. apply (IH (fun c I => N c (or_intror I)) a b E).
Qed.
Lemma check_readable s : check s = true -> readable s.
Proof.
  unfold check. rewrite !andb_true_iff, !forallb_forall. intros [[[R S] T] B].
  assert (T' : forall p o, inside s p o -> p <> [] -> has (inf o) ISimulator = false /\ identifier (name (inf o)) /\ quotable (descr (inf o))).
  { intros p o I N. apply inside_below in I. destruct I as [_ I]. specialize (T o (I N)). rewrite !andb_true_iff in T.
    destruct T as [[T1 T2] T3]. split; [now apply negb_true_iff|]. split; [now apply is_ident_iff|now apply plain_quotable]. }
  assert (B' : forall p o n, inside s p o -> In n (names_of o) -> identifier n).
  { intros p o n I J. apply inside_below in I. destruct I as [I _]. specialize (B o I). rewrite forallb_forall in B. now apply is_ident_iff, B. }
  split; [intros p o I; apply regular_check, R; now apply inside_below in I|assumption|intros p o I N; now apply (T' p o)|intros p o I N; now apply (T' p o)| |].
  - intros p o n ty I P. apply (B' p o n I). unfold names_of. rewrite !in_app_iff.
    inversion P as [m A C L|m A C L|m A C L|m A C L|m l A C L|m A L]; subst; try apply listed_lst in L.
    + left. now apply in_map.
    + tauto.
    + tauto.
    + tauto.
    + do 5 right. left. apply in_map_iff. now exists (m, l).
    + tauto.
  - intros p o n I (A & C & L). apply listed_lst in L. apply (B' p o n I). unfold names_of. rewrite !in_app_iff. tauto.
Qed.

(** Whether there is such a component can be decided. *)
Fixpoint bad (o : obj) : bool :=
  match o with
  | Obj i fs cs =>
      let h := has i in
      (h IComponent && (negb (published i) || h IDynamicInvocation && (match ops i with None => true | _ => false end || match props i with None => true | _ => false end))) ||
      ((h IComponent || h IStructureField) && existsb bad fs) ||
      (h IComposite && contained i && existsb (fun c => existsb bad (snd c)) cs)
  end.
Lemma bad_step o : bad o = true -> unpublished o \/ exists x, member o x /\ bad x = true.
Proof.
  destruct o as [i fs cs]. cbn [bad]. cbv zeta.
  rewrite !orb_true_iff, !andb_true_iff, !orb_true_iff, !andb_true_iff, !orb_true_iff, negb_true_iff, !existsb_exists.
  intros [[[A B]|[A (x & I & B)]]|[[A B] ([c l] & I & E)]].
  - left. split; [assumption|]. destruct B as [B|[B C]]; [now left|right]. split; [assumption|].
    cbn [inf]. destruct (ops i), (props i); destruct C as [C|C]; try discriminate C; tauto.
  - right. exists x. split; [apply mb_field; assumption|assumption].
  - cbn [snd] in E. rewrite existsb_exists in E. destruct E as (x & J & E). right. exists x. split; [|assumption]. eapply mb_component; eassumption.
Qed.
Lemma bad_inside o : bad o = true -> exists p x, inside o p x /\ unpublished x.
Proof.
  induction o as [o IH] using member_ind. intros B. apply bad_step in B. destruct B as [B|(x & M & B)].
  - exists [], o. split; [constructor|assumption].
  - destruct (IH x M B) as (p & y & I & U). exists (name (inf x) :: p), y. split; [eapply in_next; eassumption|assumption].
Qed.
Lemma bad_self o : unpublished o -> bad o = true.
Proof.
  destruct o as [i fs cs]. intros [A B]. cbn [inf] in *. cbn [bad]. cbv zeta. rewrite A. cbn [andb].
  destruct B as [B|[B [C|C]]]; [now rewrite B|rewrite B, C|rewrite B, C]; cbn [andb orb]; rewrite ?orb_true_r; reflexivity.
Qed.
Lemma bad_member o x : member o x -> bad x = true -> bad o = true.
Proof.
  destruct o as [i fs cs]. intros M B. cbn [bad]. cbv zeta. destruct M as [A I|c l A K I J]; cbn [inf fields_of containers_of] in *.
  - assert (E : existsb bad fs = true) by (apply existsb_exists; eauto). assert (F : has i IComponent || has i IStructureField = true) by (apply orb_true_iff; tauto).
    rewrite E, F. cbn [andb]. now rewrite orb_true_r.
  - assert (E : existsb (fun c => existsb bad (snd c)) cs = true).
    { apply existsb_exists. exists (c, l). split; [assumption|]. cbn [snd]. apply existsb_exists. eauto. }
    rewrite A, K, E. cbn [andb]. now rewrite orb_true_r.
Qed.
Lemma inside_bad o p x : inside o p x -> unpublished x -> bad o = true.
Proof. induction 1 as [o|o x p y M I IH]; intros U; [now apply bad_self|]. eapply bad_member; [exact M|auto]. Qed.
Lemma write_undefined s : (forall p x, inside s p x -> regular (has (inf x))) -> write s = UB <-> exists p o, inside s p o /\ unpublished o.
Proof.
  intros R. destruct (bad s) eqn:B.
  - apply bad_inside in B. split; [intros _; exact B|]. intros _. destruct B as (p & o & I & U).
    destruct (write s) as [t|e|] eqn:E; [|destruct e|reflexivity]. exfalso.
    apply (proj1 (write_defined s R) (ex_intro _ t E) p o I U).
  - assert (N : forall p o, inside s p o -> ~ unpublished o) by (intros p o I U; rewrite (inside_bad s p o I U) in B; discriminate B).
    destruct (proj2 (write_defined s R) N) as [t E]. rewrite E. split; [discriminate|]. intros (p & o & I & U). destruct (N p o I U).
Qed.

(** * Quotes *)
Fixpoint scan (inside : bool) (t : list Z) : bool :=
  match t with
  | [] => negb inside
  | c :: r =>
      if c =? 34 then
        match r with
        | d :: r1 =>
            match r1 with
            | e :: r2 => if (d =? 34) && (e =? 34) then scan (negb inside) r2 else if inside then scan true r else false
            | [] => if inside then scan true r else false
            end
        | [] => if inside then scan true r else false
        end
      else scan inside r
  end.
Lemma scan_other b w u : ~ In 34 w -> scan b (w ++ u) = scan b u.
Proof.
  induction w as [|c w IH]; intros N; [reflexivity|]. cbn [List.app scan].
  destruct (Z.eqb_spec c 34) as [->|_]; [destruct N; now left|]. apply IH. intros I. apply N. now right.
Qed.
Lemma scan_doc s u : quotable s -> scan true (s ++ 34 :: 34 :: 34 :: u) = scan false u.
Proof.
  intros [_ Q]. induction s as [|c s IH]; [reflexivity|].
  assert (Q' : forall a b, s ++ [34; 34; 34] = a ++ [34; 34; 34] ++ b -> b = []).
  { intros a b E. apply (Q (c :: a) b). cbn [List.app] in *. now rewrite E. }
  specialize (IH Q'). cbn [List.app]. cbn [scan]. destruct (Z.eqb_spec c 34) as [->|_]; [|exact IH].
  destruct s as [|d s]; [specialize (Q [] [34] eq_refl); discriminate Q|]. cbn [List.app].
  destruct s as [|e s]; cbn [List.app].
  - destruct (Z.eqb_spec d 34) as [->|_]; [specialize (Q [] [34; 34] eq_refl); discriminate Q|]. exact IH.
  - destruct (Z.eqb_spec d 34) as [->|_]; cbn [andb]; [|exact IH].
    destruct (Z.eqb_spec e 34) as [->|_]; [|exact IH].
    specialize (Q [] (s ++ [34; 34; 34]) eq_refl). apply app_eq_nil in Q. destruct Q as [_ Q]. discriminate Q.
Qed.
Lemma word_no_quote w : Forall word_char w -> ~ In 34 w.
Proof. rewrite Forall_forall. intros F I. specialize (F 34 I). unfold word_char in F. lia. Qed.
Lemma dotted_no_quote s : dotted s -> ~ In 34 s.
Proof.
  induction 1 as [s (_ & F & _)|s t (_ & F & _) D IH]; [now apply word_no_quote|].
  intros I. apply in_app_iff in I. destruct I as [I|[I|I]]; [now apply (word_no_quote s)|discriminate I|now apply IH].
Qed.
Lemma repeat_no_quote n : ~ In 34 (repeat 32 n).
Proof. intros I. apply repeat_spec in I. discriminate I. Qed.
Lemma literal_no_quote w : existsb (Z.eqb 34) w = false -> ~ In 34 w.
Proof.
  intros E I. assert (X : existsb (Z.eqb 34) w = true) by (apply existsb_exists; exists 34; split; [assumption|reflexivity]). congruence.
Qed.
Lemma identifier_no_quote s : identifier s -> ~ In 34 s.
Proof. intros (_ & F & _). now apply word_no_quote. Qed.
Lemma block_scan d t l : block d t l -> forall u, scan false (t ++ u) = scan false u.
Proof.
  induction 1 as [d|d t l B IH|d t l B IH|d n t l N B IH|d n ty t l N T B IH|d n t l N B IH|d s t l Q B IH|d c bs bt body t l N F B1 IH1 NE B2 IH2]; intros u.
  - reflexivity.
  - cbn [List.app scan]. apply IH.
  - rewrite <- !app_assoc, scan_other by apply repeat_no_quote. rewrite scan_other by (now apply literal_no_quote). apply IH.
  - rewrite <- !app_assoc, scan_other by apply repeat_no_quote. rewrite scan_other by (now apply literal_no_quote).
    rewrite scan_other by (now apply identifier_no_quote). apply IH.
  - rewrite <- !app_assoc, scan_other by apply repeat_no_quote. rewrite scan_other by (now apply identifier_no_quote).
    rewrite scan_other by (now apply literal_no_quote). rewrite scan_other by (now apply dotted_no_quote). apply IH.
  - rewrite <- !app_assoc, scan_other by apply repeat_no_quote. rewrite scan_other by (now apply literal_no_quote).
    rewrite scan_other by (now apply identifier_no_quote). rewrite scan_other by (now apply literal_no_quote). apply IH.
  - rewrite <- !app_assoc, scan_other by apply repeat_no_quote.
    change (scan false ([34; 34; 34] ++ s ++ [34; 34; 34] ++ (10 :: t) ++ u)) with (scan true (s ++ 34 :: 34 :: 34 :: (10 :: t) ++ u)).
    rewrite scan_doc by assumption. apply IH.
  - rewrite <- !app_assoc, scan_other by apply repeat_no_quote. rewrite scan_other by (now apply literal_no_quote).
    rewrite scan_other by (now apply identifier_no_quote). rewrite scan_other by (now apply literal_no_quote).
    assert (NB : ~ In 34 (concat (map (fun b => b ++ codes ", ") bs))).
    { rewrite in_concat. intros (x & I & J). apply in_map_iff in I. destruct I as (b & <- & I).
      rewrite Forall_forall in F. specialize (F b I). apply in_app_iff in J. destruct J as [J|J]; [now apply dotted_no_quote in J|].
      revert J. now apply literal_no_quote. }
    rewrite scan_other by assumption. rewrite scan_other by (now apply literal_no_quote).
    cbn [List.app scan]. change (10 =? 34) with false. cbv iota. rewrite <- app_assoc, IH1. apply IH2.
Qed.
Lemma not_closed t : scan false t = false -> forall l, ~ block 0 t l.
Proof. intros F l B. pose proof (block_scan 0 t l B []) as X. rewrite app_nil_r in X. rewrite F in X. discriminate X. Qed.
