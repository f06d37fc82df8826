(** C81: removing the links of a component to another one. *)
From Coq Require Import ZArith List Bool Lia.
From Verif Require Import Base AnyModel HelperModel HelperSpec CollModel SinkModel FlowModel FlowSpec UnlinkModel UnlinkSpec
  UnlinkProofs.
From Verif Require CollProofs.
Import ListNotations.
Local Open Scope nat_scope.

(** After RemoveLinks(target) each event source of the component has the sinks it had
    without those of the target, in the same order, and each reference holds the
    components it held without the target.  Sources and references of which the code
    cannot remove anything ([false]) are left as they are. *)
Theorem C81_events_references : forall parent turns field_at sink_parent target c w,
  let c' := fst (remove_links parent turns field_at sink_parent target c w) in
  Forall2 (fun s s' => fst s' = fst s /\ (fst s = false -> s' = s) /\
             (fst s = true -> dead (snd s) = false ->
              pruned (fun x => sink_parent x = target) (sinks (snd s)) (sinks (snd s'))))
    (c_sources c) (c_sources c') /\
  Forall2 (fun r r' => forall a typ l, r = (a, typ, l) -> (a = false -> r' = r) /\
             (a = true -> (forall x, In x l -> typ x = true) ->
              exists l', r' = (true, typ, l') /\ pruned (fun x => x = target) l l'))
    (c_refs c) (c_refs c').
Proof.
  intros parent turns field_at sink_parent target c w c'. cbn. split.
  - induction (c_sources c) as [|s l IH]; cbn; constructor; [|exact IH]. unfold unlink_source.
    split; [destruct (fst s) eqn:A; cbn; now rewrite ?A|]. split; [now intros ->|]. intros A D. rewrite A.
    cbn [snd]. unfold sstep. rewrite D. cbn. apply pruned_filter.
    + intros x E F. rewrite F, Z.eqb_refl in E. discriminate E.
    + intros x E. now apply negb_false_iff, Z.eqb_eq in E.
  - induction (c_refs c) as [|r rs IH]; cbn; constructor; [|exact IH]. intros a typ l ->. unfold unlink_ref.
    split; [now intros ->|]. intros -> T. cbn. eexists. split; [reflexivity|]. destruct (typ target) eqn:E.
    + rewrite CollProofs.erase_all_ok by lia. apply pruned_filter.
      * intros x G F. rewrite F, Z.eqb_refl in G. discriminate G.
      * intros x G. now apply negb_false_iff, Z.eqb_eq in G.
    + assert (N : ~ In target l) by (intros I; apply T in I; congruence). clear - N.
      induction l as [|x l IH]; constructor; [intros ->; apply N; now left|]. apply IH. intros I. apply N. now right.
Qed.

Section Fields.
  (** GetParent(), with finite chains of parents; the fields by address; the target. *)
  Variables (parent : obj -> option obj) (rank : obj -> nat) (turns : nat).
  Variables (field_at : nat -> tree) (sink_parent : Z -> Z) (target : Z).
  Hypothesis Chains : forall o p, parent o = Some p -> rank p < rank o.
  Hypothesis Turns : forall o, rank o < turns.
  Hypothesis Fields : forall j, tid (field_at j) = j /\ parented parent (field_at j).

  (** The field belongs to the target component. *)
  Let of_target (j : nat) : Prop := ancestor_or_self parent (OComp target) (OField j).
  Let after (c : comp) (w : world) : world := snd (remove_links parent turns field_at sink_parent target c w).

  (** RemoveLinks(target) removes no link to a field of another component, adds none and
      changes no value, on any field of any component. *)
  Theorem C81_others_kept : forall c w, others_kept of_target w (after c w) /\ same_values w (after c w).
  Proof.
    intros c w.
    pose proof (remove_links_steps parent turns field_at target rank Chains Turns Fields sink_parent c w) as S.
    split; [|exact (proj1 (proj2 S))]. eapply steps_kept; [|exact S].
    exact (own_dec parent turns target rank Chains Turns).
  Qed.

  (** What is left of the links of an output of the component: the input that follows a
      removed one is skipped. *)
  Theorem C81_field_links : forall c w f x,
    NoDup (flat_map tids (c_fields c)) -> In f (c_fields c) -> outermost w f x ->
    NoDup (inputs w x) -> (forall j, In j (inputs w x) -> same_sort x (field_at j)) ->
    skipping of_target (inputs w x) (inputs (after c w) x).
  Proof.
    intros c w f x ND I O N S.
    exact (remove_links_handled parent turns field_at target rank Chains Turns Fields sink_parent c w f x ND I O N S).
  Qed.

  (** So all links to the target are removed from it when no two inputs that follow each
      other are of the target.  Missing: outputs with two such inputs
      (C81_neighbours_refuted), outputs inside another output (C81_nested_refuted) and
      published outputs (C81_published_refuted). *)
  Theorem C81_removed_partial : forall c w f x,
    NoDup (flat_map tids (c_fields c)) -> In f (c_fields c) -> outermost w f x ->
    NoDup (inputs w x) -> (forall j, In j (inputs w x) -> same_sort x (field_at j)) ->
    apart of_target (inputs w x) ->
    pruned of_target (inputs w x) (inputs (after c w) x).
  Proof. intros c w f x ND I O N S A. apply skipping_apart; [|exact A]. now apply (C81_field_links c w f x). Qed.
End Fields.

(** * Examples and counterexamples *)

(** Component 10 has the output 0; component 20 the inputs 1 and 2, component 30 the
    input 3. *)
Definition ex_leaf (v : Z) (pub conn outp : bool) : leaf :=
  Leaf (CInt TI32) KI32 (PInt v) false false conn [] pub None (negb outp) outp.
Definition ex_world (l : list leaf) : world :=
  World (fun i => nth i l (ex_leaf 0 false false false)) (fun _ => SArr (CInt TI32) KI32 [] false [] false None true true) (fun _ => []).
Definition ex_parent (o : obj) : option obj :=
  match o with
  | OField 0 => Some (OComp 10)
  | OField 1 | OField 2 => Some (OComp 20)
  | OField _ => Some (OComp 30)
  | OComp _ => None
  end.
Definition ex_rank (o : obj) : nat := match o with OField _ => 1 | OComp _ => 0 end.
Definition ex_comp (l : list tree) : comp := Comp [] [] l.

Example C81_example :
  let w0 := ex_world [ex_leaf 7 false true true; ex_leaf 0 false false false; ex_leaf 0 false false false; ex_leaf 0 false false false] in
  let c := ex_comp [TSimple 0] in
  (forall o p, ex_parent o = Some p -> ex_rank p < ex_rank o) /\ (forall o, ex_rank o < 2) /\
  (forall j, tid (TSimple j) = j /\ parented ex_parent (TSimple j)) /\
  exists w, frun 2 w0 [WConnect (TSimple 0) (TSimple 1); WConnect (TSimple 0) (TSimple 3); WConnect (TSimple 0) (TSimple 2)] = Some w /\
    inputs w (TSimple 0) = [1; 3; 2] /\ outermost w (TSimple 0) (TSimple 0) /\
    apart (fun j => ancestor_or_self ex_parent (OComp 20) (OField j)) (inputs w (TSimple 0)) /\
    inputs (snd (remove_links ex_parent 2 TSimple (fun _ => 0%Z) 20 c w)) (TSimple 0) = [3].
Proof.
  cbv zeta. split; [|split; [|split]].
  - intros [[|[|[|i]]]|z] p E; try discriminate E; injection E as <-; cbn; lia.
  - intros [i|z]; cbn; lia.
  - intros j. split; constructor.
  - set (w0 := ex_world _). set (os := [_; _; _]). destruct (frun 2 w0 os) as [w|] eqn:E.
    2: { assert (G : match frun 2 w0 os with None => false | Some _ => true end = true) by (vm_compute; reflexivity).
         rewrite E in G. discriminate G. }
    exists w. split; [reflexivity|].
    assert (G : option_map (fun w => (inputs w (TSimple 0), extension w (TSimple 0),
        inputs (snd (remove_links ex_parent 2 TSimple (fun _ => 0%Z) 20 (ex_comp [TSimple 0]) w)) (TSimple 0)))
        (frun 2 w0 os) = Some ([1; 3; 2], true, [3])) by (vm_compute; reflexivity).
    rewrite E in G. cbn [option_map] in G. injection G as G1 G2 G3. change (ltargets (leafs w 0)) with (inputs w (TSimple 0)) in G1. rewrite G1.
    split; [reflexivity|]. split; [constructor; exact G2|]. split; [|exact G3].
    assert (N : ~ ancestor_or_self ex_parent (OComp 20) (OField 3)).
    { intros H. inversion H as [|? ? p Ep Hp]; subst. injection Ep as <-. inversion Hp as [|? ? p Eq _]; subst. discriminate Eq. }
    intros a j k b El. destruct a as [|x [|y [|z a]]]; try discriminate El; injection El; intros; subst; try (intros [H1 H2]; contradiction).
    destruct a; discriminate.
Qed.

(** With two inputs of the target that follow each other, the second one stays linked:
    a later assignment to the output still writes into the target. *)
Theorem C81_neighbours_refuted : exists w0 os w,
  frun 2 w0 os = Some w /\ inputs w (TSimple 0) = [1; 2] /\
  (forall j, In j [1; 2] -> ancestor_or_self ex_parent (OComp 20) (OField j)) /\
  let w' := snd (remove_links ex_parent 2 TSimple (fun _ => 0%Z) 20 (ex_comp [TSimple 0]) w) in
  inputs w' (TSimple 0) = [2] /\
  lval (leafs w' 2) = PInt 7 /\ lval (leafs (fst (assign 2 w' 0 (PInt 9))) 2) = PInt 9.
Proof.
  set (w0 := ex_world [ex_leaf 7 false true true]).
  set (os := [WConnect (TSimple 0) (TSimple 1); WConnect (TSimple 0) (TSimple 2)]).
  destruct (frun 2 w0 os) as [w|] eqn:E.
  2: { assert (G : match frun 2 w0 os with None => false | Some _ => true end = true) by (vm_compute; reflexivity).
       rewrite E in G. discriminate G. }
  exists w0, os, w. split; [exact E|].
  assert (G : option_map (fun w => let w' := snd (remove_links ex_parent 2 TSimple (fun _ => 0%Z) 20 (ex_comp [TSimple 0]) w) in
      (inputs w (TSimple 0), inputs w' (TSimple 0), lval (leafs w' 2), lval (leafs (fst (assign 2 w' 0 (PInt 9))) 2)))
      (frun 2 w0 os) = Some ([1; 2], [2], PInt 7, PInt 9)) by (vm_compute; reflexivity).
  rewrite E in G. cbn [option_map] in G. cbv zeta in *. injection G as G1 G2 G3 G4. change (ltargets (leafs w 0)) with (inputs w (TSimple 0)) in G1. rewrite G1.
  split; [reflexivity|]. split; [|split; [exact G2|split; [exact G3|exact G4]]].
  intros j [<-|[<-|[]]]; (eapply aos_up; [reflexivity|constructor]).
Qed.

(** An output published through a publication is not looked at. *)
Theorem C81_published_refuted : exists w0 w,
  frun 2 w0 [WPubConnect (TSimple 0) (TSimple 1)] = Some w /\
  ancestor_or_self ex_parent (OComp 20) (OField 1) /\
  let w' := snd (remove_links ex_parent 2 TSimple (fun _ => 0%Z) 20 (ex_comp [TSimple 0]) w) in
  linked w' (TSimple 0) (TSimple 1) /\
  lval (leafs (fst (pub_push 2 (fst (set_any 2 w' 0 (Any KI32 (PInt 9)))) (TSimple 0) [TSimple 1])) 1) = PInt 9.
Proof.
  set (w0 := ex_world [ex_leaf 7 true false true]). exists w0.
  destruct (frun 2 w0 [WPubConnect (TSimple 0) (TSimple 1)]) as [w|] eqn:E.
  2: { assert (G : match frun 2 w0 [WPubConnect (TSimple 0) (TSimple 1)] with None => false | Some _ => true end = true) by (vm_compute; reflexivity).
       rewrite E in G. discriminate G. }
  exists w. split; [reflexivity|]. split; [eapply aos_up; [reflexivity|constructor]|].
  assert (G : option_map (fun w => let w' := snd (remove_links ex_parent 2 TSimple (fun _ => 0%Z) 20 (ex_comp [TSimple 0]) w) in
      (ltargets (leafs w' 0), lval (leafs (fst (pub_push 2 (fst (set_any 2 w' 0 (Any KI32 (PInt 9)))) (TSimple 0) [TSimple 1])) 1)))
      (frun 2 w0 [WPubConnect (TSimple 0) (TSimple 1)]) = Some ([1], PInt 9)) by (vm_compute; reflexivity).
  rewrite E in G. cbn [option_map] in G. cbv zeta in *. injection G as G1 G2. split; [|exact G2].
  assert (I1 : In 1 [1]) by now left. rewrite <- G1 in I1. exact I1.
Qed.

(** An output inside an output is not looked at: structure 4 with the output 0. *)
Theorem C81_nested_refuted : exists w0 w,
  let s := TStr 4 true false true [TSimple 0] in
  frun 2 w0 [WConnect (TSimple 0) (TSimple 1)] = Some w /\
  ancestor_or_self ex_parent (OComp 20) (OField 1) /\
  let w' := snd (remove_links ex_parent 2 TSimple (fun _ => 0%Z) 20 (ex_comp [s]) w) in
  linked w' (TSimple 0) (TSimple 1) /\
  lval (leafs (fst (assign 2 w' 0 (PInt 9))) 1) = PInt 9.
Proof.
  set (w0 := ex_world [ex_leaf 7 false true true]). exists w0.
  destruct (frun 2 w0 [WConnect (TSimple 0) (TSimple 1)]) as [w|] eqn:E.
  2: { assert (G : match frun 2 w0 [WConnect (TSimple 0) (TSimple 1)] with None => false | Some _ => true end = true) by (vm_compute; reflexivity).
       rewrite E in G. discriminate G. }
  exists w. cbv zeta. split; [reflexivity|]. split; [eapply aos_up; [reflexivity|constructor]|].
  assert (G : option_map (fun w => let w' := snd (remove_links ex_parent 2 TSimple (fun _ => 0%Z) 20 (ex_comp [TStr 4 true false true [TSimple 0]]) w) in
      (ltargets (leafs w' 0), lval (leafs (fst (assign 2 w' 0 (PInt 9))) 1)))
      (frun 2 w0 [WConnect (TSimple 0) (TSimple 1)]) = Some ([1], PInt 9)) by (vm_compute; reflexivity).
  rewrite E in G. cbn [option_map] in G. cbv zeta in *. injection G as G1 G2. split; [|exact G2].
  assert (I1 : In 1 [1]) by now left. rewrite <- G1 in I1. exact I1.
Qed.

Print Assumptions C81_events_references.
Print Assumptions C81_others_kept.
Print Assumptions C81_removed_partial.
