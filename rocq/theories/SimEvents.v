(** Proofs about what the commands of the simulator show to the handlers of the global events. *)
From Coq Require Import ZArith List Bool Lia.
From Verif Require Import Base SimModel SimSpec SimProofs.
Import ListNotations.
Local Open Scope Z_scope.

(** * Commands during which the user code only returns *)
Fixpoint evs (c : cmd) (i : list Z) (f : list instr) : list sev :=
  match f with
  | [] => [EvReturn c]
  | IState s :: f => EvState s :: evs c i f
  | IEmit e :: f => EvEmit e :: evs c i f
  | IInit :: f => map EvExec i ++ evs c [] f
  | IExec p :: f => EvExec p :: evs c i f
  | _ :: f => evs c i f
  end.
Definition later_init (i : list Z) (f : list instr) : list Z := if existsb (fun j => match j with IInit => true | _ => false end) f then [] else i.

Lemma evs_exec : forall c i l f, evs c i (map IExec l ++ f) = map EvExec l ++ evs c i f.
Proof. induction l as [|p l IH]; intros f; cbn; [reflexivity|now rewrite IH]. Qed.
Lemma later_exec : forall i l f, later_init i (map IExec l ++ f) = later_init i f.
Proof. unfold later_init. induction l as [|p l IH]; intros f; cbn; [reflexivity|apply IH]. Qed.
Lemma later_nil : forall f, later_init [] f = [].
Proof. intros f. unfold later_init. now destruct (existsb _ f). Qed.

Lemma quiet_idle : forall ls x, Forall quiet ls -> s_stack x = [] -> run x ls = (x, []).
Proof.
  induction ls as [|a ls IH]; intros [s l i h k] Q E; [reflexivity|]. cbn in E. subst k. inversion Q as [|? ? Qa Qs]; subst. cbn [run].
  assert (S : step a (Sim s l i h []) = (Sim s l i h [], [])) by (destruct Qa as [->| ->]; reflexivity).
  rewrite S, (IH (Sim s l i h []) Qs eq_refl). reflexivity.
Qed.

Lemma last_cons : forall (w : list sst) s s', last (s' :: w) s = last w s'.
Proof. induction w as [|a w IH]; intros s s'; [reflexivity|]. change (last (a :: w) s = last (a :: w) s'). rewrite (IH s), (IH s'). reflexivity. Qed.

Lemma quiet_run : forall ls x c f, Forall quiet ls -> s_stack x = [(c, f)] -> s_stack (fst (run x ls)) = [] ->
  s_st (fst (run x ls)) = last (writes f) (s_st x) /\ snd (run x ls) = evs c (s_init x) f /\
  s_init (fst (run x ls)) = later_init (s_init x) f /\ s_later (fst (run x ls)) = s_later x.
Proof.
  induction ls as [|a ls IH]; intros [s l i h k] c f Q K E; cbn in K; subst k; [discriminate E|].
  inversion Q as [|? ? Qa Qs]; subst. cbn [run] in *. cbn [s_st s_init s_later].
  assert (N : forall s' l' i' f', s_stack (fst (run (Sim s' l' i' h [(c, f')]) ls)) = [] ->
      s_st (fst (run (Sim s' l' i' h [(c, f')]) ls)) = last (writes f') s' /\ snd (run (Sim s' l' i' h [(c, f')]) ls) = evs c i' f' /\
      s_init (fst (run (Sim s' l' i' h [(c, f')]) ls)) = later_init i' f' /\ s_later (fst (run (Sim s' l' i' h [(c, f')]) ls)) = h)
      by (intros s' l' i' f' E'; exact (IH (Sim s' l' i' h [(c, f')]) c f' Qs eq_refl E')).
  destruct f as [|j f].
  - destruct Qa as [->| ->].
    + cbn in E |- *. rewrite (quiet_idle ls (Sim s l i h []) Qs eq_refl). auto.
    + cbn [step] in E |- *. specialize (N s l i []). destruct (run (Sim s l i h [(c, [])]) ls) as [y t]. exact (N E).
  - destruct Qa as [->| ->]; destruct j as [s'|e| |b| |p]; cbn [step] in E |- *;
      match goal with |- context [run (Sim ?s1 ?l1 ?i1 h [(c, ?f1)]) ls] => specialize (N s1 l1 i1 f1); destruct (run (Sim s1 l1 i1 h [(c, f1)]) ls) as [z t] end;
      cbn [fst snd] in E, N |- *; specialize (N E); destruct N as (A & B & C & D); try (rewrite D, C, B, A; auto; fail).
    + rewrite D, C, B, A. cbn [writes]. rewrite last_cons. auto.
    + rewrite D, C, B, A, evs_exec, writes_init. rewrite later_exec, later_nil. auto.
Qed.

Lemma call_quiet : forall ls x c, s_stack x = [] -> guard c (s_st x) (s_last x) = true -> c <> CPre -> c <> CHoldLater -> Forall quiet ls ->
  s_stack (fst (run x (LCall c :: ls))) = [] ->
  s_st (fst (run x (LCall c :: ls))) = last (writes (body c)) (s_st x) /\ snd (run x (LCall c :: ls)) = EvCall c :: evs c (s_init x) (body c) /\
  s_init (fst (run x (LCall c :: ls))) = later_init (s_init x) (body c) /\ s_later (fst (run x (LCall c :: ls))) = s_later x.
Proof.
  intros ls [s l i h k] c K G C C' Q E. cbn in K, G. subst k.
  assert (S : step (LCall c) (Sim s l i h []) = (Sim s l i h [(c, body c)], [EvCall c])) by (destruct c; try congruence; cbn [step in_user call]; rewrite G; reflexivity).
  cbn [run] in *. rewrite S in *. destruct (run (Sim s l i h [(c, body c)]) ls) as [y t] eqn:R. cbn [fst snd] in *.
  destruct (quiet_run ls (Sim s l i h [(c, body c)]) c (body c) Q eq_refl) as (A & B & C2 & D); rewrite ?R; auto.
  rewrite R in A, B, C2, D. cbn [fst snd s_st s_init s_later] in *. rewrite B. auto.
Qed.

(** The commands can end. *)
Fixpoint moves (f : list instr) : list label :=
  match f with
  | [] => [LStep]
  | IEmit _ :: f => LStep :: LRet :: LStep :: moves f
  | IUser _ :: f => LRet :: moves f
  | IExec _ :: f => LStep :: LRet :: moves f
  | _ :: f => LStep :: moves f
  end.
Lemma moves_quiet : forall f, Forall quiet (moves f).
Proof. unfold quiet. induction f as [|[] f IH]; cbn; repeat (constructor; [auto|]); try assumption. constructor. Qed.
Lemma moves_end : forall f s l i h c, Forall (fun j => j <> IInit) f -> s_stack (fst (run (Sim s l i h [(c, f)]) (moves f))) = [].
Proof.
  induction f as [|j f IH]; intros s l i h c F; [reflexivity|]. inversion F as [|? ? Fj Ff]; subst. destruct j as [s'|e| |b| |p]; cbn;
    try (match goal with |- context [run ?y (moves f)] => pose proof (IH (s_st y) (s_last y) (s_init y) (s_later y) c Ff) as X; cbn in X; destruct (run y (moves f)) end; exact X).
  contradiction.
Qed.

(** * Any user code *)
Definition inert1 (j : instr) : bool := match j with IUser _ | IClear | IState Aborting => true | _ => false end.
Definition inert (f : list instr) : bool := forallb inert1 f.

(** No command is accepted, and Abort would be in the middle of a transition. *)
Definition shut (s : sst) (l : option gev) : Prop := blocked s l /\ (resting s = true -> leaving l = true).

Definition quiet_rec (s : sst) : Prop := s = Reconnecting.

Definition nofalse (f : list instr) : Prop := match f with IUser false :: _ => False | _ => True end.

Fixpoint esafe (p : option sev) (s : sst) (f : list instr) : Prop :=
  match f with
  | [] => settled p
  | IState s' :: r => announced quiet_rec p s (EvState s') /\ nofalse r /\ esafe (Some (EvState s')) s' r
  | IEmit e :: r => announced quiet_rec p s (EvEmit e) /\ (inert r = false -> shut s (Some e)) /\ (inert r = true -> settled (Some (EvEmit e))) /\ nofalse r /\ esafe (Some (EvEmit e)) s r
  | IClear :: r => nofalse r /\ esafe p s r
  | IUser b :: r => (b = true -> inert r = false -> forall l, shut s l) /\ (b = true \/ inert r = true -> settled p) /\ nofalse r /\ esafe p s r
  | IInit :: r | IExec _ :: r => inert r = false /\ settled p /\ nofalse r /\ (forall l, shut s l) /\ esafe p s r
  end.

Fixpoint nof1 (f : list instr) : Prop := match f with [] => True | _ :: r => nofalse r /\ nof1 r end.
Definition below (g : cmd * list instr) : Prop := inert (snd g) = true /\ nof1 (snd g).

Fixpoint einvk (p : option sev) (s : sst) (l : option gev) (k : frames) : Prop :=
  match k with
  | [] => settled p
  | (_, []) :: r => einvk p s l r
  | (_, f) :: r =>
      esafe p s f /\ (user_head f = true -> inert f = false -> shut s l) /\ Forall below r
  end.
Definition einv (p : option sev) (x : sim) : Prop := einvk p (s_st x) (s_last x) (s_stack x).

Lemma inert_esafe : forall f p s, inert f = true -> nof1 f -> settled p -> esafe p s f.
Proof.
  induction f as [|j f IH]; intros p s I N S; [exact S|]. cbn in I. apply andb_true_iff in I. destruct I as [Ij If]. change (inert f = true) in If.
  destruct N as [Nj Nf]. destruct j as [[]| | |b| |]; try discriminate Ij; cbn.
  - split; [now apply an_abort|]. split; [assumption|]. apply IH; [assumption|assumption|reflexivity].
  - split; [assumption|]. now apply IH.
  - split; [intros _ H; congruence|]. split; [auto|]. split; [assumption|]. now apply IH.
Qed.
Lemma esafe_nof1 : forall f p s, esafe p s f -> nof1 f.
Proof.
  induction f as [|j f IH]; intros p s E; [exact I|]. destruct j as [s'|e| |b| |q]; cbn in E; decompose [and] E; split; try assumption; eapply IH; eassumption.
Qed.

Lemma inert_einv : forall p s l k, Forall below k -> settled p -> einvk p s l k.
Proof.
  intros p s l k F S. induction k as [|[c f] k IH]; [assumption|]. inversion F as [|? ? [If Nf] Fk]; subst. cbn [snd] in If, Nf.
  destruct f as [|j f]; [now apply IH|]. split; [now apply inert_esafe|]. split; [|assumption]. intros _ H. congruence.
Qed.

Lemma nofalse_head : forall p s l f, nofalse f -> esafe p s f -> user_head f = true -> inert f = false -> shut s l.
Proof. intros p s l [|[| | |[]| |] f] N E U I; try discriminate; [|contradiction]. destruct E as (E & _). now apply E. Qed.

(** Going on with the frame at the top. *)
Lemma advance : forall p s l c f k, esafe p s f -> (user_head f = true -> inert f = false -> shut s l) -> Forall below k ->
  einvk p s l ((c, f) :: k).
Proof.
  intros p s l c f k E H F. cbn. destruct f as [|j f]; [now apply inert_einv|]. auto.
Qed.

Lemma body_esafe : forall c s l p, guard c s l = true -> c <> CPre -> settled p -> esafe p s (body c).
Proof.
  assert (A : forall s l, s = Connecting \/ s = Initialising \/ s = Storing \/ s = Restoring \/ s = Reconnecting -> shut s l).
  { intros s l H. split; [|intros R; decompose [or] H; subst; discriminate R]. intros c Nc Np.
    decompose [or] H; subst s; destruct c; congruence || reflexivity. }
  assert (B : forall e, e = LeaveStandby -> shut Standby (Some e)).
  { intros e ->. split; [|reflexivity]. intros c Nc Np. destruct c; congruence || reflexivity. }
  assert (C : forall e, e = LeaveExecuting -> shut Executing (Some e)).
  { intros e ->. split; [|reflexivity]. intros c Nc Np. destruct c; congruence || reflexivity. }
  intros c s l p G Np Sp. destruct c; try congruence; destruct s; try discriminate G; cbn;
    repeat match goal with
    | |- _ /\ _ => split
    | |- true = false -> _ => discriminate
    | |- false = true -> _ => discriminate
    | |- false = false => reflexivity
    | |- true = true -> _ => intros _
    | |- _ \/ _ = true -> settled _ => intros _
    | |- false = false -> _ => intros _
    | |- _ -> false = false -> _ => intros _ _
    | |- _ -> true = false -> _ => discriminate
    | |- forall l, shut _ _ => intros ?
    | |- shut _ _ => first [apply A; tauto|now apply B|now apply C]
    | |- settled p => exact Sp
    | |- settled (Some (EvEmit _)) => intros []; discriminate
    | |- forall s, leave_of s <> _ => intros []; discriminate
    | |- enter_of _ = None => reflexivity
    | |- announced _ _ _ (EvState Aborting) => apply an_abort
    | |- announced _ _ _ (EvEmit EnterAborting) => apply an_aborting
    | |- announced _ _ _ (EvEmit _) => first [apply an_enter; reflexivity|apply an_leave; [reflexivity|]]
    | |- announced _ _ _ (EvState _) => first [eapply an_state; [constructor|reflexivity|reflexivity]|apply an_silent; [constructor|first [left; reflexivity|right; reflexivity]|]]
    end; try reflexivity; intros _ []; discriminate.
Qed.

Fixpoint obs (p : option sev) (t : list sev) : option sev :=
  match t with [] => p | EvState s :: t => obs (Some (EvState s)) t | EvEmit e :: t => obs (Some (EvEmit e)) t | _ :: t => obs p t end.

Lemma protocol_app : forall silent a b p s, protocol silent p s (a ++ b) <-> protocol silent p s a /\ protocol silent (obs p a) (last (states a) s) b.
Proof.
  induction a as [|e a IH]; intros b p s; [cbn; tauto|]. destruct e; cbn [app protocol obs states]; rewrite ?IH, ?last_cons; tauto.
Qed.
Lemma obs_app : forall a b p, obs p (a ++ b) = obs (obs p a) b.
Proof. induction a as [|e a IH]; intros b p; [reflexivity|]. destruct e; cbn; apply IH. Qed.

(** User code that has the control: nothing is left to announce, or nothing is accepted. *)
Lemma user_settled : forall p s l k, einvk p s l k -> in_user k = true ->
  (settled p /\ Forall below k) \/ shut s l.
Proof.
  intros p s l k E U. destruct k as [|[c f] k]; [left; split; [exact E|constructor]|].
  destruct f as [|[| | |b| |] f]; try discriminate U. destruct E as (Ef & H & F). destruct (inert (IUser b :: f)) eqn:I.
  - left. split; [apply Ef; right; exact I|constructor; [|assumption]; split; [exact I|exact (esafe_nof1 _ _ _ Ef)]].
  - right. apply H; reflexivity.
Qed.

Lemma call_einv : forall c p s l i h k, einvk p s l k -> in_user k = true ->
  (c = CAbort -> resting s = true /\ leaving l = false) ->
  let y := fst (call c (Sim s l i h k)) in
  s_st y = s /\ states (snd (call c (Sim s l i h k))) = [] /\ protocol quiet_rec p s (snd (call c (Sim s l i h k))) /\
  obs p (snd (call c (Sim s l i h k))) = p /\ einvk p s (s_last y) (s_stack y).
Proof.
  intros c p s l i h k E U Ab.
  assert (P : forall d, d <> CPre -> (d = CAbort -> c = CAbort) -> guard d s l = true -> einvk p s l ((d, body d) :: k)).
  { intros d Nd Dc G. destruct (user_settled p s l k E U) as [[S F]|[B R]].
    - apply advance; [now apply (body_esafe d s l)| |assumption].
      intros UH I. destruct d; try congruence; try discriminate UH; discriminate I.
    - destruct (match d with CAbort => true | _ => false end) eqn:A.
      + destruct d; try discriminate A. destruct (Ab (Dc eq_refl)) as [R1 R2]. rewrite (R R1) in R2. discriminate.
      + rewrite (B d) in G; [discriminate|intros ->; discriminate A|assumption]. }
  destruct c; cbn [call];
    try (destruct (guard _ s l) eqn:G; cbn [fst snd s_st s_last s_stack states protocol obs]; (do 4 (split; [reflexivity || exact I|])); [apply P; congruence|exact E]).
  - destruct (guard CHoldLater s l); [destruct h|]; cbn; auto.
  - destruct h; [|cbn; auto]. destruct (guard CHold s l) eqn:G; cbn [fst snd s_st s_last s_stack states protocol obs]; (do 4 (split; [reflexivity || exact I|])).
    + apply (P CHold); congruence.
    + exact E.
Qed.

Lemma step_einv : forall a p x, einv p x -> (a = LCall CAbort -> resting (s_st x) = true /\ leaving (s_last x) = false) ->
  protocol quiet_rec p (s_st x) (snd (step a x)) /\ einv (obs p (snd (step a x))) (fst (step a x)) /\
  s_st (fst (step a x)) = last (states (snd (step a x))) (s_st x).
Proof.
  intros a p [s l i h k] E Ab. unfold einv in *. cbn [s_st s_last s_stack] in *. destruct a as [c|q| | |]; cbn [step].
  - destruct (in_user k) eqn:U; [|cbn; auto]. destruct (call_einv c p s l i h k E U) as (A & B & C & D & F); [intros ->; now apply Ab|].
    rewrite D, B, A. cbn. auto.
  - destruct (in_user k); [|cbn; auto]. destruct (can_add s); cbn; auto.
  - destruct k as [|[c [|[s'|e| |b| |q] f]] k]; try (cbn; auto; fail). cbn [fst snd s_st s_last s_stack protocol obs states last].
    destruct E as ((Eb & Es & En & Ef) & H & F). split; [exact I|]. split; [|reflexivity]. apply advance; [exact Ef| |exact F].
    intros UH Hi. destruct f as [|[| | |b'| |] f]; try discriminate UH. apply H; [reflexivity|exact Hi].
  - destruct k as [|[c [|[s'|e| |[]| |q] f]] k]; try (cbn; auto; fail). cbn [fst snd s_st s_last s_stack protocol obs states last].
    destruct E as ((Eb & Es & En & Ef) & H & F). split; [exact I|]. split; [|reflexivity]. apply inert_einv; [exact F|]. apply Es. now left.
  - destruct k as [|[c [|[s'|e| |b| |q] f]] k]; try (cbn; auto; fail); cbn [fst snd s_st s_last s_stack protocol obs states last].
    + destruct E as ((Ea & En & Ef) & H & F). split; [auto|]. split; [|reflexivity]. apply advance; [exact Ef| |exact F].
      now apply nofalse_head with (p := Some (EvState s')).
    + destruct E as ((Ea & Eh & Es & En & Ef) & H & F). split; [auto|]. split; [|reflexivity]. apply advance; [|intros _ Hi; apply Eh; exact Hi|exact F].
      cbn. split; [discriminate|]. split; [intros [X|X]; [discriminate|exact (Es X)]|auto].
    + destruct E as ((En & Ef) & H & F). split; [auto|]. split; [|reflexivity]. apply advance; [exact Ef| |exact F]. now apply nofalse_head with (p := p).
    + destruct E as ((Ei & Es & En & Eh & Ef) & H & F). split; [auto|]. split; [|reflexivity]. apply advance; [| |exact F].
      * clear -Ei Es En Eh Ef. induction i as [|q i IH]; [exact Ef|]. cbn. split; [|split; [assumption|split; [|split; assumption]]].
        -- clear -Ei. induction i as [|q i IH]; [exact Ei|reflexivity].
        -- destruct i; [exact En|exact I].
      * destruct i; [now apply nofalse_head with (p := p)|discriminate].
    + destruct E as ((Ei & Es & En & Eh & Ef) & H & F). split; [auto|]. split; [|reflexivity]. apply advance; [| |exact F].
      * cbn. auto.
      * intros _ _. apply Eh.
Qed.

Lemma run_einv : forall ls p x, einv p x -> orderly x ls -> protocol quiet_rec p (s_st x) (snd (run x ls)).
Proof.
  induction ls as [|a ls IH]; intros p x E O; [exact I|]. destruct O as [Oa Os]. cbn [run]. destruct (step_einv a p x E Oa) as (A & B & C).
  destruct (step a x) as [x1 t1]. cbn [fst snd] in *. specialize (IH _ _ B Os). destruct (run x1 ls) as [x2 t2]. cbn [snd] in *.
  apply protocol_app. rewrite <- C. auto.
Qed.
