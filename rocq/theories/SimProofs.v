From Verif Require Import Base SimModel SimSpec.

Notation frames := (list (cmd * list instr)).

(** * Vocabulary of the invariants *)
(** States still to be written by a frame. *)
Fixpoint writes (f : list instr) : list sst :=
  match f with [] => [] | IState s :: r => s :: writes r | _ :: r => writes r end.

Definition is_ab (s : sst) : bool := match s with Aborting => true | _ => false end.
Definition npend (f : list instr) : bool := existsb (fun s => negb (is_ab s)) (writes f).
Definition apend (f : list instr) : bool := existsb is_ab (writes f).

Fixpoint ex_of (f : list instr) : list Z :=
  match f with [] => [] | IExec p :: r => p :: ex_of r | _ :: r => ex_of r end.
Definition pend (k : frames) : list Z := concat (map (fun cf => ex_of (snd cf)) k).

Fixpoint no_user (f : list instr) : bool :=
  match f with [] => true | IUser true :: _ => false | _ :: r => no_user r end.

Definition blocked (s : sst) (l : option gev) : Prop :=
  forall c, c <> CAbort -> c <> CPre -> guard c s l = false.

Definition or_ab (s s' : sst) : Prop := documented s s' \/ s = Aborting.
Definition in_init (s : sst) : Prop := s = Initialising \/ s = Aborting.

Fixpoint safe (s : sst) (f : list instr) : Prop :=
  match f with
  | [] => True
  | IState s' :: r => or_ab s s' /\ ex_of r = [] /\ safe s' r
  | IEmit e :: r => (npend r = true -> blocked s (Some e)) /\ ex_of r = [] /\ safe s r
  | IClear :: r => ex_of r = [] /\ safe s r
  | IUser true :: r => (npend r = true -> forall l, blocked s l) /\ safe s r
  | IUser false :: r => ex_of r = [] /\ safe s r
  | IInit :: r => in_init s /\ npend r = true /\ ex_of r = [] /\ safe s r
  | IExec _ :: r => in_init s /\ npend r = true /\ safe s r
  end.

(** No handlers in progress in f; nothing follows the write of Aborting. *)
Fixpoint nof (f : list instr) : bool :=
  match f with [] => true | IUser false :: _ => false | _ :: r => nof r end.
Fixpoint ablast (f : list instr) : bool :=
  match f with
  | [] => true
  | IState Aborting :: r => match r with [] => true | _ => false end
  | _ :: r => ablast r
  end.

Definition kind (f : list instr) : Prop :=
  nof (tl f) = true /\ ablast f = true /\
  (apend f = true -> npend f = false /\ no_user f = true /\ ex_of f = []).

Fixpoint calm (k : frames) : Prop :=
  match k with
  | [] => True
  | (_, f) :: r => npend f = false /\ (apend f = true \/ calm r)
  end.

Fixpoint wfb (k : frames) : Prop :=
  match k with
  | [] => True
  | (_, f) :: r => (exists s, safe s f) /\ kind f /\ (f = [] \/ apend f = true \/ calm r) /\ wfb r
  end.

Definition user_head (f : list instr) : bool := match f with IUser _ :: _ => true | _ => false end.

Fixpoint wf (s : sst) (l : option gev) (k : frames) : Prop :=
  match k with
  | [] => True
  | (_, []) :: r => wf s l r
  | (_, f) :: r =>
      safe s f /\ (user_head f = true -> npend f = true -> blocked s l) /\ kind f /\
      (apend f = true \/ calm r) /\ wfb r
  end.

(** * Facts *)
Lemma blocked_aborting l : blocked Aborting l.
Proof. intros [] N1 N2; reflexivity || congruence. Qed.

Lemma safe_aborting s f : safe s f -> safe Aborting f.
Proof.
  induction f as [|i f IH]; cbn [safe]; [auto|].
  destruct i as [s'|e| |[]| |p]; intros H.
  - destruct H as (H1 & H2 & H3). split; [right; reflexivity|auto].
  - destruct H as (H1 & H2 & H3). split; [intros _; apply blocked_aborting|auto].
  - destruct H. auto.
  - destruct H as (H1 & H2). split; [intros _ l; apply blocked_aborting|auto].
  - destruct H. auto.
  - destruct H as (H1 & H2 & H3 & H4). split; [right; reflexivity|auto].
  - destruct H as (H1 & H2 & H3). split; [right; reflexivity|auto].
Qed.

Lemma safe_any s s2 f : npend f = false -> safe s f -> safe s2 f.
Proof.
  unfold npend. revert s s2. induction f as [|i f IH]; intros s s2; cbn [safe writes existsb]; [auto|].
  destruct i as [s'|e| |[]| |p]; intros N H.
  - cbn [existsb writes] in N. apply orb_false_iff in N. destruct N as [N1 N2]. destruct s'; try discriminate N1.
    destruct H as (H1 & H2 & H3). split; [left; apply d_abort|auto].
  - destruct H as (H1 & H2 & H3). split; [unfold npend; congruence|]. split; [assumption|]. eapply IH; eauto.
  - destruct H. split; [assumption|]. eapply IH; eauto.
  - destruct H as (H1 & H2). split; [unfold npend; congruence|]. eapply IH; eauto.
  - destruct H. split; [assumption|]. eapply IH; eauto.
  - destruct H as (H1 & H2 & H3 & H4). unfold npend in H2. congruence.
  - destruct H as (H1 & H2 & H3). unfold npend in H2. congruence.
Qed.

Lemma npend_kind f : npend f = false -> writes f = [] \/ apend f = true.
Proof.
  unfold npend, apend. induction (writes f) as [|s w IH]; [auto|]. cbn. destruct s; cbn; try discriminate. auto.
Qed.

Lemma calm_wf s l k : calm k -> wfb k -> wf s l k.
Proof.
  induction k as [|[c f] k IH]; cbn [calm wfb wf]; [auto|].
  intros (N & C) (E & K & B & W). destruct f as [|i f].
  - apply IH; [|assumption]. destruct C as [C|C]; [discriminate C|assumption].
  - split; [destruct E as [s' E]; eapply safe_any; eauto|].
    split; [congruence|]. split; [assumption|]. split; [|assumption].
    destruct B as [B|B]; [discriminate B|assumption].
Qed.

Lemma wfb_wf_aborting l k : wfb k -> wf Aborting l k.
Proof.
  induction k as [|[c f] k IH]; cbn [wfb wf]; [auto|]. intros (E & K & B & W). destruct f as [|i f]; [auto|].
  split; [destruct E as [s E]; eapply safe_aborting; eauto|].
  split; [intros _ _; apply blocked_aborting|]. split; [assumption|]. split; [|assumption].
  destruct B as [B|B]; [discriminate B|assumption].
Qed.

Lemma wf_wfb s l k : wf s l k -> wfb k.
Proof.
  induction k as [|[c f] k IH]; cbn [wf wfb]; [auto|]. destruct f as [|i f].
  - intros W. split; [exists s; exact I|]. split; [split; [reflexivity|split; [reflexivity|discriminate]]|]. split; [now left|auto].
  - intros (S & B & K & C & W). split; [eauto|]. split; [assumption|]. split; [|assumption]. now right.
Qed.

(** A guard that passes is not blocked: the frames below a new one are calm. *)
Lemma unblocked_calm c s l k : c <> CAbort -> c <> CPre -> guard c s l = true -> in_user k = true ->
  wf s l k -> calm k.
Proof.
  intros N1 N2 G U W. destruct k as [|[d f] k]; [exact I|].
  destruct f as [|i f]; [discriminate U|]. cbn [wf calm] in *. destruct W as (S & B & K & C & W).
  assert (npend (i :: f) = false) as P.
  { destruct (npend (i :: f)) eqn:P; [|reflexivity]. exfalso.
    assert (user_head (i :: f) = true) as H by (cbn in *; now destruct i).
    specialize (B H eq_refl c N1 N2). congruence. }
  auto.
Qed.

Lemma body_safe c s l : c <> CAbort -> c <> CPre -> guard c s l = true -> safe s (body c) /\ kind (body c).
Proof.
  intros N1 N2 G. split.
  - destruct c; try congruence; destruct s; try discriminate G; cbn; unfold or_ab, in_init, npend; cbn;
      repeat match goal with
      | |- _ /\ _ => split
      | |- True => exact I
      | |- _ = _ => reflexivity
      | |- Initialising = _ \/ _ => left; reflexivity
      | |- documented _ _ \/ _ => left; constructor
      | |- false = true -> _ => discriminate
      | |- true = true -> _ => intros _
      | |- forall l, blocked _ _ => intros ?
      | |- blocked _ _ => intros [] ? ?; reflexivity || congruence
      end.
  - destruct c; try congruence; (split; [reflexivity|split; [reflexivity|]]); intros A; discriminate A.
Qed.

Lemma push_wf c s l k : in_user k = true -> wf s l k ->
  (guard c s l = true -> c <> CPre -> wf s l ((c, body c) :: k)).
Proof.
  intros U W G N. destruct (match c with CAbort => true | _ => false end) eqn:A.
  - destruct c; try discriminate A. cbn [wf body].
    split; [cbn; unfold npend; cbn; split; [discriminate|split; [reflexivity|]]; split; [left; constructor|split; [reflexivity|exact I]]|].
    split; [discriminate|]. split; [split; [reflexivity|split; [reflexivity|]]; intros _; split; [reflexivity|split; reflexivity]|].
    split; [left; reflexivity|]. eapply wf_wfb; eauto.
  - assert (c <> CAbort) as N' by (intros ->; discriminate A).
    destruct (body_safe c s l N' N G) as [S K]. pose proof (unblocked_calm c s l k N' N G U W) as C.
    pose proof (wf_wfb _ _ _ W) as B.
    cbn [wf]. destruct (body c) as [|i f] eqn:Eb; [assumption|].
    split; [assumption|]. split; [|split; [assumption|split; [auto|assumption]]].
    intros UH P. destruct c; try discriminate Eb; injection Eb as <- <-; try discriminate UH; discriminate P.
Qed.

Lemma call_wf c s l i h k : in_user k = true -> wf s l k ->
  wf (s_st (fst (call c (Sim s l i h k)))) (s_last (fst (call c (Sim s l i h k)))) (s_stack (fst (call c (Sim s l i h k)))) /\
  states (snd (call c (Sim s l i h k))) = [] /\ s_st (fst (call c (Sim s l i h k))) = s.
Proof.
  intros U W. pose proof (push_wf c s l k U W) as P. pose proof (push_wf CHold s l k U W) as PH.
  destruct c; cbn [call];
    try (destruct (guard _ s l) eqn:G; cbn [fst snd s_st s_last s_stack states];
         (split; [|split; reflexivity]); [apply P; [reflexivity|discriminate]|cbn [wf]; exact W]).
  - destruct (guard CHoldLater s l); [destruct h|]; cbn [fst snd s_st s_last s_stack states wf]; auto.
  - destruct h; [|cbn [fst snd s_st s_last s_stack states wf]; auto].
    destruct (guard CHold s l) eqn:G; cbn [fst snd s_st s_last s_stack states]; (split; [|split; reflexivity]).
    + apply PH; [reflexivity|discriminate].
    + cbn [wf]. exact W.
Qed.

Lemma apend_cons i f : apend f = true -> apend (i :: f) = true.
Proof. unfold apend. intros H. destruct i; cbn; try assumption. rewrite H. apply orb_true_r. Qed.

Lemma npend_cons i f : npend (i :: f) = false -> npend f = false.
Proof. unfold npend. destruct i; cbn; auto. intros H. now apply orb_false_iff in H. Qed.

Lemma nof_tl f : nof f = true -> nof (tl f) = true.
Proof. destruct f as [|[| | |[]| |] f]; cbn; auto; discriminate. Qed.

Lemma kind_cons i f : kind (i :: f) -> kind f.
Proof.
  intros (K0 & KL & K). cbn [tl] in K0. split; [now apply nof_tl|]. split.
  - destruct i as [[]| | | | |]; cbn [ablast] in KL; try assumption. destruct f; [reflexivity|discriminate KL].
  - intros H. destruct (K (apend_cons _ _ H)) as (K1 & K2 & K3).
    split; [now apply npend_cons in K1|]. destruct i as [| | |[]| |]; cbn in K2, K3; try discriminate; auto.
Qed.

Lemma head_user s f l : nof f = true -> safe s f -> user_head f = true -> npend f = true -> blocked s l.
Proof.
  destruct f as [|[| | |[]| |] f]; cbn [nof safe user_head]; try discriminate.
  intros _ (S & _) _ P. apply S. exact P.
Qed.

(** Going on with a frame whose head was not a state write. *)
Lemma wf_advance s l' c i f k :
  safe s f -> kind (i :: f) -> (apend (i :: f) = true \/ calm k) -> wfb k ->
  (forall x, i <> IState x) ->
  wf s l' ((c, f) :: k).
Proof.
  intros Sf K C W N. cbn [wf]. destruct f as [|j f].
  - destruct C as [C|C]; [|now apply calm_wf].
    exfalso. destruct i as [x| | | | |]; try discriminate C. now apply (N x).
  - split; [assumption|]. split; [apply head_user; [apply K|assumption]|].
    split; [eapply kind_cons; eauto|]. split; [|assumption].
    destruct C as [C|C]; [left|now right].
    unfold apend in *. destruct i as [x| | | | |]; try exact C. exfalso. now apply (N x).
Qed.

Lemma ex_of_init (l : list Z) f : ex_of (map IExec l ++ f) = l ++ ex_of f.
Proof. induction l; cbn; congruence. Qed.

Lemma writes_init (l : list Z) f : writes (map IExec l ++ f) = writes f.
Proof. induction l; cbn; congruence. Qed.

Lemma no_user_init (l : list Z) f : no_user (map IExec l ++ f) = no_user f.
Proof. induction l; cbn; congruence. Qed.

Lemma nof_init (l : list Z) f : nof (map IExec l ++ f) = nof f.
Proof. induction l; cbn; congruence. Qed.

Lemma ablast_init (l : list Z) f : ablast (map IExec l ++ f) = ablast f.
Proof. induction l; cbn; congruence. Qed.

Lemma safe_init s (l : list Z) f : in_init s -> npend f = true -> safe s f -> safe s (map IExec l ++ f).
Proof.
  intros I N H. induction l as [|p l IH]; cbn [map app safe]; [assumption|].
  split; [assumption|]. split; [|assumption]. unfold npend. rewrite writes_init. exact N.
Qed.

Lemma step_wf a x : wf (s_st x) (s_last x) (s_stack x) ->
  wf (s_st (fst (step a x))) (s_last (fst (step a x))) (s_stack (fst (step a x))) /\
  chain or_ab (s_st x) (states (snd (step a x))) /\
  s_st (fst (step a x)) = last (states (snd (step a x))) (s_st x).
Proof.
  intros W. destruct x as [s l i h k]. cbn [s_st s_last s_stack] in *. destruct a as [c|p| | |]; cbn [step].
  - destruct (in_user k) eqn:U; [|cbn; auto].
    destruct (call_wf c s l i h k U W) as (A & B & C). rewrite B, C. cbn. rewrite C in A. auto.
  - destruct (in_user k); [|cbn; auto]. destruct (can_add s); cbn; auto.
  - destruct k as [|[c [|[s'|e| |b| |p] f]] k]; try (cbn [fst snd s_st s_last s_stack states chain last]; auto; fail).
    cbn [fst snd s_st s_last s_stack states chain last]. split; [|auto].
    destruct W as (Sf & B & K & C & W). apply wf_advance with (i := IUser b); auto.
    + destruct b; apply Sf.
    + discriminate.
  - destruct k as [|[c [|[s'|e| |[]| |p] f]] k]; try (cbn [fst snd s_st s_last s_stack states chain last]; auto; fail).
    cbn [fst snd s_st s_last s_stack states chain last]. split; [|auto].
    destruct W as (Sf & B & K & C & W). destruct C as [C|C]; [|now apply calm_wf].
    destruct K as (_ & _ & K). destruct (K C) as (_ & K2 & _). discriminate K2.
  - destruct k as [|[c [|[s'|e| |b| |p] f]] k]; cbn [fst snd s_st s_last s_stack states chain last]; auto.
    + (* IState *)
      destruct W as (Sf & B & K & C & W). cbn [safe] in Sf. destruct Sf as (S1 & S2 & S3).
      split; [|auto]. destruct (is_ab s') eqn:Ab.
      * destruct s'; try discriminate Ab.
        destruct K as (_ & KL & _). cbn [ablast] in KL. destruct f; [|discriminate KL].
        cbn [wf]. now apply wfb_wf_aborting.
      * cbn [wf]. destruct f as [|j f].
        -- destruct C as [C|C]; [|now apply calm_wf].
           exfalso. unfold apend in C. cbn in C. rewrite Ab in C. discriminate C.
        -- split; [assumption|]. split; [apply head_user; [apply K|assumption]|]. split; [eapply kind_cons; eauto|].
           split; [|assumption]. destruct C as [C|C]; [left|now right].
           unfold apend in *. cbn in C. rewrite Ab in C. exact C.
    + (* IEmit *)
      destruct W as (Sf & B & K & C & W). cbn [safe] in Sf. destruct Sf as (S1 & S2 & S3). split; [|auto].
      split; [cbn [safe ex_of]; auto|]. split; [intros _ P; apply S1; exact P|].
      split; [|split; [exact C|assumption]].
      destruct K as (K0 & KL & K). split; [exact K0|]. split; [exact KL|exact K].
    + (* IClear *)
      destruct W as (Sf & B & K & C & W). split; [|auto]. apply wf_advance with (i := IClear); auto; [apply Sf|discriminate].
    + (* IInit *)
      destruct W as (Sf & B & K & C & W). cbn [safe] in Sf. destruct Sf as (S1 & S2 & S3 & S4). split; [|auto].
      destruct K as (K0 & KL & K). cbn [tl] in K0.
      assert (apend (IInit :: f) <> true) as NA.
      { intros A. destruct (K A) as (K1 & _). unfold npend in *. cbn in K1. congruence. }
      destruct C as [C|C]; [contradiction|].
      pose proof (safe_init s i f S1 S2 S4) as SI.
      assert (nof (map IExec i ++ f) = true) as NF by now rewrite nof_init.
      cbn [wf]. destruct (map IExec i ++ f) as [|j g] eqn:E.
      * destruct i; [|discriminate E]. cbn in E. subst f. discriminate S2.
      * split; [assumption|]. split; [now apply head_user|]. split; [|auto].
        rewrite <- E. split; [rewrite E; apply nof_tl; assumption|].
        split; [now rewrite ablast_init|]. intros A. exfalso. apply NA.
        unfold apend in *. rewrite writes_init in A. exact A.
    + (* IExec *)
      destruct W as (Sf & B & K & C & W). cbn [safe] in Sf. destruct Sf as (S1 & S2 & S3). split; [|auto].
      assert (forall l, blocked s l) as BI.
      { intros l' c' N1 N2. destruct S1 as [-> | ->]; destruct c'; reflexivity || congruence. }
      split; [cbn [safe]; auto|]. split; [intros _ _; apply BI|].
      destruct K as (K0 & KL & K). split; [|split; [|assumption]].
      * split; [exact K0|]. split; [exact KL|]. intros A. destruct (K A) as (K1 & _).
        exfalso. unfold npend in *. cbn in K1. congruence.
      * destruct C as [C|C]; [|now right]. exfalso. destruct (K C) as (K1 & _).
        unfold npend in *. cbn in K1. congruence.
Qed.

Lemma run_app x a b : run x (a ++ b) =
  let '(x1, t1) := run x a in let '(x2, t2) := run x1 b in (x2, t1 ++ t2).
Proof.
  revert x. induction a as [|e a IH]; intros x; cbn [run app].
  - now destruct (run x b).
  - destruct (step e x) as [x1 t1]. rewrite IH. destruct (run x1 a) as [x2 t2].
    destruct (run x2 b) as [x3 t3]. now rewrite app_assoc.
Qed.

Lemma states_app a b : states (a ++ b) = states a ++ states b.
Proof. induction a as [|e a IH]; [reflexivity|]. destruct e; cbn; rewrite ?IH; reflexivity. Qed.

Lemma chain_app R s a b : chain R s (a ++ b) <-> chain R s a /\ chain R (last a s) b.
Proof.
  revert s. induction a as [|x a IH]; intros s; cbn [chain app]; [cbn; tauto|].
  rewrite IH. assert (last (x :: a) s = last a x) as ->.
  { clear. revert x s. induction a as [|y a IH]; intros x s; [reflexivity|].
    change (last (x :: y :: a) s) with (last (y :: a) s). rewrite (IH y s). now rewrite (IH y x). }
  tauto.
Qed.

Lemma last_app_states (a b : list sst) s : last (a ++ b) s = last b (last a s).
Proof.
  revert s. induction a as [|x a IH]; intros s; [reflexivity|].
  cbn [app]. destruct a as [|y a].
  - cbn. clear. revert x s. induction b as [|z b IHb]; intros x s; [reflexivity|].
    change (last (x :: z :: b) s) with (last (z :: b) s). destruct b; [reflexivity|].
    change (last (z :: s0 :: b) s) with (last (s0 :: b) s). change (last (z :: s0 :: b) x) with (last (s0 :: b) x).
    specialize (IHb x s). exact (IHb).
  - change (last (x :: (y :: a) ++ b) s) with (last ((y :: a) ++ b) s). rewrite IH. reflexivity.
Qed.

Lemma reach_wf ls : let x := fst (run sim_init ls) in
  wf (s_st x) (s_last x) (s_stack x) /\ chain or_ab Building (states (snd (run sim_init ls))) /\
  s_st x = last (states (snd (run sim_init ls))) Building.
Proof.
  induction ls as [|a ls IH] using rev_ind; [cbn; auto|].
  cbn zeta in *. rewrite run_app. destruct (run sim_init ls) as [x t]. cbn [run fst snd] in *.
  pose proof (step_wf a x) as Hs. destruct (step a x) as [x1 t1]. cbn [fst snd] in *.
  destruct IH as (I1 & I2 & I3). destruct (Hs I1) as (J1 & J2 & J3). rewrite app_nil_r.
  split; [assumption|]. rewrite states_app, chain_app, last_app_states, <- I3. auto.
Qed.

(** * Orderly histories: no transition is ever interrupted by Abort *)
Definition nop (k : frames) : Prop := Forall (fun cf => npend (snd cf) = false) k.

Fixpoint tidy (s : sst) (k : frames) : Prop :=
  match k with
  | [] => True
  | (_, []) :: r => tidy s r
  | (_, f) :: r => nop r /\ (npend f = true -> s <> Aborting)
  end.

Lemma nop_tidy s k : nop k -> tidy s k.
Proof.
  induction k as [|[c f] k IH]; intros N; [exact I|]. inversion N; subst. cbn [snd] in *.
  cbn [tidy]. destruct f; [auto|]. split; [assumption|congruence].
Qed.

Lemma exiting_nopend f : safe Exiting f -> ablast f = true -> npend f = false.
Proof.
  unfold npend. induction f as [|j f IH]; cbn [safe ablast writes existsb]; [reflexivity|].
  destruct j as [s'|e| |[]| |p]; intros H A; try (apply IH; [apply H|exact A]).
  destruct H as (H1 & H2 & H3). destruct H1 as [H1|H1]; [|discriminate H1].
  inversion H1; subst. destruct f; [reflexivity|discriminate A].
Qed.

Lemma tidy_push c s l k : c <> CPre -> in_user k = true -> wf s l k -> tidy s k ->
  guard c s l = true -> (c = CAbort -> resting s = true /\ leaving l = false) -> tidy s ((c, body c) :: k).
Proof.
  intros N U W T G O. cbn [tidy]. destruct (body c) as [|j g] eqn:Eb; [assumption|].
  assert (nop k) as NK.
  { destruct k as [|[d [|i f]] k]; [constructor|discriminate U|]. cbn [tidy wf] in *.
    destruct W as (Sf & B & K & C & W). destruct T as (T1 & T2). constructor; [|assumption]. cbn [snd].
    destruct (npend (i :: f)) eqn:P; [exfalso|reflexivity].
    assert (user_head (i :: f) = true) as UH by (cbn in *; now destruct i).
    specialize (B UH eq_refl).
    destruct (match c with CAbort => true | _ => false end) eqn:A.
    - destruct c; try discriminate A. destruct (O eq_refl) as [O1 O2].
      destruct s; try discriminate O1.
      + specialize (B CPublish ltac:(discriminate) ltac:(discriminate)). discriminate B.
      + specialize (B CExit ltac:(discriminate) ltac:(discriminate)).
        destruct l as [[]|]; try discriminate O2; discriminate B.
      + specialize (B CHold ltac:(discriminate) ltac:(discriminate)).
        destruct l as [[]|]; try discriminate O2; discriminate B.
      + pose proof (exiting_nopend (i :: f) Sf (proj1 (proj2 K))). congruence.
      + now apply T2.
    - assert (c <> CAbort) as N' by (intros ->; discriminate A).
      specialize (B c N' N). congruence. }
  split; [assumption|]. intros P ->. destruct c; discriminate G || discriminate Eb || (injection Eb as <- <-; discriminate P).
Qed.

Lemma chain_doc_nil s : chain documented s [].
Proof. exact I. Qed.

Lemma step_tidy a x : wf (s_st x) (s_last x) (s_stack x) -> tidy (s_st x) (s_stack x) ->
  (a = LCall CAbort -> resting (s_st x) = true /\ leaving (s_last x) = false) ->
  tidy (s_st (fst (step a x))) (s_stack (fst (step a x))) /\ chain documented (s_st x) (states (snd (step a x))).
Proof.
  intros W T O. destruct x as [s l i h k]. cbn [s_st s_last s_stack] in *. destruct a as [c|p| | |]; cbn [step].
  - destruct (in_user k) eqn:U; [|cbn; auto].
    assert (c = CAbort -> resting s = true /\ leaving l = false) as O' by (intros ->; now apply O).
    pose proof (tidy_push c s l k) as P. pose proof (tidy_push CHold s l k) as PH.
    destruct c; cbn [call];
      try (destruct (guard _ s l) eqn:G; cbn [fst snd s_st s_stack states]; (split; [|exact I]);
           [apply P; auto; discriminate|cbn [tidy]; exact T]).
    + destruct (guard CHoldLater s l); [destruct h|]; cbn [fst snd s_st s_stack states tidy chain]; auto.
    + destruct h; [|cbn [fst snd s_st s_stack states tidy chain]; auto].
      destruct (guard CHold s l) eqn:G; cbn [fst snd s_st s_stack states]; (split; [|exact I]).
      * apply PH; auto; discriminate.
      * cbn [tidy]. exact T.
  - destruct (in_user k); [|cbn; auto]. destruct (can_add s); cbn; auto.
  - destruct k as [|[c [|[s'|e| |b| |p] f]] k]; cbn [fst snd s_st s_stack states chain]; auto.
    split; [|exact I]. cbn [tidy] in *. destruct T as [T1 T2]. destruct f; [now apply nop_tidy|].
    split; [assumption|exact T2].
  - destruct k as [|[c [|[s'|e| |[]| |p] f]] k]; cbn [fst snd s_st s_stack states chain]; auto.
    split; [|exact I]. apply nop_tidy, T.
  - destruct k as [|[c [|[s'|e| |b| |p] f]] k]; cbn [fst snd s_st s_stack states chain]; auto.
    + destruct W as (Sf & B & K & C & W). cbn [safe] in Sf. destruct Sf as (S1 & S2 & S3).
      cbn [tidy] in *. destruct T as [T1 T2]. split.
      * destruct f; [now apply nop_tidy|]. split; [assumption|]. intros _ ->.
        destruct K as (_ & KL & _). discriminate KL.
      * split; [|exact I]. destruct S1 as [S1|S1]; [assumption|]. subst s.
        destruct s'; try (exfalso; apply T2; reflexivity). constructor.
    + split; [|exact I]. cbn [tidy] in *. destruct T as [T1 T2]. destruct f; [now apply nop_tidy|]. split; [assumption|exact T2].
    + split; [|exact I]. cbn [tidy] in *. destruct T as [T1 T2].
      destruct (map IExec i ++ f) eqn:E; [now apply nop_tidy|]. split; [assumption|].
      rewrite <- E. unfold npend. rewrite writes_init. exact T2.
Qed.

Lemma run_tidy ls x : wf (s_st x) (s_last x) (s_stack x) -> tidy (s_st x) (s_stack x) -> orderly x ls ->
  tidy (s_st (fst (run x ls))) (s_stack (fst (run x ls))) /\ chain documented (s_st x) (states (snd (run x ls))).
Proof.
  revert x. induction ls as [|a ls IH]; intros x W T O; [cbn; auto|]. cbn [run orderly] in *. destruct O as [O1 O2].
  destruct (step_tidy a x W T O1) as [T1 C1]. destruct (step_wf a x W) as (W1 & _ & L1).
  destruct (step a x) as [x1 t1]. cbn [fst snd] in *. destruct (IH x1 W1 T1 O2) as [T2 C2].
  destruct (run x1 ls) as [x2 t2]. cbn [fst snd] in *. split; [assumption|].
  rewrite states_app, chain_app. split; [assumption|]. rewrite <- L1. assumption.
Qed.

(** * Abort sets the state Aborting before it returns *)
Definition ab_ok (cf : cmd * list instr) : Prop :=
  fst cf = CAbort -> exists pre, snd cf = pre ++ [IState Aborting].
Definition ab_low (k : frames) : Prop := Forall (fun cf => user_head (snd cf) = true /\ ab_ok cf) k.
Definition ab_inv (s : sst) (k : frames) : Prop :=
  match k with
  | [] => True
  | cf :: r => (fst cf = CAbort -> snd cf = [] -> s = Aborting) /\ (snd cf = [] \/ ab_ok cf) /\ ab_low r
  end.

Lemma ab_inv_low s k : ab_low k -> ab_inv s k.
Proof.
  destruct k as [|cf k]; intros A; [exact I|]. inversion A as [|? ? [A1 A2] A3]; subst.
  split; [intros _ E; rewrite E in A1; discriminate A1|]. split; [now right|assumption].
Qed.

Lemma ab_inv_user s k : in_user k = true -> ab_inv s k -> ab_low k.
Proof.
  destruct k as [|[c [|[]]] k]; intros U A; try discriminate U; [constructor|].
  destruct A as (A1 & [A2|A2] & A3); [discriminate A2|]. constructor; [split; [reflexivity|assumption]|assumption].
Qed.

Lemma ab_pre_tl i f c : ab_ok (c, i :: f) -> f <> [] -> ab_ok (c, f).
Proof.
  intros A N E. destruct (A E) as [pre P]. cbn in *. destruct pre as [|? pre]; [injection P as -> ->; congruence|].
  injection P as -> ->. eauto.
Qed.

Lemma ab_ok_nil i c : ab_ok (c, [i]) -> c = CAbort -> i = IState Aborting.
Proof. intros A E. destruct (A E) as [[|? [|]] P]; cbn in P; congruence. Qed.

Lemma ab_advance s c i f k : i <> IState Aborting -> ab_inv s ((c, i :: f) :: k) -> ab_inv s ((c, f) :: k).
Proof.
  intros N (A1 & [A2|A2] & A3); [discriminate A2|]. cbn [ab_inv fst snd]. destruct f as [|j f].
  - split; [intros E _; exfalso; apply N; eapply ab_ok_nil; eauto|]. auto.
  - split; [discriminate|]. split; [right; eapply ab_pre_tl; eauto; discriminate|assumption].
Qed.

Lemma ab_st s s' c f k : f <> [] -> ab_inv s ((c, f) :: k) -> ab_inv s' ((c, f) :: k).
Proof. intros N (A1 & A2 & A3). split; [intros _ E; contradiction|auto]. Qed.

Lemma step_ab a x : ab_inv (s_st x) (s_stack x) -> ab_inv (s_st (fst (step a x))) (s_stack (fst (step a x))).
Proof.
  intros A. destruct x as [s l i h k]. cbn [s_st s_stack] in *. destruct a as [c|p| | |]; cbn [step].
  - destruct (in_user k) eqn:U; [|exact A]. pose proof (ab_inv_user s k U A) as L.
    assert (forall f, ab_inv s ((CAbort, f ++ [IState Aborting]) :: k)) as PA.
    { intros f. split; [intros _ E; destruct f; discriminate E|]. split; [right; intros _; exists f; reflexivity|assumption]. }
    assert (forall d f, d <> CAbort -> ab_inv s ((d, f) :: k)) as PO.
    { intros d f N. split; [intros; contradiction|]. split; [right; intros E; contradiction|assumption]. }
    destruct c; cbn [call]; try (change (guard CAbort s l) with true; cbn iota); try (destruct (guard _ s l)); try (destruct h); cbn [fst s_st s_stack];
      try (apply PO; discriminate); try exact A.
    all: apply (PA [IEmit EnterAborting]).
  - destruct (in_user k); [|exact A]. destruct (can_add s); exact A.
  - destruct k as [|[c [|[s'|e| |b| |p] f]] k]; cbn [fst s_st s_stack]; try exact A; try exact I. eapply ab_advance; [|exact A]. discriminate.
  - destruct k as [|[c [|[s'|e| |[]| |p] f]] k]; cbn [fst s_st s_stack]; try exact A; try exact I. apply ab_inv_low, A.
  - destruct k as [|[c [|[s'|e| |b| |p] f]] k]; cbn [fst s_st s_stack]; try exact A; try exact I.
    + apply ab_inv_low, A.
    + destruct (is_ab s') eqn:Ab.
      * destruct s'; try discriminate Ab. destruct A as (A1 & [A2|A2] & A3); [discriminate A2|].
        cbn [ab_inv fst snd]. split; [auto|]. split; [|assumption].
        destruct f; [now left|right; eapply ab_pre_tl; eauto; discriminate].
      * destruct f as [|j f].
        -- destruct A as (A1 & [A2|A2] & A3); [discriminate A2|]. cbn [ab_inv fst snd].
           split; [intros E _; pose proof (ab_ok_nil _ _ A2 E) as X; injection X as ->; reflexivity|auto].
        -- apply ab_st with (s := s); [discriminate|]. eapply ab_advance; [|exact A]. intros [= ->]. discriminate Ab.
    + destruct A as (A1 & [A2|A2] & A3); [discriminate A2|]. cbn [ab_inv fst snd].
      split; [discriminate|]. split; [|assumption]. right. intros E. destruct (A2 E) as [pre P]. cbn in P.
      destruct pre as [|? pre]; [discriminate P|]. injection P as <- ->.
      exists (IUser false :: IClear :: pre). reflexivity.
    + eapply ab_advance; [|exact A]. discriminate.
    + destruct A as (A1 & [A2|A2] & A3); [discriminate A2|]. cbn [ab_inv fst snd].
      assert (c = CAbort -> exists pre, map IExec i ++ f = pre ++ [IState Aborting]) as X.
      { intros E. destruct (A2 E) as [pre P]. cbn in P. destruct pre as [|? pre]; [discriminate P|].
        injection P as <- ->. exists (map IExec i ++ pre). now rewrite app_assoc. }
      split; [|split; [right; exact X|assumption]].
      intros E N. destruct (X E) as [pre P]. rewrite P in N. destruct pre; discriminate N.
    + destruct A as (A1 & [A2|A2] & A3); [discriminate A2|]. cbn [ab_inv fst snd].
      split; [discriminate|]. split; [|assumption]. right. intros E. destruct (A2 E) as [pre P]. cbn in P.
      destruct pre as [|? pre]; [discriminate P|]. injection P as <- ->. exists (IUser true :: pre). reflexivity.
Qed.

Lemma reach_ab ls : ab_inv (s_st (fst (run sim_init ls))) (s_stack (fst (run sim_init ls))).
Proof.
  induction ls as [|a ls IH] using rev_ind; [exact I|].
  rewrite run_app. destruct (run sim_init ls) as [x t]. cbn [run fst snd] in *.
  pose proof (step_ab a x IH) as Hs. destruct (step a x). exact Hs.
Qed.

(** * Rest states between commands *)
Definition final (s : sst) (k : frames) : sst := fold_left (fun s cf => last (writes (snd cf)) s) k s.

Lemma body_final c s l : guard c s l = true -> writes (body c) = [] \/ resting (last (writes (body c)) s) = true.
Proof. destruct c; cbn; auto. Qed.

Lemma final_nowrite s c f k : writes f = [] -> final s ((c, f) :: k) = final s k.
Proof. unfold final. cbn. intros ->. reflexivity. Qed.

Lemma resting_mono s s' k : resting s' = true -> resting (final s k) = true -> resting (final s' k) = true.
Proof.
  unfold final. revert s s'. induction k as [|[c f] k IH]; intros s s' H; cbn [fold_left snd]; [auto|].
  destruct (writes f) as [|w ws]; [apply IH, H|].
  assert (last (w :: ws) s = last (w :: ws) s') as ->; [|auto].
  clear. revert w. induction ws as [|v ws IH]; intros w; [reflexivity|]. apply (IH v).
Qed.

Lemma last_cons_any (w : sst) ws a b : last (w :: ws) a = last (w :: ws) b.
Proof. revert w. induction ws as [|v ws IH]; intros w; [reflexivity|]. apply (IH v). Qed.

Lemma step_final a x : a <> LThrow -> resting (final (s_st x) (s_stack x)) = true ->
  resting (final (s_st (fst (step a x))) (s_stack (fst (step a x)))) = true.
Proof.
  intros N R. destruct x as [s l i h k]. cbn [s_st s_stack] in *. destruct a as [c|p| | |]; cbn [step].
  - destruct (in_user k); [|exact R].
    assert (forall d, resting (final s ((d, body d) :: k)) = true) as P.
    { intros d. unfold final. cbn [fold_left snd]. fold (final (last (writes (body d)) s) k).
      destruct (writes (body d)) as [|w ws] eqn:E; [exact R|].
      eapply resting_mono; [|exact R]. destruct d; cbn in E; try discriminate E; injection E as <- <-; reflexivity. }
    destruct c; cbn [call]; try (destruct (guard _ s l)); try (destruct h); cbn [fst s_st s_stack];
      try exact (P _); try exact R.
  - destruct (in_user k); [|exact R]. destruct (can_add s); exact R.
  - destruct k as [|[c [|[s'|e| |b| |p] f]] k]; exact R.
  - contradiction.
  - destruct k as [|[c [|[s'|e| |b| |p] f]] k]; cbn [fst s_st s_stack]; try exact R.
    + unfold final in *. cbn [fold_left snd writes] in *.
      destruct (writes f) as [|w ws]; [exact R|].
      change (last (s' :: w :: ws) s) with (last (w :: ws) s) in R. now rewrite (last_cons_any w ws s' s).
    + unfold final in *. cbn [fold_left snd writes] in *. rewrite writes_init. exact R.
Qed.

Lemma reach_final ls : ~ In LThrow ls -> resting (final (s_st (fst (run sim_init ls))) (s_stack (fst (run sim_init ls)))) = true.
Proof.
  induction ls as [|a ls IH] using rev_ind; intros N; [reflexivity|].
  rewrite in_app_iff in N. rewrite run_app. destruct (run sim_init ls) as [x t]. cbn [run fst snd] in *.
  pose proof (step_final a x) as Hs. destruct (step a x). cbn [fst] in *. apply Hs.
  - intros ->. apply N. right. now left.
  - apply IH. auto.
Qed.

(** * Initialisation entry points *)
Definition nox (k : frames) : Prop := pend k = [].

Fixpoint exfr (k : frames) : Prop :=
  match k with
  | [] => True
  | (_, f) :: r => (f = [] \/ apend f = true \/ nox r) /\ exfr r
  end.

Definition xinv (s : sst) (k : frames) : Prop := exfr k /\ (pend k <> [] -> in_init s).

Lemma pend_cons c f k : pend ((c, f) :: k) = ex_of f ++ pend k.
Proof. reflexivity. Qed.

Lemma body_noexec c : ex_of (body c) = [].
Proof. destruct c; reflexivity. Qed.

Lemma in_init_no_guard s c l : in_init s -> c <> CAbort -> c <> CPre -> guard c s l = false.
Proof. intros [-> | ->] N1 N2; destruct c; reflexivity || congruence. Qed.

Lemma x_push s c l k : c <> CPre -> xinv s k -> guard c s l = true -> xinv s ((c, body c) :: k) /\ pend ((c, body c) :: k) = pend k.
Proof.
  intros N [X1 X2] G. rewrite pend_cons, body_noexec. split; [|reflexivity]. split; [|rewrite pend_cons, body_noexec; exact X2].
  cbn [exfr]. split; [|assumption].
  destruct (match c with CAbort => true | _ => false end) eqn:A.
  - destruct c; try discriminate A. right. left. reflexivity.
  - right. right. unfold nox. destruct (pend k) eqn:E; [reflexivity|]. exfalso.
    assert (c <> CAbort) as N' by (intros ->; discriminate A).
    rewrite (in_init_no_guard s c l) in G; [discriminate G| |assumption|assumption]. apply X2. discriminate.
Qed.

(** What a step does to the pending initialisation entry points. *)
Lemma step_x a x : wf (s_st x) (s_last x) (s_stack x) -> xinv (s_st x) (s_stack x) ->
  xinv (s_st (fst (step a x))) (s_stack (fst (step a x))) /\
  (a <> LThrow ->
   pend (s_stack x) ++ s_init x ++ adds (snd (step a x)) =
   execs (snd (step a x)) ++ pend (s_stack (fst (step a x))) ++ s_init (fst (step a x))) /\
  (a = LThrow -> execs (snd (step a x)) = [] /\ adds (snd (step a x)) = [] /\
     s_init (fst (step a x)) = s_init x /\
     (exists d, pend (s_stack x) = d ++ pend (s_stack (fst (step a x))))).
Proof.
  intros W X. destruct x as [s l i h k]. cbn [s_st s_last s_stack s_init] in *.
  assert (X' := X). destruct X' as [X1 X2]. destruct a as [c|p| | |]; cbn [step].
  - destruct (in_user k) eqn:U.
    2:{ cbn [fst snd s_st s_stack s_init execs adds app]. rewrite app_nil_r. split; [assumption|split; [auto|discriminate]]. }
    pose proof (fun N G => x_push s c l k N X G) as P. pose proof (x_push s CHold l k ltac:(discriminate) X) as PH.
    assert (forall d, xinv s ((d, []) :: k)) as E0.
    { intros d. split; [cbn; auto|exact X2]. }
    assert (forall (k' : frames) i', pend k' = pend k -> pend k ++ i' ++ [] = pend k' ++ i') as Q.
    { intros k' i' ->. now rewrite app_nil_r. }
    destruct c; cbn [call];
      try (destruct (guard _ s l) eqn:G; cbn [fst snd s_st s_stack s_init execs adds app];
           [destruct P as [P1 P2]; [discriminate|reflexivity|]; split; [exact P1|split; [intros _; apply Q, P2|discriminate]]
           |split; [apply E0|split; [intros _; apply Q; reflexivity|discriminate]]]).
    + destruct (guard CHoldLater s l); [destruct h|]; cbn [fst snd s_st s_stack s_init execs adds app];
        (split; [try apply E0; exact X|split; [intros _; apply Q; reflexivity|discriminate]]).
    + destruct h; [|cbn [fst snd s_st s_stack s_init execs adds app]; split; [apply E0|split; [intros _; apply Q; reflexivity|discriminate]]].
      destruct (guard CHold s l) eqn:G; cbn [fst snd s_st s_stack s_init execs adds app].
      * destruct (PH eq_refl) as [P1 P2]. split; [exact P1|split; [intros _; apply Q, P2|discriminate]].
      * split; [apply E0|split; [intros _; apply Q; reflexivity|discriminate]].
  - destruct (in_user k); [destruct (can_add s) eqn:CA|]; cbn [fst snd s_st s_stack s_init execs adds app];
      (split; [assumption|split; [intros _|discriminate]]); rewrite ?app_nil_r; reflexivity.
  - destruct k as [|[c [|[s'|e| |b| |p] f]] k]; cbn [fst snd s_st s_stack s_init execs adds app];
      try (split; [assumption|split; [intros _; rewrite ?app_nil_r; reflexivity|discriminate]]; fail).
    rewrite !pend_cons, app_nil_r. cbn [ex_of]. split; [|split; [reflexivity|discriminate]].
    split; [|exact X2]. cbn [exfr] in *. destruct X1 as [[X1|[X1|X1]] X3]; [discriminate X1| |]; auto.
  - destruct k as [|[c [|[s'|e| |[]| |p] f]] k]; cbn [fst snd s_st s_stack s_init execs adds app];
      try (split; [assumption|split; [congruence|]]; intros _; split; [reflexivity|split; [reflexivity|split; [reflexivity|exists []; reflexivity]]]).
    rewrite pend_cons in *. cbn [ex_of] in *. split; [|split; [congruence|]].
    + split; [apply X1|]. intros NE. apply X2. destruct (pend k); [congruence|]. destruct (ex_of f); discriminate.
    + intros _. split; [reflexivity|split; [reflexivity|split; [reflexivity|eauto]]].
  - destruct k as [|[c [|[s'|e| |b| |p] f]] k]; cbn [fst snd s_st s_stack s_init execs adds app];
      try (split; [assumption|split; [intros _; rewrite ?app_nil_r; reflexivity|discriminate]]; fail).
    + (* return *) rewrite app_nil_r. split; [|split; [reflexivity|discriminate]]. split; [apply X1|exact X2].
    + (* IState *)
      rewrite !pend_cons, app_nil_r in *. cbn [ex_of] in *. split; [|split; [reflexivity|discriminate]].
      destruct W as (Sf & B & K & C & W). cbn [safe] in Sf. destruct Sf as (S1 & S2 & S3). split.
      * cbn [exfr] in *. destruct X1 as [[X1|[X1|X1]] X3]; [discriminate X1| |split; auto].
        split; [|assumption]. destruct (is_ab s') eqn:Ab.
        -- destruct s'; try discriminate Ab. destruct K as (_ & KL & _). cbn in KL. destruct f; [now left|discriminate KL].
        -- right. left. unfold apend in *. cbn in X1. rewrite Ab in X1. exact X1.
      * rewrite pend_cons. intros NE. rewrite S2 in NE. cbn [app] in NE.
        cbn [exfr] in X1. destruct X1 as [[X1|[X1|X1]] X3]; [discriminate X1| |contradiction].
        (* only the Abort frame may be above *)
        destruct K as (_ & _ & K). destruct (K X1) as (K1 & _). unfold npend in K1. cbn in K1.
        apply orb_false_iff in K1. destruct K1 as [K1 _]. destruct s'; try discriminate K1. right. reflexivity.
    + (* IEmit *) rewrite !pend_cons, app_nil_r in *. cbn [ex_of] in *. split; [|split; [reflexivity|discriminate]].
      split; [|exact X2]. cbn [exfr] in *. destruct X1 as [[X1|[X1|X1]] X3]; [discriminate X1| |]; auto.
    + (* IClear *) rewrite !pend_cons, app_nil_r in *. cbn [ex_of] in *. split; [|split; [reflexivity|discriminate]].
      split; [|exact X2]. cbn [exfr] in *. destruct X1 as [[X1|[X1|X1]] X3]; [discriminate X1| |]; auto.
    + (* IInit *)
      destruct W as (Sf & B & K & C & W). cbn [safe] in Sf. destruct Sf as (S1 & S2 & S3 & S4).
      rewrite !pend_cons, !app_nil_r in *. cbn [ex_of] in *. rewrite S3 in *. rewrite ex_of_init, S3, app_nil_r.
      cbn [exfr] in X1. destruct X1 as [[X1|[X1|X1]] X3]; [discriminate X1| |].
      { destruct K as (_ & _ & K). destruct (K X1) as (K1 & _). exfalso. unfold npend in *. cbn in K1. congruence. }
      unfold nox in X1. rewrite X1. cbn [app]. rewrite app_nil_r. split; [|split; [reflexivity|discriminate]].
      split; [cbn [exfr]; auto|]. intros _. exact S1.
    + (* IExec *)
      rewrite !pend_cons, app_nil_r in *. cbn [ex_of] in *. split; [|split; [reflexivity|discriminate]].
      split.
      * cbn [exfr] in *. destruct X1 as [[X1|[X1|X1]] X3]; [discriminate X1| |]; auto.
      * intros _. apply X2. discriminate.
Qed.

Lemma adds_app a b : adds (a ++ b) = adds a ++ adds b.
Proof. induction a as [|e a IH]; [reflexivity|]. destruct e; cbn; rewrite ?IH; reflexivity. Qed.
Lemma execs_app a b : execs (a ++ b) = execs a ++ execs b.
Proof. induction a as [|e a IH]; [reflexivity|]. destruct e; cbn; rewrite ?IH; reflexivity. Qed.

Lemma subseq_refl {A} (l : list A) : subseq l l.
Proof. induction l; constructor; assumption. Qed.
Lemma subseq_app {A} (a b c d : list A) : subseq a b -> subseq c d -> subseq (a ++ c) (b ++ d).
Proof. intros H K. induction H; cbn; [assumption| |]; constructor; assumption. Qed.
Lemma subseq_drop {A} (a d b m : list A) : subseq (a ++ d ++ b) m -> subseq (a ++ b) m.
Proof.
  remember (a ++ d ++ b) as l eqn:E. intros H. revert a d b E.
  induction H as [|x l m H IH|x l m H IH]; intros a d b E.
  - destruct a; [|discriminate E]. destruct d; [|discriminate E]. destruct b; [|discriminate E]. constructor.
  - constructor. eapply IH; eauto.
  - destruct a as [|y a].
    + cbn in *. destruct d as [|z d].
      * cbn in E. subst b. now apply sub_keep.
      * injection E as -> ->. apply sub_skip. apply (IH [] d b). reflexivity.
    + injection E as -> ->. cbn. apply sub_keep. eapply IH; eauto.
Qed.

Lemma reach_x ls : let x := fst (run sim_init ls) in let t := snd (run sim_init ls) in
  xinv (s_st x) (s_stack x) /\
  (~ In LThrow ls -> adds t = execs t ++ pend (s_stack x) ++ s_init x) /\
  subseq (execs t ++ pend (s_stack x) ++ s_init x) (adds t).
Proof.
  induction ls as [|a ls IH] using rev_ind.
  { cbn. split; [split; [exact I|intros N; now contradiction N]|]. split; [reflexivity|constructor]. }
  cbn zeta in *. destruct (reach_wf ls) as (W & _). rewrite run_app. destruct (run sim_init ls) as [x t]. cbn [run fst snd] in *.
  destruct IH as (X & E & S). destruct (step_x a x W X) as (X' & H1 & H2).
  destruct (step a x) as [x1 t1]. cbn [fst snd] in *. rewrite app_nil_r, adds_app, execs_app.
  split; [assumption|]. split.
  - intros N. rewrite in_app_iff in N. rewrite E by tauto. rewrite <- !app_assoc.
    rewrite <- H1; [reflexivity|]. intros ->. apply N. right. now left.
  - assert ({a = LThrow} + {a <> LThrow}) as [T|T] by (destruct a; (now left) || (right; discriminate)).
    + destruct (H2 T) as (E1 & E2 & E3 & d & E4). rewrite E1, E2, E3, !app_nil_r. rewrite E4 in S.
      rewrite <- app_assoc in S. eapply subseq_drop. exact S.
    + rewrite <- app_assoc, <- (H1 T). rewrite !app_assoc. apply subseq_app; [rewrite <- app_assoc; exact S|apply subseq_refl].
Qed.

(** * The initialisation phase: from the swap to LeaveInitialising *)
Fixpoint inph (f : list instr) : bool :=
  match f with
  | [] => false
  | IInit :: _ => false
  | IEmit LeaveInitialising :: _ => true
  | _ :: r => inph r
  end.
Fixpoint phok (f : list instr) : Prop :=
  match f with
  | [] => True
  | IState s :: r => inph r = false /\ phok r
  | IEmit LeaveInitialising :: r => npend r = true /\ phok r
  | _ :: r => phok r
  end.
Definition nph (k : frames) : Prop := Forall (fun cf => inph (snd cf) = false) k.
Fixpoint exph (k : frames) : Prop :=
  match k with
  | [] => True
  | (_, f) :: r => phok f /\ (f = [] \/ (apend f = true /\ inph f = false) \/ nph r) /\ exph r
  end.
Definition pinv (x : sim) : Prop :=
  exph (s_stack x) /\ (nph (s_stack x) \/ (in_init (s_st x) /\ s_init x = [])).

Lemma inph_init (l : list Z) f : inph (map IExec l ++ f) = inph f.
Proof. induction l; cbn; auto. Qed.
Lemma phok_init (l : list Z) f : phok (map IExec l ++ f) <-> phok f.
Proof. induction l; cbn; tauto. Qed.

Lemma nph_dec k : nph k \/ ~ nph k.
Proof.
  induction k as [|[c f] k IH]; [left; constructor|]. destruct (inph f) eqn:E.
  - right. intros H. inversion H; subst. cbn in *. congruence.
  - destruct IH as [IH|IH]; [left; constructor; assumption|right; intros H; inversion H; contradiction].
Qed.

Lemma p_push s c l i h k : c <> CPre -> pinv (Sim s l i h k) -> guard c s l = true -> pinv (Sim s l i h ((c, body c) :: k)).
Proof.
  intros N [X1 X2] G. unfold pinv in *. cbn [s_stack s_st s_init] in *.
  assert (inph (body c) = false /\ phok (body c)) as [B1 B2] by (destruct c; unfold npend; cbn; unfold npend; cbn; auto 10).
  split.
  - cbn [exph]. split; [assumption|]. split; [|assumption].
    destruct (match c with CAbort => true | _ => false end) eqn:A.
    + destruct c; try discriminate A. right. left. split; reflexivity.
    + destruct X2 as [X2|[X2 _]]; [auto|]. exfalso.
      assert (c <> CAbort) as N' by (intros ->; discriminate A).
      rewrite (in_init_no_guard s c l) in G; [discriminate G|assumption|assumption|assumption].
  - destruct X2 as [X2|X2]; [left; constructor; assumption|now right].
Qed.

Lemma p_pop s l i h c f k : pinv (Sim s l i h ((c, f) :: k)) -> pinv (Sim s l i h k).
Proof.
  intros [X1 X2]. split; cbn [s_stack s_st s_init exph] in *; [apply X1|].
  destruct X2 as [X2|X2]; [left; now inversion X2|now right].
Qed.

(** Replace the top frame by one with the same phase. *)
Lemma p_same s l l' i h c f g k : f <> [] -> (apend f = true -> apend g = true \/ g = []) -> inph g = inph f -> (phok f -> phok g) ->
  pinv (Sim s l i h ((c, f) :: k)) -> pinv (Sim s l' i h ((c, g) :: k)).
Proof.
  intros N A P O [X1 X2]. split; cbn [s_stack s_st s_init exph] in *.
  - destruct X1 as (Y1 & Y2 & Y3). split; [auto|]. split; [|assumption].
    destruct Y2 as [Y2|[[Y2 Y4]|Y2]]; [contradiction| |auto].
    destruct (A Y2) as [A'| ->]; [|now left]. right. left. split; [assumption|congruence].
  - destruct X2 as [X2|X2]; [left|now right]. inversion X2; subst. constructor; [cbn in *; congruence|assumption].
Qed.

Lemma step_p a x : wf (s_st x) (s_last x) (s_stack x) -> pinv x -> pinv (fst (step a x)).
Proof.
  intros W X. destruct x as [s l i h k]. cbn [s_st s_last s_stack s_init] in *.
  destruct a as [c|p| | |]; cbn [step].
  - destruct (in_user k) eqn:U; [|exact X].
    pose proof (fun N => p_push s c l i h k N X) as P. pose proof (p_push s CHold l i false k ltac:(discriminate) X) as PH.
    assert (forall d h', pinv (Sim s l i h' ((d, []) :: k))) as E0.
    { intros d h'. destruct X as [X1 X2]. split; cbn [s_stack s_st s_init exph] in *.
      - split; [exact I|]. split; [now left|assumption].
      - destruct X2 as [X2|X2]; [left; constructor; auto|now right]. }
    destruct c; cbn [call];
      try (destruct (guard _ s l) eqn:G; cbn [fst]; [apply P; [discriminate|reflexivity]|apply E0]).
    + destruct (guard CHoldLater s l); [destruct h|]; cbn [fst]; try apply E0; exact X.
    + destruct h; [|apply E0]. destruct (guard CHold s l) eqn:G; cbn [fst]; [apply PH; reflexivity|apply E0].
  - destruct (in_user k); [destruct (can_add s) eqn:CA|]; cbn [fst]; try exact X.
    destruct X as [X1 X2]. split; cbn [s_stack s_st s_init] in *; [assumption|].
    destruct X2 as [X2|[[-> | ->] _]]; [now left| |]; discriminate CA.
  - destruct k as [|[c [|[s'|e| |b| |p] f]] k]; cbn [fst]; try exact X.
    eapply p_same; [| | | |exact X]; [discriminate| |reflexivity|auto]. intros A. left. exact A.
  - destruct k as [|[c [|[s'|e| |[]| |p] f]] k]; cbn [fst]; try exact X. eapply p_pop; exact X.
  - destruct k as [|[c [|[s'|e| |b| |p] f]] k]; cbn [fst]; try exact X.
    + eapply p_pop; exact X.
    + (* IState *)
      destruct W as (Sf & B & K & C & W). destruct X as [X1 X2]. cbn [s_stack s_st s_init exph phok inph] in *.
      destruct X1 as ((Y0 & Y1) & Y2 & Y3). destruct Y2 as [Y2|[[Y2 Y4]|Y2]]; [discriminate Y2| |].
      * destruct K as (_ & KL & K). destruct (K Y2) as (K1 & _). unfold npend in K1. cbn in K1.
        apply orb_false_iff in K1. destruct K1 as [K1 _]. destruct s'; try discriminate K1.
        cbn in KL. destruct f; [|discriminate KL]. split; cbn [s_stack s_st s_init exph]; [auto|].
        destruct X2 as [X2|[_ X2]]; [left; inversion X2; constructor; auto|right; split; [right; reflexivity|assumption]].
      * split; cbn [s_stack s_st s_init exph]; [auto|]. left. constructor; assumption.
    + (* IEmit *)
      destruct e; try (eapply p_same; [| | | |exact X]; [discriminate|intros A; left; exact A|reflexivity|auto]; fail).
      (* LeaveInitialising *)
      destruct X as [X1 X2]. cbn [s_stack s_st s_init exph phok inph] in *.
      destruct X1 as (Y1 & Y2 & Y3). destruct Y2 as [Y2|[[Y2 Y4]|Y2]]; [discriminate Y2|discriminate Y4|].
      destruct Y1 as [Y0 Y1]. split; cbn [s_stack s_st s_init exph]; [cbn [phok]; auto|].
      destruct X2 as [X2|X2]; [inversion X2 as [|? ? Z ?]; discriminate Z|now right].
    + eapply p_same; [| | | |exact X]; [discriminate|intros A; left; exact A|reflexivity|auto].
    + (* IInit *)
      destruct W as (Sf & B & K & C & W). cbn [safe] in Sf. destruct Sf as (S1 & S2 & S3 & S4).
      destruct X as [X1 X2]. cbn [s_stack s_st s_init exph phok inph] in *.
      destruct X1 as (Y1 & Y2 & Y3). destruct Y2 as [Y2|[[Y2 Y4]|Y2]]; [discriminate Y2| |].
      { destruct K as (_ & _ & K). destruct (K Y2) as (K1 & _). exfalso. unfold npend in *. cbn in K1. congruence. }
      split; cbn [s_stack s_st s_init exph]; [|right; auto].
      split; [now apply phok_init|]. split; [auto|assumption].
    + eapply p_same; [| | | |exact X]; [discriminate|intros A; left; exact A|reflexivity|auto].
Qed.

Lemma reach_p ls : pinv (fst (run sim_init ls)).
Proof.
  induction ls as [|a ls IH] using rev_ind; [split; [exact I|left; constructor]|].
  destruct (reach_wf ls) as (W & _). rewrite run_app. destruct (run sim_init ls) as [x t]. cbn [run fst snd] in *.
  pose proof (step_p a x W IH) as Hs. destruct (step a x). exact Hs.
Qed.

Lemma leave_init ls : let x := fst (run sim_init ls) in
  snd (step LStep x) = [EvEmit LeaveInitialising] -> s_init x = [] /\ pend (s_stack x) = [].
Proof.
  cbn zeta. intros E. destruct (reach_wf ls) as (W & _). destruct (reach_p ls) as [P1 P2]. destruct (reach_x ls) as ([X1 X2] & _).
  destruct (fst (run sim_init ls)) as [s l i h k]. cbn [s_st s_last s_stack s_init step] in *.
  destruct k as [|[c [|[s'|e| |b| |p] f]] k]; cbn [snd] in E; try discriminate E. injection E as ->.
  split.
  - destruct P2 as [P2|[_ P2]]; [inversion P2 as [|? ? Z ?]; discriminate Z|assumption].
  - destruct W as (Sf & B & K & C & W). cbn [safe] in Sf. destruct Sf as (S1 & S2 & S3).
    rewrite pend_cons. cbn [ex_of]. rewrite S2. cbn [app].
    cbn [exfr] in X1. destruct X1 as [[X1|[X1|X1]] X3]; [discriminate X1| |assumption].
    destruct K as (_ & _ & K). destruct (K X1) as (K1 & _).
    cbn [exph phok] in P1. destruct P1 as ((P1 & _) & _). unfold npend in *. cbn in K1. congruence.
Qed.

(** * A run that nobody holds *)
Definition nowrites (k : frames) : Prop := Forall (fun cf => writes (snd cf) = []) k.

Lemma step_executing a x : a <> LCall CHold -> a <> LCall CHoldLater -> a <> LCall CAbort ->
  s_st x = Executing -> s_later x = false -> nowrites (s_stack x) ->
  s_st (fst (step a x)) = Executing /\ s_later (fst (step a x)) = false /\ nowrites (s_stack (fst (step a x))) /\
  states (snd (step a x)) = [].
Proof.
  intros N1 N2 N3. destruct x as [s l i h k]. cbn [s_st s_later s_stack]. intros -> -> W.
  destruct a as [c|p| | |]; cbn [step].
  - destruct (in_user k); [|cbn; auto].
    assert (forall d, nowrites ((d, []) :: k)) as E by (intros d; constructor; auto).
    destruct c; try congruence; cbn [call guard is_building is_standby andb fst snd s_st s_later s_stack states]; auto.
  - destruct (in_user k); cbn; auto.
  - destruct k as [|[c [|[s'|e| |b| |p] f]] k]; cbn; auto. inversion W; subst. cbn in *. split; [auto|]. split; [auto|].
    split; [constructor; assumption|reflexivity].
  - destruct k as [|[c [|[s'|e| |[]| |p] f]] k]; cbn; auto. inversion W; subst. auto.
  - destruct k as [|[c [|[s'|e| |b| |p] f]] k]; cbn [fst snd s_st s_later s_stack states]; auto;
      inversion W; subst; cbn [snd writes] in *; try discriminate; auto;
      (split; [auto|]; split; [auto|]; split; [constructor; cbn [snd writes]; rewrite ?writes_init; assumption|reflexivity]).
Qed.

Lemma run_executing ls x :
  ~ In (LCall CHold) ls -> ~ In (LCall CHoldLater) ls -> ~ In (LCall CAbort) ls ->
  s_st x = Executing -> s_later x = false -> nowrites (s_stack x) ->
  s_st (fst (run x ls)) = Executing /\ states (snd (run x ls)) = [].
Proof.
  revert x. induction ls as [|a ls IH]; intros x N1 N2 N3 H1 H2 H3; [auto|]. cbn [run]. cbn [In] in *.
  destruct (step_executing a x) as (A & B & C & D); try assumption; try (intros ->; tauto).
  destruct (step a x) as [x1 t1]. cbn [fst snd] in *.
  destruct (IH x1) as [E F]; try assumption; try tauto.
  destruct (run x1 ls) as [x2 t2]. cbn [fst snd] in *. split; [assumption|]. now rewrite states_app, D, F.
Qed.
