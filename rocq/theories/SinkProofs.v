(** Proofs about event sources. *)
From Verif Require Import Base Assoc EventProofs SinkModel SinkSpec.
From Coq Require Import Sorted.

Definition ev_call (e : sev) : option nat :=
  match e with VEmit k _ | VNotify k _ _ | VEnd k | VAbort k | VUB k => Some k | _ => None end.

Lemma app_split_cons {A} (tr t pre : list A) e post : tr ++ t = pre ++ e :: post ->
  (exists l, tr = pre ++ e :: l /\ post = l ++ t) \/ (exists l, pre = tr ++ l /\ t = l ++ e :: post).
Proof.
  revert pre. induction tr as [|x tr IH]; intros pre H; cbn in H.
  - right. exists pre. auto.
  - destruct pre as [|y pre]; cbn in H; injection H as -> H.
    + left. exists tr. auto.
    + destruct (IH pre H) as [(l & -> & ->)|(l & -> & ->)]; [left|right]; exists l; auto.
Qed.

Lemma snoc_eq {A} (tr : list A) e pre e' post : tr ++ [e] = pre ++ e' :: post ->
  (exists l, tr = pre ++ e' :: l /\ post = l ++ [e]) \/ (pre = tr /\ e' = e /\ post = []).
Proof.
  intros H. apply app_split_cons in H. destruct H as [H|(l & -> & H)]; [left; exact H|right].
  destruct l as [|y [|z l]]; cbn in H; try discriminate. injection H as -> <-. rewrite app_nil_r. auto.
Qed.

Lemma notified_app k a b : notified k (a ++ b) = notified k a ++ notified k b.
Proof.
  induction a as [|e a IH]; cbn; [reflexivity|]. destruct e; try exact IH. destruct (k0 =? k)%nat; cbn; [now rewrite IH|exact IH].
Qed.
Lemma notified_other k tr : (forall e, In e tr -> ev_call e <> Some k) -> notified k tr = [].
Proof.
  induction tr as [|e tr IH]; cbn; [reflexivity|]. intros H.
  assert (IH' : notified k tr = []) by (apply IH; intros; apply H; auto).
  destruct e; try exact IH'. destruct (Nat.eqb_spec k0 k) as [->|]; [|exact IH'].
  exfalso. apply (H (VNotify k x v)); [now left|reflexivity].
Qed.
Lemma notified_In k x tr : In x (notified k tr) <-> exists v, In (VNotify k x v) tr.
Proof.
  induction tr as [|e tr IH]; cbn; [split; [tauto|intros (v & [])]|].
  assert (G : In x (notified k tr) <-> exists v, In (VNotify k x v) tr) by exact IH.
  destruct e; try (rewrite G; split; [intros (v' & ?); eauto|intros (v' & [E|?]); [discriminate|eauto]]).
  destruct (Nat.eqb_spec k0 k) as [->|Hne]; cbn; rewrite G; split.
  - intros [->|(v' & ?)]; eauto.
  - intros (v' & [E|?]); [injection E as -> _; auto|eauto].
  - intros (v' & ?); eauto.
  - intros (v' & [E|?]); [congruence|eauto].
Qed.

Lemma subscribed_app par tr t x : subscribed par (tr ++ t) x = fold_left (sub_ev par x) t (subscribed par tr x).
Proof. unfold subscribed. apply fold_left_app. Qed.

Lemma smem_In x l : smem x l = true <-> In x l.
Proof.
  unfold smem. rewrite existsb_exists. split; [intros (y & I & E); apply Z.eqb_eq in E; now subst|].
  intros I. exists x. split; [exact I|apply Z.eqb_refl].
Qed.
Lemma sinsert_In x y l : In x (sinsert y l) <-> x = y \/ In x l.
Proof.
  induction l as [|z l IH]; cbn; [intuition congruence|].
  destruct (Z.ltb_spec y z); cbn; [intuition congruence|]. destruct (Z.eqb_spec y z) as [->|]; cbn; [intuition congruence|].
  rewrite IH. intuition congruence.
Qed.
Lemma sinsert_sorted x l : StronglySorted Z.lt l -> StronglySorted Z.lt (sinsert x l).
Proof.
  induction 1 as [|y l S IH F]; cbn; [repeat constructor|]. rewrite Forall_forall in F.
  destruct (Z.ltb_spec x y).
  - constructor; [constructor; [exact S|now apply Forall_forall]|]. apply Forall_forall. intros z [<-|I]; [lia|].
    specialize (F z I). lia.
  - destruct (Z.eqb_spec x y) as [->|]; [constructor; [exact S|now apply Forall_forall]|].
    constructor; [exact IH|]. apply Forall_forall. intros z I. apply sinsert_In in I. destruct I as [->|I]; [lia|auto].
Qed.
Lemma filter_sorted (p : Z -> bool) l : StronglySorted Z.lt l -> StronglySorted Z.lt (filter p l).
Proof.
  induction 1 as [|y l S IH F]; cbn; [constructor|]. rewrite Forall_forall in F.
  destruct (p y); [|exact IH]. constructor; [exact IH|]. apply Forall_forall. intros z I. apply filter_In in I. now apply F.
Qed.
Lemma sorted_snoc l x : StronglySorted Z.lt l -> (forall y, In y l -> y < x) -> StronglySorted Z.lt (l ++ [x]).
Proof.
  induction 1 as [|y l S IH F]; cbn; intros H; [repeat constructor|]. rewrite Forall_forall in F.
  constructor; [apply IH; auto|]. apply Forall_forall. intros z I. apply in_app_iff in I. cbn in I.
  destruct I as [I|[<-|[]]]; [now apply F|apply H; auto].
Qed.
Lemma sorted_NoDup l : StronglySorted Z.lt l -> NoDup l.
Proof.
  induction 1 as [|y l S IH F]; constructor; [|exact IH]. intros I. rewrite Forall_forall in F. specialize (F y I). lia.
Qed.
(** The element found by ++it is the least one above the position. *)
Lemma find_next c l y : StronglySorted Z.lt l -> find (fun y => c <? y) l = Some y ->
  In y l /\ c < y /\ forall z, In z l -> c < z -> y <= z.
Proof.
  induction 1 as [|a l S IH F]; cbn; [discriminate|]. rewrite Forall_forall in F.
  destruct (Z.ltb_spec c a).
  - intros E. injection E as <-. repeat split; auto. intros z [<-|I] _; [lia|]. specialize (F z I). lia.
  - intros E. destruct (IH E) as (I & L & M). repeat split; auto. intros z [<-|Iz] Hz; [lia|auto].
Qed.
Lemma find_none c (l : list Z) : find (fun y => c <? y) l = None -> forall z, In z l -> z <= c.
Proof. intros H z I. pose proof (find_none _ _ H z I) as E. cbn in E. apply Z.ltb_ge in E. exact E. Qed.

Lemma aget_aset_n {A} (j k : nat) (a : A) l : aget Nat.eqb j (aset Nat.eqb k a l) = if (j =? k)%nat then Some a else aget Nat.eqb j l.
Proof.
  destruct (Nat.eqb_spec j k) as [->|H]; [apply aget_aset_same|apply aget_aset_other]; try exact neqb_ok; exact H.
Qed.
Lemma aget_adel_n {A} (j k : nat) (l : list (nat * A)) : NoDup (akeys l) ->
  aget Nat.eqb j (adel Nat.eqb k l) = if (j =? k)%nat then None else aget Nat.eqb j l.
Proof.
  intros N. destruct (Nat.eqb_spec j k) as [->|H]; [apply aget_adel_same|apply aget_adel_other]; try exact neqb_ok; auto.
Qed.

Section Inv.
  Context (kind : Z) (typ par : Z -> Z).
  Notation subscribed := (subscribed par).

  Lemma sub_stays x t b : never_dropped par x t -> b = true -> fold_left (sub_ev par x) t b = true.
  Proof.
    revert b. induction t as [|e t IH]; cbn; intros b N H; [exact H|]. apply IH.
    - intros e' I. apply N. now right.
    - specialize (N e (or_introl eq_refl)). destruct e; cbn in *; subst b; cbn; try reflexivity; now rewrite N.
  Qed.

  Record frame (S : list Z) (tr : list sev) (k : nat) (m : emission) : Prop := {
    fr_split : exists pre post, tr = pre ++ VEmit k (em_value m) :: post /\
      notified k pre = [] /\
      ~ In (VEnd k) post /\
      StronglySorted Z.lt (notified k post) /\
      In (em_at m) (notified k post) /\
      (forall x, In x (notified k post) -> x <= em_at m) /\
      (forall x, subscribed pre x = true -> never_dropped par x post -> x <= em_at m -> In x (notified k post));
    fr_here : em_erased m = false -> In (em_at m) S;
    fr_gone : em_erased m = true -> exists a v b e, tr = a ++ VNotify k (em_at m) v :: b /\ notified k b = [] /\
      In e b /\ drops par (em_at m) e = true;
    fr_last : exists a v b, tr = a ++ VNotify k (em_at m) v :: b /\ notified k b = [];
  }.

  Lemma drop_app x t t' : never_dropped par x (t ++ t') -> never_dropped par x t.
  Proof. intros H e I. apply H. apply in_app_iff. auto. Qed.

  Lemma frame_other S S' tr k m e : frame S tr k m -> ev_call e <> Some k ->
    (forall c, In c S -> drops par c e = false -> In c S') ->
    frame S' (tr ++ [e]) k (Emission (em_value m) (em_at m) (em_erased m || drops par (em_at m) e)).
  Proof.
    intros V Hc HS. assert (Hn : forall l, notified k (l ++ [e]) = notified k l).
    { intros l. rewrite notified_app. rewrite (notified_other k [e]); [apply app_nil_r|]. intros e' [<-|[]]. exact Hc. }
    constructor; cbn.
    - destruct (fr_split _ _ _ _ V) as (pre & post & -> & Hp & He & Hs & Hi & Hm & Hall).
      exists pre, (post ++ [e]). rewrite Hn, <- app_assoc. repeat split; auto.
      + rewrite in_app_iff. cbn. intros [I|[->|[]]]; [contradiction|]. now apply Hc.
      + intros x H1 H2 H3. apply Hall; auto. eapply drop_app; exact H2.
    - intros E. apply orb_false_iff in E. destruct E as [E1 E2]. apply HS; [|exact E2]. now apply (fr_here _ _ _ _ V).
    - intros E. apply orb_true_iff in E. destruct E as [E|E].
      + destruct (fr_gone _ _ _ _ V E) as (a & v & b & e' & -> & Hb & I & D).
        exists a, v, (b ++ [e]), e'. rewrite Hn, <- app_assoc. repeat split; auto. apply in_app_iff. auto.
      + destruct (fr_last _ _ _ _ V) as (a & v & b & -> & Hb).
        exists a, v, (b ++ [e]), e. rewrite Hn, <- app_assoc. repeat split; auto. apply in_app_iff. cbn. auto.
    - destruct (fr_last _ _ _ _ V) as (a & v & b & -> & Hb). exists a, v, (b ++ [e]). rewrite Hn, <- app_assoc. auto.
  Qed.

  Record SInv (s : src) (tr : list sev) : Prop := {
    i_sorted : StronglySorted Z.lt (sinks s);
    i_subs : forall x, In x (sinks s) <-> subscribed tr x = true;
    i_types : forall x, In x (sinks s) -> typ x = kind;
    i_fresh : forall k e, In e tr -> ev_call e = Some k -> (k < count s)%nat;
    i_keys : NoDup (akeys (calls s));
    i_frame : forall k m, aget Nat.eqb k (calls s) = Some m -> frame (sinks s) tr k m;
    i_emit : forall pre k v post, tr = pre ++ VEmit k v :: post -> forall e, In e pre -> ev_call e <> Some k;
    i_end : forall pre k v mid post x, tr = pre ++ VEmit k v :: mid ++ VEnd k :: post ->
      subscribed pre x = true -> never_dropped par x mid -> In x (notified k mid);
    i_once : forall k, NoDup (notified k tr);
    i_value : forall pre k x v post, tr = pre ++ VNotify k x v :: post -> In (VEmit k v) pre;
    i_when : forall pre k x v post, tr = pre ++ VNotify k x v :: post -> subscribed pre x = true;
    i_ub : forall pre k post, tr = pre ++ VUB k :: post -> exists a x v b e, pre = a ++ VNotify k x v :: b /\ notified k b = [] /\
      In e b /\ drops par x e = true;
    i_dead : dead s = true <-> exists k, In (VUB k) tr;
  }.

  (** The splits of a trace at the Emit of one call agree. *)
  Lemma emit_split s tr pre k v post pre' v' post' : SInv s tr ->
    tr = pre ++ VEmit k v :: post -> tr = pre' ++ VEmit k v' :: post' -> pre = pre' /\ v = v' /\ post = post'.
  Proof.
    intros V E E'. rewrite E in E'. apply app_split_cons in E'. destruct E' as [(l & H & _)|(l & H & E')].
    - exfalso. apply (i_emit _ _ V _ _ _ _ E (VEmit k v')); [|reflexivity]. rewrite H. apply in_app_iff. cbn. auto.
    - destruct l as [|e l]; cbn in E'.
      + injection E' as -> ->. rewrite app_nil_r in H. auto.
      + injection E' as <- E'. exfalso. assert (T : tr = pre' ++ VEmit k v' :: post').
        { rewrite E, H, E', <- app_assoc. reflexivity. }
        apply (i_emit _ _ V _ _ _ _ T (VEmit k v)); [|reflexivity]. rewrite H. apply in_app_iff. cbn. auto.
  Qed.

  Ltac keep V F := match goal with |- context [?t ++ [_]] => eapply F; exact V end.

  (** A step that appends one event about no call in progress other than those handled:
      the trace-only fields. *)
  Lemma when_snoc tr e : (forall pre k x v post, tr = pre ++ VNotify k x v :: post -> subscribed pre x = true) ->
    (forall k x v, e = VNotify k x v -> subscribed tr x = true) ->
    forall pre k x v post, tr ++ [e] = pre ++ VNotify k x v :: post -> subscribed pre x = true.
  Proof.
    intros H He pre k x v post E. apply snoc_eq in E. destruct E as [(l & E & _)|(-> & <- & _)]; eauto.
  Qed.
  Lemma value_snoc tr e : (forall pre k x v post, tr = pre ++ VNotify k x v :: post -> In (VEmit k v) pre) ->
    (forall k x v, e = VNotify k x v -> In (VEmit k v) tr) ->
    forall pre k x v post, tr ++ [e] = pre ++ VNotify k x v :: post -> In (VEmit k v) pre.
  Proof.
    intros H He pre k x v post E. apply snoc_eq in E. destruct E as [(l & E & _)|(-> & <- & _)]; eauto.
  Qed.
  Lemma emit_snoc tr e : (forall pre k v post, tr = pre ++ VEmit k v :: post -> forall e, In e pre -> ev_call e <> Some k) ->
    (forall k v, e = VEmit k v -> forall e', In e' tr -> ev_call e' <> Some k) ->
    forall pre k v post, tr ++ [e] = pre ++ VEmit k v :: post -> forall e, In e pre -> ev_call e <> Some k.
  Proof.
    intros H He pre k v post E. apply snoc_eq in E. destruct E as [(l & E & _)|(-> & <- & _)]; eauto.
  Qed.
  Lemma end_snoc tr e :
    (forall pre k v mid post x, tr = pre ++ VEmit k v :: mid ++ VEnd k :: post ->
       subscribed pre x = true -> never_dropped par x mid -> In x (notified k mid)) ->
    (forall pre k v mid x, e = VEnd k -> tr = pre ++ VEmit k v :: mid ->
       subscribed pre x = true -> never_dropped par x mid -> In x (notified k mid)) ->
    forall pre k v mid post x, tr ++ [e] = pre ++ VEmit k v :: mid ++ VEnd k :: post ->
       subscribed pre x = true -> never_dropped par x mid -> In x (notified k mid).
  Proof.
    intros H He pre k v mid post x E. replace (pre ++ VEmit k v :: mid ++ VEnd k :: post) with ((pre ++ VEmit k v :: mid) ++ VEnd k :: post) in E.
    2: { rewrite <- app_assoc. reflexivity. }
    apply snoc_eq in E. destruct E as [(l & E & _)|(E & <- & _)].
    - rewrite <- app_assoc in E. cbn in E. eauto.
    - symmetry in E. eauto.
  Qed.
  Definition ub_ok (k : nat) (pre : list sev) : Prop := exists a x v b e, pre = a ++ VNotify k x v :: b /\ notified k b = [] /\
      In e b /\ drops par x e = true.
  Lemma ub_snoc tr e : (forall pre k post, tr = pre ++ VUB k :: post -> ub_ok k pre) ->
    (forall k, e = VUB k -> ub_ok k tr) ->
    forall pre k post, tr ++ [e] = pre ++ VUB k :: post -> ub_ok k pre.
  Proof.
    intros H He pre k post E. apply snoc_eq in E. destruct E as [(l & E & _)|(-> & <- & _)]; eauto.
  Qed.
  Lemma dead_snoc tr e (b : bool) : (forall k, e <> VUB k) -> (b = true <-> exists k, In (VUB k) tr) ->
    (b = true <-> exists k, In (VUB k) (tr ++ [e])).
  Proof.
    intros He ->. split; intros (k & I); exists k.
    - apply in_app_iff. auto.
    - apply in_app_iff in I. cbn in I. destruct I as [I|[->|[]]]; [exact I|]. now destruct (He k).
  Qed.

  (** Events that belong to no call. *)
  Lemma inv_quiet s tr e S' C' :
    SInv s tr -> ev_call e = None ->
    StronglySorted Z.lt S' -> (forall x, In x S' -> typ x = kind) ->
    (forall x, In x S' <-> subscribed (tr ++ [e]) x = true) ->
    (forall c, In c (sinks s) -> drops par c e = false -> In c S') ->
    C' = map (fun p => (fst p, Emission (em_value (snd p)) (em_at (snd p)) (em_erased (snd p) || drops par (em_at (snd p)) e))) (calls s) ->
    SInv (Src S' C' (count s) (dead s)) (tr ++ [e]).
  Proof.
    intros V He Ss Ts Sb Sd ->.
    assert (Hn : forall k l, notified k (l ++ [e]) = notified k l).
    { intros k l. rewrite notified_app. rewrite (notified_other k [e]); [apply app_nil_r|]. intros e' [<-|[]]. congruence. }
    constructor; cbn; auto.
    - intros k e' I Hk. apply in_app_iff in I. cbn in I. destruct I as [I|[<-|[]]]; [eapply i_fresh; eauto|congruence].
    - unfold akeys. rewrite map_map. cbn. apply V.
    - intros k m E. assert (X : exists m0, aget Nat.eqb k (calls s) = Some m0 /\
        m = Emission (em_value m0) (em_at m0) (em_erased m0 || drops par (em_at m0) e)).
      { revert E. induction (calls s) as [|[k0 m0] l IH]; cbn; [discriminate|].
        destruct (k =? k0)%nat; [intros E; injection E as <-; eauto|exact IH]. }
      destruct X as (m0 & E0 & ->). apply frame_other with (S := sinks s); [now apply V|congruence|exact Sd].
    - apply emit_snoc; [apply V|]. intros k v ->. discriminate.
    - apply end_snoc; [apply V|]. intros pre k v mid x ->. discriminate.
    - intros k. rewrite Hn. apply V.
    - apply value_snoc; [apply V|]. intros k x v ->. discriminate.
    - apply when_snoc; [apply V|]. intros k x v ->. discriminate.
    - apply ub_snoc; [apply V|]. intros k ->. discriminate.
    - apply dead_snoc; [|apply V]. intros k ->. discriminate.
  Qed.

  Lemma calls_id (l : list (nat * emission)) e : (forall x, drops par x e = false) ->
    l = map (fun p => (fst p, Emission (em_value (snd p)) (em_at (snd p)) (em_erased (snd p) || drops par (em_at (snd p)) e))) l.
  Proof.
    intros H. induction l as [|[k [v c b]] l IH]; cbn; [reflexivity|]. rewrite H, orb_false_r. now rewrite <- IH.
  Qed.
  Lemma src_eta s : Src (sinks s) (calls s) (count s) (dead s) = s.
  Proof. now destruct s. Qed.

  Lemma sub_snoc tr e x : subscribed (tr ++ [e]) x = sub_ev par x (subscribed tr x) e.
  Proof. rewrite subscribed_app. reflexivity. Qed.

  (** Refused calls. *)
  Lemma inv_refused s tr e : SInv s tr -> ev_call e = None -> (forall x, drops par x e = false) -> (forall x, e <> VSub x) ->
    SInv s (tr ++ [e]).
  Proof.
    intros V He Hd Hs. rewrite <- (src_eta s). apply inv_quiet; auto.
    - apply V.
    - apply V.
    - intros x. rewrite sub_snoc, (i_subs _ _ V x). unfold sub_ev. specialize (Hd x).
      destruct e; cbn in *; try (now rewrite ?Hd, ?andb_true_r); exfalso; now apply (Hs x0).
    - now apply calls_id.
  Qed.

  Lemma inv_sub s tr x : SInv s tr -> dead s = false -> typ x = kind ->
    SInv (Src (sinsert x (sinks s)) (calls s) (count s) false) (tr ++ [VSub x]).
  Proof.
    intros V D T. rewrite <- D. apply inv_quiet; auto.
    - apply sinsert_sorted, V.
    - intros y I. apply sinsert_In in I. destruct I as [->|I]; [exact T|now apply V].
    - intros y. rewrite sub_snoc, sinsert_In, (i_subs _ _ V y). cbn. rewrite orb_true_iff, Z.eqb_eq. tauto.
    - intros c I _. apply sinsert_In. auto.
    - now apply calls_id.
  Qed.

  Lemma inv_erase s tr e gone : SInv s tr -> ev_call e = None -> (forall x, e <> VSub x) -> (forall x, drops par x e = gone x) ->
    SInv (serase gone s) (tr ++ [e]).
  Proof.
    intros V He Hs Hg. unfold serase. apply inv_quiet; auto.
    - apply filter_sorted, V.
    - intros x I. apply filter_In in I. now apply V.
    - intros x. rewrite sub_snoc, filter_In, (i_subs _ _ V x). rewrite <- Hg.
      destruct e; cbn; rewrite ?andb_true_r, ?andb_true_iff; try tauto. exfalso. now apply (Hs x0).
    - intros c I D. apply filter_In. rewrite Hg in D. rewrite D. auto.
    - apply map_ext. intros p. now rewrite Hg.
  Qed.

  Lemma aget_frame s k m : aget Nat.eqb k (calls s) = Some m -> In (k, m) (calls s).
  Proof. apply aget_In. exact neqb_ok. Qed.

  Lemma inv_emit s tr v : SInv s tr -> dead s = false ->
    let '(s', t) := sstep kind typ par (SEmit v) s in SInv s' (tr ++ t).
  Proof.
    intros V D. unfold sstep. rewrite D. set (k := count s).
    assert (Fr : forall e, In e tr -> ev_call e <> Some k).
    { intros e I E. pose proof (i_fresh _ _ V k e I E). unfold k in *. lia. }
    assert (Nk : notified k tr = []) by now apply notified_other.
    assert (NU : ~ exists k, In (VUB k) tr). { intros X. apply (i_dead _ _ V) in X. congruence. }
    destruct (sinks s) as [|x r] eqn:Es.
    - change (tr ++ [VEmit k v; VEnd k]) with (tr ++ [VEmit k v] ++ [VEnd k]). rewrite app_assoc.
      assert (Sb : forall x, subscribed ((tr ++ [VEmit k v]) ++ [VEnd k]) x = subscribed tr x).
      { intros x. rewrite !sub_snoc. cbn. now rewrite !andb_true_r. }
      assert (Hn : forall j, notified j ((tr ++ [VEmit k v]) ++ [VEnd k]) = notified j tr).
      { intros j. rewrite !notified_app. cbn. now rewrite !app_nil_r. }
      constructor; cbn.
      + constructor.
      + intros x. rewrite Sb, <- (i_subs _ _ V x), Es. reflexivity.
      + intros x [].
      + intros j e I E. rewrite !in_app_iff in I. cbn in I. destruct I as [[I|[<-|[]]]|[<-|[]]].
        * pose proof (i_fresh _ _ V j e I E). lia.
        * injection E as <-. unfold k. lia.
        * injection E as <-. unfold k. lia.
      + apply V.
      + intros j m E. assert (j <> k) as Hjk.
        { intros ->. pose proof (i_frame _ _ V _ _ E) as F. destruct (fr_split _ _ _ _ F) as (pre & post & -> & _).
          apply (Fr (VEmit k (em_value m))); [apply in_app_iff; cbn; auto|reflexivity]. }
        pose proof (i_frame _ _ V _ _ E) as F.
        rewrite Es in F. apply (frame_other _ [] _ _ _ (VEmit k v)) in F; [|cbn; congruence|auto].
        apply (frame_other _ [] _ _ _ (VEnd k)) in F; [|cbn; congruence|auto].
        cbn in F. rewrite !orb_false_r in F. destruct m. exact F.
      + apply emit_snoc; [apply emit_snoc; [apply V|]|discriminate].
        intros j w E. injection E as <- <-. exact Fr.
      + apply end_snoc; [apply end_snoc; [apply V|discriminate]|].
        intros pre j w mid x E. injection E as <-. intros E Hs _.
        assert (X : pre = tr).
        { apply snoc_eq in E. destruct E as [(l & E & _)|(-> & _)]; [|reflexivity]. exfalso.
          apply (Fr (VEmit k w)); [rewrite E; apply in_app_iff; cbn; auto|reflexivity]. }
        subst pre. apply (i_subs _ _ V) in Hs. rewrite Es in Hs. destruct Hs.
      + intros j. rewrite Hn. apply V.
      + apply value_snoc; [apply value_snoc; [apply V|discriminate]|discriminate].
      + apply when_snoc; [apply when_snoc; [apply V|discriminate]|discriminate].
      + apply ub_snoc; [apply ub_snoc; [apply V|discriminate]|discriminate].
      + apply dead_snoc; [discriminate|]. apply dead_snoc; [discriminate|]. rewrite <- D. apply V.
    - change (tr ++ [VEmit k v; VNotify k x v]) with (tr ++ [VEmit k v] ++ [VNotify k x v]). rewrite app_assoc.
      assert (Sb : forall y, subscribed ((tr ++ [VEmit k v]) ++ [VNotify k x v]) y = subscribed tr y).
      { intros y. rewrite !sub_snoc. cbn. now rewrite !andb_true_r. }
      assert (Sx : subscribed tr x = true). { apply (i_subs _ _ V). rewrite Es. now left. }
      assert (Srt : StronglySorted Z.lt (x :: r)). { rewrite <- Es. apply V. }
      constructor; cbn.
      + exact Srt.
      + intros y. rewrite Sb, <- (i_subs _ _ V y), Es. reflexivity.
      + intros y I. apply (i_types _ _ V). rewrite Es. exact I.
      + intros j e I E. rewrite !in_app_iff in I. cbn in I. destruct I as [[I|[<-|[]]]|[<-|[]]].
        * pose proof (i_fresh _ _ V j e I E). lia.
        * injection E as <-. unfold k. lia.
        * injection E as <-. unfold k. lia.
      + apply aset_nodup; [exact neqb_ok|apply V].
      + intros j m E. rewrite aget_aset_n in E. destruct (Nat.eqb_spec j k) as [->|Hjk].
        * injection E as <-. constructor; cbn.
          -- exists tr, [VNotify k x v]. rewrite <- app_assoc. cbn. rewrite Nat.eqb_refl. repeat split; auto.
             ++ intros [E|[]]. discriminate.
             ++ repeat constructor.
             ++ cbn. auto.
             ++ cbn. intros y [->|[]]. lia.
             ++ intros y Hy _ Hle. cbn. left. apply (i_subs _ _ V) in Hy. rewrite Es in Hy. destruct Hy as [->|I]; [reflexivity|].
                inversion Srt as [|? ? ? Fr']; subst. rewrite Forall_forall in Fr'. specialize (Fr' y I). lia.
          -- auto.
          -- discriminate.
          -- exists (tr ++ [VEmit k v]), v, []. auto.
        * pose proof (i_frame _ _ V _ _ E) as F. rewrite Es in F.
          apply (frame_other _ (x :: r) _ _ _ (VEmit k v)) in F; [|cbn; congruence|auto].
          apply (frame_other _ (x :: r) _ _ _ (VNotify k x v)) in F; [|cbn; congruence|auto].
          cbn in F. rewrite !orb_false_r in F. destruct m. exact F.
      + apply emit_snoc; [apply emit_snoc; [apply V|]|discriminate].
        intros j w E. injection E as <- <-. exact Fr.
      + apply end_snoc; [apply end_snoc; [apply V|discriminate]|discriminate].
      + intros j. rewrite !notified_app. cbn. rewrite app_nil_r. destruct (Nat.eqb_spec k j) as [<-|].
        * rewrite Nk. repeat constructor. auto.
        * rewrite app_nil_r. apply V.
      + apply value_snoc; [apply value_snoc; [apply V|discriminate]|].
        intros j y w E. injection E as <- <- <-. apply in_app_iff. cbn. auto.
      + apply when_snoc; [apply when_snoc; [apply V|discriminate]|].
        intros j y w E. injection E as <- <- <-. rewrite sub_snoc. cbn. now rewrite Sx.
      + apply ub_snoc; [apply ub_snoc; [apply V|discriminate]|discriminate].
      + apply dead_snoc; [discriminate|]. apply dead_snoc; [discriminate|]. rewrite <- D. apply V.
  Qed.

  Lemma adel_other (j k : nat) (m : emission) l : NoDup (akeys l) -> aget Nat.eqb j (adel Nat.eqb k l) = Some m -> j <> k /\ aget Nat.eqb j l = Some m.
  Proof.
    intros N E. rewrite aget_adel_n in E by exact N. destruct (Nat.eqb_spec j k); [discriminate|auto].
  Qed.

  Lemma inv_finish s tr k m e : SInv s tr -> dead s = false -> aget Nat.eqb k (calls s) = Some m ->
    (e = VAbort k \/ e = VEnd k /\ em_erased m = false /\ find (fun y => em_at m <? y) (sinks s) = None) ->
    SInv (Src (sinks s) (adel Nat.eqb k (calls s)) (count s) false) (tr ++ [e]).
  Proof.
    intros V D E He.
    assert (Hc : ev_call e = Some k) by (destruct He as [->|[-> _]]; reflexivity).
    assert (Hn : forall j, notified j (tr ++ [e]) = notified j tr).
    { intros j. rewrite notified_app. destruct He as [->|[-> _]]; apply app_nil_r. }
    assert (Hd : forall x, drops par x e = false) by (intros; destruct He as [->|[-> _]]; reflexivity).
    assert (Sb : forall x, subscribed (tr ++ [e]) x = subscribed tr x).
    { intros x. rewrite sub_snoc. destruct He as [->|[-> _]]; apply andb_true_r. }
    pose proof (i_frame _ _ V _ _ E) as F. destruct (fr_split _ _ _ _ F) as (pre & post & Et & Hp & Hend & Hs & Hi & Hm & Hall).
    constructor; cbn.
    - apply V.
    - intros x. rewrite Sb. apply V.
    - apply V.
    - intros j e' I Hj. apply in_app_iff in I. cbn in I. destruct I as [I|[<-|[]]]; [eapply i_fresh; eauto|].
      assert (j = k) by congruence. subst j. apply (i_fresh _ _ V k (VEmit k (em_value m))); [|reflexivity].
      rewrite Et. apply in_app_iff. cbn. auto.
    - apply adel_nodup; apply V.
    - intros j m' Ej. apply adel_other in Ej; [|apply V]. destruct Ej as [Hj Ej].
      pose proof (i_frame _ _ V _ _ Ej) as F'. apply (frame_other _ (sinks s) _ _ _ e) in F'; [|congruence|auto].
      rewrite Hd, orb_false_r in F'. destruct m'. exact F'.
    - apply emit_snoc; [apply V|]. intros j w X. destruct He as [->|[-> _]]; discriminate.
    - apply end_snoc; [apply V|]. intros pre' j w mid x X Et' Hx Hnd.
      destruct He as [->|(-> & Hz & Hf)]; [discriminate|]. injection X as <-.
      destruct (emit_split _ _ _ _ _ _ _ _ _ V Et Et') as (<- & _ & <-).
      apply Hall; auto. assert (Ix : In x (sinks s)).
      { apply (i_subs _ _ V). rewrite Et, subscribed_app. cbn. apply sub_stays; [exact Hnd|]. now rewrite Hx. }
      eapply find_none; eauto.
    - intros j. rewrite Hn. apply V.
    - apply value_snoc; [apply V|]. intros j x w X. destruct He as [->|[-> _]]; discriminate.
    - apply when_snoc; [apply V|]. intros j x w X. destruct He as [->|[-> _]]; discriminate.
    - apply ub_snoc; [apply V|]. intros j X. destruct He as [->|[-> _]]; discriminate.
    - rewrite <- D. apply dead_snoc; [|apply V]. intros j X. destruct He as [->|[-> _]]; discriminate.
  Qed.

  Lemma inv_next s tr k m y : SInv s tr -> dead s = false -> aget Nat.eqb k (calls s) = Some m ->
    em_erased m = false -> find (fun y => em_at m <? y) (sinks s) = Some y ->
    SInv (Src (sinks s) (aset Nat.eqb k (Emission (em_value m) y false) (calls s)) (count s) false)
         (tr ++ [VNotify k y (em_value m)]).
  Proof.
    intros V D E Hz Hf. destruct (find_next _ _ _ (i_sorted _ _ V) Hf) as (Iy & Ly & My).
    pose proof (i_frame _ _ V _ _ E) as F. destruct (fr_split _ _ _ _ F) as (pre & post & Et & Hp & Hend & Hs & Hi & Hm & Hall).
    assert (Sb : forall x, subscribed (tr ++ [VNotify k y (em_value m)]) x = subscribed tr x).
    { intros x. rewrite sub_snoc. apply andb_true_r. }
    assert (Ntr : notified k tr = notified k post). { rewrite Et, notified_app, Hp. reflexivity. }
    constructor; cbn.
    - apply V.
    - intros x. rewrite Sb. apply V.
    - apply V.
    - intros j e' I Hj. apply in_app_iff in I. cbn in I. destruct I as [I|[<-|[]]]; [eapply i_fresh; eauto|].
      injection Hj as <-. apply (i_fresh _ _ V k (VEmit k (em_value m))); [|reflexivity].
      rewrite Et. apply in_app_iff. cbn. auto.
    - apply aset_nodup; [exact neqb_ok|apply V].
    - intros j m' Ej. rewrite aget_aset_n in Ej. destruct (Nat.eqb_spec j k) as [->|Hj].
      + injection Ej as <-. constructor; cbn.
        * exists pre, (post ++ [VNotify k y (em_value m)]).
          rewrite notified_app. cbn. rewrite Nat.eqb_refl. repeat split.
          -- rewrite Et, <- app_assoc. reflexivity.
          -- exact Hp.
          -- rewrite in_app_iff. cbn. intros [I|[X|[]]]; [contradiction|discriminate].
          -- apply sorted_snoc; [exact Hs|]. intros z Iz. specialize (Hm z Iz). lia.
          -- apply in_app_iff. cbn. auto.
          -- intros x Ix. apply in_app_iff in Ix. cbn in Ix. destruct Ix as [Ix|[<-|[]]]; [|lia]. specialize (Hm x Ix). lia.
          -- intros x Hx Hnd Hle. apply in_app_iff. destruct (Z_le_gt_dec x (em_at m)) as [Hx'|Hx'].
             ++ left. apply Hall; auto. eapply drop_app; exact Hnd.
             ++ right. cbn. left. assert (Ix : In x (sinks s)).
                { apply (i_subs _ _ V). rewrite Et, subscribed_app. cbn. apply sub_stays; [eapply drop_app; exact Hnd|]. now rewrite Hx. }
                specialize (My x Ix). lia.
        * auto.
        * discriminate.
        * exists tr, (em_value m), []. auto.
      + pose proof (i_frame _ _ V _ _ Ej) as F'. apply (frame_other _ (sinks s) _ _ _ (VNotify k y (em_value m))) in F'; [|cbn; congruence|auto].
        cbn in F'. rewrite orb_false_r in F'. destruct m'. exact F'.
    - apply emit_snoc; [apply V|discriminate].
    - apply end_snoc; [apply V|discriminate].
    - intros j. rewrite notified_app. cbn. destruct (Nat.eqb_spec k j) as [<-|]; [|rewrite app_nil_r; apply V].
      rewrite Ntr. apply sorted_NoDup, sorted_snoc; [exact Hs|]. intros z Iz. specialize (Hm z Iz). lia.
    - apply value_snoc; [apply V|]. intros j x w X. injection X as <- <- <-. rewrite Et. apply in_app_iff. cbn. auto.
    - apply when_snoc; [apply V|]. intros j x w X. injection X as <- <- <-. now apply (i_subs _ _ V).
    - apply ub_snoc; [apply V|discriminate].
    - rewrite <- D. apply dead_snoc; [discriminate|apply V].
  Qed.

  Lemma inv_ub s tr k m : SInv s tr -> dead s = false -> aget Nat.eqb k (calls s) = Some m -> em_erased m = true ->
    SInv (Src (sinks s) (calls s) (count s) true) (tr ++ [VUB k]).
  Proof.
    intros V D E Hz. pose proof (i_frame _ _ V _ _ E) as F.
    destruct (fr_split _ _ _ _ F) as (pre & post & Et & Hp & Hend & Hs & Hi & Hm & Hall).
    assert (Sb : forall x, subscribed (tr ++ [VUB k]) x = subscribed tr x).
    { intros x. rewrite sub_snoc. apply andb_true_r. }
    assert (Hn : forall j l, notified j (l ++ [VUB k]) = notified j l) by (intros; rewrite notified_app; apply app_nil_r).
    constructor; cbn.
    - apply V.
    - intros x. rewrite Sb. apply V.
    - apply V.
    - intros j e' I Hj. apply in_app_iff in I. cbn in I. destruct I as [I|[<-|[]]]; [eapply i_fresh; eauto|].
      injection Hj as <-. apply (i_fresh _ _ V k (VEmit k (em_value m))); [|reflexivity].
      rewrite Et. apply in_app_iff. cbn. auto.
    - apply V.
    - intros j m' Ej. destruct (Nat.eq_dec j k) as [->|Hj].
      + rewrite E in Ej. injection Ej as <-. constructor.
        * exists pre, (post ++ [VUB k]). rewrite Hn, Et, <- app_assoc. repeat split; auto.
          -- rewrite in_app_iff. cbn. intros [I|[X|[]]]; [contradiction|discriminate].
          -- intros x Hx Hnd. apply Hall; auto. eapply drop_app; exact Hnd.
        * apply F.
        * intros _. destruct (fr_gone _ _ _ _ F Hz) as (a & v & b & e & -> & Hb & Ie & De).
          exists a, v, (b ++ [VUB k]), e. rewrite Hn, <- app_assoc. repeat split; auto. apply in_app_iff. auto.
        * destruct (fr_last _ _ _ _ F) as (a & v & b & -> & Hb). exists a, v, (b ++ [VUB k]). rewrite Hn, <- app_assoc. auto.
      + pose proof (i_frame _ _ V _ _ Ej) as F'. apply (frame_other _ (sinks s) _ _ _ (VUB k)) in F'; [|cbn; congruence|auto].
        cbn in F'. rewrite orb_false_r in F'. destruct m'. exact F'.
    - apply emit_snoc; [apply V|discriminate].
    - apply end_snoc; [apply V|discriminate].
    - intros j. rewrite Hn. apply V.
    - apply value_snoc; [apply V|discriminate].
    - apply when_snoc; [apply V|discriminate].
    - apply ub_snoc; [apply V|]. intros j X. injection X as <-.
      destruct (fr_gone _ _ _ _ F Hz) as (a & v & b & e & -> & Hb & Ie & De). exists a, (em_at m), v, b, e. auto.
    - split; [|reflexivity]. intros _. exists k. apply in_app_iff. cbn. auto.
  Qed.

  Lemma sstep_inv o s tr : SInv s tr -> let '(s', t) := sstep kind typ par o s in SInv s' (tr ++ t).
  Proof.
    intros V. destruct (dead s) eqn:D.
    { unfold sstep. rewrite D. now rewrite app_nil_r. }
    destruct o as [x|x|t|v|k|k].
    - unfold sstep. rewrite D. destruct (Z.eqb_spec (typ x) kind) as [T|T]; cbn.
      + destruct (smem x (sinks s)); [apply inv_refused; auto; discriminate|now apply inv_sub].
      + apply inv_refused; auto; discriminate.
    - unfold sstep. rewrite D. destruct (smem x (sinks s)).
      + apply inv_erase; auto; [discriminate|]. intros y. cbn. apply Z.eqb_sym.
      + apply inv_refused; auto; discriminate.
    - unfold sstep. rewrite D. apply inv_erase; auto. discriminate.
    - now apply inv_emit.
    - unfold sstep. rewrite D. destruct (aget Nat.eqb k (calls s)) as [m|] eqn:E; [|now rewrite app_nil_r].
      destruct (em_erased m) eqn:Hz; [now apply inv_ub with m|].
      destruct (find (fun y => em_at m <? y) (sinks s)) as [y|] eqn:Hf.
      + now apply inv_next.
      + apply inv_finish with m; auto.
    - unfold sstep. rewrite D. destruct (aget Nat.eqb k (calls s)) as [m|] eqn:E; [|now rewrite app_nil_r].
      apply inv_finish with m; auto.
  Qed.

  Lemma srun_inv os s tr : SInv s tr -> SInv (fst (srun kind typ par s os)) (tr ++ snd (srun kind typ par s os)).
  Proof.
    revert s tr. induction os as [|o os IH]; intros s tr V; cbn; [now rewrite app_nil_r|].
    pose proof (sstep_inv o s tr V) as V1. destruct (sstep kind typ par o s) as [s1 t1].
    specialize (IH s1 _ V1). destruct (srun kind typ par s1 os) as [s2 t2]. cbn in *. now rewrite app_assoc.
  Qed.

  Lemma src_init_inv : SInv src_init [].
  Proof.
    constructor; cbn; try (intros; discriminate); try (intros; tauto).
    - constructor.
    - intros x. split; [tauto|discriminate].
    - constructor.
    - intros pre k v post E. destruct pre; discriminate.
    - intros pre k v mid post x E. destruct pre; discriminate.
    - constructor.
    - intros pre k x v post E. destruct pre; discriminate.
    - intros pre k x v post E. destruct pre; discriminate.
    - intros pre k post E. destruct pre; discriminate.
    - split; [discriminate|]. intros (k & []).
  Qed.

  Lemma reach_sinv os : SInv (fst (srun kind typ par src_init os)) (strace kind typ par os).
  Proof. exact (srun_inv os _ _ src_init_inv). Qed.
End Inv.
