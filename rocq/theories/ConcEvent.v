(** Proofs about the event manager used by several threads. *)
From Verif Require Import Base Assoc Text UuidModel EventModel EventProofs LinkModel.
From Verif Require Import ConcSpec ConcModel ConcProofs.

(** * Names and identifiers *)

Lemma has_In n l : has n l = true <-> In n l.
Proof.
  unfold has. rewrite existsb_exists. split.
  - intros (m & I & E). apply ename_eqb_ok in E. now subst.
  - intros I. exists n. split; [exact I|now apply ename_eqb_ok].
Qed.

Definition name_step (l : list ename) (c : nat * cop * cout) : list ename :=
  match c with
  | (_, CQuery (Some (c :: n)), _) => if has (c :: n) l then l else l ++ [c :: n]
  | _ => l
  end.

Lemma names_of_snoc L : forall l c, names_of l (L ++ [c]) = name_step (names_of l L) c.
Proof.
  induction L as [|[[k o] x] L IH]; intros l c.
  - destruct c as [[k o] x]. cbn. destruct o as [[[|c n]|]| | |]; reflexivity.
  - cbn [app names_of]. destruct o as [[[|a n]|]| | |]; apply IH.
Qed.

Lemma names_snoc L c : names (L ++ [c]) = name_step (names L) c.
Proof. apply names_of_snoc. Qed.

Lemma name_step_prefix l c : exists t, name_step l c = l ++ t.
Proof.
  destruct c as [[k o] x]. cbn. destruct o as [[[|a n]|]| | |]; try (exists []; now rewrite app_nil_r).
  destruct (has (a :: n) l); [exists []; now rewrite app_nil_r|eauto].
Qed.

Lemma names_prefix L M : exists t, names (L ++ M) = names L ++ t.
Proof.
  induction M as [|c M IH] using rev_ind; [exists []; now rewrite !app_nil_r|].
  destruct IH as (t & IH). rewrite app_assoc, names_snoc, IH.
  destruct (name_step_prefix (names L ++ t) c) as (u & ->). exists (t ++ u). now rewrite app_assoc.
Qed.

Lemma names_nodup L : NoDup (names L).
Proof.
  induction L as [|[[k o] x] L IH] using rev_ind.
  - unfold names. cbn [names_of]. repeat (constructor; [vm_compute; intuition discriminate|]). constructor.
  - rewrite names_snoc. cbn [name_step]. destruct o as [[[|a n]|]| | |]; try exact IH.
    destruct (has (a :: n) (names L)) eqn:E; [exact IH|]. apply NoDup_snoc; [exact IH|].
    intros I. apply has_In in I. congruence.
Qed.

Lemma names_nineteen L : (19 <= length (names L))%nat.
Proof.
  destruct (names_prefix [] L) as (t & E). change ([] ++ L) with L in E. rewrite E, app_length.
  change (length (names [])) with 19%nat. lia.
Qed.

Lemma index_of_app n l t : In n l -> index_of n (l ++ t) = index_of n l.
Proof.
  induction l as [|m l IH]; [intros []|]. cbn. destruct (ename_eqb n m) eqn:E; [reflexivity|].
  intros [->|I]; [rewrite (proj2 (ename_eqb_ok n n) eq_refl) in E; discriminate|]. now rewrite IH.
Qed.

Lemma index_of_new n l : ~ In n l -> index_of n (l ++ [n]) = Z.of_nat (length l) + 1.
Proof.
  induction l as [|m l IH]; intros N.
  - cbn. now rewrite (proj2 (ename_eqb_ok n n) eq_refl).
  - cbn [app index_of length]. destruct (ename_eqb n m) eqn:E.
    + apply ename_eqb_ok in E. subst. exfalso. apply N. now left.
    + rewrite IH by (intros I; apply N; now right). lia.
Qed.

Lemma index_of_inj n m l : In n l -> In m l -> index_of n l = index_of m l -> n = m.
Proof.
  assert (P : forall n l, 1 <= index_of n l).
  { intros x t. induction t as [|y t IH]; cbn [index_of]; [lia|]. destruct (ename_eqb x y); lia. }
  induction l as [|a l IH]; [intros []|]. cbn [In index_of].
  destruct (ename_eqb n a) eqn:E1, (ename_eqb m a) eqn:E2; intros I J H.
  - apply ename_eqb_ok in E1. apply ename_eqb_ok in E2. congruence.
  - pose proof (P m l). lia.
  - pose proof (P n l). lia.
  - destruct I as [->|I]; [rewrite (proj2 (ename_eqb_ok n n) eq_refl) in E1; discriminate|].
    destruct J as [->|J]; [rewrite (proj2 (ename_eqb_ok m m) eq_refl) in E2; discriminate|].
    apply IH; try assumption. lia.
Qed.

Fixpoint numbered (i : Z) (l : list ename) : list (ename * Z) :=
  match l with [] => [] | n :: l => (n, i) :: numbered (i + 1) l end.

Lemma numbered_snoc l : forall i n, numbered i (l ++ [n]) = numbered i l ++ [(n, i + Z.of_nat (length l))].
Proof.
  induction l as [|m l IH]; intros i n; [cbn; now rewrite Z.add_0_r|].
  cbn [app numbered length]. rewrite IH. cbn [app]. do 4 f_equal. lia.
Qed.

Lemma numbered_length l : forall i, length (numbered i l) = length l.
Proof. induction l as [|m l IH]; intros i; cbn; [reflexivity|]. now rewrite IH. Qed.

Lemma numbered_get n l : forall i, aget ename_eqb n (numbered i l) = if has n l then Some (i - 1 + index_of n l) else None.
Proof.
  induction l as [|m l IH]; intros i; [reflexivity|]. cbn [numbered aget index_of]. unfold has. cbn [existsb]. fold (has n l). destruct (ename_eqb n m) eqn:E; cbn [orb].
  - f_equal. lia.
  - rewrite IH. destruct (has n l); [f_equal; lia|reflexivity].
Qed.

(** * Subscribers *)

Definition sub_fold (id : Z) (l : list Z) (c : nat * cop * cout) : list Z :=
  match c with
  | (_, CSub i ep, CDone) => if i =? id then l ++ [ep] else l
  | (_, CUnsub i ep, CDone) => if i =? id then erase ep l else l
  | _ => l
  end.

Lemma subscribers_of_snoc L id : forall l c, subscribers_of l (L ++ [c]) id = sub_fold id (subscribers_of l L id) c.
Proof.
  induction L as [|[[k o] x] L IH]; intros l c.
  - destruct c as [[k o] x]. cbn. destruct o, x; reflexivity.
  - cbn [app subscribers_of]. destruct o; try apply IH; destruct x; apply IH.
Qed.

Lemma subscribers_snoc L c id : subscribers (L ++ [c]) id = sub_fold id (subscribers L id) c.
Proof. apply subscribers_of_snoc. Qed.

(** * Calls *)

Definition e_open (pc : epc) : option cop :=
  match pc with
  | QBegin n => Some (CQuery n)
  | UBegin o | UDo o => Some o
  | _ => None
  end.

Definition e_closed (pc : epc) (o : cop) (x : cout) : Prop :=
  match pc with
  | QIds id n => o = CQuery (Some n) /\ x = CId id
  | URun ran todo => x = CRan (ran ++ todo)
  | EEnd y => x = y
  | _ => False
  end.

Lemma first_query_mono tr e j n : next_event tr e -> first_query tr j n -> first_query (tr ++ [e]) j n.
Proof.
  intros W (I & P & F). split; [rewrite in_app_iff; now left|]. split; [exact P|].
  intros i B J. destruct e as [k o|k x].
  - destruct W as [W1 W2]. destruct (before_inv _ _ _ _ _ B) as [B'| ->]; [|now apply W1 in I].
    rewrite in_app_iff in J. destruct J as [J|[J|[]]]; [now apply (F i)|]. injection J as -> ->.
    destruct (before_in _ _ _ B') as [[x R] _]. now apply W2 in R.
  - apply before_ret in B. rewrite in_app_iff in J. destruct J as [J|[J|[]]]; [now apply (F i)|discriminate].
Qed.

Lemma hurried_mono tr e k o : next_event tr e -> hurried tr k o -> hurried (tr ++ [e]) k o.
Proof.
  intros W (id & j & n & U & O & F). exists id, j, n. split; [exact U|].
  split; [now apply overlap_mono|now apply first_query_mono].
Qed.

Lemma result_mono : forall (tr : chist) e L k o x, next_event tr e -> In (Inv k o) tr ->
  event_result_or_hurried tr L k o x -> event_result_or_hurried (tr ++ [e]) L k o x.
Proof. intros tr e L k o x W I [H|[H H']]; [now left|right]. split; [exact H|now apply hurried_mono]. Qed.

Definition is_use (o : cop) : bool := match o with CQuery _ => false | _ => true end.

Record EInvC (s : estate) : Prop := {
  v_calls : KInv e_open e_closed event_result_or_hurried (s_calls s) (s_next s) (s_hist s) (s_done s);
  v_use : forall k o, aget Nat.eqb k (s_calls s) = Some (UBegin o) \/ aget Nat.eqb k (s_calls s) = Some (UDo o) ->
    is_use o = true;
  v_events : s_events s = numbered 1 (names (s_done s));
  v_ids : forall id n, aget Z.eqb id (s_ids s) = Some n -> valid_id (s_done s) id = true;
  v_known : forall id, valid_id (s_done s) id = true -> aget Z.eqb id (s_ids s) = None ->
    exists k n, aget Nat.eqb k (s_calls s) = Some (QIds id n);
  v_first : forall k id n, aget Nat.eqb k (s_calls s) = Some (QIds id n) ->
    19 < id /\ valid_id (s_done s) id = true /\ first_query (s_hist s) k n;
  v_do : forall k o, aget Nat.eqb k (s_calls s) = Some (UDo o) -> valid_id (s_done s) (id_of o) = true;
  v_subs : forall id, match aget Z.eqb id (s_subs s) with Some l => l | None => [] end = subscribers (s_done s) id;
}.

Lemma valid_snoc L c id : valid_id L id = true -> valid_id (L ++ [c]) id = true.
Proof.
  unfold valid_id. destruct (names_prefix L [c]) as (t & ->). rewrite app_length, !andb_true_iff, !Z.leb_le. lia.
Qed.

Lemma valid_same L c id : names (L ++ [c]) = names L -> valid_id (L ++ [c]) id = valid_id L id.
Proof. intros E. unfold valid_id. now rewrite E. Qed.

(** A section that takes effect and creates no name. *)
Lemma einv_commit s (k : nat) pc pc' o x subs' : EInvC s -> aget Nat.eqb k (s_calls s) = Some pc ->
  e_open pc = Some o -> e_open pc' = None -> e_closed pc' o x ->
  (forall id n, pc' <> QIds id n) ->
  event_result_or_hurried (s_hist s) (s_done s) k o x ->
  names (s_done s ++ [(k, o, x)]) = names (s_done s) ->
  (forall id, match aget Z.eqb id subs' with Some l => l | None => [] end = subscribers (s_done s ++ [(k, o, x)]) id) ->
  EInvC (EState (s_events s) (s_ids s) subs' (aset Nat.eqb k pc' (s_calls s)) (s_next s) (s_hist s) (s_done s ++ [(k, o, x)])).
Proof.
  intros V E O O' C NQ R N S. split; cbn [s_calls s_next s_hist s_done s_events s_ids s_subs].
  - apply (K_commit e_open e_closed _ _ _ _ _ _ pc); try assumption. apply V.
  - intros k' o'. rewrite !get_aset. destruct (Nat.eqb_spec k' k) as [Ek|]; [|apply V].
    intros [X|X]; injection X as ->; discriminate.
  - rewrite N. apply V.
  - intros id n X. rewrite valid_same by exact N. now apply (v_ids _ V id n).
  - intros id X Y. rewrite valid_same in X by exact N. destruct (v_known _ V id X Y) as (k' & n & Z). exists k', n.
    rewrite get_aset. destruct (Nat.eqb_spec k' k) as [->|]; [|exact Z]. rewrite Z in E. injection E as <-. discriminate.
  - intros k' id n X. rewrite get_aset in X. destruct (Nat.eqb_spec k' k) as [Ek|]; [injection X as X; now apply NQ in X|].
    rewrite valid_same by exact N. now apply (v_first _ V).
  - intros k' o' X. rewrite get_aset in X. destruct (Nat.eqb_spec k' k) as [Ek|]; [injection X as ->; discriminate|].
    rewrite valid_same by exact N. now apply (v_do _ V k').
  - exact S.
Qed.

(** A section without effect on the maps. *)
Lemma einv_silent s (k : nat) pc pc' : EInvC s -> aget Nat.eqb k (s_calls s) = Some pc ->
  e_open pc' = e_open pc -> (e_open pc = None -> forall o x, e_closed pc o x -> e_closed pc' o x) ->
  (forall id n, pc <> QIds id n) -> (forall id n, pc' <> QIds id n) ->
  (forall o, pc' = UBegin o \/ pc' = UDo o -> is_use o = true) ->
  (forall o, pc' = UDo o -> valid_id (s_done s) (id_of o) = true) ->
  EInvC (EState (s_events s) (s_ids s) (s_subs s) (aset Nat.eqb k pc' (s_calls s)) (s_next s) (s_hist s) (s_done s)).
Proof.
  intros V E O C NQ NQ' U D. split; cbn [s_calls s_next s_hist s_done s_events s_ids s_subs]; try apply V.
  - apply (K_silent e_open e_closed _ _ _ _ _ _ pc); try assumption. apply V.
  - intros k' o'. rewrite !get_aset. destruct (Nat.eqb_spec k' k) as [Ek|]; [|apply V].
    intros [X|X]; injection X as X; apply U; auto.
  - intros id X Y. destruct (v_known _ V id X Y) as (k' & n & Z). exists k', n.
    rewrite get_aset. destruct (Nat.eqb_spec k' k) as [->|]; [|exact Z]. rewrite Z in E. injection E as <-. now destruct (NQ id n).
  - intros k' id n X. rewrite get_aset in X. destruct (Nat.eqb_spec k' k) as [Ek|]; [injection X as X; now apply NQ' in X|].
    now apply (v_first _ V).
  - intros k' o' X. rewrite get_aset in X. destruct (Nat.eqb_spec k' k) as [Ek|]; [injection X as X; now apply D|].
    now apply (v_do _ V k').
Qed.

Lemma sub_same L c id : (match c with (_, CSub _ _, CDone) | (_, CUnsub _ _, CDone) => False | _ => True end) ->
  subscribers (L ++ [c]) id = subscribers L id.
Proof. intros H. rewrite subscribers_snoc. destruct c as [[k o] x]. destruct o, x; cbn in *; tauto. Qed.

Lemma estep_conc_inv e s : EInvC s -> EInvC (estep_conc e s).
Proof.
  intros V. destruct e as [o|k].
  - assert (G : forall k, aget Nat.eqb k (s_calls s ++ [(s_next s, begin_pc o)]) =
        match aget Nat.eqb k (s_calls s) with Some p => Some p
        | None => if (k =? s_next s)%nat then Some (begin_pc o) else None end).
    { intros k. rewrite (aget_app Nat.eqb). reflexivity. }
    pose proof (v_calls _ V) as K.
    assert (W : next_event (s_hist s) (Inv (s_next s) o)).
    { split; intros y I; [apply (k_lt _ _ _ _ _ _ _ K) in I|apply (k_rlt _ _ _ _ _ _ _ K) in I]; lia. }
    cbn [estep_conc]. split; cbn [s_calls s_next s_hist s_done s_events s_ids s_subs]; try apply V.
    + apply (K_begin e_open e_closed _ result_mono); [exact K|]. now destruct o.
    + intros k o'. rewrite G. destruct (aget Nat.eqb k (s_calls s)) eqn:E; [rewrite <- E; apply V|].
      destruct (k =? s_next s)%nat; [|intros [X|X]; discriminate].
      intros [X|X]; destruct o; cbn in X; try discriminate; injection X as <-; reflexivity.
    + intros id X Y. destruct (v_known _ V id X Y) as (k & n & Z). exists k, n. now rewrite G, Z.
    + intros k id n X. rewrite G in X. destruct (aget Nat.eqb k (s_calls s)) eqn:E.
      * rewrite X in E. destruct (v_first _ V k id n E) as (A & B & C). split; [exact A|]. split; [exact B|].
        now apply first_query_mono.
      * destruct (k =? s_next s)%nat; [|discriminate]. destruct o; discriminate.
    + intros k o' X. rewrite G in X. destruct (aget Nat.eqb k (s_calls s)) eqn:E.
      * rewrite X in E. now apply (v_do _ V k).
      * destruct (k =? s_next s)%nat; [|discriminate]. destruct o; discriminate.
  - cbn [estep_conc]. destruct (aget Nat.eqb k (s_calls s)) as [pc|] eqn:E; [|exact V].
    pose proof (v_calls _ V) as K.
    destruct pc as [n|id n|o|o|ran todo|x].
    + (* QueryEventId *)
      assert (Bad : n = None \/ n = Some [] ->
         EInvC (EState (s_events s) (s_ids s) (s_subs s) (aset Nat.eqb k (EEnd (CError 1)) (s_calls s)) (s_next s)
                  (s_hist s) (s_done s ++ [(k, CQuery n, CError 1)]))).
      { intros H. apply (einv_commit s k (QBegin n)); try assumption; try reflexivity; try discriminate.
        - left. now destruct H as [->| ->].
        - rewrite names_snoc. now destruct H as [->| ->].
        - intros i. rewrite sub_same by exact Logic.I. apply V. }
      cbn [esection]. destruct n as [[|c m]|]; try (apply Bad; auto; fail). clear Bad.
      rewrite (v_events _ V), numbered_get, numbered_length. destruct (has (c :: m) (names (s_done s))) eqn:H;
        cbn [b_events b_ids b_subs b_pc b_done].
      * rewrite <- (v_events _ V).
        apply (einv_commit s k (QBegin (Some (c :: m)))); try assumption; try reflexivity; try discriminate.
        -- left. cbn [event_answer]. rewrite names_snoc. cbn [name_step]. now rewrite H.
        -- rewrite names_snoc. cbn [name_step]. now rewrite H.
        -- intros i. rewrite sub_same by exact Logic.I. apply V.
      * (* a new name *)
        set (id := Z.of_nat (length (names (s_done s))) + 1).
        match goal with |- EInvC (EState _ _ _ _ _ _ ?d) => set (done' := d) end.
        assert (N : names done' = names (s_done s) ++ [c :: m]).
        { unfold done'. rewrite names_snoc. cbn [name_step]. now rewrite H. }
        assert (NI : ~ In (c :: m) (names (s_done s))) by (intros I; apply has_In in I; congruence).
        assert (Vid : forall i, valid_id done' i = valid_id (s_done s) i || (i =? id)).
        { intros i. unfold valid_id. rewrite N, app_length. cbn [length]. subst id.
          destruct (Z.leb_spec 1 i), (Z.leb_spec i (Z.of_nat (length (names (s_done s)) + 1))), (Z.leb_spec i (Z.of_nat (length (names (s_done s))))),
            (Z.eqb_spec i (Z.of_nat (length (names (s_done s))) + 1)); cbn; try reflexivity; lia. }
        pose proof (names_nineteen (s_done s)) as N19.
        destruct (k_open _ _ _ _ _ _ _ K k _ _ E eq_refl) as [Ik Dk].
        split; cbn [s_calls s_next s_hist s_done s_events s_ids s_subs].
        -- unfold done'. apply (K_commit e_open e_closed _ _ _ _ _ _ (QBegin (Some (c :: m)))); try assumption; try reflexivity.
           ++ now split.
           ++ left. cbn [event_answer]. f_equal. rewrite names_snoc. cbn [name_step]. rewrite H.
              symmetry. now apply index_of_new.
        -- intros k' o'. rewrite !get_aset. destruct (Nat.eqb_spec k' k) as [Ek|]; [|apply V].
           intros [X|X]; discriminate.
        -- rewrite N, numbered_snoc. unfold atry. rewrite numbered_get, H. do 3 f_equal. subst id. lia.
        -- intros i n X. rewrite Vid. apply orb_true_iff. left. now apply (v_ids _ V i n).
        -- intros i X Y. rewrite Vid in X. apply orb_true_iff in X. destruct X as [X|X].
           ++ destruct (v_known _ V i X Y) as (k' & n & Z). exists k', n. rewrite get_aset.
              destruct (Nat.eqb_spec k' k) as [->|]; [congruence|exact Z].
           ++ apply Z.eqb_eq in X. subst i. exists k, (c :: m). now rewrite get_aset, Nat.eqb_refl.
        -- intros k' i n X. rewrite Vid. rewrite get_aset in X. destruct (Nat.eqb_spec k' k) as [->|].
           ++ injection X as <- <-. rewrite Z.eqb_refl, orb_true_r. split; [subst id; lia|]. split; [reflexivity|].
              split; [exact Ik|]. split.
              ** intros I. apply NI. destruct (names_prefix [] (s_done s)) as (t & T). cbn [app] in T. rewrite T, in_app_iff. now left.
              ** intros i B J. destruct (before_in _ _ _ B) as [[x R] _].
                 destruct (x_returned _ _ _ (k_expl _ _ _ _ _ _ _ K) i x R) as (o' & Id).
                 pose proof (x_begun _ _ _ (k_expl _ _ _ _ _ _ _ K) _ _ _ Id) as J'.
                 assert (o' = CQuery (Some (c :: m))) as -> by (now apply (k_fun _ _ _ _ _ _ _ K i)).
                 apply in_split in Id. destruct Id as (L1 & L2 & Eq). apply NI.
                 change (L1 ++ (i, CQuery (Some (c :: m)), x) :: L2) with (L1 ++ [(i, CQuery (Some (c :: m)), x)] ++ L2) in Eq.
                 rewrite app_assoc in Eq. rewrite Eq.
                 destruct (names_prefix (L1 ++ [(i, CQuery (Some (c :: m)), x)]) L2) as (t & ->).
                 rewrite in_app_iff. left. rewrite names_snoc. cbn [name_step].
                 destruct (has (c :: m) (names L1)) eqn:HL; [now apply has_In|]. rewrite in_app_iff. right. now left.
           ++ destruct (v_first _ V k' i n X) as (A & B & C). rewrite B. auto.
        -- intros k' o' X. rewrite get_aset in X. destruct (Nat.eqb_spec k' k) as [Ek|]; [discriminate|].
           rewrite Vid. apply orb_true_iff. left. now apply (v_do _ V k').
        -- intros i. unfold done'. rewrite sub_same by exact Logic.I. apply V.
    + (* QueryEventId, second section *)
      cbn [esection b_events b_ids b_subs b_pc b_done]. destruct (v_first _ V k id n E) as (A & B & C).
      split; cbn [s_calls s_next s_hist s_done s_events s_ids s_subs]; try apply V.
      * apply (K_silent e_open e_closed _ _ _ _ _ _ (QIds id n)); try assumption; try reflexivity. cbn. tauto.
      * intros k' o'. rewrite !get_aset. destruct (Nat.eqb_spec k' k) as [Ek|]; [|apply V].
        intros [X|X]; discriminate.
      * intros i m X. rewrite (aget_atry Z.eqb zeqb_ok) in X. destruct (aget Z.eqb i (s_ids s)) eqn:Y.
        -- now apply (v_ids _ V i e).
        -- destruct (Z.eqb_spec i id) as [->|]; [exact B|discriminate].
      * intros i X Y. rewrite (aget_atry Z.eqb zeqb_ok) in Y. destruct (aget Z.eqb i (s_ids s)) eqn:Z; [discriminate|].
        destruct (Z.eqb_spec i id) as [|Ni]; [discriminate|]. destruct (v_known _ V i X Z) as (k' & m & Q).
        exists k', m. rewrite get_aset. destruct (Nat.eqb_spec k' k) as [->|]; [congruence|exact Q].
      * intros k' i m X. rewrite get_aset in X. destruct (Nat.eqb_spec k' k) as [Ek|]; [discriminate|]. now apply (v_first _ V).
      * intros k' o' X. rewrite get_aset in X. destruct (Nat.eqb_spec k' k) as [Ek|]; [discriminate|]. now apply (v_do _ V k').
    + (* GetEventName *)
      pose proof (v_use _ V k o (or_introl E)) as U. cbn [esection].
      destruct (aget Z.eqb (id_of o) (s_ids s)) as [n|] eqn:I; cbn [b_events b_ids b_subs b_pc b_done].
      * apply (einv_silent s k (UBegin o)); try assumption; try reflexivity; try discriminate.
        -- intros o' [X|X]; [discriminate|]. injection X as <-. exact U.
        -- intros o' X. injection X as <-. now apply (v_ids _ V _ n).
      * apply (einv_commit s k (UBegin o)); try assumption; try reflexivity; try discriminate.
        -- destruct (valid_id (s_done s) (id_of o)) eqn:Val.
           ++ right. split; [reflexivity|]. destruct (v_known _ V _ Val I) as (j & n & Q).
              destruct (v_first _ V _ _ _ Q) as (A & B & C). exists (id_of o), j, n. split.
              ** split; [exact A|]. now destruct o.
              ** split; [|exact C]. exists (s_hist s), []. split; [now rewrite app_nil_r|]. split.
                 --- now apply (K_active _ _ _ _ _ _ _ k _ _ K E).
                 --- destruct (k_closed _ _ _ _ _ _ _ K j _ Q eq_refl) as (o' & x' & Id & -> & ->).
                     now apply (K_closed_active _ _ _ _ _ _ _ j _ _ _ K Q Id).
           ++ left. destruct o; cbn [event_answer id_of] in *; try discriminate; now rewrite Val.
        -- rewrite names_snoc. now destruct o.
        -- intros i. rewrite sub_same by (now destruct o). apply V.
    + (* the subscriptions *)
      pose proof (v_use _ V k o (or_intror E)) as U. pose proof (v_do _ V k o E) as Val.
      destruct o as [n|id ep|id ep|id]; cbn [esection id_of] in *; [discriminate| | |].
      * pose proof (v_subs _ V id) as S. destruct (aget Z.eqb id (s_subs s)) as [l|] eqn:G.
        -- destruct (mem ep l) eqn:M; cbn [b_events b_ids b_subs b_pc b_done].
           ++ apply (einv_commit s k (UDo (CSub id ep))); try assumption; try reflexivity; try discriminate.
              ** left. cbn [event_answer]. now rewrite Val, <- S, M.
              ** rewrite names_snoc. reflexivity.
              ** intros i. rewrite sub_same by exact Logic.I. apply V.
           ++ apply (einv_commit s k (UDo (CSub id ep))); try assumption; try reflexivity; try discriminate.
              ** left. cbn [event_answer]. now rewrite Val, <- S, M.
              ** rewrite names_snoc. reflexivity.
              ** intros i. rewrite subscribers_snoc. cbn [sub_fold]. destruct (Z.eqb_spec id i) as [->|Ni].
                 --- rewrite (aget_aset_same Z.eqb zeqb_ok). now rewrite <- S.
                 --- rewrite (aget_aset_other Z.eqb zeqb_ok) by congruence. apply V.
        -- cbn [b_events b_ids b_subs b_pc b_done].
           apply (einv_commit s k (UDo (CSub id ep))); try assumption; try reflexivity; try discriminate.
           ++ left. cbn [event_answer]. now rewrite Val, <- S.
           ++ rewrite names_snoc. reflexivity.
           ++ intros i. rewrite subscribers_snoc, (aget_atry Z.eqb zeqb_ok). cbn [sub_fold]. rewrite <- (v_subs _ V i).
              destruct (Z.eqb_spec id i) as [->|Ni].
              ** now rewrite G, Z.eqb_refl.
              ** destruct (aget Z.eqb i (s_subs s)); [reflexivity|]. destruct (Z.eqb_spec i id); [congruence|reflexivity].
      * pose proof (v_subs _ V id) as S. destruct (aget Z.eqb id (s_subs s)) as [l|] eqn:G.
        -- destruct (mem ep l) eqn:M; cbn [b_events b_ids b_subs b_pc b_done].
           ++ apply (einv_commit s k (UDo (CUnsub id ep))); try assumption; try reflexivity; try discriminate.
              ** left. cbn [event_answer]. now rewrite Val, <- S, M.
              ** rewrite names_snoc. reflexivity.
              ** intros i. rewrite subscribers_snoc. cbn [sub_fold]. destruct (Z.eqb_spec id i) as [->|Ni].
                 --- rewrite (aget_aset_same Z.eqb zeqb_ok). now rewrite <- S.
                 --- rewrite (aget_aset_other Z.eqb zeqb_ok) by congruence. apply V.
           ++ apply (einv_commit s k (UDo (CUnsub id ep))); try assumption; try reflexivity; try discriminate.
              ** left. cbn [event_answer]. now rewrite Val, <- S, M.
              ** rewrite names_snoc. reflexivity.
              ** intros i. rewrite sub_same by exact Logic.I. apply V.
        -- cbn [b_events b_ids b_subs b_pc b_done].
           apply (einv_commit s k (UDo (CUnsub id ep))); try assumption; try reflexivity; try discriminate.
           ++ left. cbn [event_answer]. now rewrite Val, <- S.
           ++ rewrite names_snoc. reflexivity.
           ++ intros i. rewrite sub_same by exact Logic.I. apply V.
      * cbn [b_events b_ids b_subs b_pc b_done].
        apply (einv_commit s k (UDo (CEmit id))); try assumption; try reflexivity; try discriminate.
        -- left. cbn [event_answer]. now rewrite Val, (v_subs _ V id).
        -- rewrite names_snoc. reflexivity.
        -- intros i. rewrite sub_same by exact Logic.I. apply V.
    + (* executing *)
      cbn [esection]. destruct todo as [|ep todo]; cbn [b_events b_ids b_subs b_pc b_done].
      * apply (einv_silent s k (URun ran [])); try assumption; try reflexivity; try discriminate.
        -- intros _ o x X. cbn in *. now rewrite app_nil_r in X.
        -- intros o [X|X]; discriminate.
      * apply (einv_silent s k (URun ran (ep :: todo))); try assumption; try reflexivity; try discriminate.
        -- intros _ o x X. cbn in *. now rewrite <- app_assoc.
        -- intros o [X|X]; discriminate.
    + (* return *)
      assert (N : NoDup (akeys (s_calls s))) by apply K.
      split; cbn [s_calls s_next s_hist s_done s_events s_ids s_subs]; try apply V.
      * apply (K_return e_open e_closed _ result_mono _ _ _ _ _ (EEnd x)); try assumption; try reflexivity. now cbn.
      * intros k' o'. rewrite get_adel by exact N. destruct (Nat.eqb_spec k' k) as [Ek|]; [|apply V].
        intros [X|X]; discriminate.
      * intros id X Y. destruct (v_known _ V id X Y) as (k' & n & Z). exists k', n.
        rewrite get_adel by exact N. destruct (Nat.eqb_spec k' k) as [->|]; [congruence|exact Z].
      * intros k' id n X. rewrite get_adel in X by exact N. destruct (Nat.eqb_spec k' k) as [Ek|]; [discriminate|].
        destruct (v_first _ V k' id n X) as (A & B & C). split; [exact A|]. split; [exact B|].
        now apply first_query_mono.
      * intros k' o' X. rewrite get_adel in X by exact N. destruct (Nat.eqb_spec k' k) as [Ek|]; [discriminate|].
        now apply (v_do _ V k').
Qed.

Lemma predefined_ids : map snd predefined = map Z.of_nat (seq 1 19).
Proof. reflexivity. Qed.

Lemma init_known id : valid_id [] id = true <-> exists n, aget Z.eqb id (e_ids em_init) = Some n.
Proof.
  unfold valid_id. change (length (names [])) with 19%nat. rewrite andb_true_iff, !Z.leb_le.
  assert (A : akeys (e_ids em_init) = map Z.of_nat (seq 1 19)).
  { rewrite em_init_ids. unfold akeys. rewrite map_map. exact predefined_ids. }
  assert (B : In id (map Z.of_nat (seq 1 19)) <-> 1 <= id <= Z.of_nat 19).
  { rewrite in_map_iff. split.
    - intros (n & <- & I). apply in_seq in I. lia.
    - intros H. exists (Z.to_nat id). split; [lia|]. apply in_seq. lia. }
  rewrite <- B, <- A. clear A B. generalize (e_ids em_init) as m. intros m. destruct (aget Z.eqb id m) as [n|] eqn:G.
  - split; [eauto|]. intros _. apply (aget_In Z.eqb zeqb_ok) in G. apply in_map_iff. now exists (id, n).
  - apply (aget_None Z.eqb zeqb_ok) in G. split; [contradiction|intros (n & X); discriminate].
Qed.

Lemma einv_init : EInvC s_init.
Proof.
  split.
  - apply K_nil.
  - intros k o [X|X]; discriminate X.
  - unfold s_init. cbn [s_events s_done]. rewrite em_init_events. reflexivity.
  - unfold s_init. cbn [s_ids s_done]. intros id n X. apply init_known. now exists n.
  - unfold s_init. cbn [s_ids s_done s_calls]. intros id X Y. apply init_known in X. destruct X as (n & X). congruence.
  - intros k id n X. discriminate X.
  - intros k o X. discriminate X.
  - intros id. reflexivity.
Qed.

Lemma erun_conc_inv sch : EInvC (erun_conc s_init sch).
Proof.
  induction sch as [|e sch IH] using rev_ind; [exact einv_init|].
  unfold erun_conc. rewrite fold_left_app. cbn [fold_left]. now apply estep_conc_inv.
Qed.

(** * Identifiers *)

Lemma in_names L k n x : n <> [] -> In (k, CQuery (Some n), x) L -> In n (names L).
Proof.
  intros N I. apply in_split in I. destruct I as (L1 & L2 & ->).
  change (L1 ++ (k, CQuery (Some n), x) :: L2) with (L1 ++ [(k, CQuery (Some n), x)] ++ L2). rewrite app_assoc.
  destruct (names_prefix (L1 ++ [(k, CQuery (Some n), x)]) L2) as (t & ->). rewrite in_app_iff. left.
  rewrite names_snoc. destruct n as [|c n]; [congruence|]. cbn [name_step].
  destruct (has (c :: n) (names L1)) eqn:H; [now apply has_In|]. rewrite in_app_iff. right. now left.
Qed.

Lemma query_index tr L k n id : explains event_result_or_hurried tr L ->
  In (Inv k (CQuery (Some n))) tr -> In (Ret k (CId id)) tr ->
  (forall o, In (Inv k o) tr -> o = CQuery (Some n)) ->
  In n (names L) /\ id = index_of n (names L).
Proof.
  intros X I R F. destruct (x_returned _ _ _ X k _ R) as (o & D).
  pose proof (F _ (x_begun _ _ _ X _ _ _ D)) as ->.
  apply in_split in D. destruct D as (L1 & L2 & E).
  pose proof (x_result _ _ _ X _ _ _ _ _ E) as [H|[H _]]; [|discriminate].
  destruct n as [|c n]; [discriminate|]. cbn [event_answer] in H. injection H as ->.
  assert (M : In (c :: n) (names (L1 ++ [(O, CQuery (Some (c :: n)), CDone)]))).
  { apply (in_names _ O (c :: n) CDone); [discriminate|]. rewrite in_app_iff. right. now left. }
  assert (P : names (L1 ++ [(O, CQuery (Some (c :: n)), CDone)]) = names (L1 ++ [(k, CQuery (Some (c :: n)), CId (index_of (c :: n) (names (L1 ++ [(O, CQuery (Some (c :: n)), CDone)]))))]))
    by (rewrite !names_snoc; reflexivity).
  set (id := index_of (c :: n) (names (L1 ++ [(O, CQuery (Some (c :: n)), CDone)]))) in *.
  assert (Q : exists t, names L = names (L1 ++ [(O, CQuery (Some (c :: n)), CDone)]) ++ t).
  { assert (E' : L = (L1 ++ [(k, CQuery (Some (c :: n)), CId id)]) ++ L2) by (rewrite <- app_assoc; exact E).
    rewrite E', P. apply names_prefix. }
  destruct Q as (t & Q). rewrite Q. split; [rewrite in_app_iff; now left|]. unfold id. symmetry. now apply index_of_app.
Qed.

(** * Every call can return *)

Definition finishes (k : nat) (s : estate) : Prop :=
  exists m, s_calls (erun_conc s (repeat (Run k) m)) = adel Nat.eqb k (s_calls s).

Lemma adel_aset (k : nat) (pc pc' : epc) calls : aget Nat.eqb k calls = Some pc ->
  adel Nat.eqb k (aset Nat.eqb k pc' calls) = adel Nat.eqb k calls.
Proof.
  induction calls as [|[k' p] calls IH]; [discriminate|]. cbn. destruct (k =? k')%nat eqn:E; cbn; rewrite E; [reflexivity|].
  intros X. now rewrite IH.
Qed.

Lemma fin_step k s pc pc' : aget Nat.eqb k (s_calls s) = Some pc ->
  s_calls (estep_conc (Run k) s) = aset Nat.eqb k pc' (s_calls s) ->
  finishes k (estep_conc (Run k) s) -> finishes k s.
Proof.
  intros E C (m & F). exists (S m). cbn [repeat]. unfold erun_conc in *. cbn [fold_left]. rewrite F, C.
  now apply (adel_aset k pc).
Qed.

Lemma fin_end k s x : aget Nat.eqb k (s_calls s) = Some (EEnd x) -> finishes k s.
Proof. intros E. exists 1%nat. cbn. now rewrite E. Qed.

Lemma fin_run k todo : forall s ran, aget Nat.eqb k (s_calls s) = Some (URun ran todo) -> finishes k s.
Proof.
  induction todo as [|ep todo IH]; intros s ran E.
  - apply (fin_step k s _ (EEnd (CRan ran)) E); [cbn; now rewrite E|].
    apply (fin_end k _ (CRan ran)). cbn. rewrite E. cbn. now rewrite get_aset, Nat.eqb_refl.
  - apply (fin_step k s _ (URun (ran ++ [ep]) todo) E); [cbn; now rewrite E|].
    apply (IH _ (ran ++ [ep])). cbn. rewrite E. cbn. now rewrite get_aset, Nat.eqb_refl.
Qed.

(** One section, then the end or the loop. *)
Lemma fin_one k s pc a : aget Nat.eqb k (s_calls s) = Some pc ->
  esection pc (s_events s) (s_ids s) (s_subs s) = Some a ->
  (forall s', aget Nat.eqb k (s_calls s') = Some (b_pc a) -> finishes k s') -> finishes k s.
Proof.
  intros E S F.
  assert (H : s_calls (estep_conc (Run k) s) = aset Nat.eqb k (b_pc a) (s_calls s)).
  { cbn [estep_conc]. rewrite E. destruct pc; try rewrite S; try reflexivity. discriminate. }
  apply (fin_step k s pc (b_pc a) E H). apply F. rewrite H. now rewrite get_aset, Nat.eqb_refl.
Qed.

Lemma fin_any k s pc : EInvC s -> aget Nat.eqb k (s_calls s) = Some pc -> finishes k s.
Proof.
  intros V E.
  assert (EE : forall x s', aget Nat.eqb k (s_calls s') = Some (EEnd x) -> finishes k s') by (intros x s'; apply fin_end).
  assert (QI : forall i n s', aget Nat.eqb k (s_calls s') = Some (QIds i n) -> finishes k s').
  { intros i n s' E'. eapply fin_one; [exact E'|reflexivity|]. intros s2 X. now apply EE in X. }
  assert (UR : forall r t s', aget Nat.eqb k (s_calls s') = Some (URun r t) -> finishes k s') by (intros r t s'; apply fin_run).
  assert (UD : forall o s', is_use o = true -> aget Nat.eqb k (s_calls s') = Some (UDo o) -> finishes k s').
  { intros o s' U E'. destruct (esection (UDo o) (s_events s') (s_ids s') (s_subs s')) as [a|] eqn:S.
    - eapply fin_one; [exact E'|exact S|]. intros s2 X. destruct o as [n|i ep|i ep|i]; [discriminate| | |]; cbn [esection] in S;
        try (destruct (aget Z.eqb i (s_subs s')); [destruct (mem ep _)|]; injection S as <-; now apply EE in X).
      injection S as <-. now apply UR in X.
    - exfalso. destruct o as [n|i ep|i ep|i]; [discriminate| | |]; cbn [esection] in S;
        try (destruct (aget Z.eqb i (s_subs s')); [destruct (mem ep _)|]; discriminate). discriminate. }
  destruct pc as [n|i n|o|o|r t|x]; try (eauto; fail).
  - destruct (esection (QBegin n) (s_events s) (s_ids s) (s_subs s)) as [a|] eqn:S.
    + eapply fin_one; [exact E|exact S|]. intros s2 X. cbn [esection] in S. destruct n as [[|c m]|];
        [| destruct (aget ename_eqb _ _)|]; injection S as <-; first [now apply EE in X|now apply QI in X].
    + exfalso. cbn [esection] in S. destruct n as [[|c m]|]; [|destruct (aget ename_eqb _ _)|]; discriminate.
  - pose proof (v_use _ V k o (or_introl E)) as U.
    destruct (esection (UBegin o) (s_events s) (s_ids s) (s_subs s)) as [a|] eqn:S.
    + eapply fin_one; [exact E|exact S|]. intros s2 X. cbn [esection] in S.
      destruct (aget Z.eqb _ _); injection S as <-; [now apply (UD o)|now apply EE in X].
    + exfalso. cbn [esection] in S. destruct (aget Z.eqb _ _); discriminate.
  - pose proof (v_use _ V k o (or_intror E)) as U. eauto.
Qed.

Lemma erun_app s a b : erun_conc s (a ++ b) = erun_conc (erun_conc s a) b.
Proof. unfold erun_conc. apply fold_left_app. Qed.

Lemma efinish n : forall sch, (length (s_calls (erun_conc s_init sch)) <= n)%nat ->
  exists ks, s_calls (erun_conc s_init (sch ++ map Run ks)) = [].
Proof.
  induction n as [|n IH]; intros sch L.
  - exists []. rewrite app_nil_r. now destruct (s_calls (erun_conc s_init sch)).
  - destruct (s_calls (erun_conc s_init sch)) as [|[k pc] l] eqn:C; [exists []; now rewrite app_nil_r|].
    destruct (fin_any k (erun_conc s_init sch) pc) as (m & F); [apply erun_conc_inv|rewrite C; cbn; now rewrite Nat.eqb_refl|].
    rewrite <- erun_app in F. rewrite C in F. cbn in F. rewrite Nat.eqb_refl in F.
    destruct (IH (sch ++ repeat (Run k) m)) as (ks & G).
    + rewrite F. cbn in L. lia.
    + exists (repeat k m ++ ks).
      assert (R : map Run (repeat k m) = repeat (@Run cop k) m) by (clear; induction m; cbn; congruence).
      rewrite map_app, R, app_assoc. exact G.
Qed.

Lemma equiet s : EInvC s -> s_calls s = [] -> quiet (s_hist s).
Proof.
  intros V C k o A. destruct (proj2 (k_live _ _ _ _ _ _ _ (v_calls _ V) k) (ex_intro _ o A)) as (pc & E).
  rewrite C in E. discriminate.
Qed.

(** * Deciding the hypotheses on concrete histories *)

Section Decide.
Context {Op Out : Type}.
Fixpoint actives (p : list (hev Op Out)) : list (nat * Op) :=
  match p with
  | [] => []
  | Inv k o :: p => if existsb (fun e => match e with Ret k' _ => (k' =? k)%nat | _ => false end) p
                    then actives p else (k, o) :: actives p
  | Ret _ _ :: p => actives p
  end.

Definition prefixes (tr : list (hev Op Out)) : list (list (hev Op Out)) :=
  map (fun n => firstn n tr) (seq 0 (S (length tr))).

Lemma prefixes_In p q : In p (prefixes (p ++ q)).
Proof.
  unfold prefixes. apply in_map_iff. exists (length p). split.
  - rewrite firstn_app, firstn_all, Nat.sub_diag. cbn. apply app_nil_r.
  - apply in_seq. rewrite app_length. lia.
Qed.

Lemma overlap_decide (bad : nat -> Op -> nat -> Op -> bool) tr :
  forallb (fun p => forallb (fun a => forallb (fun b => negb (bad (fst a) (snd a) (fst b) (snd b))) (actives p)) (actives p))
    (prefixes tr) = true ->
  forall i o j o', overlap tr i o j o' -> bad i o j o' = false.
Proof.
  intros H i o j o' (p & q & -> & A & B). rewrite forallb_forall in H. specialize (H p (prefixes_In p q)).
  assert (C : forall k o, active p k o -> In (k, o) (actives p)).
  { clear. intros k o [I R]. induction p as [|e p IH]; [destruct I|]. destruct I as [->|I].
    - cbn [actives]. destruct (existsb _ p) eqn:E; [|now left]. exfalso.
      apply existsb_exists in E. destruct E as ([k' o'|k' x] & J & X); [discriminate|].
      apply Nat.eqb_eq in X. subst k'. apply (R x). now right.
    - assert (H : In (k, o) (actives p)) by (apply IH; [exact I|intros x J; apply (R x); now right]).
      destruct e as [k' o'|k' x]; cbn [actives]; [|exact H]. destruct (existsb _ p); [exact H|now right]. }
  rewrite forallb_forall in H. specialize (H _ (C _ _ A)). rewrite forallb_forall in H. specialize (H _ (C _ _ B)).
  cbn in H. now apply negb_true_iff in H.
Qed.
End Decide.

Definition disturbsb (o o' : lop) : bool :=
  match o, o' with
  | LRemove s t, LAdd s' t' => (s =? s') && (t =? t')
  | LRemove _ t, LGetSources t' => t =? t'
  | _, _ => false
  end.

Lemma undisturbed_decide tr :
  forallb (fun p => forallb (fun a => forallb (fun b => negb (disturbsb (snd a) (snd b))) (actives p)) (actives p)) (prefixes tr) = true ->
  undisturbed tr.
Proof.
  intros H i o j o' O D. pose proof (overlap_decide (fun _ a _ b => disturbsb a b) tr H _ _ _ _ O) as X.
  destruct o as [|s t| |], o' as [s' t'| | |t']; cbn in D, X; try contradiction.
  - destruct D as [-> ->]. now rewrite !Z.eqb_refl in X.
  - subst t'. now rewrite Z.eqb_refl in X.
Qed.

(** Some query of the name returned before the call j began. *)
Fixpoint asked (tr rest : chist) (j : nat) (n : ename) (back : list nat) : bool :=
  match rest with
  | [] => false
  | Ret i _ :: rest => asked tr rest j n (i :: back)
  | Inv k _ :: rest =>
      if (k =? j)%nat
      then existsb (fun i => existsb (fun e => match e with Inv i' (CQuery (Some m)) => (i' =? i)%nat && ename_eqb m n | _ => false end) tr) back
      else asked tr rest j n back
  end.

Lemma asked_before j n (tr : chist) : forall rest pre back, tr = pre ++ rest ->
  (forall i, In i back -> exists a x b, pre = a ++ Ret i x :: b) ->
  asked tr rest j n back = true -> exists i, before tr i j /\ In (Inv i (CQuery (Some n))) tr.
Proof.
  induction rest as [|e rest IH]; intros pre back T B A; [discriminate|].
  assert (T' : tr = (pre ++ [e]) ++ rest) by (rewrite <- app_assoc; exact T).
  destruct e as [k o|k x]; cbn [asked] in A.
  - destruct (Nat.eqb_spec k j) as [->|N].
    + apply existsb_exists in A. destruct A as (i & I & A). apply existsb_exists in A. destruct A as (e & J & A).
      destruct e as [i' [[m|]| | |]|]; try discriminate. apply andb_true_iff in A. destruct A as [A1 A2].
      apply Nat.eqb_eq in A1. apply EventProofs.ename_eqb_ok in A2. subst i' m. exists i. split; [|exact J].
      destruct (B i I) as (a & x & b & ->). exists a, x, b, o, rest. rewrite T, <- app_assoc. reflexivity.
    + apply (IH (pre ++ [Inv k o]) back T'); [|exact A]. intros i I. destruct (B i I) as (a & x & b & ->).
      exists a, x, (b ++ [Inv k o]). rewrite <- app_assoc. reflexivity.
  - apply (IH (pre ++ [Ret k x]) (k :: back) T'); [|exact A]. intros i [<-|I].
    + exists pre, x, []. reflexivity.
    + destruct (B i I) as (a & y & b & ->). exists a, y, (b ++ [Ret k x]). rewrite <- app_assoc. reflexivity.
Qed.

Definition hurriedb (tr : chist) (o : cop) (j : nat) (o' : cop) : bool :=
  match o' with
  | CQuery (Some n) => is_use o && (19 <? id_of o) && negb (asked tr tr j n [])
  | _ => false
  end.

Lemma hurried_decide tr :
  forallb (fun p => forallb (fun a => forallb (fun b => negb (hurriedb tr (snd a) (fst b) (snd b))) (actives p)) (actives p)) (prefixes tr) = true ->
  forall k o, ~ hurried tr k o.
Proof.
  intros H k o (id & j & n & [U1 U2] & O & _ & _ & F).
  pose proof (overlap_decide (fun _ a j b => hurriedb tr a j b) tr H _ _ _ _ O) as X. cbn [hurriedb] in X.
  assert (A : is_use o && (19 <? id_of o) = true).
  { destruct o; cbn in *; try contradiction; subst; now apply Z.ltb_lt. }
  rewrite A in X. cbn [andb] in X. apply negb_false_iff in X.
  destruct (asked_before j n tr tr [] [] eq_refl) as (i & B & I); [intros i []|exact X|]. now apply (F i B).
Qed.
