(** Proofs about histories of overlapping calls, and the link registry. *)
From Verif Require Import Base Assoc UuidModel EventModel EventProofs LinkModel LinkSpec LinkProofs.
From Verif Require Import ConcSpec ConcModel.

(** * Orders of calls *)

Lemma snoc_cases {A} (l : list A) c l1 d l2 : l ++ [c] = l1 ++ d :: l2 ->
  (l2 = [] /\ l = l1 /\ c = d) \/ exists l2', l2 = l2' ++ [c] /\ l = l1 ++ d :: l2'.
Proof.
  destruct l2 as [|y l2] using rev_ind; intros H.
  - left. apply app_inj_tail in H. tauto.
  - right. clear IHl2. exists l2. rewrite app_comm_cons, app_assoc in H. apply app_inj_tail in H.
    destruct H as [-> ->]. auto.
Qed.

(** The event can come next: a call that begins is a new one. *)
Definition next_event {Op Out} (tr : list (hev Op Out)) (e : hev Op Out) : Prop :=
  match e with
  | Inv k _ => (forall o, ~ In (Inv k o) tr) /\ (forall x, ~ In (Ret k x) tr)
  | Ret _ _ => True
  end.

Section Orders.
Context {Op Out : Type}.
Implicit Types tr : list (hev Op Out).

Lemma before_inv tr k o i j : before (tr ++ [Inv k o]) i j -> before tr i j \/ j = k.
Proof.
  intros (a & x & b & o' & c & E). rewrite app_comm_cons, app_assoc in E.
  apply snoc_cases in E. destruct E as [(-> & E & H)|(c' & -> & E)]; [right; congruence|].
  left. exists a, x, b, o', c'. rewrite E. now rewrite <- app_assoc.
Qed.

Lemma before_ret tr k x i j : before (tr ++ [Ret k x]) i j -> before tr i j.
Proof.
  intros (a & x' & b & o' & c & E). rewrite app_comm_cons, app_assoc in E.
  apply snoc_cases in E. destruct E as [(-> & E & H)|(c' & -> & E)]; [discriminate|].
  exists a, x', b, o', c'. rewrite E. now rewrite <- app_assoc.
Qed.

Lemma before_in tr i j : before tr i j -> (exists x, In (Ret i x) tr) /\ (exists o, In (Inv j o) tr).
Proof.
  intros (a & x & b & o & c & ->). split; [exists x|exists o]; rewrite in_app_iff; right; [now left|].
  right. rewrite in_app_iff. right. now left.
Qed.

Lemma before_mono tr e i j : before tr i j -> before (tr ++ [e]) i j.
Proof.
  intros (a & x & b & o & c & ->). exists a, x, b, o, (c ++ [e]).
  rewrite <- app_assoc. cbn. now rewrite <- app_assoc.
Qed.

Lemma overlap_mono tr e i o j o' : overlap tr i o j o' -> overlap (tr ++ [e]) i o j o'.
Proof. intros (p & q & -> & A). exists p, (q ++ [e]). rewrite app_assoc. auto. Qed.

Variable ok : list (hev Op Out) -> list (nat * Op * Out) -> nat -> Op -> Out -> Prop.
Hypothesis ok_mono : forall tr e L k o x, next_event tr e -> In (Inv k o) tr -> ok tr L k o x -> ok (tr ++ [e]) L k o x.

Lemma explains_nil : explains ok [] [].
Proof.
  split.
  - constructor.
  - intros k o x [].
  - intros k x [].
  - intros i j L1 o x L2 _ E. destruct L1; discriminate.
  - intros L1 k o x L2 E. destruct L1; discriminate.
Qed.

Lemma explains_begin tr L k o : explains ok tr L -> (forall o', ~ In (Inv k o') tr) ->
  (forall x, ~ In (Ret k x) tr) -> explains ok (tr ++ [Inv k o]) L.
Proof.
  intros X F FR. split.
  - apply X.
  - intros k' o' x I. rewrite in_app_iff. left. now apply (x_begun _ _ _ X k' o' x).
  - intros k' x I. rewrite in_app_iff in I. destruct I as [I|[I|[]]]; [|discriminate].
    now apply (x_returned _ _ _ X).
  - intros i j L1 o' x L2 B E. destruct (before_inv _ _ _ _ _ B) as [B'| ->].
    + now apply (x_order _ _ _ X i j L1 o' x L2).
    + exfalso. apply (F o'). apply (x_begun _ _ _ X k o' x). rewrite E, in_app_iff. right. now left.
  - intros L1 k' o' x L2 E. apply ok_mono; [now split| |now apply (x_result _ _ _ X L1 k' o' x L2)].
    apply (x_begun _ _ _ X k' o' x). rewrite E, in_app_iff. right. now left.
Qed.

Lemma explains_return tr L k o x : explains ok tr L -> In (k, o, x) L -> explains ok (tr ++ [Ret k x]) L.
Proof.
  intros X I. split.
  - apply X.
  - intros k' o' x' I'. rewrite in_app_iff. left. now apply (x_begun _ _ _ X k' o' x').
  - intros k' x' I'. rewrite in_app_iff in I'. destruct I' as [I'|[I'|[]]]; [now apply (x_returned _ _ _ X)|].
    injection I' as <- <-. now exists o.
  - intros i j L1 o' x' L2 B E. apply before_ret in B. now apply (x_order _ _ _ X i j L1 o' x' L2).
  - intros L1 k' o' x' L2 E. apply ok_mono; [exact Logic.I| |now apply (x_result _ _ _ X L1 k' o' x' L2)].
    apply (x_begun _ _ _ X k' o' x'). rewrite E, in_app_iff. right. now left.
Qed.

Lemma explains_commit tr L k o x : explains ok tr L -> In (Inv k o) tr ->
  (forall o' x', ~ In (k, o', x') L) -> ok tr L k o x -> explains ok tr (L ++ [(k, o, x)]).
Proof.
  intros X I F O. split.
  - rewrite map_app. apply NoDup_snoc; [apply X|]. rewrite in_map_iff. intros ([[k' o'] x'] & E & I').
    cbn in E. subst k'. now apply F in I'.
  - intros k' o' x' I'. rewrite in_app_iff in I'. destruct I' as [I'|[I'|[]]]; [now apply (x_begun _ _ _ X k' o' x')|].
    injection I' as <- <- <-. exact I.
  - intros k' x' I'. destruct (x_returned _ _ _ X k' x' I') as (o' & I''). exists o'. rewrite in_app_iff. now left.
  - intros i j L1 o' x' L2 B E. apply snoc_cases in E. destruct E as [(-> & <- & _)|(c' & -> & E)].
    + destruct (before_in _ _ _ B) as [[y R] _]. destruct (x_returned _ _ _ X i y R) as (o2 & I2). eauto.
    + now apply (x_order _ _ _ X i j L1 o' x' c').
  - intros L1 k' o' x' L2 E. apply snoc_cases in E. destruct E as [(-> & <- & E)|(c' & -> & E)].
    + injection E as <- <- <-. exact O.
    + now apply (x_result _ _ _ X L1 k' o' x' c').
Qed.

End Orders.

Lemma explains_weaken {Op Out} (ok ok' : list (hev Op Out) -> list (nat * Op * Out) -> nat -> Op -> Out -> Prop) tr L :
  (forall L1 k o x, In (Inv k o) tr -> ok tr L1 k o x -> ok' tr L1 k o x) -> explains ok tr L -> explains ok' tr L.
Proof.
  intros H X. split; try apply X. intros L1 k o x L2 E. apply H; [|now apply (x_result _ _ _ X L1 k o x L2)].
  apply (x_begun _ _ _ X k o x). rewrite E, in_app_iff. right. now left.
Qed.

(** * Calls in progress *)

Section Calls.
Context {Op Out Pc : Type}.
Variable open : Pc -> option Op.
Variable closed : Pc -> Op -> Out -> Prop.
Variable ok : list (hev Op Out) -> list (nat * Op * Out) -> nat -> Op -> Out -> Prop.
Hypothesis ok_mono : forall tr e L k o x, next_event tr e -> In (Inv k o) tr -> ok tr L k o x -> ok (tr ++ [e]) L k o x.

Record KInv (calls : list (nat * Pc)) (next : nat) (hist : list (hev Op Out)) (done : list (nat * Op * Out)) : Prop := {
  k_nodup : NoDup (akeys calls);
  k_lt : forall k o, In (Inv k o) hist -> (k < next)%nat;
  k_rlt : forall k x, In (Ret k x) hist -> (k < next)%nat;
  k_fun : forall k o o', In (Inv k o) hist -> In (Inv k o') hist -> o = o';
  k_live : forall k, (exists pc, aget Nat.eqb k calls = Some pc) <-> (exists o, active hist k o);
  k_open : forall k pc o, aget Nat.eqb k calls = Some pc -> open pc = Some o ->
    In (Inv k o) hist /\ forall o' x, ~ In (k, o', x) done;
  k_closed : forall k pc, aget Nat.eqb k calls = Some pc -> open pc = None ->
    exists o x, In (k, o, x) done /\ closed pc o x;
  k_expl : explains ok hist done;
}.

Lemma K_nil : KInv [] 0 [] [].
Proof.
  split; try (intros; cbn in *; (contradiction || discriminate)).
  - constructor.
  - intros k. split; [intros (pc & E); discriminate|intros (o & [] & _)].
  - apply explains_nil.
Qed.

Lemma K_active calls next hist done k pc o : KInv calls next hist done ->
  aget Nat.eqb k calls = Some pc -> open pc = Some o -> active hist k o.
Proof.
  intros K E O. destruct (k_open _ _ _ _ K k pc o E O) as [I _]. split; [exact I|].
  destruct (proj1 (k_live _ _ _ _ K k) (ex_intro _ pc E)) as (o' & _ & R). exact R.
Qed.

Lemma K_closed_active calls next hist done k pc o x : KInv calls next hist done ->
  aget Nat.eqb k calls = Some pc -> In (k, o, x) done -> active hist k o.
Proof.
  intros K E I. split; [now apply (x_begun _ _ _ (k_expl _ _ _ _ K) k o x)|].
  destruct (proj1 (k_live _ _ _ _ K k) (ex_intro _ pc E)) as (o' & _ & R). exact R.
Qed.

Lemma K_begin calls next hist done pc o : KInv calls next hist done -> open pc = Some o ->
  KInv (calls ++ [(next, pc)]) (S next) (hist ++ [Inv next o]) done.
Proof.
  intros K O.
  assert (fresh : forall o', ~ In (Inv next o') hist) by (intros o' I; apply (k_lt _ _ _ _ K) in I; lia).
  assert (rfresh : forall x, ~ In (Ret next x) hist) by (intros x I; apply (k_rlt _ _ _ _ K) in I; lia).
  assert (none : aget Nat.eqb next calls = None).
  { destruct (aget Nat.eqb next calls) as [pc'|] eqn:E; [|reflexivity].
    destruct (proj1 (k_live _ _ _ _ K next) (ex_intro _ pc' E)) as (o' & I & _). now apply fresh in I. }
  assert (get : forall k, aget Nat.eqb k (calls ++ [(next, pc)]) = if (k =? next)%nat then Some pc else aget Nat.eqb k calls).
  { intros k. rewrite (aget_app Nat.eqb). cbn. destruct (Nat.eqb_spec k next) as [->|].
    - now rewrite none.
    - now destruct (aget Nat.eqb k calls). }
  split.
  - unfold akeys. rewrite map_app. apply NoDup_snoc; [apply K|]. now apply (aget_None Nat.eqb neqb_ok) in none.
  - intros k o' I. rewrite in_app_iff in I. destruct I as [I|[I|[]]]; [apply (k_lt _ _ _ _ K) in I; lia|].
    injection I as <- <-. lia.
  - intros k x I. rewrite in_app_iff in I. destruct I as [I|[I|[]]]; [apply (k_rlt _ _ _ _ K) in I; lia|discriminate].
  - intros k o1 o2 I1 I2. rewrite in_app_iff in I1, I2.
    destruct I1 as [I1|[I1|[]]], I2 as [I2|[I2|[]]].
    + now apply (k_fun _ _ _ _ K k).
    + injection I2 as <- <-. now apply fresh in I1.
    + injection I1 as <- <-. now apply fresh in I2.
    + congruence.
  - intros k. rewrite get. destruct (Nat.eqb_spec k next) as [->|N].
    + split; [intros _|eauto]. exists o. split; [rewrite in_app_iff; right; now left|].
      intros x I. rewrite in_app_iff in I. destruct I as [I|[I|[]]]; [now apply rfresh in I|discriminate].
    + rewrite (k_live _ _ _ _ K k). split; intros (o' & I & R); exists o'; (split; [|intros x I'; apply (R x)]).
      * rewrite in_app_iff. now left.
      * rewrite in_app_iff in I'. now destruct I' as [I'|[I'|[]]].
      * rewrite in_app_iff in I. destruct I as [I|[I|[]]]; [exact I|congruence].
      * rewrite in_app_iff. now left.
  - intros k pc' o' E O'. rewrite get in E. destruct (Nat.eqb_spec k next) as [->|N].
    + injection E as <-. assert (o' = o) as -> by congruence. split; [rewrite in_app_iff; right; now left|].
      intros o2 x I. apply (x_begun _ _ _ (k_expl _ _ _ _ K)) in I. now apply fresh in I.
    + destruct (k_open _ _ _ _ K k pc' o' E O') as [I D]. split; [rewrite in_app_iff; now left|exact D].
  - intros k pc' E O'. rewrite get in E. destruct (Nat.eqb_spec k next) as [->|N]; [congruence|].
    now apply (k_closed _ _ _ _ K k pc').
  - apply explains_begin; [exact ok_mono|apply K|exact fresh|exact rfresh].
Qed.

Lemma get_aset (k k' : nat) (pc : Pc) calls :
  aget Nat.eqb k' (aset Nat.eqb k pc calls) = if (k' =? k)%nat then Some pc else aget Nat.eqb k' calls.
Proof.
  destruct (Nat.eqb_spec k' k) as [->|N]; [now apply (aget_aset_same Nat.eqb neqb_ok)|].
  now apply (aget_aset_other Nat.eqb neqb_ok).
Qed.

Lemma get_adel (k k' : nat) (calls : list (nat * Pc)) : NoDup (akeys calls) ->
  aget Nat.eqb k' (adel Nat.eqb k calls) = if (k' =? k)%nat then None else aget Nat.eqb k' calls.
Proof.
  intros N. destruct (Nat.eqb_spec k' k) as [->|H]; [now apply (aget_adel_same Nat.eqb neqb_ok)|].
  now apply (aget_adel_other Nat.eqb neqb_ok).
Qed.

Lemma K_live_aset calls next hist done k pc pc' : KInv calls next hist done -> aget Nat.eqb k calls = Some pc ->
  forall k', (exists p, aget Nat.eqb k' (aset Nat.eqb k pc' calls) = Some p) <-> (exists o, active hist k' o).
Proof.
  intros K E k'. rewrite get_aset, <- (k_live _ _ _ _ K k'). destruct (Nat.eqb_spec k' k) as [->|]; [|tauto].
  split; eauto.
Qed.

Lemma K_silent calls next hist done k pc pc' : KInv calls next hist done -> aget Nat.eqb k calls = Some pc ->
  open pc' = open pc -> (open pc = None -> forall o x, closed pc o x -> closed pc' o x) ->
  KInv (aset Nat.eqb k pc' calls) next hist done.
Proof.
  intros K E O C. split; try apply K.
  - apply (aset_nodup Nat.eqb neqb_ok), K.
  - now apply (K_live_aset calls next hist done k pc).
  - intros k' p o E' O'. rewrite get_aset in E'. destruct (Nat.eqb_spec k' k) as [->|N].
    + injection E' as <-. apply (k_open _ _ _ _ K k pc o E). congruence.
    + now apply (k_open _ _ _ _ K k' p).
  - intros k' p E' O'. rewrite get_aset in E'. destruct (Nat.eqb_spec k' k) as [->|N].
    + injection E' as <-. rewrite O in O'. destruct (k_closed _ _ _ _ K k pc E O') as (o & x & I & H).
      exists o, x. split; [exact I|now apply C].
    + now apply (k_closed _ _ _ _ K k' p).
Qed.

Lemma K_commit calls next hist done k pc pc' o x : KInv calls next hist done -> aget Nat.eqb k calls = Some pc ->
  open pc = Some o -> open pc' = None -> closed pc' o x -> ok hist done k o x ->
  KInv (aset Nat.eqb k pc' calls) next hist (done ++ [(k, o, x)]).
Proof.
  intros K E O O' C H. destruct (k_open _ _ _ _ K k pc o E O) as [I D]. split; try apply K.
  - apply (aset_nodup Nat.eqb neqb_ok), K.
  - now apply (K_live_aset calls next hist done k pc).
  - intros k' p o' E' P. rewrite get_aset in E'. destruct (Nat.eqb_spec k' k) as [->|N]; [congruence|].
    destruct (k_open _ _ _ _ K k' p o' E' P) as [I' D']. split; [exact I'|].
    intros o2 x2 I2. rewrite in_app_iff in I2. destruct I2 as [I2|[I2|[]]]; [now apply D' in I2|congruence].
  - intros k' p E' P. rewrite get_aset in E'. destruct (Nat.eqb_spec k' k) as [->|N].
    + injection E' as <-. exists o, x. split; [rewrite in_app_iff; right; now left|exact C].
    + destruct (k_closed _ _ _ _ K k' p E' P) as (o2 & x2 & I2 & C2). exists o2, x2.
      split; [rewrite in_app_iff; now left|exact C2].
  - apply explains_commit; [apply K|exact I|exact D|exact H].
Qed.

Lemma K_return calls next hist done k pc x : KInv calls next hist done -> aget Nat.eqb k calls = Some pc ->
  open pc = None -> (forall o' x', closed pc o' x' -> x' = x) ->
  KInv (adel Nat.eqb k calls) next (hist ++ [Ret k x]) done.
Proof.
  intros K E O C. destruct (k_closed _ _ _ _ K k pc E O) as (o & x' & I & H). apply C in H. subst x'.
  pose proof (k_nodup _ _ _ _ K) as N.
  assert (rlt : (k < next)%nat).
  { apply (k_lt _ _ _ _ K k o). now apply (x_begun _ _ _ (k_expl _ _ _ _ K) k o x). }
  split.
  - now apply adel_nodup.
  - intros k' o' I'. rewrite in_app_iff in I'. destruct I' as [I'|[I'|[]]]; [now apply (k_lt _ _ _ _ K) in I'|discriminate].
  - intros k' x' I'. rewrite in_app_iff in I'. destruct I' as [I'|[I'|[]]]; [now apply (k_rlt _ _ _ _ K) in I'|].
    now injection I' as <- <-.
  - intros k' o1 o2 I1 I2. rewrite in_app_iff in I1, I2.
    destruct I1 as [I1|[I1|[]]], I2 as [I2|[I2|[]]]; try discriminate. now apply (k_fun _ _ _ _ K k').
  - intros k'. rewrite get_adel by exact N. destruct (Nat.eqb_spec k' k) as [->|Nk].
    + split; [intros (p & X); discriminate|]. intros (o' & _ & R). exfalso. apply (R x). rewrite in_app_iff. right. now left.
    + rewrite (k_live _ _ _ _ K k'). split; intros (o' & I' & R); exists o'.
      * split; [rewrite in_app_iff; now left|]. intros y Y. rewrite in_app_iff in Y.
        destruct Y as [Y|[Y|[]]]; [now apply R in Y|congruence].
      * split; [rewrite in_app_iff in I'; destruct I' as [I'|[I'|[]]]; [exact I'|discriminate]|].
        intros y Y. apply (R y). rewrite in_app_iff. now left.
  - intros k' p o' E' P. rewrite get_adel in E' by exact N. destruct (Nat.eqb_spec k' k) as [->|Nk]; [discriminate|].
    destruct (k_open _ _ _ _ K k' p o' E' P) as [I' D]. split; [rewrite in_app_iff; now left|exact D].
  - intros k' p E' P. rewrite get_adel in E' by exact N. destruct (Nat.eqb_spec k' k) as [->|Nk]; [discriminate|].
    now apply (k_closed _ _ _ _ K k' p).
  - apply (explains_return ok ok_mono _ _ _ o); [apply K|exact I].
Qed.

(** Fewer calls have taken effect than have begun. *)
Lemma K_room calls next hist done k pc o : KInv calls next hist done -> aget Nat.eqb k calls = Some pc ->
  open pc = Some o -> (length done < next)%nat.
Proof.
  intros K E O. destruct (k_open _ _ _ _ K k pc o E O) as [I D].
  rewrite <- (map_length (fun c => fst (fst c)) done).
  assert (H : (length (k :: map (fun c => fst (fst c)) done) <= length (seq 0 next))%nat).
  { apply NoDup_incl_length.
    - constructor; [|apply (k_expl _ _ _ _ K)]. rewrite in_map_iff. intros ([[k' o'] x] & E' & I').
      cbn in E'. subst k'. now apply D in I'.
    - intros k' [<-|I']; apply in_seq; [apply (k_lt _ _ _ _ K) in I; lia|].
      rewrite in_map_iff in I'. destruct I' as ([[k2 o'] x] & <- & I'). cbn.
      apply (x_begun _ _ _ (k_expl _ _ _ _ K)), (k_lt _ _ _ _ K) in I'. lia. }
  rewrite seq_length in H. cbn in H. lia.
Qed.
End Calls.

(** * Link registry *)

Definition delta (c : nat * lop * lout) (s t : Z) : Z :=
  match c with
  | (_, LAdd a b, _) => if (a =? s) && (b =? t) then 1 else 0
  | (_, LRemove a b, LBool true) => if (a =? s) && (b =? t) then - 1 else 0
  | _ => 0
  end.

Lemma links_of_snoc L c s t : links_of (L ++ [c]) s t = links_of L s t + delta c s t.
Proof.
  induction L as [|[[k o] x] L IH].
  - destruct c as [[k o] x]. cbn. destruct o; try lia. destruct x as [| |[|]| |]; try lia.
    destruct ((s0 =? s) && (t0 =? t)); lia.
  - cbn [app links_of]. destruct o; rewrite ?IH; try lia. destruct x as [| |[|]| |]; rewrite ?IH; lia.
Qed.

Lemma links_of_le L s t : links_of L s t <= Z.of_nat (length L).
Proof.
  induction L as [|c L IH] using rev_ind; [cbn; lia|].
  rewrite links_of_snoc, app_length. cbn [length].
  assert (delta c s t <= 1); [|lia].
  destruct c as [[k o] x]. cbn. destruct o; try lia; [destruct ((s0 =? s) && (t0 =? t)); lia|].
  destruct x as [| |[|]| |]; try lia. destruct ((s0 =? s) && (t0 =? t)); lia.
Qed.

Definition l_open (pc : lpc) : option lop :=
  match pc with
  | PBegin o => Some o
  | PAddTarget s t => Some (LAdd s t)
  | PMake t => Some (LGetSources t)
  | _ => None
  end.

(** The call that keeps _links locked. *)
Definition pending (s : lstate) (a b : Z) : Z :=
  match l_holder s with
  | Some k =>
      match aget Nat.eqb k (l_calls s) with
      | Some (PAddTarget x y) => if (x =? a) && (y =? b) then 1 else 0
      | _ => 0
      end
  | None => 0
  end.

Definition l_closed (pc : lpc) (o : lop) (x : lout) : Prop :=
  match pc with
  | PDrop s t => o = LRemove s t /\ x = LBool true
  | PEnd y => x = y
  | _ => False
  end.

Definition holds_links (pc : lpc) : bool := match pc with PAddTarget _ _ => true | _ => false end.

Record LinkInv (s : lstate) : Prop := {
  i_holder : forall k, l_holder s = Some k <-> exists a b, aget Nat.eqb k (l_calls s) = Some (PAddTarget a b);
  i_nodup : NoDup (akeys (r_links (l_reg s)));
  i_links : forall a b, aget pair_eqb (a, b) (r_links (l_reg s)) =
    (if links_of (l_done s) a b + pending s a b =? 0 then None else Some (links_of (l_done s) a b + pending s a b));
  i_pos : forall a b, 0 <= links_of (l_done s) a b;
  i_zero : forall a b, pending s a b <> 0 -> links_of (l_done s) a b = 0;
}.

Definition CInv ok (s : lstate) : Prop := KInv l_open l_closed ok (l_calls s) (l_next s) (l_hist s) (l_done s).

Lemma pending_pos s a b : 0 <= pending s a b <= 1.
Proof.
  unfold pending. destruct (l_holder s); [|lia]. destruct (aget Nat.eqb n (l_calls s)) as [[]|]; try lia.
  destruct ((s0 =? a) && (t =? b)); lia.
Qed.

Lemma pending_free s a b : l_holder s = None -> pending s a b = 0.
Proof. unfold pending. now intros ->. Qed.

(** A section that neither takes nor releases _links for longer than itself. *)
Lemma holder_keep holder calls (k : nat) (pc pc' : lpc) :
  (forall k, holder = Some k <-> exists a b, aget Nat.eqb k calls = Some (PAddTarget a b)) ->
  aget Nat.eqb k calls = Some pc -> holds_links pc = false -> holds_links pc' = false ->
  forall k', holder = Some k' <-> exists a b, aget Nat.eqb k' (aset Nat.eqb k pc' calls) = Some (PAddTarget a b).
Proof.
  intros H E N N' k'. rewrite H, get_aset. destruct (Nat.eqb_spec k' k) as [->|]; [|tauto].
  rewrite E. split; intros (a & b & X); injection X as ->; discriminate.
Qed.

Lemma pending_keep s reg (k : nat) pc pc' next hist done a b : LinkInv s ->
  aget Nat.eqb k (l_calls s) = Some pc -> holds_links pc = false ->
  pending (LState reg (l_holder s) (aset Nat.eqb k pc' (l_calls s)) next hist done) a b = pending s a b.
Proof.
  intros V E N. unfold pending. cbn [l_holder l_calls]. destruct (l_holder s) as [k'|] eqn:H; [|reflexivity].
  rewrite get_aset. destruct (Nat.eqb_spec k' k) as [->|]; [|reflexivity].
  apply (i_holder _ V) in H. destruct H as (x & y & H). rewrite H in E. injection E as <-. discriminate.
Qed.

(** The links and the number of links are unchanged. *)
Lemma linkinv_same s (k : nat) pc pc' r' next hist done' : LinkInv s ->
  aget Nat.eqb k (l_calls s) = Some pc -> holds_links pc = false -> holds_links pc' = false ->
  r_links r' = r_links (l_reg s) -> (forall a b, links_of done' a b = links_of (l_done s) a b) ->
  LinkInv (LState r' (l_holder s) (aset Nat.eqb k pc' (l_calls s)) next hist done').
Proof.
  intros V E N N' R D. split; cbn [l_holder l_calls l_reg l_done].
  - apply (holder_keep _ _ _ pc); try assumption. apply V.
  - rewrite R. apply V.
  - intros a b. rewrite R, D, (pending_keep s _ k pc) by assumption. apply V.
  - intros a b. rewrite D. apply V.
  - intros a b. rewrite D, (pending_keep s _ k pc) by assumption. apply V.
Qed.

(** The number of links of one pair changes, _links being free. *)
Lemma linkinv_change s (k : nat) pc pc' links' targets' next hist done' a b n :
  LinkInv s -> l_holder s = None ->
  aget Nat.eqb k (l_calls s) = Some pc -> holds_links pc' = false ->
  NoDup (akeys links') ->
  (forall p, p <> (a, b) -> aget pair_eqb p links' = aget pair_eqb p (r_links (l_reg s))) ->
  0 <= n -> aget pair_eqb (a, b) links' = (if n =? 0 then None else Some n) ->
  (forall x y, links_of done' x y = if (a =? x) && (b =? y) then n else links_of (l_done s) x y) ->
  LinkInv (LState (Reg links' targets') (l_holder s) (aset Nat.eqb k pc' (l_calls s)) next hist done').
Proof.
  intros V H E N' ND O P G D.
  assert (N : holds_links pc = false).
  { destruct pc; try reflexivity. pose proof (proj2 (i_holder _ V k) (ex_intro _ s0 (ex_intro _ t E))). congruence. }
  split; cbn [l_holder l_calls l_reg l_done r_links].
  - apply (holder_keep _ _ _ pc); try assumption. apply V.
  - assumption.
  - intros x y. rewrite pending_free by exact H. rewrite Z.add_0_r, D, pair_and.
    destruct (eqb_cases pair_eqb pair_eqb_ok (x, y) (a, b)) as [[-> X]|[-> X]].
    + injection X as -> ->. exact G.
    + rewrite O by assumption. rewrite (i_links _ V), (pending_free s) by exact H. now rewrite Z.add_0_r.
  - intros x y. rewrite D. destruct ((a =? x) && (b =? y)); [exact P|apply V].
  - intros x y X. now rewrite pending_free in X.
Qed.

Section LinkSteps.
Variable name : Z -> list Z.
Variable ok : lhist -> lorder -> nat -> lop -> lout -> Prop.
Hypothesis ok_mono : forall tr e L k o x, next_event tr e -> In (Inv k o) tr -> ok tr L k o x -> ok (tr ++ [e]) L k o x.

(** What a section that takes effect has to be allowed to answer. *)
Definition allowed (s : lstate) (k : nat) : Prop :=
  forall pc, aget Nat.eqb k (l_calls s) = Some pc ->
  match lsection name k pc (l_reg s) (l_holder s) with
  | Some a => match a_done a with
              | Some (o, x) => count_result (l_done s) o x -> ok (l_hist s) (l_done s) k o x
              | None => True
              end
  | None => True
  end.

Lemma lstep_inv e s : CInv ok s -> LinkInv s -> Z.of_nat (l_next s) < u32 ->
  (forall k, e = Run k -> allowed s k) ->
  CInv ok (lstep_conc name e s) /\ LinkInv (lstep_conc name e s).
Proof.
  intros K V B A. destruct e as [o|k].
  - split.
    + apply (K_begin l_open l_closed ok ok_mono); [exact K|reflexivity].
    + assert (G : forall k, aget Nat.eqb k (l_calls s ++ [(l_next s, PBegin o)]) =
                            match aget Nat.eqb k (l_calls s) with Some p => Some p
                            | None => if (k =? l_next s)%nat then Some (PBegin o) else None end).
      { intros k. rewrite (aget_app Nat.eqb). reflexivity. }
      assert (P : forall a b, pending (lstep_conc name (Begin o) s) a b = pending s a b).
      { intros a b. unfold pending. cbn [lstep_conc l_holder l_calls]. destruct (l_holder s) as [k|]; [|reflexivity].
        rewrite G. destruct (aget Nat.eqb k (l_calls s)); [reflexivity|]. now destruct (k =? l_next s)%nat. }
      split; cbn [lstep_conc l_holder l_calls l_reg l_done]; try apply V.
      * intros k. rewrite (i_holder _ V), G. destruct (aget Nat.eqb k (l_calls s)) as [p|]; [tauto|].
        destruct (k =? l_next s)%nat; split; intros (a & b & X); discriminate.
      * intros a b. fold (lstep_conc name (Begin o) s). rewrite P. apply V.
      * intros a b X. fold (lstep_conc name (Begin o) s) in X. rewrite P in X. now apply V.
  - cbn [lstep_conc]. destruct (aget Nat.eqb k (l_calls s)) as [pc|] eqn:E; [|tauto].
    specialize (A k eq_refl pc E).
    destruct pc as [o|a b|a b|t|x].
    + destruct o as [a b|a b|a b|t].
      * (* AddLink *)
        cbn [lsection] in A |- *. destruct (l_holder s) as [h|] eqn:H; [tauto|].
        destruct (aget pair_eqb (a, b) (r_links (l_reg s))) as [n|] eqn:L; cbn [a_reg a_hold a_pc a_done] in A |- *.
        -- rewrite (i_links _ V), (pending_free s) in L by exact H. rewrite Z.add_0_r in L.
           destruct (Z.eqb_spec (links_of (l_done s) a b) 0) as [|NZ]; [discriminate|]. injection L as <-.
           pose proof (i_pos _ V a b). pose proof (links_of_le (l_done s) a b).
           pose proof (K_room l_open l_closed ok _ _ _ _ k _ _ K E eq_refl) as R.
           assert (M : (links_of (l_done s) a b + 1) mod u32 = links_of (l_done s) a b + 1) by (apply Z.mod_small; lia).
           split.
           ++ apply (K_commit l_open l_closed ok _ _ _ _ _ (PBegin (LAdd a b))); try assumption; try reflexivity.
              apply A. now left.
           ++ rewrite <- H.
              apply (linkinv_change s k (PBegin (LAdd a b)) _ _ _ _ _ _ a b (links_of (l_done s) a b + 1)); try assumption; try reflexivity.
              ** apply (aset_nodup pair_eqb pair_eqb_ok), V.
              ** intros p Np. now apply (aget_aset_other pair_eqb pair_eqb_ok).
              ** lia.
              ** rewrite (aget_aset_same pair_eqb pair_eqb_ok), M. destruct (Z.eqb_spec (links_of (l_done s) a b + 1) 0); [lia|reflexivity].
              ** intros x y. rewrite links_of_snoc. cbn [delta].
                 destruct (Z.eqb_spec a x) as [->|], (Z.eqb_spec b y) as [->|]; cbn; lia.
        -- assert (Z0 : links_of (l_done s) a b = 0).
           { rewrite (i_links _ V), (pending_free s) in L by exact H. rewrite Z.add_0_r in L.
             now destruct (Z.eqb_spec (links_of (l_done s) a b) 0). }
           split.
           ++ apply (K_silent l_open l_closed ok _ _ _ _ _ (PBegin (LAdd a b))); try assumption; try reflexivity.
              discriminate.
           ++ assert (P : forall x y, pending (LState (Reg (atry pair_eqb (a, b) 1 (r_links (l_reg s))) (r_targets (l_reg s)))
                 (Some k) (aset Nat.eqb k (PAddTarget a b) (l_calls s)) (l_next s) (l_hist s) (l_done s)) x y =
                 if (a =? x) && (b =? y) then 1 else 0).
              { intros x y. unfold pending. cbn [l_holder l_calls]. now rewrite get_aset, Nat.eqb_refl. }
              split; cbn [l_holder l_calls l_reg l_done r_links]; try apply V.
              ** intros k'. rewrite get_aset. destruct (Nat.eqb_spec k' k) as [->|Nk]; [split; eauto|].
                 split; [congruence|]. intros X. apply (i_holder _ V) in X. congruence.
              ** apply (atry_nodup pair_eqb pair_eqb_ok), V.
              ** intros x y. rewrite P. rewrite (aget_atry pair_eqb pair_eqb_ok), (i_links _ V), (pending_free s) by exact H.
                 rewrite Z.add_0_r, pair_and.
                 destruct (eqb_cases pair_eqb pair_eqb_ok (x, y) (a, b)) as [[-> X]|[-> X]].
                 --- injection X as -> ->. now rewrite Z0.
                 --- rewrite Z.add_0_r. now destruct (links_of (l_done s) x y =? 0).
              ** intros x y X. rewrite P in X. destruct (Z.eqb_spec a x) as [->|], (Z.eqb_spec b y) as [->|]; cbn in X; congruence.
      * (* RemoveLink *)
        cbn [lsection] in A |- *. destruct (l_holder s) as [h|] eqn:H; [tauto|].
        destruct (aget pair_eqb (a, b) (r_links (l_reg s))) as [n|] eqn:L; cbn [a_reg a_hold a_pc a_done] in A |- *.
        -- rewrite (i_links _ V), (pending_free s) in L by exact H. rewrite Z.add_0_r in L.
           destruct (Z.eqb_spec (links_of (l_done s) a b) 0) as [|NZ]; [discriminate|]. injection L as <-.
           pose proof (i_pos _ V a b). pose proof (links_of_le (l_done s) a b).
           pose proof (K_room l_open l_closed ok _ _ _ _ k _ _ K E eq_refl) as R.
           assert (M : (links_of (l_done s) a b - 1) mod u32 = links_of (l_done s) a b - 1) by (apply Z.mod_small; lia).
           rewrite M in *.
           assert (C : count_result (l_done s) (LRemove a b) (LBool true)).
           { cbn. f_equal. destruct (Z.eqb_spec (links_of (l_done s) a b) 0); [contradiction|reflexivity]. }
           assert (D : forall x y, links_of (l_done s ++ [(k, LRemove a b, LBool true)]) x y =
              if (a =? x) && (b =? y) then links_of (l_done s) a b - 1 else links_of (l_done s) x y).
           { intros x y. rewrite links_of_snoc. cbn [delta].
             destruct (Z.eqb_spec a x) as [->|], (Z.eqb_spec b y) as [->|]; cbn; lia. }
           destruct (Z.eqb_spec (links_of (l_done s) a b - 1) 0) as [Z1|NZ1]; cbn [a_reg a_hold a_pc a_done] in A |- *;
             (split; [apply (K_commit l_open l_closed ok _ _ _ _ _ (PBegin (LRemove a b))); try assumption; try reflexivity;
                      first [now apply A|now cbn]|]); rewrite <- H.
           ++ apply (linkinv_change s k (PBegin (LRemove a b)) _ _ _ _ _ _ a b (links_of (l_done s) a b - 1)); try assumption; try reflexivity.
              ** apply adel_nodup, V.
              ** intros p Np. now apply (aget_adel_other pair_eqb pair_eqb_ok).
              ** lia.
              ** rewrite Z1. cbn. apply (aget_adel_same pair_eqb pair_eqb_ok), V.
           ++ apply (linkinv_change s k (PBegin (LRemove a b)) _ _ _ _ _ _ a b (links_of (l_done s) a b - 1)); try assumption; try reflexivity.
              ** apply (aset_nodup pair_eqb pair_eqb_ok), V.
              ** intros p Np. now apply (aget_aset_other pair_eqb pair_eqb_ok).
              ** lia.
              ** rewrite (aget_aset_same pair_eqb pair_eqb_ok).
                 destruct (Z.eqb_spec (links_of (l_done s) a b - 1) 0); [contradiction|reflexivity].
        -- assert (Z0 : links_of (l_done s) a b = 0).
           { rewrite (i_links _ V), (pending_free s) in L by exact H. rewrite Z.add_0_r in L.
             now destruct (Z.eqb_spec (links_of (l_done s) a b) 0). }
           split.
           ++ apply (K_commit l_open l_closed ok _ _ _ _ _ (PBegin (LRemove a b))); try assumption; try reflexivity.
              apply A. cbn. now rewrite Z0.
           ++ rewrite <- H. apply (linkinv_same s k (PBegin (LRemove a b))); try assumption; try reflexivity.
              intros x y. rewrite links_of_snoc. cbn [delta]. lia.
      * (* GetLinkCount *)
        cbn [lsection] in A |- *. destruct (l_holder s) as [h|] eqn:H; [tauto|]. cbn [a_reg a_hold a_pc a_done] in A |- *.
        split.
        -- apply (K_commit l_open l_closed ok _ _ _ _ _ (PBegin (LGetCount a b))); try assumption; try reflexivity.
           apply A. cbn. f_equal. unfold link_count. rewrite (i_links _ V), (pending_free s) by exact H. rewrite Z.add_0_r.
           now destruct (Z.eqb_spec (links_of (l_done s) a b) 0).
        -- rewrite <- H. apply (linkinv_same s k (PBegin (LGetCount a b))); try assumption; try reflexivity.
           intros x y. rewrite links_of_snoc. cbn [delta]. lia.
      * (* GetLinkSources *)
        cbn [lsection] in A |- *. destruct (aget Z.eqb t (r_targets (l_reg s))) as [l|]; cbn [a_reg a_hold a_pc a_done] in A |- *.
        -- split.
           ++ apply (K_commit l_open l_closed ok _ _ _ _ _ (PBegin (LGetSources t))); try assumption; try reflexivity. now apply A.
           ++ apply (linkinv_same s k (PBegin (LGetSources t))); try assumption; try reflexivity.
              intros x y. rewrite links_of_snoc. cbn [delta]. lia.
        -- split.
           ++ apply (K_silent l_open l_closed ok _ _ _ _ _ (PBegin (LGetSources t))); try assumption; try reflexivity. discriminate.
           ++ now apply (linkinv_same s k (PBegin (LGetSources t))).
    + (* AddLink, second section *)
      assert (H : l_holder s = Some k) by (apply (i_holder _ V); eauto).
      assert (P : forall x y, pending s x y = if (a =? x) && (b =? y) then 1 else 0).
      { intros x y. unfold pending. now rewrite H, E. }
      assert (Z0 : links_of (l_done s) a b = 0).
      { apply (i_zero _ V). rewrite P, !Z.eqb_refl. discriminate. }
      cbn [lsection] in A |- *.
      assert (W : forall r' out, r_links r' = r_links (l_reg s) ->
        LinkInv (LState r' None (aset Nat.eqb k (PEnd out) (l_calls s)) (l_next s) (l_hist s) (l_done s ++ [(k, LAdd a b, out)]))).
      { intros r' out R.
        assert (D : forall x y, links_of (l_done s ++ [(k, LAdd a b, out)]) x y = links_of (l_done s) x y + pending s x y).
        { intros x y. rewrite links_of_snoc, P. reflexivity. }
        split; cbn [l_holder l_calls l_reg l_done].
        - intros k'. split; [discriminate|]. intros (x & y & X). rewrite get_aset in X.
          destruct (Nat.eqb_spec k' k) as [->|Nk]; [discriminate|].
          pose proof (proj2 (i_holder _ V k') (ex_intro _ x (ex_intro _ y X))). congruence.
        - rewrite R. apply V.
        - intros x y. rewrite (pending_free (LState _ None _ _ _ _)) by reflexivity.
          rewrite R, D, Z.add_0_r. apply V.
        - intros x y. rewrite D. pose proof (i_pos _ V x y). pose proof (pending_pos s x y). lia.
        - intros x y X. now rewrite pending_free in X. }
      destruct (coll_add name a (coll_of b (l_reg s))) as [l|]; cbn [a_reg a_hold a_pc a_done] in A |- *;
        (split; [apply (K_commit l_open l_closed ok _ _ _ _ _ (PAddTarget a b)); try assumption; try reflexivity|now apply W]).
      * apply A. now left.
      * apply A. now right.
    + (* RemoveLink, second section *)
      cbn [lsection a_reg a_hold a_pc a_done]. split.
      * apply (K_silent l_open l_closed ok _ _ _ _ _ (PDrop a b)); try assumption; try reflexivity. cbn. tauto.
      * now apply (linkinv_same s k (PDrop a b)).
    + (* GetLinkSources, second section *)
      cbn [lsection a_reg a_hold a_pc a_done] in A |- *. split.
      * apply (K_commit l_open l_closed ok _ _ _ _ _ (PMake t)); try assumption; try reflexivity. now apply A.
      * apply (linkinv_same s k (PMake t)); try assumption; try reflexivity.
        intros x y. rewrite links_of_snoc. cbn [delta]. lia.
    + (* return *)
      split.
      * apply (K_return l_open l_closed ok ok_mono _ _ _ _ _ (PEnd x)); try assumption; try reflexivity. now cbn.
      * assert (N : NoDup (akeys (l_calls s))) by apply K.
        assert (Nh : l_holder s <> Some k).
        { intros X. apply (i_holder _ V) in X. destruct X as (a & b & X). congruence. }
        assert (P : forall a b, pending (LState (l_reg s) (l_holder s) (adel Nat.eqb k (l_calls s)) (l_next s) (l_hist s ++ [Ret k x]) (l_done s)) a b = pending s a b).
        { intros a b. unfold pending. cbn [l_holder l_calls]. destruct (l_holder s) as [h|]; [|reflexivity].
          rewrite get_adel by exact N. destruct (Nat.eqb_spec h k); [congruence|reflexivity]. }
        split; cbn [l_holder l_calls l_reg l_done]; try apply V.
        -- intros k'. rewrite get_adel by exact N. destruct (Nat.eqb_spec k' k) as [->|Nk].
           ++ split; [tauto|intros (a & b & X); discriminate].
           ++ apply V.
        -- intros a b. rewrite P. apply V.
        -- intros a b X. rewrite P in X. now apply V.
Qed.
End LinkSteps.

(** * The sources of the links *)

Lemma counts_mono : forall (tr : lhist) e L k o x, next_event tr e -> In (Inv k o) tr -> counts_ok tr L k o x -> counts_ok (tr ++ [e]) L k o x.
Proof. intros. assumption. Qed.
Lemma links_mono : forall (tr : lhist) e L k o x, next_event tr e -> In (Inv k o) tr -> links_ok tr L k o x -> links_ok (tr ++ [e]) L k o x.
Proof. intros. assumption. Qed.

Record SInv (s : lstate) : Prop := {
  z_nodup : forall t, NoDup (coll_of t (l_reg s));
  z_coll : forall t a, In a (coll_of t (l_reg s)) <->
    0 < links_of (l_done s) a t \/ exists k, aget Nat.eqb k (l_calls s) = Some (PDrop a t);
  z_drop : forall k a t, aget Nat.eqb k (l_calls s) = Some (PDrop a t) -> links_of (l_done s) a t = 0;
  z_one : forall k k' a t, aget Nat.eqb k (l_calls s) = Some (PDrop a t) ->
    aget Nat.eqb k' (l_calls s) = Some (PDrop a t) -> k = k';
  z_names : forall t a, In a (coll_of t (l_reg s)) -> exists k, In (Inv k (LAdd a t)) (l_hist s);
}.

Lemma drop_keep (k : nat) pc pc' calls : aget Nat.eqb k calls = Some pc ->
  (forall a t, pc <> PDrop a t) -> (forall a t, pc' <> PDrop a t) ->
  forall k' a t, aget Nat.eqb k' (aset Nat.eqb k pc' calls) = Some (PDrop a t) <-> aget Nat.eqb k' calls = Some (PDrop a t).
Proof.
  intros E N N' k' a t. rewrite get_aset. destruct (Nat.eqb_spec k' k) as [->|]; [|tauto].
  rewrite E. split; intros X; injection X as X; [now apply N' in X|now apply N in X].
Qed.

(** The collections, the pending removals and which pairs have links are unchanged. *)
Lemma sinv_same s s' : SInv s ->
  (forall t, coll_of t (l_reg s') = coll_of t (l_reg s)) ->
  (forall k a t, aget Nat.eqb k (l_calls s') = Some (PDrop a t) <-> aget Nat.eqb k (l_calls s) = Some (PDrop a t)) ->
  (forall a t, 0 < links_of (l_done s') a t <-> 0 < links_of (l_done s) a t) ->
  (forall a t, links_of (l_done s) a t = 0 -> links_of (l_done s') a t = 0) ->
  (forall e, In e (l_hist s) -> In e (l_hist s')) -> SInv s'.
Proof.
  intros Z C D P P0 H. split.
  - intros t. rewrite C. apply Z.
  - intros t a. rewrite C, P, (z_coll _ Z). split; intros [X|(k & X)]; auto; right; exists k; now apply D.
  - intros k a t X. apply P0. apply D in X. now apply (z_drop _ Z k).
  - intros k k' a t X X'. apply D in X. apply D in X'. now apply (z_one _ Z k k' a t).
  - intros t a X. rewrite C in X. destruct (z_names _ Z t a X) as (k & I). exists k. now apply H.
Qed.

Lemma here_overlap (tr : lhist) i o j o' : active tr i o -> active tr j o' -> overlap tr i o j o'.
Proof. intros A B. exists tr, []. now rewrite app_nil_r. Qed.

Section Sources.
Variable name : Z -> list Z.

Lemma coll_add_fresh s a b : SInv s -> distinct_sources name (l_hist s) ->
  (exists k, In (Inv k (LAdd a b)) (l_hist s)) -> ~ In a (coll_of b (l_reg s)) ->
  coll_add name a (coll_of b (l_reg s)) = Some (coll_of b (l_reg s) ++ [a]).
Proof.
  intros Z D (k & I) N. unfold coll_add. destruct (has_name name (name a) (coll_of b (l_reg s))) eqn:H; [|reflexivity].
  apply has_name_In in H. destruct H as (c & C & E). destruct (z_names _ Z b c C) as (k' & I').
  assert (c = a) as -> by (now apply (D k' k c a b)). contradiction.
Qed.

Lemma no_source_yet s k a b : CInv links_ok s -> LinkInv s -> SInv s -> undisturbed (l_hist s) ->
  aget Nat.eqb k (l_calls s) = Some (PAddTarget a b) -> ~ In a (coll_of b (l_reg s)).
Proof.
  intros K V Z U E I. apply (z_coll _ Z) in I.
  assert (H : l_holder s = Some k) by (apply (i_holder _ V); eauto).
  assert (Z0 : links_of (l_done s) a b = 0).
  { apply (i_zero _ V). unfold pending. rewrite H, E, !Z.eqb_refl. discriminate. }
  destruct I as [I|(k' & X)]; [lia|].
  destruct (k_closed _ _ _ _ _ _ _ K k' _ X eq_refl) as (o & x & Id & -> & ->).
  pose proof (K_closed_active _ _ _ _ _ _ _ k' _ _ _ K X Id) as A.
  pose proof (K_active _ _ _ _ _ _ _ k _ _ K E eq_refl) as A'.
  apply (U _ _ _ _ (here_overlap _ _ _ _ _ A A')). now cbn.
Qed.

Lemma sources_exact s k pc t : CInv links_ok s -> SInv s -> undisturbed (l_hist s) ->
  aget Nat.eqb k (l_calls s) = Some pc -> l_open pc = Some (LGetSources t) ->
  forall a, In a (coll_of t (l_reg s)) <-> 0 < links_of (l_done s) a t.
Proof.
  intros K Z U E O a. rewrite (z_coll _ Z). split; [|tauto]. intros [I|(k' & X)]; [exact I|exfalso].
  destruct (k_closed _ _ _ _ _ _ _ K k' _ X eq_refl) as (o & x & Id & -> & ->).
  pose proof (K_closed_active _ _ _ _ _ _ _ k' _ _ _ K X Id) as A.
  pose proof (K_active _ _ _ _ _ _ _ k _ _ K E O) as A'.
  apply (U _ _ _ _ (here_overlap _ _ _ _ _ A A')). now cbn.
Qed.

Lemma allowed_links s k : CInv links_ok s -> LinkInv s -> SInv s -> undisturbed (l_hist s) ->
  distinct_sources name (l_hist s) -> allowed name links_ok s k.
Proof.
  intros K V Z U D pc E. destruct pc as [o|a b|a b|t|x]; cbn [lsection]; try exact Logic.I.
  - destruct o as [a b|a b|a b|t].
    + destruct (l_holder s); [exact Logic.I|]. destruct (aget pair_eqb (a, b) (r_links (l_reg s))); cbn [a_done]; [|exact Logic.I].
      intros _. reflexivity.
    + destruct (l_holder s); [exact Logic.I|]. destruct (aget pair_eqb (a, b) (r_links (l_reg s))) as [n|]; cbn [a_done].
      * destruct ((n - 1) mod u32 =? 0); cbn [a_done]; tauto.
      * tauto.
    + destruct (l_holder s); [exact Logic.I|]. cbn [a_done]. tauto.
    + pose proof (sources_exact s k _ t K Z U E eq_refl) as S. pose proof (z_nodup _ Z t) as N. unfold coll_of in S, N.
      destruct (aget Z.eqb t (r_targets (l_reg s))) as [l|]; cbn [a_done]; [|exact Logic.I].
      intros _. exists l. auto.
  - rewrite (coll_add_fresh s); try assumption.
    + cbn [a_done]. intros _. reflexivity.
    + exists k. now apply (k_open _ _ _ _ _ _ _ K k _ _ E).
    + now apply (no_source_yet s k).
  - pose proof (sources_exact s k _ t K Z U E eq_refl) as S. pose proof (z_nodup _ Z t) as N.
    cbn [a_done]. rewrite coll_of_atry. intros _. exists (coll_of t (l_reg s)). auto.
Qed.

Lemma sstep_inv e s : CInv links_ok s -> LinkInv s -> SInv s -> undisturbed (l_hist s) ->
  distinct_sources name (l_hist s) -> Z.of_nat (l_next s) < u32 -> SInv (lstep_conc name e s).
Proof.
  intros K V Z U D B. destruct e as [o|k].
  - apply (sinv_same s); cbn [lstep_conc l_reg l_calls l_done l_hist]; auto; try tauto.
    + intros k a t. rewrite (aget_app Nat.eqb). destruct (aget Nat.eqb k (l_calls s)); [tauto|]. cbn.
      destruct (k =? l_next s)%nat; split; discriminate.
    + intros e I. rewrite in_app_iff. now left.
  - cbn [lstep_conc]. destruct (aget Nat.eqb k (l_calls s)) as [pc|] eqn:E; [|exact Z].
    destruct pc as [o|a b|a b|t|x].
    + destruct o as [a b|a b|a b|t]; cbn [lsection].
      * destruct (l_holder s) as [h|] eqn:H; [exact Z|].
        destruct (aget pair_eqb (a, b) (r_links (l_reg s))) as [n|] eqn:L; cbn [a_reg a_hold a_pc a_done].
        -- rewrite (i_links _ V), (pending_free s) in L by exact H. rewrite Z.add_0_r in L.
           destruct (Z.eqb_spec (links_of (l_done s) a b) 0) as [|NZ]; [discriminate|].
           pose proof (i_pos _ V a b) as P.
           apply (sinv_same s); cbn [l_reg l_calls l_done l_hist]; auto.
           ++ apply (drop_keep k _ _ _ E); discriminate.
           ++ intros x y. rewrite links_of_snoc. cbn [delta].
              destruct (Z.eqb_spec a x) as [->|], (Z.eqb_spec b y) as [->|]; cbn; try lia.
           ++ intros x y X. rewrite links_of_snoc. cbn [delta].
              destruct (Z.eqb_spec a x) as [->|], (Z.eqb_spec b y) as [->|]; cbn; try lia.
        -- apply (sinv_same s); cbn [l_reg l_calls l_done l_hist]; auto; try tauto.
           apply (drop_keep k _ _ _ E); discriminate.
      * destruct (l_holder s) as [h|] eqn:H; [exact Z|].
        destruct (aget pair_eqb (a, b) (r_links (l_reg s))) as [n|] eqn:L; cbn [a_reg a_hold a_pc a_done].
        -- rewrite (i_links _ V), (pending_free s) in L by exact H. rewrite Z.add_0_r in L.
           destruct (Z.eqb_spec (links_of (l_done s) a b) 0) as [|NZ]; [discriminate|]. injection L as <-.
           pose proof (i_pos _ V a b) as P. pose proof (links_of_le (l_done s) a b).
           pose proof (K_room l_open l_closed links_ok _ _ _ _ k _ _ K E eq_refl) as R.
           rewrite Z.mod_small by lia.
           destruct (Z.eqb_spec (links_of (l_done s) a b - 1) 0) as [Z1|NZ1]; cbn [a_reg a_hold a_pc a_done].
           ++ (* the last link: the removal from the collection is pending *)
              assert (ND : forall k', aget Nat.eqb k' (l_calls s) <> Some (PDrop a b)).
              { intros k' X. apply (z_drop _ Z) in X. lia. }
              split; cbn [l_reg l_calls l_done l_hist r_targets].
              ** intros t. apply Z.
              ** intros t x. rewrite links_of_snoc. cbn [delta]. change (coll_of t (Reg _ _)) with (coll_of t (l_reg s)).
                 rewrite (z_coll _ Z). destruct (Z.eqb_spec a x) as [->|Nx]; cbn [andb].
                 --- destruct (Z.eqb_spec b t) as [->|Nt]; cbn [andb].
                     +++ split; [intros _; right; exists k; now rewrite get_aset, Nat.eqb_refl|intros _; left; lia].
                     +++ rewrite Z.add_0_r. split; (intros [X|(k' & X)]; [now left|right; exists k']).
                         *** rewrite get_aset. destruct (Nat.eqb_spec k' k); [congruence|exact X].
                         *** rewrite get_aset in X. destruct (Nat.eqb_spec k' k); [congruence|exact X].
                 --- rewrite Z.add_0_r. split; (intros [X|(k' & X)]; [now left|right; exists k']).
                     *** rewrite get_aset. destruct (Nat.eqb_spec k' k); [congruence|exact X].
                     *** rewrite get_aset in X. destruct (Nat.eqb_spec k' k); [congruence|exact X].
              ** intros k' x t X. rewrite links_of_snoc. cbn [delta]. rewrite get_aset in X.
                 destruct (Nat.eqb_spec k' k) as [->|].
                 --- injection X as -> ->. rewrite !Z.eqb_refl. cbn. lia.
                 --- pose proof (z_drop _ Z _ _ _ X) as X0.
                     destruct (Z.eqb_spec a x) as [->|], (Z.eqb_spec b t) as [->|]; cbn; try lia.
              ** intros k1 k2 x t X1 X2. rewrite get_aset in X1, X2.
                 destruct (Nat.eqb_spec k1 k) as [->|], (Nat.eqb_spec k2 k) as [->|]; [reflexivity| | |].
                 --- injection X1 as -> ->. now apply ND in X2.
                 --- injection X2 as -> ->. now apply ND in X1.
                 --- now apply (z_one _ Z k1 k2 x t).
              ** apply Z.
           ++ apply (sinv_same s); cbn [l_reg l_calls l_done l_hist]; auto.
              ** apply (drop_keep k _ _ _ E); discriminate.
              ** intros x y. rewrite links_of_snoc. cbn [delta].
                 destruct (Z.eqb_spec a x) as [->|], (Z.eqb_spec b y) as [->|]; cbn; lia.
              ** intros x y X. rewrite links_of_snoc. cbn [delta].
                 destruct (Z.eqb_spec a x) as [->|], (Z.eqb_spec b y) as [->|]; cbn; lia.
        -- apply (sinv_same s); cbn [l_reg l_calls l_done l_hist]; auto.
           ++ apply (drop_keep k _ _ _ E); discriminate.
           ++ intros x y. rewrite links_of_snoc. cbn [delta]. lia.
           ++ intros x y X. rewrite links_of_snoc. cbn [delta]. lia.
      * destruct (l_holder s) as [h|] eqn:H; [exact Z|]. cbn [a_reg a_hold a_pc a_done].
        apply (sinv_same s); cbn [l_reg l_calls l_done l_hist]; auto.
        ++ apply (drop_keep k _ _ _ E); discriminate.
        ++ intros x y. rewrite links_of_snoc. cbn [delta]. lia.
        ++ intros x y X. rewrite links_of_snoc. cbn [delta]. lia.
      * destruct (aget Z.eqb t (r_targets (l_reg s))) as [l|]; cbn [a_reg a_hold a_pc a_done];
          apply (sinv_same s); cbn [l_reg l_calls l_done l_hist]; auto; try tauto;
          try (apply (drop_keep k _ _ _ E); discriminate);
          intros x y; rewrite links_of_snoc; cbn [delta]; lia.
    + cbn [lsection]. pose proof (no_source_yet s k a b K V Z U E) as NS.
      rewrite (coll_add_fresh s); try assumption; [|exists k; now apply (k_open _ _ _ _ _ _ _ K k _ _ E)].
      cbn [a_reg a_hold a_pc a_done].
      assert (G : forall t, coll_of t (Reg (r_links (l_reg s)) (aset Z.eqb b (coll_of b (l_reg s) ++ [a]) (atry Z.eqb b [] (r_targets (l_reg s))))) =
                            if t =? b then coll_of b (l_reg s) ++ [a] else coll_of t (l_reg s)).
      { intros t. unfold coll_of at 1. cbn [r_targets]. destruct (Z.eqb_spec t b) as [->|Nt].
        - now rewrite (aget_aset_same Z.eqb zeqb_ok).
        - rewrite (aget_aset_other Z.eqb zeqb_ok) by assumption. apply (coll_of_atry t b (l_reg s) []). }
      pose proof (drop_keep k _ (PEnd LDone) _ E ltac:(discriminate) ltac:(discriminate)) as DK.
      assert (NP : forall k', aget Nat.eqb k' (l_calls s) <> Some (PDrop a b)).
      { intros k' X. apply NS, (z_coll _ Z). eauto. }
      split; cbn [l_reg l_calls l_done l_hist].
      * intros t. rewrite G. destruct (t =? b); [|apply Z]. apply NoDup_snoc; [apply Z|exact NS].
      * intros t x. rewrite G, links_of_snoc. cbn [delta].
        assert (Q : (exists k', aget Nat.eqb k' (aset Nat.eqb k (PEnd LDone) (l_calls s)) = Some (PDrop x t)) <->
                    (exists k', aget Nat.eqb k' (l_calls s) = Some (PDrop x t))).
        { split; intros (k' & X); exists k'; now apply DK. }
        rewrite Q. destruct (Z.eqb_spec t b) as [->|Nt].
        -- rewrite in_app_iff, (z_coll _ Z). rewrite Z.eqb_refl, andb_true_r. cbn [In].
           pose proof (i_pos _ V x b). destruct (Z.eqb_spec a x) as [->|Na]; [split; [intros _; left; lia|auto]|].
           rewrite Z.add_0_r. intuition congruence.
        -- destruct (Z.eqb_spec b t); [congruence|]. rewrite andb_false_r, Z.add_0_r. apply Z.
      * intros k' x t X. apply DK in X. rewrite links_of_snoc. cbn [delta]. pose proof (z_drop _ Z _ _ _ X).
        destruct (Z.eqb_spec a x) as [->|], (Z.eqb_spec b t) as [->|]; cbn; try lia. now apply NP in X.
      * intros k1 k2 x t X1 X2. apply DK in X1. apply DK in X2. now apply (z_one _ Z k1 k2 x t).
      * intros t x I. rewrite G in I. destruct (Z.eqb_spec t b) as [->|]; [|now apply (z_names _ Z)].
        rewrite in_app_iff in I. destruct I as [I|[<-|[]]]; [now apply (z_names _ Z)|].
        exists k. now apply (k_open _ _ _ _ _ _ _ K k _ _ E).
    + (* the pending removal *)
      cbn [lsection a_reg a_hold a_pc a_done].
      assert (G : forall t, coll_of t (Reg (r_links (l_reg s)) match aget Z.eqb b (r_targets (l_reg s)) with
                     | Some l => aset Z.eqb b (erase a l) (r_targets (l_reg s)) | None => r_targets (l_reg s) end) =
                  if t =? b then erase a (coll_of b (l_reg s)) else coll_of t (l_reg s)).
      { intros t. unfold coll_of at 1 3. cbn [r_targets]. unfold coll_of.
        destruct (aget Z.eqb b (r_targets (l_reg s))) as [l|] eqn:L.
        - destruct (Z.eqb_spec t b) as [->|Nt].
          + now rewrite (aget_aset_same Z.eqb zeqb_ok).
          + now rewrite (aget_aset_other Z.eqb zeqb_ok).
        - destruct (Z.eqb_spec t b) as [->|Nt]; [now rewrite L|reflexivity]. }
      assert (Er : forall x, In x (erase a (coll_of b (l_reg s))) <-> In x (coll_of b (l_reg s)) /\ x <> a).
      { intros x. pose proof (z_nodup _ Z b) as N. revert N. generalize (coll_of b (l_reg s)).
        intros l N. induction N as [|y l Ny N IH]; cbn; [tauto|]. destruct (Z.eqb_spec a y) as [->|Na]; cbn.
        - split; [intros I; split; [now right|intros ->; contradiction]|intros [[->|I] H]; [congruence|exact I]].
        - rewrite IH. intuition congruence. }
      pose proof (z_drop _ Z _ _ _ E) as Z0.
      split; cbn [l_reg l_calls l_done l_hist].
      * intros t. rewrite G. destruct (t =? b); [|apply Z]. rewrite erase_remove_one. apply remove_one_nodup, Z.
      * intros t x. rewrite G. destruct (Z.eqb_spec t b) as [->|Nt].
        -- rewrite Er, (z_coll _ Z). split.
           ++ intros [[I|(k' & X)] Nx]; [now left|right]. exists k'. rewrite get_aset.
              destruct (Nat.eqb_spec k' k) as [->|]; [congruence|exact X].
           ++ intros [I|(k' & X)].
              ** split; [now left|]. intros ->. lia.
              ** rewrite get_aset in X. destruct (Nat.eqb_spec k' k) as [Ek|Nk]; [discriminate|]. split; [eauto|].
                 intros ->. apply Nk. now apply (z_one _ Z k' k a b).
        -- rewrite (z_coll _ Z). split; (intros [I|(k' & X)]; [now left|right]; exists k').
           ++ rewrite get_aset. destruct (Nat.eqb_spec k' k) as [->|]; [congruence|exact X].
           ++ rewrite get_aset in X. destruct (Nat.eqb_spec k' k) as [Ek|]; [discriminate|exact X].
      * intros k' x t X. rewrite get_aset in X. destruct (Nat.eqb_spec k' k) as [Ek|]; [discriminate|].
        now apply (z_drop _ Z k').
      * intros k1 k2 x t X1 X2. rewrite get_aset in X1, X2.
        destruct (Nat.eqb_spec k1 k) as [->|], (Nat.eqb_spec k2 k) as [->|]; try discriminate.
        now apply (z_one _ Z k1 k2 x t).
      * intros t x I. rewrite G in I. destruct (Z.eqb_spec t b) as [->|]; [apply Er in I; destruct I as [I _]|];
          now apply (z_names _ Z).
    + cbn [lsection a_reg a_hold a_pc a_done]. apply (sinv_same s); cbn [l_reg l_calls l_done l_hist]; auto.
      * intros t'. now rewrite coll_of_atry.
      * apply (drop_keep k _ _ _ E); discriminate.
      * intros x y. rewrite links_of_snoc. cbn [delta]. lia.
      * intros x y X. rewrite links_of_snoc. cbn [delta]. lia.
    + apply (sinv_same s); cbn [l_reg l_calls l_done l_hist]; auto; try tauto.
      * intros k' a t. rewrite get_adel by apply K. destruct (Nat.eqb_spec k' k) as [->|]; [|tauto].
        split; [discriminate|congruence].
      * intros e I. rewrite in_app_iff. now left.
Qed.
End Sources.

(** * Runs of the link registry *)

Lemma begun_snoc {Op} (sch : list (sstep Op)) e : begun (sch ++ [e]) = (begun sch + if is_begin e then 1 else 0)%nat.
Proof. unfold begun. rewrite filter_app, app_length. cbn. now destruct (is_begin e). Qed.

Lemma lrun_snoc_conc name s sch e : lrun_conc name s (sch ++ [e]) = lstep_conc name e (lrun_conc name s sch).
Proof. unfold lrun_conc. now rewrite fold_left_app. Qed.

Lemma lnext_step name e s : l_next (lstep_conc name e s) = (l_next s + if is_begin e then 1 else 0)%nat.
Proof.
  destruct e as [o|k]; cbn; [lia|]. destruct (aget Nat.eqb k (l_calls s)) as [[]|]; cbn [l_next]; try lia;
    destruct (lsection name k _ (l_reg s) (l_holder s)); cbn [l_next]; lia.
Qed.

Lemma lhist_step name e s : exists t, l_hist (lstep_conc name e s) = l_hist s ++ t.
Proof.
  destruct e as [o|k]; cbn; [eauto|].
  destruct (aget Nat.eqb k (l_calls s)) as [[]|]; cbn [l_hist]; try (eauto; fail); try (exists []; now rewrite app_nil_r);
    destruct (lsection name k _ (l_reg s) (l_holder s)); cbn [l_hist]; exists []; now rewrite app_nil_r.
Qed.

Lemma lnext_run name sch : l_next (lrun_conc name l_init sch) = begun sch.
Proof. induction sch as [|e sch IH] using rev_ind; [reflexivity|]. now rewrite lrun_snoc_conc, lnext_step, begun_snoc, IH. Qed.

Lemma linkinv_init : LinkInv l_init.
Proof.
  split; cbn; try (intros; discriminate || reflexivity || lia).
  - intros k. split; [discriminate|intros (a & b & X); discriminate].
  - constructor.
Qed.

Lemma lrun_counts name sch : Z.of_nat (begun sch) < u32 ->
  CInv counts_ok (lrun_conc name l_init sch) /\ LinkInv (lrun_conc name l_init sch).
Proof.
  induction sch as [|e sch IH] using rev_ind; intros B.
  - split; [apply K_nil|exact linkinv_init].
  - rewrite begun_snoc in B. destruct IH as [K V]; [lia|]. rewrite lrun_snoc_conc.
    apply lstep_inv; try assumption; [exact counts_mono|rewrite lnext_run; lia|].
    intros k _ pc _. destruct (lsection _ _ _ _ _) as [a|]; [|exact Logic.I].
    destruct (a_done a) as [[o x]|]; [auto|exact Logic.I].
Qed.

Lemma undisturbed_prefix tr t : undisturbed (tr ++ t) -> undisturbed tr.
Proof.
  intros U i o j o' (p & q & -> & A & A'). apply (U i o j o'). exists p, (q ++ t). now rewrite app_assoc.
Qed.

Lemma distinct_prefix name (tr t : lhist) : distinct_sources name (tr ++ t) -> distinct_sources name tr.
Proof. intros D i j a b x I J. apply (D i j a b x); rewrite in_app_iff; now left. Qed.

Lemma lrun_sources name sch : Z.of_nat (begun sch) < u32 ->
  undisturbed (l_hist (lrun_conc name l_init sch)) -> distinct_sources name (l_hist (lrun_conc name l_init sch)) ->
  CInv links_ok (lrun_conc name l_init sch) /\ LinkInv (lrun_conc name l_init sch) /\ SInv (lrun_conc name l_init sch).
Proof.
  induction sch as [|e sch IH] using rev_ind; intros B U D.
  - split; [apply K_nil|]. split; [exact linkinv_init|]. split; cbn; try (intros; discriminate).
    + intros t. constructor.
    + intros t a. split; [tauto|]. intros [X|(k & X)]; [lia|discriminate].
    + tauto.
  - rewrite begun_snoc in B. rewrite lrun_snoc_conc in *.
    destruct (lhist_step name e (lrun_conc name l_init sch)) as (t & T). rewrite T in U, D.
    apply undisturbed_prefix in U. apply distinct_prefix in D.
    destruct IH as (K & V & Z); [lia|exact U|exact D|].
    assert (N : Z.of_nat (l_next (lrun_conc name l_init sch)) < u32) by (rewrite lnext_run; lia).
    assert (A : forall k, e = Run k -> allowed name links_ok (lrun_conc name l_init sch) k)
      by (intros k _; now apply allowed_links).
    destruct (lstep_inv name links_ok links_mono e _ K V N A) as [K' V'].
    split; [exact K'|]. split; [exact V'|now apply sstep_inv].
Qed.

(** ** Every call can return *)

Definition weight (pc : lpc) : nat := match pc with PBegin _ => 3 | PEnd _ => 1 | _ => 2 end.
Fixpoint total (calls : list (nat * lpc)) : nat :=
  match calls with [] => 0 | (_, pc) :: calls => weight pc + total calls end.

Lemma total_aset k pc pc' calls : aget Nat.eqb k calls = Some pc ->
  (total (aset Nat.eqb k pc' calls) + weight pc = total calls + weight pc')%nat.
Proof.
  induction calls as [|[k' p] calls IH]; [discriminate|]. cbn. destruct (k =? k')%nat.
  - intros X. injection X as ->. cbn. lia.
  - intros X. specialize (IH X). cbn. lia.
Qed.

Lemma total_adel k pc calls : aget Nat.eqb k calls = Some pc -> (total (adel Nat.eqb k calls) + weight pc = total calls)%nat.
Proof.
  induction calls as [|[k' p] calls IH]; [discriminate|]. cbn. destruct (k =? k')%nat.
  - intros X. injection X as ->. lia.
  - intros X. specialize (IH X). cbn. lia.
Qed.

Lemma lsection_lighter name k pc r holder a : lsection name k pc r holder = Some a -> (weight (a_pc a) < weight pc)%nat.
Proof.
  destruct pc as [o|x y|x y|t|x]; cbn [lsection]; try discriminate.
  - destruct o; try (destruct holder; [discriminate|]); try destruct (aget _ _ _);
      try destruct (_ =? 0); intros X; injection X as <-; cbn; lia.
  - destruct (coll_add _ _ _); intros X; injection X as <-; cbn; lia.
  - intros X. injection X as <-. cbn. lia.
  - intros X. injection X as <-. cbn. lia.
Qed.

Lemma lcan_move name s : LinkInv s -> l_calls s <> [] ->
  exists k, (total (l_calls (lstep_conc name (Run k) s)) < total (l_calls s))%nat.
Proof.
  intros V N.
  assert (W : forall k pc, aget Nat.eqb k (l_calls s) = Some pc ->
    (l_holder s = None \/ holds_links pc = true) ->
    (total (l_calls (lstep_conc name (Run k) s)) < total (l_calls s))%nat).
  { intros k pc E H. cbn [lstep_conc]. rewrite E.
    assert (S : match lsection name k pc (l_reg s) (l_holder s) with Some _ => True | None => exists x, pc = PEnd x end).
    { clear E. destruct pc as [o|x y|x y|t|x]; cbn [lsection]; eauto.
      - destruct H as [->|X]; [|discriminate]. destruct o; repeat match goal with |- context [aget ?e ?k ?m] => destruct (aget e k m) end;
          try destruct (_ =? 0); exact Logic.I.
      - destruct (coll_add _ _ _); exact Logic.I. }
    destruct pc as [o|x y|x y|t|x];
      try (destruct (lsection name k _ (l_reg s) (l_holder s)) as [a|] eqn:L; [|destruct S as (? & ?); discriminate];
           apply lsection_lighter in L; cbn [l_calls]; pose proof (total_aset k _ (a_pc a) _ E); lia).
    cbn [l_calls]. pose proof (total_adel k _ _ E). cbn in *. lia. }
  destruct (l_holder s) as [k|] eqn:H.
  - destruct (proj1 (i_holder _ V k) H) as (a & b & E). exists k. apply (W k (PAddTarget a b)); auto.
  - destruct (l_calls s) as [|[k pc] calls] eqn:C; [congruence|]. exists k. rewrite <- C in *.
    apply (W k pc); [|now left]. rewrite C. cbn. now rewrite Nat.eqb_refl.
Qed.

Lemma lfinish name n : forall sch, Z.of_nat (begun sch) < u32 ->
  (total (l_calls (lrun_conc name l_init sch)) <= n)%nat ->
  exists ks, l_calls (lrun_conc name l_init (sch ++ map Run ks)) = [].
Proof.
  induction n as [|n IH]; intros sch B T.
  - exists []. rewrite app_nil_r. destruct (l_calls (lrun_conc name l_init sch)) as [|[k pc] c]; [reflexivity|].
    cbn in T. destruct pc; cbn in T; lia.
  - destruct (l_calls (lrun_conc name l_init sch)) as [|c l] eqn:C; [exists []; now rewrite app_nil_r|].
    destruct (lcan_move name (lrun_conc name l_init sch)) as (k & M); [now apply lrun_counts|congruence|].
    rewrite <- lrun_snoc_conc in M. rewrite C in M.
    destruct (IH (sch ++ [Run k])) as (ks & F); [rewrite begun_snoc; cbn [is_begin]; now rewrite Nat.add_0_r|lia|].
    exists (k :: ks). rewrite <- app_assoc in F. exact F.
Qed.

Lemma lquiet ok s : CInv ok s -> l_calls s = [] -> quiet (l_hist s).
Proof.
  intros K C k o A. destruct (proj2 (k_live _ _ _ _ _ _ _ K k) (ex_intro _ o A)) as (pc & E). rewrite C in E. discriminate.
Qed.
