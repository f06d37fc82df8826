(** Published structures and arrays give access to their own memory. *)
From Coq Require Import ZArith List Bool String Lia.
From Verif Require Import Base Text UuidModel UuidProofs Assoc AnyModel HelperModel HelperSpec HelperProofs TypeModel TypeSpec TypeProofs TypeProps PlaceModel PlaceSpec PlaceProofs.
From Verif Require FieldStoreModel FieldStoreSpec FieldStoreProps.
Import ListNotations.
Local Open Scope Z_scope.

Lemma plain_run os : Forall c_names os -> plain (trun new_registry os).
Proof.
  intros F. unfold plain. apply run_names; [assumption|]. intros v t f G I.
  assert (X : forall v t, get_type new_registry v = Some t -> fields_of t = []).
  { apply (forall_get (fun _ t => fields_of t = [])). vm_compute. repeat constructor. }
  rewrite (X _ _ G) in I. destruct I.
Qed.

(** struct Tank { Int32 level @0; String[7] label @4; Int16 flow[3] @12; Mode mode @20;
    struct { Float64 x @0; UInt8 y @8 } pump[2] @24 }, 56 bytes. *)
Definition ex_member (s : string) (u off : Z) (state : bool) : sfield := SField (codes s) u off state false false.
Definition ex_types : list top :=
  [ TString (codes "Label") 100 7;
    TArray (codes "Flows") 101 uInt16 2 3 true;
    TEnum (codes "Mode") 102 4; TLiteral 102 (codes "OFF") 0; TLiteral 102 (codes "ON") 7;
    TStruct (codes "Pump") 103; TField 103 (ex_member "x" uFloat64 0 true); TField 103 (ex_member "y" uUInt8 8 false);
    TArray (codes "Pumps") 104 103 16 2 false;
    TStruct (codes "Tank") 105;
    TField 105 (ex_member "level" uInt32 0 true); TField 105 (ex_member "label" 100 4 true);
    TField 105 (ex_member "flow" 101 12 true); TField 105 (ex_member "mode" 102 20 true);
    TField 105 (ex_member "pump" 104 24 true) ].
Definition ex_registry := trun new_registry ex_types.
Definition ex_flags := Flags true false true.
Definition ex_tank : mfield :=
  match place 4 ex_registry 105 1000 ex_flags with Some (Ok f) => f | _ => MArr [] ex_flags end.

Ltac look :=
  cbn [describes]; match goal with |- context [get_type ex_registry ?u] =>
    let g := eval vm_compute in (get_type ex_registry u) in replace (get_type ex_registry u) with g by (vm_compute; reflexivity)
  end; cbn [ty_def sf_type sf_offset value_size].
Ltac pairs :=
  let i := fresh in let j := fresh in intros i j ? ? ? ? N;
  destruct i as [|[|[|[|[|[|i]]]]]], j as [|[|[|[|[|[|j]]]]]]; cbn [nth_error]; intros; try congruence;
  repeat match goal with H : Some _ = Some _ |- _ => injection H as <- end; cbn [sf_offset]; unfold apart; lia.
Lemma ex_describes : describes 4 ex_registry 105 56.
Proof.
  look. split; [lia|]. exists [4; 8; 6; 4; 32]. split; [|pairs].
  constructor; [split; [look|cbn [sf_offset]]; lia|].
  constructor; [split; [look|cbn [sf_offset]]; lia|].
  constructor; [split; [look; split; [look; lia|lia]|cbn [sf_offset]; lia]|].
  constructor; [split; [look|cbn [sf_offset]]; lia|].
  constructor; [split; [|cbn [sf_offset]; lia]|constructor].
  look. split; [|lia]. look. split; [lia|]. exists [8; 1]. split; [|pairs].
  constructor; [split; [look|cbn [sf_offset]]; lia|].
  constructor; [split; [look|cbn [sf_offset]]; lia|constructor].
Qed.
Lemma ex_placed : place 4 ex_registry 105 1000 ex_flags = Some (Ok ex_tank).
Proof. vm_compute. reflexivity. Qed.
Lemma ex_c_names : Forall c_names ex_types.
Proof. repeat constructor; vm_compute; intuition discriminate. Qed.

(** Every type that describes a C++ type, with valid and different member names, can be
    published at any address. *)
Theorem C87_can_be_published : forall os d u size addr fl,
  (forall v t, get_type (trun new_registry os) v = Some t ->
     NoDup (map sf_name (fields_of t)) /\ forall f, In f (fields_of t) -> valid_name (sf_name f) /\ ~ In 0 (sf_name f)) ->
  describes d (trun new_registry os) u size -> exists f, place d (trun new_registry os) u addr fl = Some (Ok f).
Proof.
  intros os d u size addr fl W D. eapply place_all; eauto.
  apply (proj1 (C45_standard_types os)). vm_compute. tauto.
Qed.

(** What is published: every member of a structure under its name at its offset, every item of an
    array at its multiple of the item size; inputs and outputs are inherited from the
    structure, the state flag is the one of the member. *)
Theorem C87_declared : forall os n u addr fl f, Forall c_names os ->
  place n (trun new_registry os) u addr fl = Some (Ok f) -> declared (trun new_registry os) u addr fl f.
Proof. intros os n u addr fl f F E. eapply place_declared; eauto using plain_run. Qed.

(** The field of a member is found by its name. *)
Theorem C87_found_by_name : forall os n u addr fl cs g, Forall c_names os ->
  place n (trun new_registry os) u addr fl = Some (Ok (MStruct cs g)) ->
  forall nm c, child_named nm cs = Some c <-> In (nm, c) cs.
Proof.
  intros os n u addr fl cs g F E nm c. pose proof (C87_declared os n u addr fl _ F E) as D. inversion D; subst.
  split; [|apply child_named_in; assumption].
  clear. induction cs as [|[m d] cs IH]; cbn; [discriminate|]. destruct (list_eqb nm m) eqn:Q; [|auto].
  apply list_eqb_eq in Q. subst. intros H. injection H as ->. now left.
Qed.

(** The published field is the one of C45: same outcome, same parts. *)
Theorem C87_same_parts : forall r n u addr fl, same_outcome (place n r u addr fl) (expand n r u).
Proof. intros. apply place_same. Qed.

Example ex_tank_parts :
  leaf_at [0]%nat ex_tank = Some (Slot 1000 (Leaf KI32 None None) (Flags true false true)) /\
  leaf_at [1]%nat ex_tank = Some (Slot 1004 (Leaf KString8 (Some 7) None) (Flags true false true)) /\
  leaf_at [2; 2]%nat ex_tank = Some (Slot 1016 (Leaf KI16 None None) (Flags true false true)) /\
  leaf_at [2; 3]%nat ex_tank = None /\
  leaf_at [3]%nat ex_tank = Some (Slot 1020 (Leaf KI32 None (Some [0; 7])) (Flags true false true)) /\
  leaf_at [4; 1; 1]%nat ex_tank = Some (Slot 1048 (Leaf KU8 None None) (Flags false false true)) /\
  (exists cs g, ex_tank = MStruct cs g /\ child_named (codes "mode") cs = Some (MSimple 1020 (Leaf KI32 None (Some [0; 7])) (Flags true false true))).
Proof. repeat (split; [vm_compute; reflexivity|]). eexists. eexists. vm_compute. split; reflexivity. Qed.

(** The simple fields lie inside the memory of the C++ object and never share a byte. *)
Theorem C87_inside : forall os d n u size addr fl f p s, Forall c_names os ->
  describes d (trun new_registry os) u size -> place n (trun new_registry os) u addr fl = Some (Ok f) ->
  leaf_at p f = Some s -> exists k, occupies s k /\ 0 < k /\ addr <= s_addr s /\ s_addr s + k <= addr + size.
Proof.
  intros os d n u size addr fl f p s F D E L. destruct (same_depth _ _ _ _ _ _ _ _ D E) as [D' E'].
  destruct (leaf_within _ _ _ _ _ _ _ _ _ (plain_run os F) D' E' L) as (k&O&B&A). exists k. repeat split; try assumption; lia.
Qed.
Theorem C87_apart : forall os d n u size addr fl f p q s s' k k', Forall c_names os ->
  describes d (trun new_registry os) u size -> place n (trun new_registry os) u addr fl = Some (Ok f) ->
  leaf_at p f = Some s -> leaf_at q f = Some s' -> p <> q -> occupies s k -> occupies s' k' ->
  apart (s_addr s) k (s_addr s') k'.
Proof.
  intros os d n u size addr fl f p q s s' k k' F D E L L' N O O'. destruct (same_depth _ _ _ _ _ _ _ _ D E) as [D' E'].
  eapply leaves_apart; eauto using plain_run.
Qed.

Lemma published_sound os d n u size addr fl f : Forall c_names os ->
  describes d (trun new_registry os) u size -> place n (trun new_registry os) u addr fl = Some (Ok f) -> sound_field f addr size.
Proof.
  intros F D E. destruct (same_depth _ _ _ _ _ _ _ _ D E) as [D' E']. eapply placed_sound; eauto using plain_run.
Qed.

(** After any history of SetValue calls, GetValue of a simple field gives back the last
    value accepted for it, and what it gave before when there is none. *)
Theorem C87_history : forall os d n u size addr fl f ops m, Forall c_names os ->
  describes d (trun new_registry os) u size -> place n (trun new_registry os) u addr fl = Some (Ok f) ->
  (forall o, In o ops -> proper (snd o)) ->
  (forall p s before v later, leaf_at p f = Some s -> ops = before ++ (p, v) :: later -> acceptable s v ->
     (forall w, In (p, w) later -> ~ acceptable s w) -> get_value (after m f ops) s = Ok (given_back s v)) /\
  (forall p s, leaf_at p f = Some s -> (forall w, In (p, w) ops -> ~ acceptable s w) ->
     get_value (after m f ops) s = get_value m s) /\
  (forall x, ~ (addr <= x < addr + size) -> after m f ops x = m x).
Proof.
  intros os d n u size addr fl f ops m F D E P. pose proof (published_sound _ _ _ _ _ _ _ _ F D E) as SF. repeat split.
  - intros p s before v later L -> A N. eapply history_last; eauto.
  - intros p s L N. eapply history_quiet; eauto.
  - intros x X. eapply history_outside; eauto.
Qed.

(** Each call: an acceptable value is taken, another is refused with an exception. *)
Theorem C87_accepted : forall os d n u size addr fl f p s v m, Forall c_names os ->
  describes d (trun new_registry os) u size -> place n (trun new_registry os) u addr fl = Some (Ok f) ->
  leaf_at p f = Some s -> proper v ->
  (acceptable s v -> exists m', set_value m s v = Ok m') /\
  (~ acceptable s v -> exists e, set_value m s v = Throw e).
Proof.
  intros os d n u size addr fl f p s v m F D E L P. pose proof (published_sound _ _ _ _ _ _ _ _ F D E) as SF. split.
  - intros A. destruct (step1_accepted f addr size m p v s SF L A). eauto.
  - intros A. destruct SF as [W _]. destruct (W p s L) as (k&O&B&_). destruct (set_value_refused m s k v (conj O B) P A) as (e&Q&_). eauto.
Qed.

Definition ex_ops87 : list (list nat * value) :=
  [ ([0%nat], VBytes [1; 2; 3; 4]); ([1%nat], VText (Some (codes "very long"))); ([3%nat], VBytes [7; 0; 0; 0]);
    ([3%nat], VBytes [1; 0; 0; 0]); ([2; 1]%nat, VBytes [9; 9]); ([4; 0; 1]%nat, VBytes [5]); ([0%nat], VBytes [6]) ].
Definition ex_get (m : mem) (p : list nat) : option (res vexn value) :=
  match leaf_at p ex_tank with Some s => Some (get_value m s) | None => None end.
Example ex_history :
  let m := after (fun _ => 0) ex_tank ex_ops87 in
  ex_get m [0%nat] = Some (Ok (VBytes [1; 2; 3; 4])) /\
  ex_get m [1%nat] = Some (Ok (VText (Some (codes "very lo")))) /\
  ex_get m [2; 0]%nat = Some (Ok (VBytes [0; 0])) /\ ex_get m [2; 1]%nat = Some (Ok (VBytes [9; 9])) /\
  ex_get m [3%nat] = Some (Ok (VBytes [7; 0; 0; 0])) /\
  ex_get m [4; 0; 1]%nat = Some (Ok (VBytes [5])) /\ ex_get m [4; 1; 1]%nat = Some (Ok (VBytes [0])) /\
  (forall o, In o ex_ops87 -> proper (snd o)).
Proof.
  repeat (split; [vm_compute; reflexivity|]). intros o H. cbn in H. intuition (subst; cbn; auto).
  intros H. repeat (destruct H as [H|H]; [discriminate|]). exact H.
Qed.

(** * Simple arrays *)
(** The values of a simple array, wherever it is in the structure: all of them are written
    and given back, and nothing else changes. *)
Theorem C87_set_values : forall os d n u size addr fl f p a l isize count g vs m, Forall c_names os ->
  describes d (trun new_registry os) u size -> place n (trun new_registry os) u addr fl = Some (Ok f) ->
  part p f = Some (MSArr a l isize count g) -> Z.of_nat (length vs) = count ->
  (forall i v s, nth_error vs i = Some v -> leaf_at (p ++ [i]) f = Some s -> acceptable s v) ->
  exists m', set_values m (MSArr a l isize count g) vs = (m', Ok tt) /\
    (exists ws, get_values m' (MSArr a l isize count g) (length vs) = Ok ws /\ length ws = length vs /\
       forall i v s, nth_error vs i = Some v -> leaf_at (p ++ [i]) f = Some s -> nth_error ws i = Some (given_back s v)) /\
    (forall q s, leaf_at q f = Some s -> (forall i, q <> p ++ [i]) -> get_value m' s = get_value m s) /\
    (forall x, ~ (addr <= x < addr + size) -> m' x = m x).
Proof.
  intros os d n u size addr fl f p a l isize count g vs m F D E PF C A. pose proof (published_sound _ _ _ _ _ _ _ _ F D E) as SF.
  assert (LA : forall i, (i < length vs)%nat -> leaf_at (p ++ [i]) f = Some (item_slot a l isize g i)).
  { intros i H. rewrite (leaf_part p f _ [i] PF). cbn. destruct (Z.ltb_spec (Z.of_nat i) count); [reflexivity|lia]. }
  assert (A' : forall k v, nth_error vs k = Some v -> acceptable (item_slot a l isize g k) v).
  { intros k v K. apply (A k v); [exact K|]. apply LA. apply nth_error_Some. congruence. }
  exists (after m f (item_ops p 0 vs)). split; [|split; [|split]].
  - unfold set_values. cbn [array_size]. destruct (Z.eqb_spec (Z.of_nat (length vs)) count); [|lia]. cbn [negb].
    eapply set_items_ok; eauto. lia.
  - set (ws := map (fun v => given_back (item_slot a l isize g 0) v) vs).
    assert (LW : length ws = length vs) by apply map_length. exists ws. split; [|split; [exact LW|]].
    + unfold get_values. cbn [array_size]. destruct (Z.eqb_spec (Z.of_nat (length vs)) count); [|lia]. cbn [negb].
      rewrite <- LW. apply get_items_all; [lia|]. intros k v K. cbn [Nat.add]. unfold ws in K. rewrite nth_error_map in K.
      destruct (nth_error vs k) as [w|] eqn:W; [|discriminate]. injection K as <-.
      rewrite (given_back_item a l isize g 0 k). eapply item_written; eauto. lia.
    + intros i v s K L. unfold ws. rewrite nth_error_map, K. rewrite LA in L by (apply nth_error_Some; congruence). injection L as <-. reflexivity.
  - intros q s L N. eapply history_quiet; eauto using item_ops_proper.
    intros v H. apply in_item_ops in H. destruct H as (k&Q&_). exfalso. now apply (N k).
  - intros x X. eapply history_outside; eauto using item_ops_proper.
Qed.

(** A wrong number of values is refused and nothing is written. *)
Theorem C87_wrong_length : forall m a l isize count g vs n,
  (Z.of_nat (length vs) <> count -> set_values m (MSArr a l isize count g) vs = (m, Throw InvalidArraySize)) /\
  (Z.of_nat n <> count -> get_values m (MSArr a l isize count g) n = Throw InvalidArraySize).
Proof.
  intros. unfold set_values, get_values. cbn [array_size]. split; intros H.
  - destruct (Z.eqb_spec (Z.of_nat (length vs)) count); [contradiction|reflexivity].
  - destruct (Z.eqb_spec (Z.of_nat n) count); [contradiction|reflexivity].
Qed.

(** A value that is not acceptable stops SetValues: the values before it are written, the
    items from there on keep theirs. *)
Theorem C87_stops_at_refused : forall os d n u size addr fl f p a l isize count g good bad rest m, Forall c_names os ->
  describes d (trun new_registry os) u size -> place n (trun new_registry os) u addr fl = Some (Ok f) ->
  part p f = Some (MSArr a l isize count g) -> Z.of_nat (length (good ++ bad :: rest)) = count ->
  (forall i v s, nth_error good i = Some v -> leaf_at (p ++ [i]) f = Some s -> acceptable s v) ->
  proper bad -> (forall s, leaf_at (p ++ [length good]) f = Some s -> ~ acceptable s bad) ->
  exists m', set_values m (MSArr a l isize count g) (good ++ bad :: rest) = (m', Throw InvalidArrayValue) /\
    (forall i v s, nth_error good i = Some v -> leaf_at (p ++ [i]) f = Some s -> get_value m' s = Ok (given_back s v)) /\
    (forall q s, leaf_at q f = Some s -> (forall i, (i < length good)%nat -> q <> p ++ [i]) -> get_value m' s = get_value m s).
Proof.
  intros os d n u size addr fl f p a l isize count g good bad rest m F D E PF C A P B. pose proof (published_sound _ _ _ _ _ _ _ _ F D E) as SF.
  assert (LA : forall i, (i <= length good)%nat -> leaf_at (p ++ [i]) f = Some (item_slot a l isize g i)).
  { intros i H. rewrite (leaf_part p f _ [i] PF). cbn. rewrite app_length in C. cbn in C. destruct (Z.ltb_spec (Z.of_nat i) count); [reflexivity|lia]. }
  assert (A' : forall k v, nth_error good k = Some v -> acceptable (item_slot a l isize g k) v).
  { intros k v K. apply (A k v); [exact K|]. apply LA. apply Nat.lt_le_incl, nth_error_Some. congruence. }
  exists (after m f (item_ops p 0 good)). split; [|split].
  - unfold set_values. cbn [array_size]. destruct (Z.eqb_spec (Z.of_nat (length (good ++ bad :: rest))) count); [|lia]. cbn [negb].
    eapply set_items_stop; eauto; try lia; apply B; apply LA; lia.
  - intros i v s K L. rewrite LA in L by (apply Nat.lt_le_incl, nth_error_Some; congruence). injection L as <-.
    eapply item_written; eauto. rewrite app_length in C. lia.
  - intros q s L N. eapply history_quiet; eauto using item_ops_proper.
    intros v H. apply in_item_ops in H. destruct H as (k&Q&K). exfalso. apply (N k); [|exact Q]. apply nth_error_Some. congruence.
Qed.

Example ex_set_values :
  exists a l isize g, part [2%nat] ex_tank = Some (MSArr a l isize 3 g) /\
  (let r := set_values (fun _ => 1) (MSArr a l isize 3 g) [VBytes [1; 2]; VBytes [3; 4]; VBytes [5; 6]] in
   snd r = Ok tt /\ get_values (fst r) (MSArr a l isize 3 g) 3 = Ok [VBytes [1; 2]; VBytes [3; 4]; VBytes [5; 6]] /\
   ex_get (fst r) [0%nat] = Some (Ok (VBytes [1; 1; 1; 1]))) /\
  (let r := set_values (fun _ => 1) (MSArr a l isize 3 g) [VBytes [1; 2]; VText None; VBytes [5; 6]] in
   snd r = Throw InvalidArrayValue /\ get_values (fst r) (MSArr a l isize 3 g) 3 = Ok [VBytes [1; 2]; VBytes [1; 1]; VBytes [1; 1]]).
Proof. do 4 eexists. split; [vm_compute; reflexivity|]. vm_compute. repeat split; reflexivity. Qed.

(** So SetValues is not all or nothing. *)
Theorem C87_all_or_nothing_refuted : exists os u f p a l isize count g vs m m' e, Forall c_names os /\
  describes 4 (trun new_registry os) u 56 /\ place 4 (trun new_registry os) u 1000 ex_flags = Some (Ok f) /\
  part p f = Some (MSArr a l isize count g) /\ set_values m (MSArr a l isize count g) vs = (m', Throw e) /\
  exists x, m' x <> m x.
Proof.
  exists ex_types, 105, ex_tank, [2%nat]. do 4 eexists. exists (Flags true false true), [VBytes [1; 2]; VText None; VBytes [5; 6]], (fun _ => 1).
  do 2 eexists. split; [exact ex_c_names|]. split; [exact ex_describes|]. split; [exact ex_placed|].
  split; [vm_compute; reflexivity|]. split; [unfold set_values; cbn; reflexivity|]. exists 1013. vm_compute. discriminate.
Qed.

(** * Store and Restore *)
(** What Store writes, Restore brings back: the values of the simple fields that are a state
    inside states; the others and all other memory keep what they have. *)
Theorem C87_saved : forall os d n u size addr fl f m, Forall c_names os -> 0 <= addr ->
  describes d (trun new_registry os) u size -> place n (trun new_registry os) u addr fl = Some (Ok f) ->
  exists bytes, FieldStoreModel.store (from_zero m) (stored f) = Ok bytes /\
  forall now rest, exists now', FieldStoreModel.restore (from_zero now) (stored f) (bytes ++ rest) = (now', Ok rest) /\
    (forall p s, leaf_at p f = Some s -> kept p f -> get_value (to_zero now') s = get_value m s) /\
    (forall p s, leaf_at p f = Some s -> ~ kept p f -> get_value (to_zero now') s = get_value now s) /\
    (forall x, 0 <= x -> ~ (addr <= x < addr + size) -> to_zero now' x = now x).
Proof.
  intros os d n u size addr fl f m F A0 D E. pose proof (published_sound _ _ _ _ _ _ _ _ F D E) as SF.
  destruct (same_depth _ _ _ _ _ _ _ _ D E) as [D' E']. pose proof (plain_run os F) as PR.
  pose proof (placed_creatable _ _ _ _ _ _ _ PR D' E') as CR. pose proof (placed_tight _ _ _ _ _ _ _ PR D' A0 E') as T.
  assert (AB : above f) by (intros p s L; destruct SF as [W _]; destruct (W p s L) as (k&O&B&A1&A2); split; [lia|exists k; split; assumption]).
  destruct (FieldStoreProps.C42_round_trip (stored f) CR (from_zero m)) as (bytes&ES&R). exists bytes. split; [exact ES|].
  intros now rest. destruct (R (from_zero now) rest) as (now'&RE&B1&B2). exists now'. split; [exact RE|].
  destruct SF as [W AP]. split; [|split].
  - intros p s L K. destruct (W p s L) as (k&O&B&A1&A2). apply (get_agree s k); [split; assumption|]. intros x X. unfold to_zero.
    rewrite (B1 (Z.to_nat x)); [unfold from_zero; now rewrite Z2Nat.id by lia|].
    apply (leaf_kept_state f p s); auto. exists k. rewrite Z2Nat.id by lia. auto.
  - intros p s L K. destruct (W p s L) as (k&O&B&A1&A2). apply (get_agree s k); [split; assumption|]. intros x X. unfold to_zero.
    rewrite (B2 (Z.to_nat x)); [unfold from_zero; now rewrite Z2Nat.id by lia|].
    intros S. destruct (state_kept_leaf f (Z.to_nat x) AB T S) as (q&s'&L'&K'&(k'&O'&X')). rewrite Z2Nat.id in X' by lia.
    assert (N : p <> q) by congruence. specialize (AP p q s s' L L' N k k' O O'). unfold apart in AP. lia.
  - intros x X0 X. unfold to_zero. rewrite (B2 (Z.to_nat x)); [unfold from_zero; now rewrite Z2Nat.id by lia|].
    intros S. destruct (state_kept_leaf f (Z.to_nat x) AB T S) as (q&s'&L'&K'&(k'&O'&X')). rewrite Z2Nat.id in X' by lia.
    destruct (W q s' L') as (k&O&B&A1&A2). rewrite (occupies_fun _ _ _ O O') in *. lia.
Qed.

(** The level is kept, the transient member of each pump is not. *)
Example ex_kept : kept [0%nat] ex_tank /\ kept [4; 1; 0]%nat ex_tank /\ ~ kept [4; 1; 1]%nat ex_tank.
Proof.
  split; [vm_compute; auto|]. split; [vm_compute; auto|]. vm_compute. intros H. decompose [and] H. discriminate.
Qed.

(** * What the registry does not check *)
(** An item size smaller than the items, and members that overlap, are accepted: then
    setting one simple field changes another. *)
Theorem C87_overlap_refuted : exists os, Forall c_names os /\
  (exists f s s' m m' v, place 2 (trun new_registry os) 200 1000 ex_flags = Some (Ok f) /\
     leaf_at [0%nat] f = Some s /\ leaf_at [1%nat] f = Some s' /\ set_value m s v = Ok m' /\ get_value m' s' <> get_value m s') /\
  (exists f s s' m m' v, place 2 (trun new_registry os) 201 1000 ex_flags = Some (Ok f) /\
     leaf_at [0%nat] f = Some s /\ leaf_at [1%nat] f = Some s' /\ set_value m s v = Ok m' /\ get_value m' s' <> get_value m s').
Proof.
  exists [ TArray (codes "Close") 200 uInt32 2 3 true;
           TStruct (codes "Both") 201; TField 201 (ex_member "a" uInt32 0 true); TField 201 (ex_member "b" uInt32 2 true) ].
  split; [repeat constructor; vm_compute; intuition discriminate|]. split.
  - do 3 eexists. exists (fun _ => 0). eexists. exists (VBytes [1; 1; 1; 1]).
    split; [vm_compute; reflexivity|]. split; [vm_compute; reflexivity|]. split; [vm_compute; reflexivity|].
    split; [cbn; reflexivity|]. vm_compute. discriminate.
  - do 3 eexists. exists (fun _ => 0). eexists. exists (VBytes [1; 1; 1; 1]).
    split; [vm_compute; reflexivity|]. split; [vm_compute; reflexivity|]. split; [vm_compute; reflexivity|].
    split; [cbn; reflexivity|]. vm_compute. discriminate.
Qed.

(** A string type of negative length is accepted: a text of any length is then copied
    whole, over the memory that follows. *)
Theorem C87_negative_length_refuted : exists os, Forall c_names os /\
  exists f s, place 1 (trun new_registry os) 200 1000 ex_flags = Some (Ok f) /\ leaf_at [] f = Some s /\
  forall t m, ~ In 0 t -> Z.of_nat (length t) < 2 ^ 63 ->
    set_value m s (VText (Some t)) = Ok (write m 1000 (t ++ [0])).
Proof.
  exists [ TString (codes "Odd") 200 (-1) ]. split; [repeat constructor; vm_compute; intuition discriminate|].
  do 2 eexists. split; [vm_compute; reflexivity|]. split; [reflexivity|]. intros t m _ L. unfold set_value. cbn [s_leaf l_kind l_len s_addr]. unfold copied.
  change (-1 mod 2 ^ 64) with (2 ^ 64 - 1). destruct (Z.leb_spec (Z.of_nat (length t)) (2 ^ 64 - 1)); [reflexivity|lia].
Qed.

(** A 32-bit enumeration field takes the values of its literals, negative ones included,
    and refuses all others. *)
Theorem C87_enumeration : forall m s lits z, l_kind (s_leaf s) = KI32 -> l_lits (s_leaf s) = Some lits -> - 2 ^ 31 <= z < 2 ^ 31 ->
  (In z lits -> set_value m s (VBytes (bytes32 z)) = Ok (write m (s_addr s) (bytes32 z))) /\
  (~ In z lits -> set_value m s (VBytes (bytes32 z)) = Throw InvalidFieldValue).
Proof. intros m s lits z. apply enumeration_values. Qed.
Example C87_enumeration_example : exists s, leaf_at [3]%nat ex_tank = Some s /\ l_kind (s_leaf s) = KI32 /\ l_lits (s_leaf s) = Some [0; 7] /\ bytes32 7 = [7; 0; 0; 0] /\ bytes32 (-2) = [254; 255; 255; 255].
Proof. eexists. split; [vm_compute; reflexivity|]. repeat split. Qed.

Print Assumptions C87_history.
Print Assumptions C87_saved.
