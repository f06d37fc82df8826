(** What a user expects of the fields of a publication. *)
From Coq Require Import ZArith List Bool.
From Verif Require Import Base Text HelperSpec TypeModel PlaceModel PubModel.
From Verif Require PathModel.
Import ListNotations.
Local Open Scope Z_scope.

(** The state and the outcomes after a history of calls on a new publication. *)
Definition after (d : nat) (r : reg) (h : list call) : pubs := fst (run d r no_fields h).
Definition trace (d : nat) (r : reg) (h : list call) : list (call * res texn nat) := snd (run d r no_fields h).

(** The name a call publishes, and whether the publication creates the field itself. *)
Definition publishes (c : call) : option (list Z * bool) :=
  match c with
  | PublishField _ (Some n) _ _ _ | PublishSimpleArray _ (Some n) _ _ _ _ | PublishArray _ (Some n)
  | PublishStructure _ (Some n) => Some (n, true)
  | PublishIField _ n _ => Some (n, false)
  | _ => None
  end.

(** What was published in [p] since it was last emptied: name, kind of publication,
    number. *)
Definition note (p : nat) (l : list (list Z * bool * nat)) (x : call * res texn nat) : list (list Z * bool * nat) :=
  match x with
  | (Unpublish q, Ok _) => if Nat.eqb q p then [] else l
  | (c, Ok i) => match publishes c with
                 | Some (n, b) => if Nat.eqb (target c) p then l ++ [(n, b, i)] else l
                 | None => l
                 end
  | _ => l
  end.
Definition published (p : nat) (t : list (call * res texn nat)) : list (list Z * bool * nat) := fold_left (note p) t [].

(** The caller never lets the publication create a field with the name of a field that it
    gave to the same publication before. *)
Definition no_shadow (h : list call) : Prop :=
  forall h1 c1 h2 c2 h3 n, h = h1 ++ c1 :: h2 ++ c2 :: h3 -> target c1 = target c2 ->
    publishes c1 = Some (n, false) -> publishes c2 = Some (n, true) -> False.

(** The names given are C strings; the fields given have valid and different names, and
    their arrays have fewer than 2^63 items. *)
Inductive well_formed : mfield -> Prop :=
| wf_simple : forall a l fl, well_formed (MSimple a l fl)
| wf_simple_array : forall a l isize count fl, well_formed (MSArr a l isize count fl)
| wf_array : forall items fl, Z.of_nat (length items) <= i64_max -> (forall c, In c items -> well_formed c) -> well_formed (MArr items fl)
| wf_struct : forall fs fl, NoDup (map fst fs) -> (forall n c, In (n, c) fs -> valid_name n /\ well_formed c) -> well_formed (MStruct fs fl).
Definition proper_call (c : call) : Prop :=
  match c with
  | PublishField _ (Some n) _ _ _ | PublishSimpleArray _ (Some n) _ _ _ _ | PublishArray _ (Some n)
  | PublishStructure _ (Some n) => ~ In 0 n
  | PublishIField _ n f => valid_name n /\ well_formed f
  | _ => True
  end.

(** The counts of the array types are Int64. *)
Definition counts_fit (r : reg) : Prop :=
  forall u t item isize count simple, get_type r u = Some t -> ty_def t = DArray item isize count simple -> count <= i64_max.

(** No anonymous array has 2^63 items. *)
Definition small (s : pubs) : Prop := Z.of_nat (length (entries s)) <= i64_max.

(** The text of a path from a field to one of its parts: a dot and a name, or an index
    between brackets. *)
Inductive spells : mfield -> list nat -> list Z -> Prop :=
| sp_here : forall f, spells f [] []
| sp_field : forall fs fl i n c p t, nth_error fs i = Some (n, c) -> spells c p t -> spells (MStruct fs fl) (i :: p) (46 :: n ++ t)
| sp_item : forall items fl i c p t, nth_error items i = Some c -> spells c p t -> spells (MArr items fl) (i :: p) (PathModel.item_name i ++ t).

(** The same from a published field, through anonymous structures and arrays. *)
Inductive leads (s : pubs) : entry -> list Z -> field_id -> Prop :=
| le_typed : forall e f p t, e_what e = Typed f -> spells f p t -> leads s e t (e_id e, p)
| le_here : forall e, is_anon (e_what e) = true -> leads s e [] (e_id e, [])
| le_field : forall e c t x, e_what e = AnonStruct -> In c (fields s (e_id e)) -> leads s c t x -> leads s e (46 :: e_name c ++ t) x
| le_item : forall e i c t x, e_what e = AnonArray -> nth_error (fields s (e_id e)) i = Some c -> leads s c t x ->
    leads s e (PathModel.item_name i ++ t) x.
(** From a publication. *)
Definition leads_from (s : pubs) (p : nat) (t : list Z) (x : field_id) : Prop :=
  exists e t', In e (fields s p) /\ t = e_name e ++ t' /\ leads s e t' x.

(** The publication is that of the component, or of an anonymous array. *)
Definition searches (s : pubs) (p : nat) : Prop := forall e, In e (entries s) -> e_id e = p -> e_what e = AnonArray.

(** [e] is published in [p], or in an anonymous field that is. *)
Inductive below (s : pubs) (p : nat) : entry -> Prop :=
| be_here : forall e, In e (fields s p) -> below s p e
| be_inside : forall e c, below s p e -> In c (fields s (e_id e)) -> below s p c.

(** The field is one of the fields published in [p] or below, or a part of it. *)
Fixpoint part (q : list nat) (f : mfield) : Prop :=
  match q with
  | [] => True
  | i :: q =>
      match f with
      | MArr items _ => match nth_error items i with Some c => part q c | None => False end
      | MStruct fs _ => match nth_error fs i with Some (_, c) => part q c | None => False end
      | _ => False
      end
  end.
Definition exists_below (s : pubs) (p : nat) (x : field_id) : Prop :=
  exists e, below s p e /\ e_id e = fst x /\ match e_what e with Typed f => part (snd x) f | _ => snd x = [] end.

(** All the anonymous fields around the publication [p] are structures. *)
Inductive in_structures (s : pubs) : nat -> Prop :=
| is_root : in_structures s 0
| is_inside : forall e, In e (entries s) -> e_what e = AnonStruct -> in_structures s (e_in e) -> in_structures s (e_id e).
