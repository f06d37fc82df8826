(** What is meant by connecting structured fields whose parts hand values on. *)
From Coq Require Import List.
From Verif Require Import Base AnyModel HelperModel FlowModel FlowSpec.

(** The simple parts of the target may feed further fields, but no loop, no part of the
    source and no field twice; all they feed, at most the fields [ids], can hold the values.
    The simple arrays are of one kind. *)
Definition hands_on (w : world) (s t : tree) (ids : list nat) : Prop :=
  (forall i j, parts s t (TSimple i) (TSimple j) ->
     takes (leafs w i) (lval (leafs w i)) /\ loop_free w j /\
     forall k, reaches w j k ->
       In k ids /\ takes (leafs w k) (lval (leafs w i)) /\
       forall i' j', parts s t (TSimple i') (TSimple j') -> k <> i' /\ (reaches w j' k -> j' = j)) /\
  (forall i j, parts s t (TSArr i) (TSArr j) ->
     ak (arrs w i) = ak (arrs w j) /\ kind_of (ac (arrs w i)) (ak (arrs w i)) /\
     kind_of (ac (arrs w j)) (ak (arrs w j)) /\
     forall v, In v (avals (arrs w i)) -> value_of (ac (arrs w i)) v /\ value_of (ac (arrs w j)) v).

(** The values of the parts of the source have arrived in the parts of the target and in
    all they feed, forced fields excepted, and nowhere else. *)
Definition arrived (w w' : world) (s t : tree) : Prop :=
  (forall i j k, parts s t (TSimple i) (TSimple j) -> reaches w j k -> ~ is_forced w k ->
     lval (leafs w' k) = lval (leafs w i)) /\
  (forall k, is_forced w k -> lval (leafs w' k) = lval (leafs w k)) /\
  (forall k, (forall i j, parts s t (TSimple i) (TSimple j) -> ~ reaches w j k) ->
     lval (leafs w' k) = lval (leafs w k)) /\
  (forall i j, parts s t (TSArr i) (TSArr j) -> avals (arrs w' j) = avals (arrs w i)) /\
  (forall k, ~ In k (tids t) -> avals (arrs w' k) = avals (arrs w k)).
