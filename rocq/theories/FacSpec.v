(** What the factory and failure properties talk about. *)
From Verif Require Import Base FacModel.

(** The factories registered, in order, from what the calls returned. *)
Definition registered (tr : list (Z * facres)) : list Z :=
  map fst (filter (fun p => match snd p with FacDone => true | _ => false end) tr).

(** The failures registered, and the state of a failure: the last call on it decides. *)
Definition reg_failures (tr : list (failop * failres)) : list Z :=
  concat (map (fun p => match p with (LRegister f, LDone) => [f] | _ => [] end) tr).
Definition fail_ev (f : Z) (b : bool) (p : failop * failres) : bool :=
  match p with
  | (LFail g, _) => if g =? f then true else b
  | (LUnfail g, _) => if g =? f then false else b
  | (LRestore g (Some v), _) => if g =? f then v else b
  | _ => b
  end.
Definition failed_after (tr : list (failop * failres)) (f : Z) : bool := fold_left (fail_ev f) tr false.
