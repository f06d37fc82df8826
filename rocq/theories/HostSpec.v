(** What is meant by the properties of the services and libraries of a simulator. *)
From Coq Require Import ZArith List Bool.
From Verif Require Import Base Assoc UuidModel EventModel CollModel SimModel SimSpec HostModel.
Import ListNotations.
Local Open Scope Z_scope.

(** [c] is the first service accepted by AddService that implements [r]. *)
Definition first_service (impl : role -> Z -> bool) (r : role) (t : list (hop * hres)) (c : Z) : Prop :=
  exists t1 t2, t = t1 ++ (HAddService c, HRes KDone) :: t2 /\ impl r c = true /\
    forall c', In (HAddService c', HRes KDone) t1 -> impl r c' = false.

(** The simulator accepts services and models. *)
Definition accepts (s : sst) : Prop := s = Building \/ s = Connecting \/ s = Standby.

(** The services and the models of the simulator. *)
Definition services (h : host) : list Z := match conts (h_compo h) with a :: _ => comps a | _ => [] end.
Definition models (h : host) : list Z := match conts (h_compo h) with _ :: b :: _ => comps b | _ => [] end.

(** The LoadLibrary calls that returned, and the Finalise calls, in order. *)
Fixpoint loaded (t : list lev) : list (list Z) :=
  match t with [] => [] | EvLoaded n :: t => n :: loaded t | _ :: t => loaded t end.
Fixpoint finalised (t : list lev) : list (list Z) :=
  match t with [] => [] | EvFinalise n :: t => n :: finalised t | _ :: t => finalised t end.

(** A LoadLibrary call returns when the library and its two functions are found and
    Initialise returns true. *)
Definition loads (l : load) : Prop := exists n nested, l = LInitialise n nested ITrue.
Definition lib_name (l : load) : list Z := match l with LNoFile n | LNoSymbol n | LInitialise n _ _ => n end.
