(** Model of the services, models and libraries of a simulator: src/Xsmp/Simulator.{h,cpp}
    AddModel, AddService, GetService, GetLogger..., LoadLibrary and the destructor.

    Components and services are addresses.  The two containers of the simulator are those
    of CollModel: number 0 is _services and number 1 is _models, both with the bounds 0
    and -1 (Simulator.cpp:57-62).  The simulator is a composite but not a component, so
    that CheckComponent (Container.cpp:108-156) does not apply: no clash.  Left out: the
    messages that are logged. *)
From Coq Require Import ZArith List Bool.
From Verif Require Import Base Assoc UuidModel EventModel CollModel SimModel.
Import ListNotations.
Local Open Scope Z_scope.

(** * Services *)

(** The standard services, Simulator.h:397-402. *)
Inductive role := RLogger | REventManager | RLinkRegistry | RResolver | RScheduler | RTimeKeeper.
Definition role_eqb (a b : role) : bool :=
  match a, b with
  | RLogger, RLogger | REventManager, REventManager | RLinkRegistry, RLinkRegistry
  | RResolver, RResolver | RScheduler, RScheduler | RTimeKeeper, RTimeKeeper => true
  | _, _ => false
  end.

Record host := Host {
  h_state : sst;                  (** _state *)
  h_compo : compo;                (** _services and _models *)
  h_std : list (role * Z);        (** the standard services that are not null *)
}.
Definition host_init : host := Host Building (compo_init [(0, -1); (0, -1)]) [].

Inductive hop :=
| HState (s : sst)                 (** the simulator changes its state (SimModel) *)
| HAddService (c : Z) | HAddModel (c : Z)
| HAddTo (k : nat) (c : Z)         (** IContainer::AddComponent of the container k *)
| HDelete (k : nat) (c : Z) (throws : bool).   (** IContainer::DeleteComponent *)
Inductive hres := HRes (r : contres) | HInvalidState.

Section Services.
  (** [impl r c]: dynamic_cast of the service c to the interface r is not null. *)
  Context (w : world) (impl : role -> Z -> bool).

  (** Simulator.cpp:592-604, RegisterService. *)
  Definition register (c : Z) (r : role) (std : list (role * Z)) : list (role * Z) :=
    match aget role_eqb r std with
    | Some _ => std
    | None => if impl r c then (r, c) :: std else std
    end.

  (** Simulator.cpp:584-610. *)
  Definition add_service (c : Z) (h : host) : host * hres :=
    match h_state h with
    | Building | Connecting | Standby =>
        match cont_add w 0 c None false (h_compo h) with
        | (k, KDone) =>
            (Host (h_state h) k
               (register c RTimeKeeper (register c RScheduler (register c RResolver (register c RLinkRegistry
                 (register c REventManager (register c RLogger (h_std h))))))), HRes KDone)
        | (k, r) => (Host (h_state h) k (h_std h), HRes r)
        end
    | _ => (h, HInvalidState)
    end.

  (** Simulator.cpp:571-582. *)
  Definition add_model (c : Z) (h : host) : host * hres :=
    match h_state h with
    | Building | Connecting | Standby =>
        let '(k, r) := cont_add w 1 c None false (h_compo h) in (Host (h_state h) k (h_std h), HRes r)
    | _ => (h, HInvalidState)
    end.

  Definition hstep (o : hop) (h : host) : host * hres :=
    match o with
    | HState s => (Host s (h_compo h) (h_std h), HRes KDone)
    | HAddService c => add_service c h
    | HAddModel c => add_model c h
    | HAddTo k c => let '(x, r) := cont_add w k c None false (h_compo h) in (Host (h_state h) x (h_std h), HRes r)
    | HDelete k c t => let '(x, r) := cont_delete w k c t (h_compo h) in (Host (h_state h) x (h_std h), HRes r)
    end.
  Fixpoint hrun (h : host) (os : list hop) : host * list (hop * hres) :=
    match os with
    | [] => (h, [])
    | o :: os => let '(h1, r) := hstep o h in let '(h2, t) := hrun h1 os in (h2, (o, r) :: t)
    end.
End Services.

(** Simulator.cpp:617-639, GetLogger, GetTimeKeeper, GetScheduler, ... *)
Definition get_std (r : role) (h : host) : option Z := aget role_eqb r (h_std h).

(** Simulator.cpp:612-615; the null name is undefined behaviour (std::string_view). *)
Definition get_service (w : world) (n : option (list Z)) (h : host) : res unit (option Z) :=
  match n with
  | None => UB
  | Some n => Ok (match nth_error (conts (h_compo h)) 0 with Some ct => find_name (wname w) n (comps ct) | None => None end)
  end.

(** * Libraries *)

(** A call of LoadLibrary and what the system and the library do: the file cannot be
    opened; Initialise or Finalise is missing; Initialise runs, calls LoadLibrary itself
    any number of times, and returns true, returns false or throws. *)
Inductive iresult := ITrue | IFalse | IThrows.
Inductive load :=
| LNoFile (n : list Z)
| LNoSymbol (n : list Z)
| LInitialise (n : list Z) (nested : list load) (r : iresult).

(** What can be observed: LoadLibrary returns or throws, Finalise of a library is called. *)
Inductive lexn := LibraryNotFound | InvalidLibrary | FromInitialise.
Inductive lev := EvLoaded (n : list Z) | EvNotLoaded (n : list Z) (e : lexn) | EvFinalise (n : list Z).

(** Simulator.cpp:666-730; _libraries is kept in reverse: the head is its back. *)
Fixpoint load_library (l : load) (libs : list (list Z)) : list (list Z) * list lev :=
  match l with
  | LNoFile n => (libs, [EvNotLoaded n LibraryNotFound])
  | LNoSymbol n => (libs, [EvNotLoaded n InvalidLibrary])
  | LInitialise n nested r =>
      let '(libs1, t) := (fix all (ls : list load) (libs : list (list Z)) : list (list Z) * list lev :=
                            match ls with
                            | [] => (libs, [])
                            | l :: ls => let '(libs1, t1) := load_library l libs in
                                         let '(libs2, t2) := all ls libs1 in (libs2, t1 ++ t2)
                            end) nested libs in
      match r with
      | ITrue => (n :: libs1, t ++ [EvLoaded n])
      | IFalse => (libs1, t ++ [EvNotLoaded n InvalidLibrary])
      | IThrows => (libs1, t ++ [EvNotLoaded n FromInitialise])
      end
  end.
Fixpoint load_all (ls : list load) (libs : list (list Z)) : list (list Z) * list lev :=
  match ls with
  | [] => (libs, [])
  | l :: ls => let '(libs1, t1) := load_library l libs in let '(libs2, t2) := load_all ls libs1 in (libs2, t1 ++ t2)
  end.

(** Simulator.cpp:126-149, the loop of the destructor: Finalise of the back, then
    pop_back.  [fs] says which libraries each call of Finalise loads itself; when it is
    used up they load nothing. *)
Fixpoint finalise (fs : list (list load)) (libs : list (list Z)) : list lev :=
  match fs with
  | [] => map EvFinalise libs
  | f :: fs =>
      match libs with
      | [] => []
      | n :: _ => let '(libs1, t) := load_all f libs in EvFinalise n :: t ++ finalise fs (tl libs1)
      end
  end.

(** The life of the libraries of a simulator. *)
Definition libraries (ls : list load) (fs : list (list load)) : list lev :=
  let '(libs, t) := load_all ls [] in t ++ finalise fs libs.

(** * Destruction *)

(** Simulator.cpp:117-125: the destructor holds a simulation that is executing, then leaves
    one in standby.  [a] and [b] are the moves during Hold and Exit (SimModel.run). *)
Definition destroy (x : sim) (a b : list label) : sim * list sev :=
  let '(x1, t1) := if is_executing (s_st x) then run x (LCall CHold :: a) else (x, []) in
  let '(x2, t2) := if is_standby (s_st x1) then run x1 (LCall CExit :: b) else (x1, []) in
  (x2, t1 ++ t2).
