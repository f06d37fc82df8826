(** The Python file with the types of a simulator (generate_python_type_hints of the Python
    module, used by xsmp.unittest before each test). *)
From Verif Require Import Text.

(** The interfaces an object is cast to.  Source: src/python/Smp/ISimulatorBinding.h:113-252. *)
Inductive iface :=
| IComponent | IModel | IService | IEventManager | ILinkRegistry | ILogger | IResolver | IScheduler | ITimeKeeper
| IAggregate | IDynamicInvocation | IEventConsumer | IEventProvider | ILinkingComponent
| ISimulator | IComposite | IEntryPointPublisher | IPersist | IField | ISimpleField | IForcibleField
| IArrayField | ISimpleArrayField | IStructureField | IDataflowField | IFailure.

(** Their names in the file.  Source: ISimulatorBinding.h:119-251.  IComponent and IField are
    never written. *)
Definition spelled (i : iface) : list Z :=
  match i with
  | IComponent => codes "ecss_smp.Smp.IComponent"
  | IModel => codes "ecss_smp.Smp.IModel"
  | IService => codes "ecss_smp.Smp.IService"
  | IEventManager => codes "ecss_smp.Smp.Services.IEventManager"
  | ILinkRegistry => codes "ecss_smp.Smp.Services.ILinkRegistry"
  | ILogger => codes "ecss_smp.Smp.Services.ILogger"
  | IResolver => codes "ecss_smp.Smp.Services.IResolver"
  | IScheduler => codes "ecss_smp.Smp.Services.IScheduler"
  | ITimeKeeper => codes "ecss_smp.Smp.Services.ITimeKeeper"
  | IAggregate => codes "ecss_smp.Smp.IAggregate"
  | IDynamicInvocation => codes "ecss_smp.Smp.IDynamicInvocation"
  | IEventConsumer => codes "ecss_smp.Smp.IEventConsumer"
  | IEventProvider => codes "ecss_smp.Smp.IEventProvider"
  | ILinkingComponent => codes "ecss_smp.Smp.ILinkingComponent"
  | ISimulator => codes "ecss_smp.Smp.ISimulator"
  | IComposite => codes "ecss_smp.Smp.IComposite"
  | IEntryPointPublisher => codes "ecss_smp.Smp.IEntryPointPublisher"
  | IPersist => codes "ecss_smp.Smp.IPersist"
  | IField => codes "ecss_smp.Smp.IField"
  | ISimpleField => codes "ecss_smp.Smp.ISimpleField"
  | IForcibleField => codes "ecss_smp.Smp.IForcibleField"
  | IArrayField => codes "ecss_smp.Smp.IArrayField"
  | ISimpleArrayField => codes "ecss_smp.Smp.ISimpleArrayField"
  | IStructureField => codes "ecss_smp.Smp.IStructureField"
  | IDataflowField => codes "ecss_smp.Smp.IDataflowField"
  | IFailure => codes "ecss_smp.Smp.IFailure"
  end.

(** An object: name, description, the interfaces it implements, and what those return.
    [None] is the null pointer: GetReferences, GetEventSinks, GetEventSources and
    GetOperations, GetProperties of a component that has not been published
    (src/Xsmp/Component.cpp:54-56, 116-122).  [published] and [contained] say whether
    GetFields and GetContainers are not null.  [Obj i fs cs]: the fields of the component or
    structure field, and the containers with their components.  The entry points, the
    components of a container and the fields of a structure field are never null. *)
Record info := Info {
  name : list Z; descr : list Z; has : iface -> bool;
  refs : option (list (list Z)); ops : option (list (list Z)); props : option (list (list Z));
  sinks : option (list (list Z)); sources : option (list (list Z));
  published : bool; contained : bool; eps : list (list Z)
}.
Inductive obj := Obj (i : info) (fs : list obj) (cs : list (list Z * list obj)).
Definition inf (o : obj) : info := match o with Obj i _ _ => i end.
Definition fields_of (o : obj) : list obj := match o with Obj _ fs _ => fs end.
Definition containers_of (o : obj) : list (list Z * list obj) := match o with Obj _ _ cs => cs end.

(** The bases of the class of an object.  Source: ISimulatorBinding.h:120-142,
    152-154, 165-167, 176-178, 187-189, 195-199, 210-212, 218-252. *)
Definition one (h : iface -> bool) (i : iface) : list iface := if h i then [i] else [].
Definition bases (h : iface -> bool) : list iface :=
  (if h IComponent then
     (if h IModel then [IModel]
      else if h IService then
        if h IEventManager then [IEventManager]
        else if h ILinkRegistry then [ILinkRegistry]
        else if h ILogger then [ILogger]
        else if h IResolver then [IResolver]
        else if h IScheduler then [IScheduler]
        else if h ITimeKeeper then [ITimeKeeper]
        else [IService]
      else [])
     ++ one h IAggregate ++ one h IDynamicInvocation ++ one h IEventConsumer ++ one h IEventProvider
     ++ one h ILinkingComponent
   else [])
  ++ (if h IComposite then if h ISimulator then [ISimulator] else [IComposite] else [])
  ++ one h IEntryPointPublisher
  ++ (if h IPersist then
        if h IField then
          (if h ISimpleField then if h IForcibleField then [IForcibleField] else [ISimpleField]
           else if h IArrayField then [IArrayField]
           else if h ISimpleArrayField then [ISimpleArrayField]
           else if h IStructureField then [IStructureField]
           else [])
          ++ one h IDataflowField ++ one h IFailure
        else if h IFailure then [IFailure] else [IPersist]
      else []).

(** Whether the nested fields are written: a structure field.  Source: ISimulatorBinding.h:218-239. *)
Definition nests (h : iface -> bool) : bool :=
  h IPersist && h IField && negb (h ISimpleField) && negb (h IArrayField) && negb (h ISimpleArrayField) && h IStructureField.

(** * The text *)
Definition out := res Empty_set (list Z).
Fixpoint cat (l : list out) : out :=
  match l with
  | [] => Ok []
  | r :: l => bind r (fun t => bind (cat l) (fun u => Ok (t ++ u)))
  end.

(** Four blanks for each level.  Source: ISimulatorBinding.h:111, INDENT. *)
Definition indent (d : nat) : list Z := repeat 32 (4 * d).

Definition attr (d : nat) (n ty : list Z) : list Z := indent d ++ n ++ codes ": " ++ ty ++ [10].
Definition fun_line (d : nat) (n : list Z) : list Z := indent d ++ codes "def " ++ n ++ codes "(self, ): ..." ++ [10].
Definition attrs (d : nat) (ty : list Z) (l : list (list Z)) : list Z := concat (map (fun n => attr d n ty) l).
(** With an empty line after each one. *)
Definition attrs_sp (d : nat) (pre ty : list Z) (l : option (list (list Z))) : list Z :=
  match l with None => [] | Some l => concat (map (fun n => attr d (pre ++ n) ty ++ [10]) l) end.

(** The body of the class, given the texts of the fields and of the components.
    Source: ISimulatorBinding.h:140-239.  A null collection is dereferenced at 156, 160 and
    191. *)
Definition body_of (d : nat) (i : info) (fs : list out) (cs : list (list Z * list out)) : out :=
  let h := has i in
  cat [
    if h IComponent then cat [
      Ok (if h IAggregate then attrs_sp d [95] (codes "ecss_smp.Smp.IReference") (refs i) else []);
      if h IDynamicInvocation then
        match ops i, props i with
        | Some a, Some b => Ok (concat (map (fun_line d) a) ++ attrs d (codes "ecss_smp.Smp.IProperty") b)
        | _, _ => UB
        end
      else Ok [];
      Ok (if h IEventConsumer then attrs_sp d [] (codes "ecss_smp.Smp.IEventSink") (sinks i) else []);
      Ok (if h IEventProvider then attrs_sp d [] (codes "ecss_smp.Smp.IEventSource") (sources i) else []);
      if published i then cat fs else UB ]
    else Ok [];
    if h IComposite && contained i then
      cat (map (fun c => cat (Ok (attr d (95 :: fst c) (codes "ecss_smp.Smp.IContainer") ++ [10]) :: snd c)) cs)
    else Ok [];
    Ok (if h IEntryPointPublisher then attrs d (codes "ecss_smp.Smp.IEntryPoint") (eps i) else []);
    if nests h then cat fs else Ok [] ].

(** The class statement around it and the attribute.  Source: ISimulatorBinding.h:254-273. *)
Definition bases_text (l : list iface) : list Z := concat (map (fun i => spelled i ++ codes ", ") l).
Definition wrap (d : nat) (i : info) (body : list Z) : list Z :=
  let b := match body with [] => indent (S d) ++ codes "pass" ++ [10] | _ => body end in
  let bs := bases_text (bases (has i)) in
  if has i ISimulator then
    indent d ++ codes "class " ++ codes "Simulator" ++ codes "(" ++ bs ++ codes "):" ++ [10] ++ b ++ [10]
  else
    indent d ++ codes "class " ++ (95 :: 95 :: name i) ++ codes "(" ++ bs ++ codes "):" ++ [10] ++ b ++ [10]
    ++ attr d (name i) (95 :: 95 :: name i)
    ++ match descr i with [] => [] | s => indent d ++ [34; 34; 34] ++ s ++ [34; 34; 34] ++ [10] end
    ++ [10].

(** Source: ISimulatorBinding.h:113-274, generate. *)
Fixpoint gen (d : nat) (o : obj) : out :=
  match o with
  | Obj i fs cs =>
      bind (body_of (S d) i (map (gen (S d)) fs) (map (fun c => (fst c, map (gen (S d)) (snd c))) cs))
           (fun b => Ok (wrap d i b))
  end.

(** Source: ISimulatorBinding.h:276-290, generatePythonTypeHints: the contents of the file.
    Opening and writing the file is not modelled. *)
Definition write (s : obj) : out :=
  bind (gen 0 s) (fun t => Ok (codes "import ecss_smp" ++ [10] ++ [10] ++ [10] ++ t ++ [10])).
