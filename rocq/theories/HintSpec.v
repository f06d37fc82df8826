(** The part of Python's grammar that type hints use, and what they shall say. *)
From Verif Require Import Text HintModel.

(** * Python *)

Definition keywords : list (list Z) := map codes
  ["False"; "None"; "True"; "and"; "as"; "assert"; "async"; "await"; "break"; "class"; "continue"; "def"; "del";
   "elif"; "else"; "except"; "finally"; "for"; "from"; "global"; "if"; "import"; "in"; "is"; "lambda"; "nonlocal";
   "not"; "or"; "pass"; "raise"; "return"; "try"; "while"; "with"; "yield"]%string.

Definition word_char (c : Z) : Prop := 65 <= c <= 90 \/ 97 <= c <= 122 \/ 48 <= c <= 57 \/ c = 95.
Definition identifier (s : list Z) : Prop :=
  (exists c r, s = c :: r /\ ~ 48 <= c <= 57) /\ Forall word_char s /\ ~ In s keywords.

(** a.b.c *)
Inductive dotted : list Z -> Prop :=
| do_one s : identifier s -> dotted s
| do_more s t : identifier s -> dotted t -> dotted (s ++ 46 :: t).

(** What may be written between three quotes: no escapes, and the closing quotes are the first
    three quotes in a row. *)
Definition quotable (s : list Z) : Prop :=
  ~ In 92 s /\ forall a b, s ++ [34; 34; 34] = a ++ [34; 34; 34] ++ b -> b = [].

Inductive stmt :=
| SClass (c : list Z) (bs : list (list Z)) (body : list stmt)
| SAttr (n ty : list Z)
| SFun (n : list Z)
| SPass
| SDoc (s : list Z)
| SImport (n : list Z).

(** [block d t l]: the text [t] is the statements [l], each indented by [d] times four blanks;
    the body of a class has at least one statement. *)
Inductive block : nat -> list Z -> list stmt -> Prop :=
| bk_end d : block d [] []
| bk_blank d t l : block d t l -> block d (10 :: t) l
| bk_pass d t l : block d t l -> block d (repeat 32 (4 * d) ++ codes "pass" ++ 10 :: t) (SPass :: l)
| bk_import d n t l : identifier n -> block d t l ->
    block d (repeat 32 (4 * d) ++ codes "import " ++ n ++ 10 :: t) (SImport n :: l)
| bk_attr d n ty t l : identifier n -> dotted ty -> block d t l ->
    block d (repeat 32 (4 * d) ++ n ++ codes ": " ++ ty ++ 10 :: t) (SAttr n ty :: l)
| bk_fun d n t l : identifier n -> block d t l ->
    block d (repeat 32 (4 * d) ++ codes "def " ++ n ++ codes "(self, ): ..." ++ 10 :: t) (SFun n :: l)
| bk_doc d s t l : quotable s -> block d t l ->
    block d (repeat 32 (4 * d) ++ [34; 34; 34] ++ s ++ [34; 34; 34] ++ 10 :: t) (SDoc s :: l)
| bk_class d c bs bt body t l : identifier c -> Forall dotted bs -> block (S d) bt body -> body <> [] -> block d t l ->
    block d (repeat 32 (4 * d) ++ codes "class " ++ c ++ codes "(" ++ concat (map (fun b => b ++ codes ", ") bs) ++ codes "):"
             ++ 10 :: bt ++ t) (SClass c bs body :: l).

(** * The objects *)

(** The names of the interfaces in the Python module.  Source: the py::class_ declarations in
    src/python/Smp and src/python/ecss_smp.cpp. *)
Definition own_name (i : iface) : list Z := codes
  (match i with
   | IComponent => "IComponent" | IModel => "IModel" | IService => "IService"
   | IEventManager => "IEventManager" | ILinkRegistry => "ILinkRegistry" | ILogger => "ILogger"
   | IResolver => "IResolver" | IScheduler => "IScheduler" | ITimeKeeper => "ITimeKeeper"
   | IAggregate => "IAggregate" | IDynamicInvocation => "IDynamicInvocation"
   | IEventConsumer => "IEventConsumer" | IEventProvider => "IEventProvider" | ILinkingComponent => "ILinkingComponent"
   | ISimulator => "ISimulator" | IComposite => "IComposite" | IEntryPointPublisher => "IEntryPointPublisher"
   | IPersist => "IPersist" | IField => "IField" | ISimpleField => "ISimpleField" | IForcibleField => "IForcibleField"
   | IArrayField => "IArrayField" | ISimpleArrayField => "ISimpleArrayField" | IStructureField => "IStructureField"
   | IDataflowField => "IDataflowField" | IFailure => "IFailure"
   end)%string.
Definition services : list iface := [IEventManager; ILinkRegistry; ILogger; IResolver; IScheduler; ITimeKeeper].
Definition python_class (i : iface) (b : list Z) : Prop :=
  (In i services -> b = codes "ecss_smp.Smp.Services." ++ own_name i) /\
  (~ In i services -> b = codes "ecss_smp.Smp." ++ own_name i).

(** [x] belongs directly to [o]: a field of it, or a component in one of its containers. *)
Inductive member (o x : obj) : Prop :=
| mb_field : has (inf o) IComponent = true \/ has (inf o) IStructureField = true -> In x (fields_of o) -> member o x
| mb_component c l : has (inf o) IComposite = true -> contained (inf o) = true -> In (c, l) (containers_of o) -> In x l ->
    member o x.

(** [inside o p x]: the names [p] lead from [o] to [x]. *)
Inductive inside : obj -> list (list Z) -> obj -> Prop :=
| in_here o : inside o [] o
| in_next o x p y : member o x -> inside x p y -> inside o (name (inf x) :: p) y.

(** The other things [o] has, with the type of each. *)
Definition listed (l : option (list (list Z))) (n : list Z) : Prop := exists k, l = Some k /\ In n k.
Inductive port (o : obj) : list Z -> list Z -> Prop :=
| po_reference n : has (inf o) IComponent = true -> has (inf o) IAggregate = true -> listed (refs (inf o)) n ->
    port o (95 :: n) (codes "ecss_smp.Smp.IReference")
| po_property n : has (inf o) IComponent = true -> has (inf o) IDynamicInvocation = true -> listed (props (inf o)) n ->
    port o n (codes "ecss_smp.Smp.IProperty")
| po_sink n : has (inf o) IComponent = true -> has (inf o) IEventConsumer = true -> listed (sinks (inf o)) n ->
    port o n (codes "ecss_smp.Smp.IEventSink")
| po_source n : has (inf o) IComponent = true -> has (inf o) IEventProvider = true -> listed (sources (inf o)) n ->
    port o n (codes "ecss_smp.Smp.IEventSource")
| po_container n l : has (inf o) IComposite = true -> contained (inf o) = true -> In (n, l) (containers_of o) ->
    port o (95 :: n) (codes "ecss_smp.Smp.IContainer")
| po_entry_point n : has (inf o) IEntryPointPublisher = true -> In n (eps (inf o)) ->
    port o n (codes "ecss_smp.Smp.IEntryPoint").
Definition operation (o : obj) (n : list Z) : Prop :=
  has (inf o) IComponent = true /\ has (inf o) IDynamicInvocation = true /\ listed (ops (inf o)) n.

(** [inherits i j]: the Python class of [i] is the one of [j] or derived from it.  Source: the
    py::class_ declarations in src/python/Smp. *)
Inductive inherits : iface -> iface -> Prop :=
| ih_same i : inherits i i
| ih_up i j k : In (i, j) [(IModel, IComponent); (IService, IComponent); (IEventManager, IService); (ILinkRegistry, IService);
    (ILogger, IService); (IResolver, IService); (IScheduler, IService); (ITimeKeeper, IService); (IAggregate, IComponent);
    (IDynamicInvocation, IComponent); (IEventConsumer, IComponent); (IEventProvider, IComponent); (ILinkingComponent, IComponent);
    (ISimulator, IComposite); (IField, IPersist); (ISimpleField, IField); (IForcibleField, ISimpleField); (IArrayField, IField);
    (ISimpleArrayField, IField); (IStructureField, IField); (IDataflowField, IField); (IFailure, IPersist)] ->
    inherits j k -> inherits i k.

(** An object implements the interfaces its interfaces are derived from; a component is either
    a model or a service of at most one kind, and a field is of one of the four kinds. *)
Record regular (h : iface -> bool) : Prop := Regular {
  rg_closed : forall i j, inherits i j -> h i = true -> h j = true;
  rg_component : h IComponent = true -> exists i, In i [IModel; IService] /\ h i = true /\ forall j, In j [IModel; IService] -> h j = true -> j = i;
  rg_service : forall i j, In i services -> In j services -> h i = true -> h j = true -> i = j;
  rg_field : h IField = true -> exists i, In i [ISimpleField; IArrayField; ISimpleArrayField; IStructureField] /\ h i = true /\
    forall j, In j [ISimpleField; IArrayField; ISimpleArrayField; IStructureField] -> h j = true -> j = i
}.

(** * What the hints shall say *)

(** A class with the bases [bs] and the statements [body] is a description of [o]. *)
Record describes (o : obj) (bs : list (list Z)) (body : list stmt) : Prop := Describes {
  ds_bases : forall b, In b bs -> exists i, python_class i b /\ has (inf o) i = true;
  ds_all : forall i, has (inf o) i = true -> exists j b, In b bs /\ python_class j b /\ inherits j i;
  ds_attributes : forall n ty, In (SAttr n ty) body <->
    port o n ty \/ (exists x, member o x /\ n = name (inf x) /\ ty = 95 :: 95 :: name (inf x));
  ds_operations : forall n, In (SFun n) body <-> operation o n
}.

(** [class_at k p k']: from the class [k] the attributes [p] lead to the class [k'], each class
    being nested in the one before and defined before the attribute of its type. *)
Inductive class_at : list (list Z) * list stmt -> list (list Z) -> list (list Z) * list stmt -> Prop :=
| ca_here k : class_at k [] k
| ca_next bs l1 c k l2 n l3 p k' : class_at k p k' ->
    class_at (bs, l1 ++ SClass c (fst k) (snd k) :: l2 ++ SAttr n c :: l3) (n :: p) k'.

(** The file [t] describes the simulator [s] and every object in it. *)
Definition describes_all (s : obj) (t : list Z) : Prop :=
  exists bs body, block 0 t [SImport (codes "ecss_smp"); SClass (codes "Simulator") bs body] /\
  (forall p k, class_at (bs, body) p k -> exists o, inside s p o /\ describes o (fst k) (snd k)) /\
  (forall p o, inside s p o -> exists k, class_at (bs, body) p k /\ describes o (fst k) (snd k)).

(** Every object has a sensible set of interfaces, the simulator is the only one, all names are identifiers of Python and the descriptions may
    be quoted. *)
Record readable (s : obj) : Prop := Readable {
  rd_regular : forall p o, inside s p o -> regular (has (inf o));
  rd_simulator : has (inf s) ISimulator = true;
  rd_only : forall p o, inside s p o -> p <> [] -> has (inf o) ISimulator = false;
  rd_names : forall p o, inside s p o -> p <> [] -> identifier (name (inf o)) /\ quotable (descr (inf o));
  rd_ports : forall p o n ty, inside s p o -> port o n ty -> identifier n;
  rd_operations : forall p o n, inside s p o -> operation o n -> identifier n
}.

(** A component of which a collection the file needs is null. *)
Definition unpublished (o : obj) : Prop :=
  has (inf o) IComponent = true /\
  (published (inf o) = false \/ has (inf o) IDynamicInvocation = true /\ (ops (inf o) = None \/ props (inf o) = None)).
