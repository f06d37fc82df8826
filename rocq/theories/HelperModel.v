(** Model of checkName, CopyString, IsAncestor and AreEquivalent
    (src/Xsmp/Helper.cpp).  A char pointer is the block of memory it points into, as the
    list of the bytes from the pointer to the end of the allocation: reading or writing
    past the list is undefined behaviour. *)
From Verif Require Import Base.

(** std::isdigit, std::isalpha, std::isalnum on an unsigned char; the "C" locale is
    assumed (Helper.cpp:524-543). *)
Definition isdigit (c : Z) : bool := (48 <=? c) && (c <=? 57).
Definition isalpha (c : Z) : bool := ((65 <=? c) && (c <=? 90)) || ((97 <=? c) && (c <=? 122)).
Definition isalnum (c : Z) : bool := isalpha c || isdigit c.

(** `while (p( *next)) ++next;`: the bytes skipped and what follows; None when the loop
    runs past the block. *)
Fixpoint skip_while (p : Z -> bool) (l : list Z) : option (list Z * list Z) :=
  match l with
  | [] => None
  | c :: r =>
      if p c then match skip_while p r with Some (a, b) => Some (c :: a, b) | None => None end
      else Some ([], l)
  end.

(** std::char_traits::length and std::string{name}: the bytes before the first NUL. *)
Definition c_str (l : list Z) : option (list Z) :=
  match skip_while (fun c => negb (c =? 0)) l with Some (a, _) => Some a | None => None end.

(** The five exceptions of checkName (all InvalidObjectName, with these texts). *)
Inductive name_error :=
| NameNull                      (* "A name cannot be null." *)
| NeedsDigit (prefix : list Z)  (* "Name '[' shall be followed by a digit." *)
| NeedsClosing (prefix : list Z)
| BadStart (name : list Z)
| BadEnd (prefix : list Z).

(** Helper.cpp:561-572: the end of the name; [p] is what has been scanned. *)
Definition check_end (p rest : list Z) : res name_error (list Z) :=
  match rest with
  | [] => UB
  | c :: _ => if c =? 0 then Ok p else Throw (BadEnd p)
  end.

(** Helper.cpp:514-572 checkName; the result is the cstring built from the name. *)
Definition check_name (name : option (list Z)) : res name_error (list Z) :=
  match name with
  | None => Throw NameNull
  | Some [] => UB
  | Some (c :: r) =>
      if isalpha c then
        match skip_while (fun x => isalnum x || (x =? 95)) r with
        | None => UB
        | Some (a, b) => check_end (c :: a) b
        end
      else if c =? 91 then
        match r with
        | [] => UB
        | d :: r2 =>
            if isdigit d then
              match skip_while isdigit r2 with
              | None | Some (_, []) => UB
              | Some (a, e :: r3) =>
                  if e =? 93 then check_end (c :: d :: a ++ [e]) r3
                  else Throw (NeedsClosing (c :: d :: a))
              end
            else Throw (NeedsDigit [c])
        end
      else match c_str (c :: r) with Some s => Throw (BadStart s) | None => UB end
  end.

(** destination[i] = v *)
Fixpoint poke (i : nat) (v : Z) (m : list Z) : option (list Z) :=
  match m, i with
  | [], _ => None
  | _ :: r, O => Some (v :: r)
  | c :: r, S j => match poke j v r with Some r' => Some (c :: r') | None => None end
  end.

(** std::char_traits::copy(destination, s, |s|) *)
Fixpoint copy_bytes (s m : list Z) : option (list Z) :=
  match s, m with
  | [], _ => Some m
  | _ :: _, [] => None
  | c :: s', _ :: m' => match copy_bytes s' m' with Some r => Some (c :: r) | None => None end
  end.

(** Helper.cpp:453-464 CopyString; the AnySimple is modelled by the pointer it holds. *)
Definition copy_string (dst : list Z) (size : nat) (src : option (list Z)) : option (list Z) :=
  match src with
  | None => poke 0 0 dst
  | Some l =>
      match c_str l with
      | None => None
      | Some s =>
          let n := Nat.min size (length s) in
          match copy_bytes (firstn n s) dst with
          | Some d => poke n 0 d
          | None => None
          end
      end
  end.

(** The callers of CopyString: the number of bytes of the destination and the size passed.
    - an Xsmp string of capacity n: internalString[n + 1] and sizeof - 1
      (AnySimpleConverter.h:50-57, String.h:47);
    - a char array of m bytes, m > 0: m and sizeof - 1 (AnySimpleConverter.h:66-71);
    - a published String field or array item of type length n: the object at the
      address given by the user, which is a String of capacity n and so has n + 1 bytes,
      and GetLength() (Publication/Field.cpp:595-602, 789-795). *)
Inductive copy_caller := SmpString (n : nat) | CharArray (m : nat) | PublishedString (n : nat).
Definition caller_bytes (c : copy_caller) : nat :=
  match c with SmpString n => n + 1 | CharArray m => m | PublishedString n => n + 1 end%nat.
Definition caller_size (c : copy_caller) : nat :=
  match c with SmpString n => n | CharArray m => m - 1 | PublishedString n => n end%nat.

(** Helper.cpp:466-478 IsAncestor; [parent] is GetParent and [n] bounds the number of
    turns of the loop: None when it has not ended after n turns. *)
Fixpoint is_ancestor {A} (eqb : A -> A -> bool) (parent : A -> option A)
  (n : nat) (ancestor object : option A) : option bool :=
  match ancestor with
  | None => Some false
  | Some a =>
      match object with
      | None => Some false
      | Some o =>
          match n with
          | O => None
          | S m => if eqb o a then Some true else is_ancestor eqb parent m (Some a) (parent o)
          end
      end
  end.

(** Fields seen through ISimpleField, ISimpleArrayField, IArrayField, IStructureField;
    the kind is the Smp::PrimitiveTypeKind.  Values, names and views play no role here. *)
Inductive field :=
| FSimple (kind : Z)
| FSimpleArray (size item_kind : Z)
| FArray (items : list field)
| FStruct (fields : list field)
| FOther.                        (* an IField implementing none of the four *)

(** Type.cpp:37-39 and Type.h:65-89: the type of a simple array field is an ArrayType,
    which does not override GetPrimitiveTypeKind, so it is PTK_None (0). *)
Definition array_type_kind (item_kind : Z) : Z := 0.

(** Helper.cpp:247-290 and 480-511 AreEquivalent.  The loops over items and over fields
    run over source and target together after the sizes have been compared. *)
Fixpoint are_equivalent (a b : field) {struct a} : bool :=
  match a with
  | FSimple k => match b with FSimple k' => k' =? k | _ => false end
  | FSimpleArray n k =>
      match b with
      | FSimpleArray n' k' => (n' =? n) && (array_type_kind k' =? array_type_kind k)
      | _ => false
      end
  | FArray l =>
      match b with
      | FArray l' =>
          (length l' =? length l)%nat &&
          (fix items (l l' : list field) : bool :=
             match l, l' with
             | x :: r, y :: r' => are_equivalent x y && items r r'
             | _, _ => true
             end) l l'
      | _ => false
      end
  | FStruct l =>
      match b with
      | FStruct l' =>
          (length l' =? length l)%nat &&
          (fix items (l l' : list field) : bool :=
             match l, l' with
             | x :: r, y :: r' => are_equivalent x y && items r r'
             | _, _ => true
             end) l l'
      | _ => false
      end
  | FOther => false
  end.
