(** vecmem::tuple: construction, copies and element access.

    Sources: core/include/vecmem/utils/tuple.hpp lines 24-34 (the empty tuple), 51 (the default
    constructor), 57-60 (copy and conversion), 67-78 (the main constructor), 88-95 (the
    concatenation constructor), 97-100 (the members);
    core/include/vecmem/utils/impl/tuple.ipp lines 20-51 (tuple_get_impl), 55-78 (get), 80-84
    (tie), 86-90 (make_tuple).

    Simplifications: the objects hold integers, conversions between element types keep the
    value.  An element type is either an object type or a reference type.  A member of object
    type is an object of its own in the store, a member of reference type denotes an object.
    [None] stands for a program that does not compile.  Move construction of a member is
    modelled like copying, except that the source may not be used afterwards; the only
    temporaries are the tails given to the concatenation constructor, whose members of object
    type are destroyed at the end of the call. *)
From Coq Require Import List ZArith Lia.
Import ListNotations.
Open Scope Z_scope.

(** The objects of the program: the value, or nothing after the destruction. *)
Definition store := list (option Z).
Definition read (st : store) (l : nat) : option Z := match nth_error st l with Some (Some v) => Some v | _ => None end.
Fixpoint write (st : store) (l : nat) (v : option Z) : store :=
  match st, l with
  | [], _ => []
  | _ :: st', O => v :: st'
  | x :: st', S l' => x :: write st' l' v
  end.

(** Element types and members, tuple.hpp lines 97-100: m_head is an object or a reference. *)
Inductive etype := TObject | TReference.
Inductive member := MObject (l : nat) | MReference (l : nat).
Definition denotes (m : member) : nat := match m with MObject l | MReference l => l end.
Inductive tuple := TNil | TCons (m_head : member) (m_tail : tuple).

(** Initialisation of m_head from an expression denoting [l]; lines 60, 78 and 95. *)
Definition init (t : etype) (l : nat) (st : store) : option (member * store) :=
  match t with
  | TObject => match read st l with Some v => Some (MObject (length st), st ++ [Some v]) | None => None end
  | TReference => Some (MReference l, st)
  end.

(** The main constructor, lines 67-78: the numbers of types and arguments have to agree
    (the conditions are one pack expansion). *)
Fixpoint construct (ts : list etype) (args : list nat) (st : store) : option (tuple * store) :=
  match ts, args with
  | [], [] => Some (TNil, st)
  | t :: ts', a :: args' =>
      match init t a st with
      | Some (h, st1) => match construct ts' args' st1 with Some (tl, st2) => Some (TCons h tl, st2) | None => None end
      | None => None
      end
  | _, _ => None
  end.
(** tie and make_tuple, tuple.ipp lines 80-90: Ts & and the decayed types. *)
Definition tie (args : list nat) (st : store) : option (tuple * store) := construct (map (fun _ => TReference) args) args st.
Definition make_tuple (args : list nat) (st : store) : option (tuple * store) := construct (map (fun _ => TObject) args) args st.

(** The copy and conversion constructor, lines 57-60. *)
Fixpoint convert (ts : list etype) (parent : tuple) (st : store) : option (tuple * store) :=
  match ts, parent with
  | [], TNil => Some (TNil, st)
  | t :: ts', TCons h tl =>
      match init t (denotes h) st with
      | Some (h', st1) => match convert ts' tl st1 with Some (tl', st2) => Some (TCons h' tl', st2) | None => None end
      | None => None
      end
  | _, _ => None
  end.

(** Destruction of a tuple: the members of object type are destroyed. *)
Fixpoint destroy (t : tuple) (st : store) : store :=
  match t with
  | TNil => st
  | TCons (MObject l) t' => destroy t' (write st l None)
  | TCons (MReference _) t' => destroy t' st
  end.

(** The concatenation constructor, lines 88-95, called with a temporary tail that is
    destroyed at the end of the full expression. *)
Definition tuple_concat (ts : list etype) (head : nat) (tail : tuple) (st : store) : option (tuple * store) :=
  match ts with
  | [] => None
  | t :: ts' =>
      match init t head st with
      | Some (h, st1) =>
          match convert ts' tail st1 with
          | Some (tl, st2) => Some (TCons h tl, destroy tail st2)
          | None => None
          end
      | None => None
      end
  end.

(** tuple_get_impl, tuple.ipp lines 20-51. *)
Fixpoint get_impl (i : nat) (t : tuple) : option nat :=
  match i, t with
  | O, TCons h _ => Some (denotes h)
  | S i', TCons _ tl => get_impl i' tl
  | _, TNil => None
  end.
Fixpoint sizeof (t : tuple) : nat := match t with TNil => 0 | TCons _ t' => S (sizeof t') end.
(** get, lines 55-78: the static_assert and the recursion; the result is the object that the
    returned reference denotes. *)
Definition get (i : nat) (t : tuple) : option nat := if Nat.ltb i (sizeof t) then get_impl i t else None.

(** The types of the members. *)
Fixpoint types (t : tuple) : list etype :=
  match t with
  | TNil => []
  | TCons (MObject _) t' => TObject :: types t'
  | TCons (MReference _) t' => TReference :: types t'
  end.
