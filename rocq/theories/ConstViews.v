(** The conversions between views that differ in constness, and what they allow programs to do.

    Sources (core/include/vecmem): utils/type_traits.hpp lines 32-94 (is_same_nc, conjunction,
    disjunction, negation); containers/data/vector_view.hpp lines 50-90 (pointer types, converting
    constructor and assignment); containers/data/jagged_vector_view.hpp lines 50-90 and 111-123,
    containers/impl/jagged_vector_view.ipp lines 21-55 (the pointers to the inner views are
    converted with reinterpret_cast); edm/details/view_traits.hpp lines 24-53 (view_type);
    edm/view.hpp lines 46-63 and 80-123, edm/impl/view.ipp lines 30-78 (conversion of views of
    containers); edm/details/schema_traits.hpp lines 22-43 and 132-147 (add_const).

    Simplifications: a type is a number and a flag for const (no volatile, no void); an array
    of elements is one object, that is accessed as a whole; sizes are left out; the objects that
    a program starts from are given with their types. *)
From Verif Require Import Base.
From Coq Require Import List Bool Arith.
Import ListNotations.

(** ** Types *)
Record elt := mkElt { e_const : bool; e_id : nat }.
Definition elt_eqb (a b : elt) : bool := Bool.eqb (e_const a) (e_const b) && Nat.eqb (e_id a) (e_id b).

(** type::scalar, type::vector and type::jagged_vector of the schemas; also the types of their
    views: a pointer, a vector_view, a jagged_vector_view (view_traits.hpp lines 34-53). *)
Inductive vty := TScalar (e : elt) | TVec (e : elt) | TJag (e : elt).
Definition vty_elt (t : vty) : elt := match t with TScalar e | TVec e | TJag e => e end.
Definition vty_eqb (a b : vty) : bool :=
  match a, b with
  | TScalar x, TScalar y | TVec x, TVec y | TJag x, TJag y => elt_eqb x y
  | _, _ => false
  end.

(** is_same_nc, type_traits.hpp lines 36-44. *)
Definition is_same_nc (ct nct : elt) : bool := e_const ct && negb (e_const nct) && Nat.eqb (e_id ct) (e_id nct).

(** schema_traits.hpp lines 24-43 and 137-147. *)
Definition add_const (t : vty) : vty :=
  match t with
  | TScalar e => TScalar (mkElt true (e_id e))
  | TVec e => TVec (mkElt true (e_id e))
  | TJag e => TJag (mkElt true (e_id e))
  end.

Section Hierarchy.
  (** [base d b]: pointers to class [d] convert to pointers to class [b], since [b] is an accessible base
      class of [d]. *)
  Variable base : nat -> nat -> bool.

  (** std::is_constructible<to, from> for the views of variables: pointers convert as in C++; for
      vector_view (lines 62, 77-80) and jagged_vector_view (lines 79-83) there are the copy
      constructor and the converting one. *)
  Definition constructible (to from : vty) : bool :=
    match to, from with
    | TScalar t, TScalar f => (Nat.eqb (e_id t) (e_id f) || base (e_id f) (e_id t)) && (e_const t || negb (e_const f))
    | TVec t, TVec f => elt_eqb t f || is_same_nc t f
    | TJag t, TJag f => elt_eqb t f || is_same_nc t f
    | _, _ => false
    end.

  (** The condition of the converting constructor of edm::view, view.hpp lines 91-102: a
      conjunction and a disjunction over the variables.  Packs of different lengths do not match. *)
  Fixpoint all2 (f : vty -> vty -> bool) (a b : list vty) : bool :=
    match a, b with
    | [], [] => true
    | x :: a', y :: b' => f x y && all2 f a' b'
    | _, _ => false
    end.
  Fixpoint any2 (f : vty -> vty -> bool) (a b : list vty) : bool :=
    match a, b with
    | x :: a', y :: b' => f x y || any2 f a' b'
    | _, _ => false
    end.
  Definition edm_enabled (to from : list vty) : bool :=
    all2 constructible to from && any2 (fun x y => negb (vty_eqb x y)) to from.

  (** The element type of the views m_size, m_payload, m_layout and m_host_layout: char, const if any
      variable is const (view.hpp lines 60-63, edm/details/types.hpp).  Type number 0 is char. *)
  Definition memory_elt (s : list vty) : elt := mkElt (existsb (fun t => e_const (vty_elt t)) s) 0.
  (** Whether the initialisers m_size{other.size()}, … compile (view.ipp lines 41-47). *)
  Definition edm_compiles (to from : list vty) : bool :=
    edm_enabled to from && constructible (TVec (memory_elt to)) (TVec (memory_elt from)).

  (** ** Programs *)
  Inductive ty := OneView (t : vty) | Container (s : list vty).

  (** A variable can be initialised from or assigned from another one: same type (defaulted functions),
      or by a conversion. *)
  Definition convertible (to from : ty) : bool :=
    match to, from with
    | OneView t, OneView f => vty_eqb t f || constructible t f
    | Container t, Container f => all2 vty_eqb t f || edm_compiles t f
    | _, _ => false
    end.

  (** Every instruction but the last four makes a new variable. *)
  Inductive instr :=
  | Pointer (o : nat)                           (* T* p = &o *)
  | GetData (o : nat)                           (* vector_view of the vector o: get_data, impl/vector.ipp lines 12-28 *)
  | Jagged (rs : list nat) (e : elt)            (* jagged_vector_view over a new array of views that is filled from variables *)
  | MakeView (rs : list nat) (buffer : bool)    (* edm::view of these variables; for a buffer, with a payload *)
  | Convert (r : nat) (t : ty)                  (* T x(r) *)
  | Get (r i : nat)                             (* r.get<i>() *)
  | Load (r i : nat)                            (* r.ptr()[i] *)
  | Store (r i s : nat) (e : elt)               (* r.ptr()[i] = s, where r views elements of type e *)
  | Read (r : nat) (e : elt)                    (* access to an element of type e *)
  | Write (r : nat) (e : elt)
  | WritePayload (r : nat).                     (* through r.payload() *)

  (** *** Static semantics: which programs compile. *)
  Section Static.
    (** The types of the objects. *)
    Variable objs : list elt.
    Definition elem_ty (env : list ty) (r : nat) : option elt :=
      match nth_error env r with
      | Some (OneView (TScalar e)) => Some e
      | Some (OneView (TVec e)) => Some e
      | _ => None
      end.
    Fixpoint views_ty (env : list ty) (rs : list nat) : option (list vty) :=
      match rs with
      | [] => Some []
      | r :: rs' => match nth_error env r, views_ty env rs' with
                    | Some (OneView t), Some ts => Some (t :: ts)
                    | _, _ => None
                    end
      end.
    Definition check1 (env : list ty) (c : instr) : option (list ty) :=
      match c with
      | Pointer o => option_map (fun e => env ++ [OneView (TScalar e)]) (nth_error objs o)
      | GetData o => option_map (fun e => env ++ [OneView (TVec e)]) (nth_error objs o)
      | Jagged rs e =>
          match views_ty env rs with
          | Some ts => if forallb (fun t => constructible (TVec e) t) ts then Some (env ++ [OneView (TJag e)]) else None
          | None => None
          end
      | MakeView rs _ => option_map (fun ts => env ++ [Container ts]) (views_ty env rs)
      | Convert r t =>
          match nth_error env r with
          | Some f => if convertible t f then Some (env ++ [t]) else None
          | None => None
          end
      | Get r i =>
          match nth_error env r with
          | Some (Container ts) => option_map (fun t => env ++ [OneView t]) (nth_error ts i)
          | _ => None
          end
      | Load r _ =>
          match nth_error env r with
          | Some (OneView (TJag e)) => Some (env ++ [OneView (TVec e)])
          | _ => None
          end
      | Store r _ s e =>
          match nth_error env r, nth_error env s with
          | Some (OneView (TJag e')), Some (OneView f) => if elt_eqb e e' && constructible (TVec e) f then Some env else None
          | _, _ => None
          end
      | Read r e => match elem_ty env r with Some e' => if elt_eqb e e' then Some env else None | None => None end
      | Write r e => match elem_ty env r with Some e' => if elt_eqb e e' && negb (e_const e) then Some env else None | None => None end
      | WritePayload r =>
          match nth_error env r with
          | Some (Container ts) => if e_const (memory_elt ts) then None else Some env
          | _ => None
          end
      end.
    Fixpoint check (env : list ty) (p : list instr) : option (list ty) :=
      match p with
      | [] => Some env
      | c :: p' => match check1 env c with Some env' => check env' p' | None => None end
      end.
    Definition compiles (p : list instr) : Prop := check [] p <> None.
  End Static.

  (** *** Dynamic semantics.  There are no types at run time: a pointer or a view of a vector is the
      object that it refers to, a jagged_vector_view is the array of inner views that it refers to. *)
  Inductive val := VObj (o : nat) | VArr (d : nat) | VCont (vs : list val) (payload : list nat).
  (** An access: a write or a read, the type that it is done with ([None]: bytes), the object. *)
  Record event := mkEvent { ev_write : bool; ev_elt : option elt; ev_obj : nat }.
  Record state := mkState { s_vars : list val; s_arrays : list (list nat); s_trace : list event }.

  (** The objects that a variable refers to. *)
  Definition objs_of (arrs : list (list nat)) (v : val) : list nat :=
    match v with VObj o => [o] | VArr d => nth d arrs [] | VCont _ p => p end.
  Fixpoint vals (vars : list val) (rs : list nat) : option (list val) :=
    match rs with
    | [] => Some []
    | r :: rs' => match nth_error vars r, vals vars rs' with Some v, Some vs => Some (v :: vs) | _, _ => None end
    end.
  Definition obj_list (vs : list val) : option (list nat) :=
    fold_right (fun v a => match v, a with VObj o, Some l => Some (o :: l) | _, _ => None end) (Some []) vs.
  Definition push (v : val) (s : state) : state := mkState (s_vars s ++ [v]) (s_arrays s) (s_trace s).
  Definition emit (es : list event) (s : state) : state := mkState (s_vars s) (s_arrays s) (s_trace s ++ es).

  (** One instruction; [None]: an index out of range (or a program that does not compile). *)
  Definition run1 (s : state) (c : instr) : option state :=
    match c with
    | Pointer o => Some (push (VObj o) s)
    | GetData o => Some (push (VObj o) s)
    | Jagged rs _ =>
        match vals (s_vars s) rs with
        | Some vs => match obj_list vs with
                     | Some l => Some (mkState (s_vars s ++ [VArr (length (s_arrays s))]) (s_arrays s ++ [l]) (s_trace s))
                     | None => None
                     end
        | None => None
        end
    | MakeView rs b =>
        match vals (s_vars s) rs with
        | Some vs => Some (push (VCont vs (if b then flat_map (objs_of (s_arrays s)) vs else [])) s)
        | None => None
        end
    | Convert r _ => option_map (fun v => push v s) (nth_error (s_vars s) r)
    | Get r i =>
        match nth_error (s_vars s) r with
        | Some (VCont vs _) => option_map (fun v => push v s) (nth_error vs i)
        | _ => None
        end
    | Load r i =>
        match nth_error (s_vars s) r with
        | Some (VArr d) => option_map (fun o => push (VObj o) s) (nth_error (nth d (s_arrays s) []) i)
        | _ => None
        end
    | Store r i x _ =>
        match nth_error (s_vars s) r, nth_error (s_vars s) x with
        | Some (VArr d), Some (VObj o) =>
            if Nat.ltb i (length (nth d (s_arrays s) []))
            then Some (mkState (s_vars s) (upd (s_arrays s) d (upd (nth d (s_arrays s) []) i o)) (s_trace s))
            else None
        | _, _ => None
        end
    | Read r e => match nth_error (s_vars s) r with Some (VObj o) => Some (emit [mkEvent false (Some e) o] s) | _ => None end
    | Write r e => match nth_error (s_vars s) r with Some (VObj o) => Some (emit [mkEvent true (Some e) o] s) | _ => None end
    | WritePayload r => match nth_error (s_vars s) r with Some (VCont _ p) => Some (emit (map (mkEvent true None) p) s) | _ => None end
    end.
  Fixpoint run (s : state) (p : list instr) : state :=
    match p with
    | [] => s
    | c :: p' => match run1 s c with Some s' => run s' p' | None => s end
    end.
  Definition trace (p : list instr) : list event := s_trace (run (mkState [] [] []) p).
End Hierarchy.
