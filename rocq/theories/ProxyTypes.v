(** Element proxies of SoA containers: types, references and const.

    Sources (core/include/vecmem/edm): details/proxy_traits.hpp lines 51-241 (proxy_var_type and
    proxy_var_type_at) and 250-381 (proxy_data_creator); impl/proxy.ipp lines 12-60; impl/device.ipp
    lines 86-147 and impl/host.ipp lines 68-141 (get, at, operator[]); details/device_traits.hpp
    lines 27-101 and details/host_traits.hpp lines 28-64 (the types of the variables);
    core/include/vecmem/containers: device_vector.hpp lines 45-84 and jagged_device_vector.hpp lines
    58-85 (types and constructors), impl/device_vector.ipp lines 63-82 and
    impl/jagged_device_vector.ipp lines 44-64 (at); core/include/vecmem/utils/impl/tuple.ipp lines
    53-78 (get).

    What is modelled is which function bodies compile, and which object the resulting
    reference denotes.  [None] stands for a program that does not compile: reference binding or
    initialisation without a conversion.  The only constructors of device_vector and
    jagged_device_vector other than the copy constructors are explicit and take views, and there
    are no conversion functions, so that there are no implicit conversions between different
    types of vectors.  Simplifications: the element type is one type; the bounds checks of at
    are the subject of C92 and C124. *)
From Coq Require Import List Bool Arith.
Import ListNotations.

(** A variable of a schema: type::scalar<T>, type::vector<T>, type::jagged_vector<T>, with T
    const or not. *)
Inductive vkind := KScalar | KVector | KJagged.
Record variable := mkVar { v_kind : vkind; v_const : bool }.

(** Types without reference and const at the top: T, device_vector<T>,
    jagged_device_vector<T> with T const or not, vecmem::vector<T>, vecmem::jagged_vector<T>. *)
Inductive ctype := CElement | CDevice (k : bool) | CJaggedDevice (k : bool) | CVector | CJagged.
(** The data that an expression gives access to: variable [v], element [i] of variable [v], the
    inner vector [i] of variable [v]. *)
Inductive place := PVariable (v : nat) | PElement (v i : nat) | PInner (v i : nat).
(** An expression: type, const, place. *)
Record expr := mkExpr { e_type : ctype; e_const : bool; e_place : place }.

Definition ctype_eqb (a b : ctype) : bool :=
  match a, b with
  | CElement, CElement | CVector, CVector | CJagged, CJagged => true
  | CDevice k, CDevice k' | CJaggedDevice k, CJaggedDevice k' => Bool.eqb k k'
  | _, _ => false
  end.
(** Binding of a reference to [t], const if [c]: the types have to agree, const may be added. *)
Definition bind_ref (t : ctype) (c : bool) (e : expr) : option expr :=
  if ctype_eqb t (e_type e) && implb (e_const e) c then Some (mkExpr t c (e_place e)) else None.
(** Initialisation of an object of type [t], which is a copy. *)
Definition init_object (t : ctype) (e : expr) : option expr :=
  if ctype_eqb t (e_type e) then Some (mkExpr t false (e_place e)) else None.
Definition obind {A B} (o : option A) (f : A -> option B) : option B := match o with Some a => f a | None => None end.

(** host::get and device::get; [cc]: called on a const container. *)
Definition container_get (dev cc : bool) (x : variable) (v : nat) : expr :=
  match v_kind x, dev with
  | KScalar, _ => mkExpr CElement (v_const x || cc) (PVariable v)
  | KVector, true => mkExpr (CDevice (v_const x)) cc (PVariable v)
  | KVector, false => mkExpr CVector cc (PVariable v)
  | KJagged, true => mkExpr (CJaggedDevice (v_const x)) cc (PVariable v)
  | KJagged, false => mkExpr CJagged cc (PVariable v)
  end.

(** [e.at(i)] for the vector types: reference or const_reference. *)
Definition at_index (e : expr) (i : nat) : option expr :=
  match e_type e, e_place e with
  | CDevice k, PVariable v => Some (mkExpr CElement (k || e_const e) (PElement v i))
  | CVector, PVariable v => Some (mkExpr CElement (e_const e) (PElement v i))
  | CJaggedDevice k, PVariable v => Some (mkExpr (CDevice (k || e_const e)) false (PInner v i))
  | CJagged, PVariable v => Some (mkExpr CVector (e_const e) (PInner v i))
  | _, _ => None
  end.

(** proxy_var_type<..>::make, proxy_traits.hpp; [pc]: proxy_access::constant. *)
Definition var_make (dev pc : bool) (x : variable) (i : nat) (e : expr) : option expr :=
  match v_kind x, dev with
  | KScalar, _ => bind_ref CElement (v_const x || pc) e (* lines 51-85 *)
  | KVector, _ => (* lines 88-124: const VECTYPE & or VECTYPE & *)
      obind (bind_ref (e_type e) (pc || e_const e) e) (fun vec =>
      obind (at_index vec i) (bind_ref CElement (v_const x || pc)))
  | KJagged, true =>
      if pc then (* lines 127-148 *)
        obind (bind_ref (CJaggedDevice true) true e) (fun vec => obind (at_index vec i) (init_object (CDevice true)))
      else (* lines 151-172 *)
        obind (bind_ref (CJaggedDevice (v_const x)) false e) (fun vec => obind (at_index vec i) (init_object (CDevice (v_const x))))
  | KJagged, false => (* lines 177-218 *)
      obind (bind_ref CJagged pc e) (fun vec => obind (at_index vec i) (bind_ref CVector pc))
  end.

(** proxy_data_creator, lines 250-381: all of the variables, from [v] on. *)
Fixpoint make_impl (dev pc cc : bool) (xs : list variable) (v i : nat) : option (list expr) :=
  match xs with
  | [] => Some []
  | x :: xs' =>
      obind (var_make dev pc x i (container_get dev cc x v)) (fun h =>
      obind (make_impl dev pc cc xs' (S v) i) (fun tl => Some (h :: tl)))
  end.
(** at and operator[]: a const container makes constant proxies, device.ipp lines 130-147 and
    host.ipp lines 127-141. *)
Definition make_proxy (dev cc : bool) (xs : list variable) (i : nat) : option (list expr) := make_impl dev cc cc xs 0 i.

(** return_type and const_return_type of proxy_var_type, without the reference; [gc]: get() const. *)
Definition get_type (dev pc gc : bool) (x : variable) : ctype * bool :=
  match v_kind x, dev with
  | KScalar, _ | KVector, _ => (CElement, v_const x || pc || gc)
  | KJagged, true => if pc then (CDevice true, true) else if gc then (CDevice true, true) else (CDevice (v_const x), false)
  | KJagged, false => (CVector, pc || gc)
  end.
(** proxy::get, proxy.ipp lines 37-58: vecmem::get gives auto & or const auto &. *)
Definition proxy_get (dev pc gc : bool) (x : variable) (held : expr) : option expr :=
  let '(t, c) := get_type dev pc gc x in bind_ref t c (mkExpr (e_type held) (e_const held || gc) (e_place held)).

(** [container.at(i).get<v>()]. *)
Definition access (dev cc gc : bool) (xs : list variable) (v i : nat) : option expr :=
  obind (make_proxy dev cc xs i) (fun tup =>
  obind (nth_error xs v) (fun x => obind (nth_error tup v) (proxy_get dev cc gc x))).
