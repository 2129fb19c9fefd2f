(** edm::device: the SoA container used in device code.

    Sources (core/include/vecmem): edm/impl/device.ipp lines 20-50 (constructor, size,
    capacity) and 87-146 (get, at, operator[]), edm/details/device_traits.hpp lines 66-98
    (get of a scalar), 102-154 (capacity check) and 156-192 (size pointer),
    edm/details/proxy_traits.hpp lines 43-165 (make), containers/impl/device_vector.ipp lines
    64-74 (at) and the size function, containers/impl/jagged_device_vector.ipp lines 44-54 (at).

    Simplifications: a reference is the address that it refers to; the proxy element of a
    jagged vector is a device_vector, given by its view; [rd] tells what the counter
    ([unsigned int]) at an address holds. *)
From Verif Require Export Base IntMath Align Placement EdmBuffer.

Section Device.
  Variable rd : Z -> Z.

  (** Capacity, size pointer (null for none), variables. *)
  Record edev := mkDev { ed_cap : Z; ed_sizep : Z; ed_vars : list eview }.

  (** device_capacity_matches, lines 102-127, and device_capacities_match. *)
  Definition ev_matches (cap : Z) (x : eview) : bool :=
    match x with
    | EScalar _ => true
    | EVector v => cap =? v_cap v
    | EJagged n _ _ _ => cap =? n
    end.
  Definition dev_matches (d : edev) : bool := forallb (ev_matches (ed_cap d)) (ed_vars d).

  (** device_size_pointer::get, lines 156-192. *)
  Definition dev_size_pointer (jagged : bool) (size : mview) : outcome Z :=
    if jagged then Ret 0 else assert ((m_ptr size =? 0) || (m_len size =? 4)) (Ret (m_ptr size)).

  (** Constructor, device.ipp lines 20-31: from the capacity, the size and the variables of
      an edm::view.  [vars]: the schema. *)
  Definition dev_make (vars : list var) (cap : Z) (size : mview) (views : list eview) : outcome edev :=
    let* p := dev_size_pointer (existsb is_jagged vars) size in
    let d := mkDev cap p views in
    assert (dev_matches d) (Ret d).

  (** size, lines 33-42, and capacity, lines 44-53. *)
  Definition dev_size (d : edev) : outcome Z :=
    assert (dev_matches d) (Ret (if ed_sizep d =? 0 then ed_cap d else rd (ed_sizep d))).
  Definition dev_capacity (d : edev) : outcome Z := assert (dev_matches d) (Ret (ed_cap d)).

  (** The element that a proxy stores for a variable. *)
  Inductive dref := RAt (p : Z) | RRow (v : vview).

  (** device_vector::size. *)
  Definition vec_size (v : vview) : Z := if v_size v =? 0 then v_cap v else rd (v_size v).

  Definition dev_item (v : var) (x : eview) (i : Z) : outcome dref :=
    match x with
    | EScalar p => Ret (RAt p)
    | EVector y => assert (i <? vec_size y) (Ret (RAt (v_ptr y + i * ve_sz v)))
    | EJagged n _ _ inner =>
        assert (i <? n) (match nth_error inner (Z.to_nat i) with Some y => Ret (RRow y) | None => UB end)
    end.

  (** The tuple of a proxy, in the order of the variables; operator[], lines 133-146. *)
  Fixpoint dev_items (vars : list var) (xs : list eview) (i : Z) : outcome (list dref) :=
    match vars, xs with
    | v :: vars', x :: xs' =>
        let* r := dev_item v x i in let* rs := dev_items vars' xs' i in Ret (r :: rs)
    | _, _ => Ret []
    end.
  Definition dev_index (vars : list var) (d : edev) (i : Z) : outcome (list dref) := dev_items vars (ed_vars d) i.
  (** at, lines 107-131. *)
  Definition dev_at (vars : list var) (d : edev) (i : Z) : outcome (list dref) :=
    let* n := dev_size d in assert (i <? n) (dev_index vars d i).
End Device.
