(** The memory accesses of the threads of Kernel.v, JaggedKernel.v and EdmKernel.v.

    Sources (core/include/vecmem): containers/impl/device_vector.ipp lines 64-72 (at), 196-214
    (push_back), 484-497 (size), 511-520 (construct); containers/impl/jagged_device_vector.ipp
    lines 44-53 (at); edm/impl/device.ipp lines 33-42 (size), 55-85 (push_back_default),
    107-116 (at), 184-191 (construct_vector); edm/impl/proxy.ipp lines 12-58.

    Simplifications: only memory that the threads share is listed (not the views and device
    objects, which are passed by value, and not the arguments).  The accesses of the
    assertions are included, as in a build without NDEBUG. *)
From Verif Require Export Kernel JaggedKernel EdmKernel.

Inductive how := atomic_add | atomic_load | plain_read | plain_write.
Record access := mkAccess { a_ptr : Z; a_len : Z; a_how : how }.

(** The accesses of the next step of a thread.  device_vector::push_back. *)
Definition k_access (sz : Z) (v : Copy.vview) (t : kthr) : list access :=
  match t with
  | KCall _ => [mkAccess (v_sizep v) 4 atomic_add]
  | KWrite idx _ => [mkAccess (Copy.v_ptr v + idx * sz) sz plain_write]
  | KReturn _ _ | KDone _ _ => []
  end.

(** jagged_device_vector::at reads the description of the inner vector. *)
Definition jk_access (sz : Z) (jv : jview) (t : jthr) : list access :=
  match t with
  | JAt r _ => [mkAccess (j_ptr jv + 24 * Z.of_nat r) 24 plain_read]
  | JIn _ v t => k_access sz v t
  end.

(** edm::device::size, called by at, reads the counter with [*m_size]; the vectors, whose
    at is called for the proxy, read it with an atomic load. *)
Definition vec_load (x : eview) : list access :=
  match x with
  | EVector y => if Placement.v_size y =? 0 then [] else [mkAccess (Placement.v_size y) 4 atomic_load]
  | _ => []
  end.
Definition e_access (vars : list var) (d : edev) (t : ethr) : list access :=
  match t with
  | ECall _ => [mkAccess (ed_sizep d) 4 atomic_add]
  | EInit idx k _ =>
      match nth_error vars k, nth_error (ed_vars d) k with
      | Some v, Some (EVector y) => [mkAccess (Placement.v_ptr y + idx * ve_sz v) (ve_sz v) plain_write]
      | _, _ => []
      end
  | EAt _ _ => (if ed_sizep d =? 0 then [] else [mkAccess (ed_sizep d) 4 plain_read]) ++ flat_map vec_load (ed_vars d)
  | EFill _ k refs row =>
      match nth_error vars k, nth_error refs k, nth k row None with
      | Some v, Some (RAt p), Some _ => [mkAccess p (ve_sz v) plain_write]
      | _, _, _ => []
      end
  | EDone _ _ => []
  end.

(** Two accesses of different threads conflict if they share a byte, one of them writes,
    and they are not both atomic ([intro.races] of the C++ standard). *)
Definition writes (a : access) : bool := match a_how a with atomic_add | plain_write => true | _ => false end.
Definition is_atomic (a : access) : bool := match a_how a with atomic_add | atomic_load => true | _ => false end.
Definition conflict (a b : access) : Prop :=
  (exists x, a_ptr a <= x < a_ptr a + a_len a /\ a_ptr b <= x < a_ptr b + a_len b) /\
  writes a || writes b = true /\ is_atomic a && is_atomic b = false.
