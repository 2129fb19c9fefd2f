(** Memory resources of the CUDA, HIP and SYCL libraries.

    Sources: cuda/src/memory/*.cpp, hip/src/memory/*.cpp, sycl/src/memory/*.sycl,
    cuda/src/utils/select_device.cpp, hip/src/utils/select_device.cpp,
    hip/src/utils/run_on_device.hpp.  The CUDA and the HIP sources make the same calls of
    their runtimes, and are modelled once. *)
From Verif Require Import Base.

(** ** The runtimes
    [rt_cur]: the current device of the thread; [rt_live]: the memory that is allocated,
    with its kind, newest first; [rt_n]: the number of allocations so far. *)
Inductive skind := SDevice | SHost | SShared.
Inductive mkind := MDevice (d : Z) | MPinned | MManaged | MSycl (k : skind) (q : Z).
Record rt := mkRt { rt_cur : Z; rt_live : list (Z * mkind); rt_n : nat }.

Definition mkind_eq_dec (a b : mkind) : {a = b} + {a <> b}.
Proof. decide equality; try apply Z.eq_dec. decide equality. Defined.

Fixpoint rt_kind (l : list (Z * mkind)) (p : Z) : option mkind :=
  match l with [] => None | (q, k) :: l' => if p =? q then Some k else rt_kind l' p end.
Fixpoint rt_erase (l : list (Z * mkind)) (p : Z) : list (Z * mkind) :=
  match l with [] => [] | (q, k) :: l' => if p =? q then l' else (q, k) :: rt_erase l' p end.

Section Runtime.
  (** Which devices exist, and the answer to the n-th allocation. *)
  Variable dev_ok : Z -> bool.
  Variable orc : nat -> option Z.

  (** cudaMalloc, cudaMallocHost, cudaMallocManaged, sycl::aligned_alloc_...: [None] if
      there is not enough memory. *)
  Definition rt_alloc (k : mkind) (s : rt) : option Z * rt :=
    match orc (rt_n s) with
    | Some p => (Some p, mkRt (rt_cur s) ((p, k) :: rt_live s) (S (rt_n s)))
    | None => (None, mkRt (rt_cur s) (rt_live s) (S (rt_n s)))
    end.
  (** cudaFree, cudaFreeHost, sycl::free: memory of the wrong kind is undefined. *)
  Definition rt_free (ok : mkind -> bool) (p : Z) (s : rt) : outcome unit * rt :=
    match rt_kind (rt_live s) p with
    | Some k => if ok k then (Ret tt, mkRt (rt_cur s) (rt_erase (rt_live s) p) (rt_n s)) else (UB, s)
    | None => (UB, s)
    end.

  (** ** select_device (cuda/src/utils/select_device.cpp lines 14-30)
      [select_device dev(d); body].  The destructor is noexcept, so that an error in it
      calls std::terminate, which is represented by [UB]. *)
  Definition with_device {A} (d : Z) (body : rt -> outcome A * rt) (s : rt) : outcome A * rt :=
    if negb (dev_ok d) then (Throw runtime_error, s)
    else let '(r, s') := body (mkRt d (rt_live s) (rt_n s)) in
         if dev_ok (rt_cur s) then (r, mkRt (rt_cur s) (rt_live s') (rt_n s')) else (UB, s').
  (** select_device::device, lines 32-35: m_device, set at line 20. *)
  Definition select_device_device (d : Z) (s : rt) : Z := rt_cur s.

  (** ** The resources
      [RDevice d]: cuda/hip device_memory_resource for device [d]; [RHost], [RManaged]: the
      other cuda/hip resources; [RSycl k q]: the sycl resources, with (the identity of) the queue. *)
  Inductive res := RDevice (d : Z) | RHost | RManaged | RSycl (k : skind) (q : Z).

  (** device_memory_resource(int device), lines 23-28; INVALID_DEVICE is -1. *)
  Definition make_device_resource (device : Z) (s : rt) : res := RDevice (if device =? -1 then rt_cur s else device).

  (** do_allocate: the error check macros throw std::runtime_error
      (cuda_error_handling.cpp 19-31), the sycl resources std::bad_alloc.  Only the sycl
      resources use the alignment (which has no effect in this model). *)
  Definition res_allocate (r : res) (bytes alignment : Z) (s : rt) : outcome Z * rt :=
    if bytes =? 0 then (Ret 0, s)
    else
      let get k e s := match rt_alloc k s with (Some p, s') => (Ret p, s') | (None, s') => (Throw e, s') end in
      match r with
      | RDevice d => with_device d (fun s => get (MDevice (rt_cur s)) runtime_error s) s
      | RHost => get MPinned runtime_error s
      | RManaged => get MManaged runtime_error s
      | RSycl k q => get (MSycl k q) bad_alloc s
      end.
  (** do_deallocate; cudaFree takes device and managed memory. *)
  Definition cuda_free (k : mkind) : bool := match k with MDevice _ | MManaged => true | _ => false end.
  Definition cuda_free_host (k : mkind) : bool := match k with MPinned => true | _ => false end.
  Definition sycl_free (q : Z) (k : mkind) : bool := match k with MSycl _ q' => q =? q' | _ => false end.
  Definition res_deallocate (r : res) (p : Z) (s : rt) : outcome unit * rt :=
    if p =? 0 then (Ret tt, s)
    else match r with
         | RDevice d => with_device d (rt_free cuda_free p) s
         | RHost => rt_free cuda_free_host p s
         | RManaged => rt_free cuda_free p s
         | RSycl k q => rt_free (sycl_free q) p s
         end.
  (** do_is_equal (cuda/src/memory/device_memory_resource.cpp 63-74 and so on;
      sycl/src/memory/memory_resource_base.sycl 34-43: the cast is to the base class). *)
  Definition res_equal (a b : res) : bool :=
    match a, b with
    | RDevice d, RDevice d' => d' =? d
    | RHost, RHost => true
    | RManaged, RManaged => true
    | RSycl _ q, RSycl _ q' => q' =? q
    | _, _ => false
    end.

  (** coalescing_memory_resource_impl::allocate (coalescing_memory_resource_impl.cpp
      21-54) with these resources: only std::bad_alloc is caught. *)
  Fixpoint coal_allocate (ups : list res) (size align : Z) (s : rt) : outcome Z * rt :=
    match ups with
    | [] => (Throw bad_alloc, s)
    | r :: ups' => match res_allocate r size align s with
                   | (Throw bad_alloc, s') => coal_allocate ups' size align s'
                   | x => x
                   end
    end.
End Runtime.
