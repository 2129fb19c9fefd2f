(** The implementations of do_copy and do_memset, and the events of CUDA.

    Sources: core/src/utils/copy.cpp, cuda/src/utils/cuda/copy.cpp, hip/src/utils/hip/copy.cpp
    (identical but for the names), cuda/src/utils/cuda/async_copy.cpp,
    sycl/src/utils/sycl/copy.sycl. *)
From Verif Require Export Base Copy.

(** ** The functions of the runtimes (trusted) *)

(** cudaMemcpyKind and hipMemcpyKind, in the order of their values. *)
Inductive ckind := CHostToHost | CHostToDevice | CDeviceToHost | CDeviceToDevice | CDefault.
Definition ckind_ok (k : ckind) (src_dev dst_dev : bool) : bool :=
  match k with
  | CHostToHost => negb src_dev && negb dst_dev
  | CHostToDevice => negb src_dev && dst_dev
  | CDeviceToHost => src_dev && negb dst_dev
  | CDeviceToDevice => src_dev && dst_dev
  | CDefault => true
  end.
(** memcpy of [n] > 0 bytes: the ranges must be accessible and not overlap. *)
Definition raw_copy (n src dst : Z) (m : cmem) : outcome cmem :=
  match get_bytes m src (Z.to_nat n), get_bytes m dst (Z.to_nat n) with
  | Some bs, Some _ => if (src <? dst + n) && (dst <? src + n) then UB else Ret (put_bytes m dst bs)
  | _, _ => UB
  end.
Definition raw_set (n dst value : Z) (m : cmem) : outcome cmem :=
  match get_bytes m dst (Z.to_nat n) with
  | Some _ => Ret (put_bytes m dst (repeat (value mod 256) (Z.to_nat n)))
  | None => UB
  end.
(** cudaMemcpy and hipMemcpy with the error check macro (cuda_error_handling.hpp 16-24 and
    .cpp 19-31): [ok] is false if the runtime reports an error for a reason that is not
    modelled. *)
Definition in_mem (r : outcome cmem) (m : cmem) : cm unit :=
  match r with Ret m' => (Ret tt, m') | Throw e => (Throw e, m) | UB => (UB, m) end.
Definition rt_memcpy (ok : bool) (k : ckind) (n src dst : Z) (m : cmem) : cm unit :=
  match raw_copy n src dst m with
  | Ret m' => if ok && ckind_ok k (m_dev m src) (m_dev m dst) then (Ret tt, m') else (Throw runtime_error, m)
  | r => in_mem r m
  end.
(** cudaMemset and hipMemset, ::sycl::queue::memcpy and memset followed by
    wait_and_throw. *)
Definition rt_simple (ok : bool) (r : outcome cmem) (m : cmem) : cm unit :=
  match r with
  | Ret m' => if ok then (Ret tt, m') else (Throw runtime_error, m)
  | r => in_mem r m
  end.

(** ** vecmem *)

(** copy::type::copy_type, core/include/vecmem/utils/copy.hpp 52-65. *)
Definition cp_code (k : cptype) : Z :=
  match k with host_to_device => 0 | device_to_host => 1 | host_to_host => 2 | device_to_device => 3 | type_unknown => 4 end.
(** copy_type_translator, cuda/src/utils/cuda/copy.cpp 26-28, hip/src/utils/hip/copy.cpp
    26-28, cuda/src/utils/cuda/async_copy.cpp 76-78. *)
Definition copy_type_translator : list ckind := [CHostToDevice; CDeviceToHost; CHostToHost; CDeviceToDevice; CDefault].

(** cuda::copy and hip::copy, lines 35-59 and 61-79; [cp] is the value of the enumeration. *)
Definition cuda_copy (ok : bool) (cp n src dst : Z) (m : cmem) : cm unit :=
  if n =? 0 then (Ret tt, m)
  else if (src =? 0) || (dst =? 0) || (cp <? 0) || (5 <=? cp) then (UB, m)
  else match nth_error copy_type_translator (Z.to_nat cp) with
       | Some k => rt_memcpy ok k n src dst m
       | None => (UB, m)
       end.
Definition cuda_memset (ok : bool) (n dst value : Z) (m : cmem) : cm unit :=
  if n =? 0 then (Ret tt, m) else if dst =? 0 then (UB, m) else rt_simple ok (raw_set n dst value m) m.

(** sycl::copy, lines 35-56 and 58-88; the copy type is not used. *)
Definition sycl_copy (ok : bool) (n src dst : Z) (m : cmem) : cm unit :=
  if n =? 0 then (Ret tt, m) else if (src =? 0) || (dst =? 0) then (UB, m) else rt_simple ok (raw_copy n src dst m) m.
(** std::fill_n over the bytes of the vector: writing behind its end is undefined. *)
Definition fill_n (l : list Z) (n : nat) (b : Z) : outcome (list Z) :=
  if Nat.leb n (length l) then Ret (repeat b n ++ skipn n l) else UB.
(** [native]: VECMEM_HAVE_SYCL_MEMSET.  Otherwise the bytes come from a std::vector<int> of
    size / sizeof(int) + 1 elements, whose constructor throws std::length_error beyond
    max_size() = 2^61 - 1. *)
Definition sycl_memset (native ok : bool) (n dst value : Z) (m : cmem) : cm unit :=
  if n =? 0 then (Ret tt, m)
  else if dst =? 0 then (UB, m)
  else if native then rt_simple ok (raw_set n dst value m) m
  else if 2 ^ 61 - 1 <? n / 4 + 1 then (Throw length_error, m)
  else match fill_n (repeat 0 (Z.to_nat (4 * (n / 4 + 1)))) (Z.to_nat n) (value mod 256) with
       | Ret dummy =>
         (* memcpy(ptr, dummy.data(), size) *)
         match get_bytes m dst (Z.to_nat n) with
         | Some _ => rt_simple ok (Ret (put_bytes m dst (firstn (Z.to_nat n) dummy))) m
         | None => (UB, m)
         end
       | _ => (UB, m)
       end.

(** vecmem::copy, core/src/utils/copy.cpp 27-49.  The C standard requires valid pointers of
    memcpy and memset even for zero bytes (C17 7.24.1, 7.1.4). *)
Definition posix_copy (n src dst : Z) (m : cmem) : cm unit :=
  if (src =? 0) || (dst =? 0) then (UB, m) else if n =? 0 then (Ret tt, m) else in_mem (raw_copy n src dst m) m.
Definition posix_memset (n dst value : Z) (m : cmem) : cm unit :=
  if dst =? 0 then (UB, m) else if n =? 0 then (Ret tt, m) else in_mem (raw_set n dst value m) m.
(** The loop of memset of jagged vectors that are not contiguous, with vecmem::copy
    (core/include/vecmem/utils/impl/copy.ipp 202-208). *)
Fixpoint posix_memset_each (sz : Z) (l : list vview) (value : Z) (m : cmem) : cm unit :=
  match l with
  | [] => (Ret tt, m)
  | v :: l' => cbind (posix_memset (v_cap v * sz) (v_ptr v) value m) (fun _ m => posix_memset_each sz l' value m)
  end.

(** ** Events of CUDA (async_copy.cpp lines 26-67 and 138-155)
    Calls of the runtime are logged, the newest first, with their success; the oracle tells
    which calls succeed.  Handles are numbered.  Destructors are noexcept, so an
    exception in them ends the program. *)
Inductive ecall := ECreate (h : nat) | ERecord (h : nat) | ESync (h : nat) | EDestroy (h : nat).
Record edrv := mkED { e_log : list (ecall * bool); e_orc : nat -> bool }.
Inductive eres (A : Type) := ROk (a : A) | RThrow | RTerminate.
Arguments ROk {A}. Arguments RThrow {A}. Arguments RTerminate {A}.
Definition e_call (c : ecall) (d : edrv) : bool * edrv :=
  let ok := e_orc d (length (e_log d)) in (ok, mkED ((c, ok) :: e_log d) (e_orc d)).

(** An event object is m_event.  ignore, lines 56-62. *)
Definition o_ignore (o : option nat) (d : edrv) : eres unit * option nat * edrv :=
  match o with
  | None => (ROk tt, o, d)
  | Some h => let '(ok, d) := e_call (EDestroy h) d in if ok then (ROk tt, None, d) else (RThrow, o, d)
  end.
(** wait, lines 47-53. *)
Definition o_wait (o : option nat) (d : edrv) : eres unit * option nat * edrv :=
  match o with
  | None => (ROk tt, o, d)
  | Some h => let '(ok, d) := e_call (ESync h) d in if ok then o_ignore o d else (RThrow, o, d)
  end.

Section Events.
  Variable fail_on_async_errors : bool. (* VECMEM_FAIL_ON_ASYNC_ERRORS *)

  (** The destructor, lines 34-44. *)
  Definition o_destroy (o : option nat) (d : edrv) : eres unit * edrv :=
    match o with
    | None => (ROk tt, d)
    | Some _ =>
      match o_wait o d with
      | (ROk _, _, d) => (if fail_on_async_errors then RTerminate else ROk tt, d)
      | (_, _, d) => (RTerminate, d)
      end
    end.
  (** create_event, lines 138-155; [h] is the handle that the runtime returns. *)
  Definition o_create (h : nat) (d : edrv) : eres (option nat) * edrv :=
    let '(ok, d) := e_call (ECreate h) d in
    if negb ok then (RThrow, d)
    else
      let '(ok, d) := e_call (ERecord h) d in
      if ok then (ROk (Some h), d)
      else match o_destroy (Some h) d with (ROk _, d) => (RThrow, d) | (_, d) => (RTerminate, d) end.

  (** A user of an event: calls wait and ignore, catches the exceptions, and destroys the
      event in the end.  The result tells which calls threw. *)
  Inductive euse := UWait | UIgnore.
  Fixpoint o_use (us : list euse) (o : option nat) (d : edrv) : list bool * option nat * edrv :=
    match us with
    | [] => ([], o, d)
    | u :: us' =>
      let '(r, o, d) := match u with UWait => o_wait o d | UIgnore => o_ignore o d end in
      let '(l, o, d) := o_use us' o d in
      ((match r with RThrow => true | _ => false end) :: l, o, d)
    end.
  Definition o_life (h : nat) (us : list euse) (d : edrv) : eres (list bool) * edrv :=
    match o_create h d with
    | (ROk o, d) =>
      let '(l, o, d) := o_use us o d in
      match o_destroy o d with (ROk _, d) => (ROk l, d) | (_, d) => (RTerminate, d) end
    | (RThrow, d) => (RThrow, d)
    | (RTerminate, d) => (RTerminate, d)
    end.
End Events.
