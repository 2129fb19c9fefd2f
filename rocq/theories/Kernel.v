(** Threads that append to a vector in device memory, on the level of bytes.

    Sources: device_vector.ipp (core/include/vecmem/containers/impl) lines 196-214 (push_back)
    and 511-520 (construct); fetch_add: memory/impl/posix_device_atomic_ref.ipp lines 111-117
    and memory/impl/cuda_device_atomic_ref.ipp lines 113-122.

    Simplifications: the elements are of a trivial type and given by their bytes; the atomic
    addition is one step, constructing the element is one step; sequentially consistent memory. *)
From Verif Require Export DeviceVector Copy.

(** A thread calls push_back once: before the call, between the atomic addition and the
    construction, before the return, and after it. *)
Inductive kthr :=
| KCall (bs : list Z) | KWrite (idx : Z) (bs : list Z) | KReturn (idx : Z) (bs : list Z) | KDone (idx : Z) (bs : list Z).

Section Kernel.
  Variable sz : Z.   (* sizeof(TYPE) *)
  Variable v : vview.

  Definition k_step (s : cmem * list kthr) (i : nat) : outcome (cmem * list kthr) :=
    let '(m, thr) := s in
    match nth_error thr i with
    | Some (KCall bs) =>
        assert (negb (v_sizep v =? 0))
          (match get_bytes m (v_sizep v) 4 with
           | Some c =>
               let idx := unle32 c in
               assert (idx <? v_cap v)
                 (Ret (put_bytes m (v_sizep v) (le32 (add32 idx 1)), upd thr i (KWrite idx bs)))
           | None => UB
           end)
    | Some (KWrite idx bs) =>
        assert (idx <? v_cap v)
          (match get_bytes m (v_ptr v + idx * sz) (Z.to_nat sz) with
           | Some _ => Ret (put_bytes m (v_ptr v + idx * sz) bs, upd thr i (KReturn idx bs))
           | None => UB
           end)
    | Some (KReturn idx bs) => Ret (m, upd thr i (KDone idx bs))
    | Some (KDone _ _) | None => Ret (m, thr)
    end.

  Fixpoint k_run (s : cmem * list kthr) (sched : list nat) : outcome (cmem * list kthr) :=
    match sched with
    | [] => Ret s
    | i :: sched' => let* s' := k_step s i in k_run s' sched'
    end.
End Kernel.
