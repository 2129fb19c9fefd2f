(** The memory accesses of the threads of the kernels of KernProg.v.

    Sources (core/include/vecmem): containers/impl/vector_view.ipp lines 74-78 (size), which the kernel
    in tests/cuda/test_cuda_containers_kernels.cu calls in line 163; containers/impl/device_vector.ipp
    lines 74-83 (at), 196-214 (push_back), 484-497 (size) and 511-520 (construct).

    Simplifications: those of Races.v. *)
From Verif Require Import Base Copy Kernel Races KernProg.
From Coq Require Import ZArith List Bool.
Import ListNotations.
Local Open Scope Z_scope.

Definition f_access (esz : Z) (vin : Copy.vview) (osz : Z) (vout : Copy.vview) (t : fthr) : list access :=
  match t with
  | FSize _ => if v_sizep vin =? 0 then [] else [mkAccess (v_sizep vin) 4 plain_read]
  | FRead t =>
      (if v_sizep vin =? 0 then [] else [mkAccess (v_sizep vin) 4 atomic_load]) ++
      [mkAccess (Copy.v_ptr vin + Z.of_nat t * esz) esz plain_read]
  | FPush k => k_access osz vout k
  | FEnd => []
  end.
