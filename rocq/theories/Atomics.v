(** Atomic references: dummy_device_atomic_ref, posix_device_atomic_ref,
    cuda::device_atomic_ref and vecmem::atomic.

    Sources (core/include/vecmem/memory): impl/dummy_device_atomic_ref.ipp,
    impl/posix_device_atomic_ref.ipp, impl/cuda_device_atomic_ref.ipp, impl/atomic.ipp.

    Simplifications: the value type is an unsigned integer of [w] bits, held as a [Z]
    in [0, 2^w); memory is sequentially consistent, so the memory orders only matter for
    the assert on the failure order; the builtins of the compiler, CUDA, HIP and
    SYCL are taken to do what their documentation says. *)
From Verif Require Export Base.

(** A call on the reference. *)
Inductive aop := AStore (d : Z) | ALoad | AExchange (d : Z)
  | AAdd (d : Z) | ASub (d : Z) | AAnd (d : Z) | AOr (d : Z) | AXor (d : Z).

(** Conversion of an arithmetic result to the value type. *)
Definition wrapw (w x : Z) : Z := x mod 2 ^ w.

(** The desired value handed to compare_exchange_strong when the expected value is
    [tmp]: dummy_device_atomic_ref.ipp lines 42, 59 (store, exchange), 101, 111, 121, 131,
    141 (fetch_add .. fetch_xor). [ALoad] never gets to the loop. *)
Definition desired (w : Z) (o : aop) (tmp : Z) : Z :=
  match o with
  | AStore d | AExchange d => d
  | ALoad => tmp
  | AAdd d => wrapw w (tmp + d)
  | ASub d => wrapw w (tmp - d)
  | AAnd d => Z.land tmp d
  | AOr d => Z.lor tmp d
  | AXor d => Z.lxor tmp d
  end.

(** What the call hands back: nothing for store (line 42), [tmp] otherwise. *)
Definition result (o : aop) (tmp : Z) : option Z :=
  match o with AStore _ => None | _ => Some tmp end.

(** compare_exchange_strong taken as one atomic action on the cell: success flag, the
    new value of [expected], the new value of the cell.  This is the meaning of
    dummy_device_atomic_ref.ipp lines 86-93 when nothing interferes; it is also the
    documented meaning of __atomic_compare_exchange_n and sycl::atomic_compare_exchange_strong. *)
Definition cas_atomic (cell expected desired : Z) : bool * Z * Z :=
  if cell =? expected then (true, expected, desired) else (false, cell, cell).

(** A thread: the calls it still has to make (the head is the current one), the local
    [tmp] of the current call once load() has returned, the results so far. *)
Record athread := mkT { t_todo : list aop; t_tmp : option Z; t_res : list (option Z) }.
Record astate := mkA { a_cell : Z; a_thr : list athread }.

(** One step of thread [i]: one compare_exchange_strong.  The first one of a call is that
    of load(): dummy_device_atomic_ref.ipp lines 49-51; the others are those of the while
    loops of lines 58-61 and 100-143 (store is exchange, line 42). *)
Definition a_step (w : Z) (s : astate) (i : nat) : astate :=
  match nth_error (a_thr s) i with
  | None => s
  | Some t =>
      match t_todo t with
      | [] => s
      | o :: rest =>
          match t_tmp t with
          | None =>
              let '(_, tmp, c) := cas_atomic (a_cell s) 0 0 in
              match o with
              | ALoad => mkA c (upd (a_thr s) i (mkT rest None (t_res t ++ [result o tmp])))
              | _ => mkA c (upd (a_thr s) i (mkT (o :: rest) (Some tmp) (t_res t)))
              end
          | Some tmp =>
              let '(ok, tmp', c) := cas_atomic (a_cell s) tmp (desired w o tmp) in
              if ok then mkA c (upd (a_thr s) i (mkT rest None (t_res t ++ [result o tmp'])))
              else mkA c (upd (a_thr s) i (mkT (o :: rest) (Some tmp') (t_res t)))
          end
      end
  end.

Definition a_run (w : Z) (s : astate) (sched : list nat) : astate := fold_left (a_step w) sched s.

(** All threads about to start their programs. *)
Definition a_init (v : Z) (progs : list (list aop)) : astate := mkA v (map (fun p => mkT p None []) progs).

(** ** The compare_exchange_strong that dummy_device_atomic_ref really has

    Lines 86-93: a read, a comparison of the local copy, and a separate write.  A step is
    one access to the cell. *)
Inductive dphase :=
| DStart                (* about to read in the compare_exchange of load() *)
| DLoadWrite            (* load() read 0 and is about to write 0 *)
| DLoop (tmp : Z)       (* about to read in the compare_exchange of the loop *)
| DWrite (tmp : Z).     (* read [tmp] again and is about to write the desired value *)
Record dthread := mkD { d_todo : list aop; d_phase : dphase; d_res : list (option Z) }.
Record dstate := mkDS { ds_cell : Z; ds_thr : list dthread }.

(** After load() returned [tmp]. *)
Definition d_loaded (t : dthread) (o : aop) (rest : list aop) (tmp : Z) : dthread :=
  match o with
  | ALoad => mkD rest DStart (d_res t ++ [result o tmp])
  | _ => mkD (o :: rest) (DLoop tmp) (d_res t)
  end.

Definition dm_step (w : Z) (s : dstate) (i : nat) : dstate :=
  match nth_error (ds_thr s) i with
  | None => s
  | Some t =>
      match d_todo t with
      | [] => s
      | o :: rest =>
          match d_phase t with
          | DStart =>
              if ds_cell s =? 0 then mkDS (ds_cell s) (upd (ds_thr s) i (mkD (o :: rest) DLoadWrite (d_res t)))
              else mkDS (ds_cell s) (upd (ds_thr s) i (d_loaded t o rest (ds_cell s)))
          | DLoadWrite => mkDS 0 (upd (ds_thr s) i (d_loaded t o rest 0))
          | DLoop tmp =>
              if ds_cell s =? tmp then mkDS (ds_cell s) (upd (ds_thr s) i (mkD (o :: rest) (DWrite tmp) (d_res t)))
              else mkDS (ds_cell s) (upd (ds_thr s) i (mkD (o :: rest) (DLoop (ds_cell s)) (d_res t)))
          | DWrite tmp => mkDS (desired w o tmp) (upd (ds_thr s) i (mkD rest DStart (d_res t ++ [result o tmp])))
          end
      end
  end.

Definition dm_run (w : Z) (s : dstate) (sched : list nat) : dstate := fold_left (dm_step w) sched s.
Definition dm_init (v : Z) (progs : list (list aop)) : dstate := mkDS v (map (fun p => mkD p DStart []) progs).

(** ** posix_device_atomic_ref and cuda::device_atomic_ref: one builtin per call

    New value of the cell and returned value. posix_device_atomic_ref.ipp lines 60-80 and
    111-149; fetch_sub adds [-data] (line 123). *)
Definition posix_apply (w : Z) (o : aop) (v : Z) : Z * option Z :=
  match o with
  | AStore d => (d, None)
  | ALoad => (v, Some v)
  | AExchange d => (d, Some v)
  | AAdd d => (wrapw w (v + d), Some v)
  | ASub d => (wrapw w (v + wrapw w (- d)), Some v)
  | AAnd d => (Z.land v d, Some v)
  | AOr d => (Z.lor v d, Some v)
  | AXor d => (Z.lxor v d, Some v)
  end.

(** cuda_device_atomic_ref.ipp lines 47-74 (store, load, exchange) and 113-146. *)
Definition cuda_apply (w : Z) (o : aop) (v : Z) : Z * option Z :=
  match o with
  | AStore d => (d, None)
  | ALoad => (v, Some v)
  | AExchange d => (d, Some v)
  | AAdd d => (wrapw w (v + d), Some v)
  | ASub d => (wrapw w (v - d), Some v)
  | AAnd d => (Z.land v d, Some v)
  | AOr d => (Z.lor v d, Some v)
  | AXor d => (Z.lxor v d, Some v)
  end.

(** Threads whose calls are single atomic builtins ([app] is one of the two above). *)
Definition b_step (app : aop -> Z -> Z * option Z) (s : astate) (i : nat) : astate :=
  match nth_error (a_thr s) i with
  | None => s
  | Some t =>
      match t_todo t with
      | [] => s
      | o :: rest => let '(c, r) := app o (a_cell s) in mkA c (upd (a_thr s) i (mkT rest None (t_res t ++ [r])))
      end
  end.
Definition b_run (app : aop -> Z -> Z * option Z) (s : astate) (sched : list nat) : astate :=
  fold_left (b_step app) sched s.

(** memory_order.hpp lines 31-38. *)
Inductive memory_order := Relaxed | Consume | Acquire | Release | AcqRel | SeqCst.

(** The failure order chosen by the three argument compare_exchange_strong:
    posix_device_atomic_ref.ipp lines 86-94; the same text in cuda_device_atomic_ref.ipp,
    dummy_device_atomic_ref.ipp and sycl_custom_device_atomic_ref.ipp. *)
Definition failure_order (o : memory_order) : memory_order :=
  match o with AcqRel => Acquire | Release => Relaxed | _ => o end.

(** assert(failure != release && failure != acq_rel): posix lines 102-103. *)
Definition failure_order_ok (o : memory_order) : bool :=
  match o with Release | AcqRel => false | _ => true end.

(** The four and three argument versions of posix_device_atomic_ref: lines 83-109. *)
Definition posix_cas4 (cell expected desired : Z) (success failure : memory_order) : outcome (bool * Z * Z) :=
  assert (failure_order_ok failure) (Ret (cas_atomic cell expected desired)).
Definition posix_cas3 (cell expected desired : Z) (order : memory_order) : outcome (bool * Z * Z) :=
  posix_cas4 cell expected desired order (failure_order order).

(** CUDA's atomicCAS: returned old value, new value of the cell. *)
Definition atomicCAS (cell expected desired : Z) : Z * Z :=
  (cell, if cell =? expected then desired else cell).

(** cuda_device_atomic_ref.ipp lines 76-111. *)
Definition cuda_cas4 (cell expected desired : Z) (success failure : memory_order) : outcome (bool * Z * Z) :=
  assert (failure_order_ok failure)
    (let '(r, c) := atomicCAS cell expected desired in
     Ret (if r =? expected then (true, expected, c) else (false, r, c))).
Definition cuda_cas3 (cell expected desired : Z) (order : memory_order) : outcome (bool * Z * Z) :=
  cuda_cas4 cell expected desired order (failure_order order).

(** ** vecmem::atomic: the platforms selected by the preprocessor in atomic.ipp. *)
Inductive platform := PCudaHip | PSycl | PHost.

(** atomic.ipp lines 86-105: success flag, new [expected], new cell.  The CUDA/HIP
    branch (line 92) returns the old value of the cell converted to bool. *)
Definition atomic_cas (p : platform) (cell expected desired : Z) : bool * Z * Z :=
  match p with
  | PCudaHip => let '(r, c) := atomicCAS cell expected desired in (negb (r =? 0), expected, c)
  | PSycl => cas_atomic cell expected desired
  | PHost => if cell =? expected then (true, expected, desired) else (false, cell, cell)
  end.

(** The other functions of atomic.ipp in host code, lines 39-52 (store), 54-69 (load),
    71-84 (exchange), 107-184 (the fetch functions): a read and a write of the cell. *)
Definition host_atomic_apply (w : Z) (o : aop) (v : Z) : Z * option Z :=
  match o with
  | AStore d => (d, None)
  | ALoad => (v, Some v)
  | AExchange d => (d, Some v)
  | AAdd d => (wrapw w (v + d), Some v)
  | ASub d => (wrapw w (v - d), Some v)
  | AAnd d => (Z.land v d, Some v)
  | AOr d => (Z.lor v d, Some v)
  | AXor d => (Z.lxor v d, Some v)
  end.
