(** The memory orders of device_atomic_ref.

    Sources (core/include/vecmem/memory): memory_order.hpp lines 31-38;
    impl/posix_device_atomic_ref.ipp lines 15-39 (memorder_to_posix_builtin) and 60-150;
    impl/cuda_device_atomic_ref.ipp lines 30-147, used for HIP as well
    (details/hip_device_atomic_ref.hpp); impl/sycl_custom_device_atomic_ref.ipp lines 63-175.

    The rest of the model of the atomics (Atomics.v) is sequentially consistent.  Here the
    accesses of a thread may be performed in another order than that of the program, and the
    memory orders and fences restrict that.  Simplifications: every access is performed at
    one moment for all other threads (this excludes further behaviours of GPUs, but allows all
    that is needed to refute); the reads of a thread may be performed before the branches that
    they depend on, so that programs are straight lines of accesses. *)
From Verif Require Import Base Atomics.
From Coq Require Import ZArith List Bool Arith.
Import ListNotations.
Local Open Scope Z_scope.

(** ** A machine that reorders the accesses of its threads *)

(** One access: location ([None]: fence); acquire, release and sequentially consistent; the values
    with which it can be performed; the new value. *)
Record access := mkAcc { a_loc : option nat; a_acq : bool; a_rel : bool; a_sc : bool; a_if : Z -> bool; a_new : Z -> Z }.
(** A plain read and write, and __threadfence(). *)
Definition plain_read (x : nat) : access := mkAcc (Some x) false false false (fun _ => true) (fun z => z).
Definition plain_write (x : nat) (v : Z) : access := mkAcc (Some x) false false false (fun _ => true) (fun _ => v).
Definition thread_fence : access := mkAcc None true true true (fun _ => true) (fun z => z).

(** [a], which is earlier in the program, has to be performed before [b]: they are on the same
    location, or one of them is a fence, or [a] acquires, or [b] releases, or both are
    sequentially consistent. *)
Definition keeps (a b : access) : bool :=
  match a_loc a, a_loc b with Some x, Some y => Nat.eqb x y | _, _ => true end
  || a_acq a || a_rel b || (a_sc a && a_sc b).

(** A performed access: thread, index in the program of the thread, access, old value. *)
Record event := mkEv { e_thread : nat; e_index : nat; e_acc : access; e_old : Z }.

(** Access number [i] of those which are left can be performed next. *)
Definition ready (l : list (nat * access)) (i : nat) : option (nat * access) :=
  match nth_error l i with
  | Some (k, b) => if forallb (fun x => negb (keeps (snd x) b)) (firstn i l) then Some (k, b) else None
  | None => None
  end.
Definition drop (l : list (nat * access)) (i : nat) : list (nat * access) := firstn i l ++ skipn (S i) l.
Definition value (m : nat -> Z) (o : option nat) : Z := match o with Some x => m x | None => 0 end.
Definition store_to (m : nat -> Z) (o : option nat) (v : Z) : nat -> Z :=
  match o with Some x => fun y => if Nat.eqb y x then v else m y | None => m end.
(** The execution that performs access [i] of those left of thread [t], for every [(t, i)] of the
    schedule; [None]: not an execution. *)
Fixpoint run (m : nat -> Z) (ths : list (list (nat * access))) (s : list (nat * nat)) : option (list event) :=
  match s with
  | [] => Some []
  | (t, i) :: s' =>
      match nth_error ths t with
      | None => None
      | Some l =>
          match ready l i with
          | None => None
          | Some (k, a) =>
              let v := value m (a_loc a) in
              if a_if a v then
                match run (store_to m (a_loc a) (a_new a v)) (upd ths t (drop l i)) s' with
                | Some tr => Some (mkEv t k a v :: tr)
                | None => None
                end
              else None
          end
      end
  end.
(** The accesses of a thread with their numbers. *)
Definition numbered (p : list access) : list (nat * access) := combine (seq 0 (length p)) p.

(** ** The operations of device_atomic_ref *)

Inductive impl := IPosix | ICuda | ISyclCustom.
(** store, load, the read-modify-write functions (exchange, fetch_add, fetch_sub, fetch_and, fetch_or,
    fetch_xor) and compare_exchange_strong with its failure order and its result. *)
Inductive op := OStore (v : Z) | OLoad | ORmw (f : Z -> Z) | OCas (expected desired : Z) (failure : memory_order) (result : bool).

(** memorder_to_posix_builtin, posix_device_atomic_ref.ipp lines 20-38, with the values of
    __ATOMIC_RELAXED .. __ATOMIC_SEQ_CST. *)
Definition memorder_to_posix_builtin (o : memory_order) : Z :=
  match o with Relaxed => 0 | Consume => 1 | Acquire => 2 | Release => 3 | AcqRel => 4 | SeqCst => 5 end.
(** The builtins of the compiler: consume is treated as acquire. *)
Definition builtin_acq (c : Z) : bool := (c =? 1) || (c =? 2) || (c =? 4) || (c =? 5).
Definition builtin_rel (c : Z) : bool := (c =? 3) || (c =? 4) || (c =? 5).
Definition builtin_store (x : nat) (v : Z) (c : Z) : access := mkAcc (Some x) false (builtin_rel c) (c =? 5) (fun _ => true) (fun _ => v).
Definition builtin_load (x : nat) (c : Z) : access := mkAcc (Some x) (builtin_acq c) false (c =? 5) (fun _ => true) (fun z => z).
Definition builtin_rmw (x : nat) (f : Z -> Z) (c : Z) : access := mkAcc (Some x) (builtin_acq c) (builtin_rel c) (c =? 5) (fun _ => true) f.
Definition builtin_cas (x : nat) (e d : Z) (success failure : Z) (result : bool) : access :=
  if result then mkAcc (Some x) (builtin_acq success) (builtin_rel success) (success =? 5) (fun z => z =? e) (fun _ => d)
  else mkAcc (Some x) (builtin_acq failure) false (failure =? 5) (fun z => negb (z =? e)) (fun z => z).

(** The accesses made by an operation on location [x] with order [o].  CUDA and HIP: the order is
    ignored; store and load have fences, the functions atomicExch etc. order nothing.  The addresses
    are [T * volatile], so that the accesses of store and load are plain ones.  SYCL: the order is
    ignored, and the functions of sycl::atomic are relaxed. *)
Definition lower (i : impl) (x : nat) (f : op) (o : memory_order) : list access :=
  match i, f with
  | IPosix, OStore v => [builtin_store x v (memorder_to_posix_builtin o)]
  | IPosix, OLoad => [builtin_load x (memorder_to_posix_builtin o)]
  | IPosix, ORmw g => [builtin_rmw x g (memorder_to_posix_builtin o)]
  | IPosix, OCas e d fo r => [builtin_cas x e d (memorder_to_posix_builtin o) (memorder_to_posix_builtin fo) r]
  | ICuda, OStore v => [thread_fence; plain_write x v]
  | ICuda, OLoad => [thread_fence; plain_read x; thread_fence]
  | ICuda, ORmw g => [builtin_rmw x g 0]
  | ICuda, OCas e d _ r => [builtin_cas x e d 0 0 r]
  | ISyclCustom, OStore v => [builtin_store x v 0]
  | ISyclCustom, OLoad => [builtin_load x 0]
  | ISyclCustom, ORmw g => [builtin_rmw x g 0]
  | ISyclCustom, OCas e d _ r => [builtin_cas x e d 0 0 r]
  end.
