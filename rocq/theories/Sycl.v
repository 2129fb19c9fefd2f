(** Asynchronous copies with SYCL (sycl/src/utils/sycl/async_copy.sycl).

    The queue of vecmem::sycl::queue_wrapper is a ::sycl::queue without the property
    in_order (opaque_queue.hpp lines 15-18, queue_wrapper.sycl lines 19-23), so that
    operations without explicit dependencies may be executed in any order.
    Simplification: the execution of one operation is atomic.  Only operations on memory
    are modelled here, not those with local variables. *)
From Verif Require Export Base Copy.
From Verif Require Import Async.

(** [sy_q]: submitted operations that have not been executed, with their numbers;
    [sy_cur]: m_data->m_events, the operations since the last create_event (lines 61-64);
    [sy_evs]: m_events of all the sycl_event objects created. *)
Record sy := mkSy { sy_mem : cmem; sy_q : list (nat * aop); sy_next : nat; sy_cur : list nat; sy_evs : list (list nat) }.
Definition sy_init (m : cmem) : sy := mkSy m [] 0 [] [].

(** The host: do_copy (73-93) and do_memset (95-124, with VECMEM_HAVE_SYCL_MEMSET), create_event (126-134), and wait
    (43-46).  The destructor (29-40) waits as well. *)
Inductive sycall := SySubmit (o : aop) | SyEvent | SyWait (e : nat).

(** [None]: an assertion fails, or wait has to go on waiting. *)
Definition sy_host (c : sycall) (s : sy) : option sy :=
  match c with
  | SySubmit o =>
    match issue o (sy_mem s) with
    | Ret true => Some (mkSy (sy_mem s) (sy_q s ++ [(sy_next s, o)]) (S (sy_next s)) (sy_cur s ++ [sy_next s]) (sy_evs s))
    | Ret false => Some s
    | _ => None
    end
  | SyEvent => Some (mkSy (sy_mem s) (sy_q s) (sy_next s) [] (sy_evs s ++ [sy_cur s]))
  | SyWait e =>
    match nth_error (sy_evs s) e with
    | Some l => if forallb (fun i => negb (existsb (fun q => Nat.eqb i (fst q)) (sy_q s))) l
                then Some (mkSy (sy_mem s) (sy_q s) (sy_next s) (sy_cur s) (upd (sy_evs s) e [])) else None
    | None => None
    end
  end.

(** Runs of a list of calls, interleaved with the queue, which executes any operation.
    The second list are the calls still to be made. *)
Inductive sy_step : list sycall * sy -> list sycall * sy -> Prop :=
| sy_call c cs s s' : sy_host c s = Some s' -> sy_step (c :: cs, s) (cs, s')
| sy_exec cs s q1 i o q2 m' : sy_q s = q1 ++ (i, o) :: q2 -> sync_op o (sy_mem s) = (Ret tt, m') ->
    sy_step (cs, s) (cs, mkSy m' (q1 ++ q2) (sy_next s) (sy_cur s) (sy_evs s)).
Inductive sy_steps : list sycall * sy -> list sycall * sy -> Prop :=
| sy_refl c : sy_steps c c
| sy_trans c1 c2 c3 : sy_step c1 c2 -> sy_steps c2 c3 -> sy_steps c1 c3.
