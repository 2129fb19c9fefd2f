(** Properties C47, C48, C88-C91: atomic references. *)
From Verif Require Import Base BaseLemmas Atomics AtomicsProofs.
From Coq Require Import Permutation.

(** C47.  [explains w v0 progs log s]: the calls in [log], made one after the other from
    the value [v0], each return what the log says and leave the value of the cell; per
    thread the log holds the finished calls, in program order, with the results the
    thread has got.  The log only grows, so a call that finished before another one
    started comes first. *)
Theorem C47_atomic : forall w v0 progs sched1 sched2,
  exists log1 log2,
    explains w v0 progs log1 (a_run w (a_init v0 progs) sched1) /\
    explains w v0 progs (log1 ++ log2) (a_run w (a_init v0 progs) (sched1 ++ sched2)).
Proof. exact a_linearizable. Qed.
Print Assumptions C47_atomic.

(** The meaning of a call used by [legal] above. *)
Theorem C47_meaning : forall w v d,
  (spec_new w (AStore d) v = d /\ spec_ret (AStore d) v = None) /\
  (spec_new w ALoad v = v /\ spec_ret ALoad v = Some v) /\
  (spec_new w (AExchange d) v = d /\ spec_ret (AExchange d) v = Some v) /\
  (spec_new w (AAdd d) v = (v + d) mod 2 ^ w /\ spec_ret (AAdd d) v = Some v) /\
  (spec_new w (ASub d) v = (v - d) mod 2 ^ w /\ spec_ret (ASub d) v = Some v) /\
  (spec_new w (AAnd d) v = Z.land v d /\ spec_ret (AAnd d) v = Some v) /\
  (spec_new w (AOr d) v = Z.lor v d /\ spec_ret (AOr d) v = Some v) /\
  (spec_new w (AXor d) v = Z.lxor v d /\ spec_ret (AXor d) v = Some v).
Proof. exact (fun w v d => ltac:(repeat split)). Qed.
Print Assumptions C47_meaning.

Theorem C47_sum : forall w v0 progs sched,
  0 < w -> 0 <= v0 < 2 ^ w -> Forall (Forall is_add) progs ->
  finished (a_run w (a_init v0 progs) sched) ->
  a_cell (a_run w (a_init v0 progs) sched) = (v0 + zsum (map add_of (concat progs))) mod 2 ^ w.
Proof. exact a_adds_sum. Qed.
Print Assumptions C47_sum.

(** Three threads, with failed exchanges; the third one loads in between. *)
Definition progs47 : list (list aop) := [[AAdd 200; ASub 1]; [AAdd 100; AXor 255]; [ALoad; AExchange 9]].
Definition sched47 : list nat := [0; 1; 0; 2; 1; 1; 0; 1; 0; 2; 1; 1; 2; 2]%nat.
Example C47_ex :
  a_run 8 (a_init 0 progs47) sched47 =
    mkA 9 [mkT [] None [Some 0; Some 44]; mkT [] None [Some 200; Some 43]; mkT [] None [Some 200; Some 212]].
Proof. reflexivity. Qed.

Example C47_sum_ex : Forall (Forall is_add) [[AAdd 200; AAdd 1]; [AAdd 100]] /\
  finished (a_run 8 (a_init 7 [[AAdd 200; AAdd 1]; [AAdd 100]]) [0; 1; 1; 0; 0; 0; 0; 0]%nat) /\
  a_cell (a_run 8 (a_init 7 [[AAdd 200; AAdd 1]; [AAdd 100]]) [0; 1; 1; 0; 0; 0; 0; 0]%nat) = 52 /\
  (7 + zsum (map add_of (concat [[AAdd 200; AAdd 1]; [AAdd 100]]))) mod 2 ^ 8 = 52.
Proof.
  split; [repeat (first [apply Forall_nil|apply Forall_cons|(eexists; reflexivity)])|].
  split; [|split; reflexivity]. vm_compute. repeat constructor.
Qed.

(** C48: the CUDA and HIP branch of atomic.ipp. *)
Theorem C48_refuted :
  ~ (forall p cell expected desired, cas_right cell expected desired (atomic_cas p cell expected desired)) /\
  (* an exchange that took place is reported as failed *)
  atomic_cas PCudaHip 0 0 5 = (false, 0, 5) /\
  (* one that did not take place is reported as done, and expected is not updated *)
  atomic_cas PCudaHip 3 4 5 = (true, 4, 3).
Proof. exact cuda_cas_refuted. Qed.
Print Assumptions C48_refuted.

Theorem C48_other_platforms_partial : forall p cell expected desired, p <> PCudaHip ->
  cas_right cell expected desired (atomic_cas p cell expected desired).
Proof. exact atomic_cas_right. Qed.
Print Assumptions C48_other_platforms_partial.

Example C48_ex : PHost <> PCudaHip /\ atomic_cas PHost 3 4 5 = (false, 3, 3) /\ atomic_cas PSycl 4 4 5 = (true, 4, 5).
Proof. split; [discriminate|split; reflexivity]. Qed.

(** C88: fetch_add(1) hands out each number once. *)
Theorem C88_tickets : forall w v0 progs sched,
  0 <= v0 -> v0 + Z.of_nat (length (concat progs)) <= 2 ^ w -> Forall (Forall (fun o => o = AAdd 1)) progs ->
  let rs := concat (map t_res (a_thr (a_run w (a_init v0 progs) sched))) in
  Permutation rs (map (fun k => Some (v0 + Z.of_nat k)) (seq 0 (length rs))).
Proof. exact a_tickets. Qed.
Print Assumptions C88_tickets.

Example C88_ex :
  253 + Z.of_nat (length (concat [[AAdd 1; AAdd 1]; [AAdd 1]])) <= 2 ^ 8 /\
  Forall (Forall (fun o => o = AAdd 1)) [[AAdd 1; AAdd 1]; [AAdd 1]] /\
  concat (map t_res (a_thr (a_run 8 (a_init 253 [[AAdd 1; AAdd 1]; [AAdd 1]]) [0; 1; 1; 0; 0; 0; 0]%nat))) = [Some 254; Some 255; Some 253].
Proof. split; [cbn; lia|]. split; [repeat constructor|reflexivity]. Qed.

(** C89: a thread with [length p] calls finishes them within [N + length p] compare-exchanges,
    where [N] is the number of calls of all threads. *)
Theorem C89_bounded : forall w v0 progs sched i p t,
  nth_error progs i = Some p ->
  nth_error (a_thr (a_run w (a_init v0 progs) sched)) i = Some t ->
  (length (concat progs) + length p <= count_occ Nat.eq_dec sched i)%nat ->
  t_todo t = [].
Proof. exact a_bounded. Qed.
Print Assumptions C89_bounded.

(** The bound is sharp: thread 1 needs all of its 4 steps. *)
Example C89_ex :
  t_todo (nth 1 (a_thr (a_run 8 (a_init 0 [[AAdd 1; AAdd 1]; [AAdd 1]]) [1; 0; 0; 1; 0; 0; 1])%nat) (mkT [] None [])) = [AAdd 1] /\
  t_todo (nth 1 (a_thr (a_run 8 (a_init 0 [[AAdd 1; AAdd 1]; [AAdd 1]]) [1; 0; 0; 1; 0; 0; 1; 1])%nat) (mkT [] None [])) = [] /\
  (length (concat [[AAdd 1; AAdd 1]; [AAdd 1]]) + length [AAdd 1] <= count_occ Nat.eq_dec [1; 0; 0; 1; 0; 0; 1; 1] 1)%nat.
Proof. split; [reflexivity|split; [reflexivity|cbn; lia]]. Qed.

(** C90: the compare-exchange that dummy_device_atomic_ref has is not atomic.  An addition
    is lost, and a mere load() undoes a store that finished during it. *)
Theorem C90_refuted :
  dm_run 32 (dm_init 0 [[AAdd 1]; [AAdd 1]]) [0; 0; 1; 1; 0; 1; 0; 1]%nat =
    mkDS 1 [mkD [] DStart [Some 0]; mkD [] DStart [Some 0]] /\
  dm_run 32 (dm_init 0 [[ALoad]; [AStore 5]; [ALoad]]) [0; 1; 1; 1; 1; 0; 2; 2]%nat =
    mkDS 0 [mkD [] DStart [Some 0]; mkD [] DStart [None]; mkD [] DStart [Some 0]] /\
  ~ (forall w v0 progs sched,
       Forall (fun t => d_todo t = []) (ds_thr (dm_run w (dm_init v0 progs) sched)) ->
       exists log, legal w v0 log (ds_cell (dm_run w (dm_init v0 progs) sched)) /\
         Permutation (map (fun e => snd (fst e)) log) (concat progs)).
Proof. exact dummy_refuted. Qed.
Print Assumptions C90_refuted.

(** Without other threads it does what it should, in at most four accesses per call. *)
Theorem C90_alone_partial : forall w v0 prog n,
  exists log t, ds_thr (dm_run w (dm_init v0 [prog]) (repeat 0%nat n)) = [t] /\
    legal w v0 log (ds_cell (dm_run w (dm_init v0 [prog]) (repeat 0%nat n))) /\
    prog = map (fun e => snd (fst e)) log ++ d_todo t /\ d_res t = map snd log /\
    ((4 * length prog <= n)%nat -> d_todo t = []).
Proof. exact dummy_alone. Qed.
Print Assumptions C90_alone_partial.

Example C90_ex : dm_run 8 (dm_init 0 [[AAdd 200; ALoad; ASub 201; AOr 3]]) (repeat 0%nat 16) =
  mkDS 255 [mkD [] DStart [Some 0; Some 200; Some 200; Some 255]].
Proof. reflexivity. Qed.

(** C91: posix_device_atomic_ref and cuda::device_atomic_ref. *)
Theorem C91_builtins : forall w app v0 progs sched1 sched2,
  app = posix_apply w \/ app = cuda_apply w ->
  exists log1 log2,
    explains w v0 progs log1 (b_run app (a_init v0 progs) sched1) /\
    explains w v0 progs (log1 ++ log2) (b_run app (a_init v0 progs) (sched1 ++ sched2)).
Proof. exact b_linearizable. Qed.
Print Assumptions C91_builtins.

Theorem C91_compare_exchange : forall cell expected desired order,
  (exists out, posix_cas3 cell expected desired order = Ret out /\ cas_right cell expected desired out) /\
  (exists out, cuda_cas3 cell expected desired order = Ret out /\ cas_right cell expected desired out).
Proof. exact ref_cas_right. Qed.
Print Assumptions C91_compare_exchange.

(** With both orders given: the assert fires exactly for the failure orders that the
    standard forbids. *)
Theorem C91_failure_order : forall cell expected desired success failure,
  (failure = Release \/ failure = AcqRel ->
   posix_cas4 cell expected desired success failure = UB /\ cuda_cas4 cell expected desired success failure = UB) /\
  (failure <> Release -> failure <> AcqRel ->
   let right := if cell =? expected then (true, expected, desired) else (false, cell, cell) in
   posix_cas4 cell expected desired success failure = Ret right /\
   cuda_cas4 cell expected desired success failure = Ret right).
Proof. exact ref_cas_failure. Qed.
Print Assumptions C91_failure_order.

Example C91_ex :
  b_run (posix_apply 8) (a_init 3 [[ASub 5]; [AAdd 4]]) [0; 1]%nat = mkA 2 [mkT [] None [Some 3]; mkT [] None [Some 254]] /\
  posix_cas3 3 4 5 AcqRel = Ret (false, 3, 3) /\ posix_cas4 3 4 5 AcqRel AcqRel = UB /\ cuda_cas3 4 4 5 Release = Ret (true, 4, 5).
Proof. repeat split. Qed.

(** C115: vecmem::atomic in host code, for calls that do not overlap in time. *)
Theorem C115_host : forall w v0 progs sched1 sched2,
  exists log1 log2,
    explains w v0 progs log1 (b_run (host_atomic_apply w) (a_init v0 progs) sched1) /\
    explains w v0 progs (log1 ++ log2) (b_run (host_atomic_apply w) (a_init v0 progs) (sched1 ++ sched2)).
Proof. exact (fun w v0 progs s1 s2 => b_linearizable w (host_atomic_apply w) v0 progs s1 s2 (or_intror eq_refl)). Qed.
Print Assumptions C115_host.

Example C115_ex :
  b_run (host_atomic_apply 8) (a_init 3 [[ASub 5; AStore 9]; [AAdd 4; ALoad]]) [0; 1; 0; 1]%nat =
    mkA 9 [mkT [] None [Some 3; None]; mkT [] None [Some 254; Some 9]].
Proof. reflexivity. Qed.
