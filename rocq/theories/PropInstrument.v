(** Properties C27, C28, C56 and C57: instrumentation and monitoring. *)
From Verif Require Import Base BaseLemmas IntMath Instrument InstrumentProofs History.

(** C27: one event per non-trivial call, in order, with size, alignment and
    resulting pointer; the upstream calls are exactly the non-trivial calls. *)
Theorem C27_events : forall ops w0 st w tr, fresh w0 ->
  i_run ops i_init w0 [] = (st, w, tr) ->
  i_events st = map ev_of (rev (ulog w)) /\
  Forall2 same_call (filter nontrivial ops) (rev (ulog w)).
Proof. exact instrument_events. Qed.
Print Assumptions C27_events.

(** C27: one call runs every registered pre-hook once, then upstream, then every
    post-hook once, and forwards the result (null or failure: [bad_alloc]). *)
Theorem C27_allocate : forall st w size align, size <> 0 ->
  let r := fst (up_alloc w size align) in
  let ptr := match r with Some p => p | None => 0 end in
  exists st' w', i_allocate st w size align =
    (if ptr =? 0 then Throw bad_alloc else Ret ptr, st', w',
     map (fun h => OPre h size align) (i_pre st) ++ [OUp (UAlloc size align r)] ++
     map (fun h => OPost h size align ptr) (i_post st)) /\
  ulog w' = UAlloc size align r :: ulog w /\
  i_pre st' = i_pre st /\ i_post st' = i_post st /\ i_pred st' = i_pred st.
Proof. exact instrument_allocate. Qed.
Print Assumptions C27_allocate.

Theorem C27_deallocate : forall st w p size align, p <> 0 ->
  exists st' w', i_deallocate st w p size align =
    (Ret tt, st', w',
     map (fun h => OPreD h p size align) (i_pred st) ++ [OUp (UFree p size align)]) /\
  ulog w' = UFree p size align :: ulog w /\
  i_pre st' = i_pre st /\ i_post st' = i_post st /\ i_pred st' = i_pred st.
Proof. exact instrument_deallocate. Qed.
Print Assumptions C27_deallocate.

(** C27: the registered hooks are those of the registrations so far, in the order
    of registration. *)
Theorem C27_hooks : forall ops w0 st w tr, i_run ops i_init w0 [] = (st, w, tr) ->
  i_pre st = flat_map (fun o => match o with IAddPre h => [h] | _ => [] end) ops /\
  i_post st = flat_map (fun o => match o with IAddPost h => [h] | _ => [] end) ops /\
  i_pred st = flat_map (fun o => match o with IAddPreD h => [h] | _ => [] end) ops.
Proof. exact instrument_hooks. Qed.
Print Assumptions C27_hooks.

(** C28: the counters of a monitor attached from the start. *)
Theorem C28_counters : forall k st0 s w live, once k (i_post st0) -> once k (i_pred st0) ->
  reach (mon_allocate k) (mon_deallocate k) nonneg (st0, mon_init) fresh s w live ->
  upstream_ok (ulog w) ->
  live = ulive (ulog w) /\
  total_alloc (snd s) = log_total (ulog w) mod 2 ^ 64 /\
  n_alloc (snd s) = log_count (ulog w) mod 2 ^ 64 /\
  outstanding (snd s) = sum_sizes live /\ maximum_alloc (snd s) = log_peak (ulog w).
Proof. exact monitor_counters. Qed.
Print Assumptions C28_counters.

Theorem C28_no_underflow : forall k st0 s w live, once k (i_post st0) -> once k (i_pred st0) ->
  reach (mon_allocate k) (mon_deallocate k) nonneg (st0, mon_init) fresh s w live ->
  upstream_ok (ulog w) ->
  (forall size align r s' w', mon_allocate k s w size align = (r, s', w') -> r <> UB) /\
  forall b, In b live -> exists s',
  mon_deallocate k s w (bptr b) (bsize b) (balign b) =
    (Ret tt, s', up_free w (bptr b) (bsize b) (balign b)).
Proof. exact monitor_no_underflow. Qed.
Print Assumptions C28_no_underflow.

(** C56 is false: asking for the average before the first allocation. *)
Theorem C56_refuted : average_allocation mon_init = UB.
Proof. reflexivity. Qed.
Print Assumptions C56_refuted.

(** After at least one allocation the average is the quotient rounded to nearest. *)
Theorem C56_average_partial : forall m, 0 < n_alloc m -> exists a,
  average_allocation m = Ret a /\ - n_alloc m < 2 * (a * n_alloc m - total_alloc m) <= n_alloc m.
Proof. exact average_ok. Qed.
Print Assumptions C56_average_partial.

(** C57 is false: a monitor attached to a resource that already has a live block
    underflows when that block is returned. *)
Theorem C57_refuted : exists st w p size align,
  (exists w0 tr, fresh w0 /\ i_run [IAlloc size align] i_init w0 [] = (st, w, tr)) /\
  upstream_ok (ulog w) /\ In (mkBlock p size align) (ulive (ulog w)) /\
  mon_deallocate 0 (attach st 0, mon_init) w p size align = (UB, (attach st 0, mon_init), w).
Proof.
  exists (mkI [] [] [] [EAlloc 10 8 64]), (mkWorld [UAlloc 10 8 (Some 64)] (fun _ => Some 64)), 64, 10, 8.
  split; [|split; [|split]].
  - exists (mkWorld [] (fun _ => Some 64)). eexists. split; reflexivity.
  - apply upstream_okb_ok. reflexivity.
  - simpl. auto.
  - reflexivity.
Qed.
Print Assumptions C57_refuted.

(** A monitor attached while no block is live counts what happens from then on
    and never underflows. *)
Theorem C57_idle_partial : forall k st0 L0 s w live, once k (i_post st0) -> once k (i_pred st0) ->
  ulive L0 = [] ->
  reach (mon_allocate k) (mon_deallocate k) nonneg (st0, mon_init) (fun w => ulog w = L0) s w live ->
  upstream_ok (ulog w) ->
  (exists l, ulog w = l ++ L0 /\ live = ulive (ulog w) /\
   total_alloc (snd s) = log_total l mod 2 ^ 64 /\
   n_alloc (snd s) = log_count l mod 2 ^ 64 /\
   outstanding (snd s) = sum_sizes live /\ maximum_alloc (snd s) = log_peak l) /\
  forall b, In b live -> exists s',
  mon_deallocate k s w (bptr b) (bsize b) (balign b) =
    (Ret tt, s', up_free w (bptr b) (bsize b) (balign b)).
Proof. exact monitor_idle. Qed.
Print Assumptions C57_idle_partial.

(** ** Concrete cases *)

Definition ex_orc (n : nat) : option Z := nth n [Some 64; Some 4096; None; Some 640; Some 8192] None.
Example C27_ex : exists st w, i_run
   [IAddPre 1; IAddPost 2; IAlloc 10 8; IAlloc 0 8; IAlloc 100 8; IAddPreD 7; IAlloc 5 1;
    IFree 64 10 8; IFree 0 3 3] i_init (mkWorld [] ex_orc) [] = (st, w,
   [OPre 1 10 8; OUp (UAlloc 10 8 (Some 64)); OPost 2 10 8 64;
    OPre 1 100 8; OUp (UAlloc 100 8 (Some 4096)); OPost 2 100 8 4096;
    OPre 1 5 1; OUp (UAlloc 5 1 None); OPost 2 5 1 0;
    OPreD 7 64 10 8; OUp (UFree 64 10 8)]) /\
   i_events st = [EAlloc 10 8 64; EAlloc 100 8 4096; EAlloc 5 1 0; EDealloc 10 8 64].
Proof. eexists. eexists. split; reflexivity. Qed.

Definition ex_st0 : istate := attach (add_post (add_pred i_init 5) 6) 9.
Example C28_ex : exists s w live,
  once 9 (i_post ex_st0) /\ once 9 (i_pred ex_st0) /\
  reach (mon_allocate 9) (mon_deallocate 9) nonneg (ex_st0, mon_init) fresh s w live /\
  upstream_ok (ulog w) /\
  snd s = mkMon 4 165 65 110 /\ live = [mkBlock 8192 50 1; mkBlock 640 5 1; mkBlock 64 10 8].
Proof.
  eexists. eexists. eexists. split; [|split; [|split; [|split; [|split]]]].
  - exists [6%nat], []. split; [reflexivity|]. split; simpl; intuition discriminate.
  - exists [5%nat], []. split; [reflexivity|]. split; simpl; intuition discriminate.
  - eapply (run_reach _ _ nonneg _ fresh
      [HAlloc 10 8; HAlloc 100 8; HFree 0; HAlloc 5 1; HAlloc 50 1]);
      [apply (reach_init _ _ _ _ _ _ (mkWorld [] ex_orc)); reflexivity
      |cbn; unfold nonneg; repeat split; lia|vm_compute; reflexivity].
  - apply upstream_okb_ok. reflexivity.
  - reflexivity.
  - reflexivity.
Qed.

Example C27_hooks_ex : exists st w tr, i_run
   [IAddPre 1; IAlloc 10 8; IAddPre 3; IAddPost 2; IFree 64 10 8; IAddPre 1; IAddPreD 7]
   i_init (mkWorld [] ex_orc) [] = (st, w, tr) /\
   i_pre st = [1; 3; 1]%nat /\ i_post st = [2%nat] /\ i_pred st = [7%nat].
Proof. eexists. eexists. eexists. split; [reflexivity|]. repeat split. Qed.

(** One block has been obtained and returned before the monitor is attached. *)
Example C57_idle_ex : exists s w live,
  ulive [UFree 64 10 8; UAlloc 10 8 (Some 64)] = [] /\
  reach (mon_allocate 9) (mon_deallocate 9) nonneg (ex_st0, mon_init)
    (fun w => ulog w = [UFree 64 10 8; UAlloc 10 8 (Some 64)]) s w live /\
  upstream_ok (ulog w) /\ snd s = mkMon 2 55 50 55 /\ live = [mkBlock 8192 50 1].
Proof.
  eexists. eexists. eexists. split; [|split; [|split; [|split]]].
  - reflexivity.
  - eapply (run_reach _ _ nonneg _ (fun w => ulog w = [UFree 64 10 8; UAlloc 10 8 (Some 64)])
      [HAlloc 7 8; HAlloc 5 1; HAlloc 50 1; HFree 1]);
      [apply (reach_init _ _ _ _ _ _ (mkWorld [UFree 64 10 8; UAlloc 10 8 (Some 64)] ex_orc)); reflexivity
      |cbn; unfold nonneg; repeat split; lia|vm_compute; reflexivity].
  - apply upstream_okb_ok. reflexivity.
  - reflexivity.
  - reflexivity.
Qed.
