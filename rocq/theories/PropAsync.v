(** Claims on asynchronous copies. *)
From Verif Require Import Base BaseLemmas Copy CopyExamples EdmBuffer EdmCopy Async AsyncProofs AsyncCopyProofs AsyncJagged AsyncTheorems Sycl SyclProofs.

(** C54: operations on one stream, executed in the order of issue at any time; after the
    wait, memory is the result of performing them when they were issued. *)
Theorem C54_wait : forall fl l m, fst (sync_ops l m) <> UB -> forall p' a', asteps fl (p_call (p_ops l), a_init m) (p', a') ->
  p' <> PUB /\
  (p' = PRet tt -> sync_ops l m = (Ret tt, a_mem a') /\ a_q a' = []) /\
  (forall e, p' = PThrow e -> fst (sync_ops l m) = Throw e) /\
  (p' = PRet tt \/ (exists e, p' = PThrow e) \/ exists c, astep fl (p', a') c).
Proof.
  intros fl l m NU p' a' ST. destruct (runs_ops fl l m NU p' a' ST) as (H1 & H2 & H3 & H4). split; [auto|]. split; [|split; [|auto]].
  - intros E. destruct (H2 E) as (([] & G1) & G2 & G3). split; [|auto]. destruct (sync_ops l m). cbn in *. congruence.
  - intros e E. apply H3. auto.
Qed.
Print Assumptions C54_wait.
(** Every program ends after finitely many steps of the host and the stream. *)
Theorem C54_terminates : forall fl (p : prog unit) a, Acc (fun c2 c1 => astep fl c1 c2) (p, a).
Proof. intros fl p a. exact (async_terminates fl p a). Qed.
Print Assumptions C54_terminates.
(** Every event is destroyed exactly once when its object is gone, and never twice. *)
Theorem C54_events : forall fl (p p' : prog unit) m a', asteps fl (p, a_init m) (p', a') ->
  forall o, In o (a_evs a') -> (eo_destroyed o <= 1)%nat /\ (eo_alive o = false -> eo_destroyed o = 1%nat).
Proof.
  intros fl p p' m a' ST o Ho. pose proof (events_thm fl (p, a_init m) (p', a') ST ltac:(constructor)) as F. rewrite Forall_forall in F. specialize (F o Ho).
  unfold ev_inv in F. destruct F as (F1 & F2). split; [|intros E; rewrite F1, (F2 E); reflexivity]. rewrite F1. destruct (eo_null o); lia.
Qed.
Print Assumptions C54_events.
(** When the calls have ended, all the events that they made have been destroyed once. *)
Theorem C54_destroyed : forall fl l m, fst (sync_ops l m) <> UB -> forall p' a', asteps fl (p_call (p_ops l), a_init m) (p', a') ->
  p' = PRet tt \/ (exists e, p' = PThrow e) -> forall o, In o (a_evs a') -> eo_alive o = false /\ eo_destroyed o = 1%nat.
Proof. intros fl l m NU. exact (call_events fl drop_b (fly_b true) _ _ m (sim_ops' fl l) eq_refl NU). Qed.
Print Assumptions C54_destroyed.

(** Host memory at 64, device memory at 400: copy four bytes, and set two of them. *)
Definition ex_ops : list aop := [AOCopy host_to_device 4 64 400; AOSet 2 401 7].
Example C54_ex : fst (sync_ops ex_ops exm) = Ret tt /\
  (let c := lazy_run false 20 (p_call (p_ops ex_ops), a_init exm) in
   fst c = PRet tt /\ get_bytes (a_mem (snd c)) 400 4 = Some [64; 7; 7; 67] /\ map eo_destroyed (a_evs (snd c)) = [1%nat]).
Proof. split; [|split; [|split]]; vm_compute; reflexivity. Qed.

(** C97: all programs that read, or end, a local variable only after a wait that covers
    the operations using it. *)
Theorem C97_programs : forall fl (p : prog unit) m r s', srun fl p (s_init m) = (r, s') -> r <> UB ->
  forall p' a', asteps fl (p, a_init m) (p', a') ->
  p' <> PUB /\ (p' = PRet tt -> r = Ret tt) /\ (forall e, p' = PThrow e -> r = Throw e) /\
  (p' = PRet tt \/ (exists e, p' = PThrow e) -> a_q a' = [] -> a_mem a' = s_mem s').
Proof.
  intros fl p m r s' H NU p' a' ST. destruct (async_thm fl p m r s' H NU p' a' ST) as (H1 & H2 & H3 & H4).
  split; [auto|]. split; [auto|]. split; [auto|]. intros F Q. destruct (H4 ltac:(destruct F; eauto)) as (_ & G & _). rewrite Q in G. cbn in G. congruence.
Qed.
Print Assumptions C97_programs.
(** A local variable that is ended too early. *)
Definition ex_early : prog unit := PLocal [1; 2] (fun x => PIssue (AOIn type_unknown 2 x 400) PThrow (PFree x (PRet tt))).
Example C97_ex : fst (srun false (p_copy_in host_to_device [1; 2; 3] 400) (s_init exm)) = Ret tt /\
  fst (srun false ex_early (s_init exm)) = UB /\ exists p' a', asteps false (ex_early, a_init exm) (p', a') /\ p' = PUB.
Proof.
  split; [vm_compute; reflexivity|]. split; [vm_compute; reflexivity|].
  assert (exists p' a', asteps false (ex_early, a_init exm) (p', a') /\ p' = PRet tt /\ a_loc a' = [None] /\ a_q a' = [AOIn type_unknown 2 0 400]) as (p' & a' & ST & -> & L & Q).
  { exists (fst (lazy_run false 3 (ex_early, a_init exm))), (snd (lazy_run false 3 (ex_early, a_init exm))).
    split; [destruct (lazy_run false 3 (ex_early, a_init exm)) eqn:E; cbn [fst snd]; rewrite <- E; apply lazy_steps|]. vm_compute. auto. }
  assert (T : forall c1 c2 c3 : prog unit * astate, asteps false c1 c2 -> astep false c2 c3 -> asteps false c1 c3).
  { intros c1 c2 c3 H. induction H; intros S3; eapply steps_trans; eauto using steps_refl. }
  exists PUB. eexists. split; [|reflexivity]. eapply T; [exact ST|]. apply step_stream. unfold stream_step. rewrite Q. unfold aexec. rewrite L. reflexivity.
Qed.

(** C98: the functions of vecmem::copy for vectors. *)
Theorem C98_vector : forall fl sz v from to k value,
  runs_as fl any_exn (p_setup_vector v) (setup_vector v) /\
  runs_as fl any_exn (p_memset_vector sz v value) (memset_vector sz v value) /\
  runs_as fl any_exn (p_copy_vector sz k from to) (copy_vector sz k from to) /\
  gets_as fl (p_get_size v) (get_size v).
Proof. exact runs_vector. Qed.
Print Assumptions C98_vector.
(** C98: jagged vectors. *)
Theorem C98_jagged : forall sz l from to k value,
  (forall fl, runs_as fl any_exn (p_setup_jagged l) (setup_jagged l)) /\
  (forall fl, runs_as fl no_exn (p_memset_jagged sz l value) (memset_jagged sz l value)) /\
  runs_as false length_exn (p_copy_jagged sz k from to) (copy_jagged sz k from to) /\
  (forall fl, gets_as fl (p_get_sizes l) (get_sizes l)).
Proof. exact runs_jagged. Qed.
Print Assumptions C98_jagged.
(** C98: SoA containers. *)
Theorem C98_edm : forall vars e from to k value,
  (forall fl, runs_as fl any_exn (p_edm_setup e) (edm_setup e)) /\
  runs_as false no_exn (p_edm_memset vars e value) (edm_memset vars e value) /\
  runs_as false no_exn (p_edm_copy vars k from to) (edm_copy vars k from to) /\
  (forall fl, gets_as fl (p_edm_get_size vars e) (edm_get_size vars e)).
Proof. exact runs_edm. Qed.
Print Assumptions C98_edm.
(** A vector of three elements in host memory; a resizable vector on the device. *)
Definition av_from : vview := mkV 3 0 64.
Definition av_to : vview := mkV 5 256 300.
Example C98_ex : fst (copy_vector 4 host_to_device av_from av_to exm) = Ret true /\
  (let c := lazy_run true 40 (p_call (p_copy_vector 4 host_to_device av_from av_to), a_init exm) in
   fst c = PRet tt /\ get_bytes (a_mem (snd c)) 256 4 = Some [3; 0; 0; 0] /\ get_bytes (a_mem (snd c)) 300 4 = Some [64; 65; 66; 67]) /\
  fst (copy_jagged 4 host_to_device ex_from ex_to exm) = Ret true /\
  (let c := lazy_run false 80 (p_call (p_copy_jagged 4 host_to_device ex_from ex_to), a_init exm) in
   fst c = PRet tt /\ get_bytes (a_mem (snd c)) 300 4 = Some [2; 0; 0; 0] /\ get_bytes (a_mem (snd c)) 408 4 = Some [72; 73; 74; 75]).
Proof. vm_compute. auto 10. Qed.
(** Two vectors; the copy of the second one does not fit. *)
Definition ax_vars : list var := [mkVar KVector 4 4; mkVar KVector 4 4].
Definition ax_view (a b c : Z) : edm_view := mkEV 2 (mkMem 0 0) (mkMem 0 0) [EVector (Placement.mkView 2 0 a); EVector (Placement.mkView c 0 b)].
Definition ax_from : edm_view := ax_view 64 72 2.
Definition ax_to : edm_view := ax_view 400 408 2.
Definition ax_small : edm_view := ax_view 400 408 1.
Example C98_edm_ex : fst (edm_copy ax_vars host_to_device ax_from ax_to exm) = Ret tt /\
  (let c := lazy_run false 80 (p_call (p_edm_copy ax_vars host_to_device ax_from ax_to), a_init exm) in
   fst c = PRet tt /\ get_bytes (a_mem (snd c)) 408 4 = Some [72; 73; 74; 75]) /\
  (let c := lazy_run false 80 (p_call (p_edm_memset ax_vars ax_to 9), a_init exm) in
   fst c = PRet tt /\ get_bytes (a_mem (snd c)) 408 4 = Some [9; 9; 9; 9]).
Proof. vm_compute. auto 10. Qed.

(** C99: a call that throws leaves nothing behind on the stream.  Not so for containers: the
    copy of the first variable is in flight when the second one throws; no event exists. *)
Theorem C99_throw_refuted : exists vars k from to m p' a', fst (edm_copy vars k from to m) = Throw length_error /\
  asteps false (p_call (p_edm_copy vars k from to), a_init m) (p', a') /\ p' = PThrow length_error /\ length (a_q a') = 1%nat /\ a_evs a' = [].
Proof.
  exists ax_vars, host_to_device, ax_from, ax_small, exm, (fst (lazy_run false 80 (p_call (p_edm_copy ax_vars host_to_device ax_from ax_small), a_init exm))),
    (snd (lazy_run false 80 (p_call (p_edm_copy ax_vars host_to_device ax_from ax_small), a_init exm))).
  split; [vm_compute; reflexivity|]. split.
  { destruct (lazy_run false 80 (p_call (p_edm_copy ax_vars host_to_device ax_from ax_small), a_init exm)) eqn:E; cbn [fst snd]; rewrite <- E; apply lazy_steps. }
  vm_compute. auto.
Qed.
Print Assumptions C99_throw_refuted.
(** It is true for vectors, and for length errors of jagged vectors. *)
Theorem C99_vector_jagged_partial : forall fl sz k from to fromj toj m,
  (fst (copy_vector sz k from to m) <> UB -> forall e a', asteps fl (p_call (p_copy_vector sz k from to), a_init m) (PThrow e, a') -> a_q a' = []) /\
  (fst (copy_jagged sz k fromj toj m) <> UB -> forall a', asteps false (p_call (p_copy_jagged sz k fromj toj), a_init m) (PThrow length_error, a') -> a_q a' = []).
Proof.
  intros fl sz k from to fromj toj m. split; intros NU.
  - intros e a' ST. destruct (runs_vector fl sz from from to k 0) as (_ & _ & H & _). destruct (H m NU _ _ ST) as (_ & _ & G & _).
    destruct (G e eq_refl) as (_ & X). apply X. reflexivity.
  - intros a' ST. destruct (runs_jagged sz fromj fromj toj k 0) as (_ & _ & H & _). destruct (H m NU _ _ ST) as (_ & _ & G & _).
    destruct (G length_error eq_refl) as (_ & X). apply X. reflexivity.
Qed.
Print Assumptions C99_vector_jagged_partial.
Example C99_ex : fst (copy_vector 4 host_to_device av_from (mkV 2 256 300) exm) = Throw length_error /\
  (let c := lazy_run true 40 (p_call (p_copy_vector 4 host_to_device av_from (mkV 2 256 300)), a_init exm) in fst c = PThrow length_error /\ a_q (snd c) = []).
Proof. vm_compute. auto. Qed.

(** C100: functions wait on, or ignore, all of the events that they do not return, so that
    a build with VECMEM_FAIL_ON_ASYNC_ERRORS does not terminate in them.  The memset of
    containers drops the events of its inner calls. *)
Theorem C100_events_refuted : exists vars e m p' a', fst (edm_memset vars e 9 m) = Ret tt /\
  asteps true (p_call (p_edm_memset vars e 9), a_init m) (p', a') /\ p' = PUB.
Proof.
  exists ax_vars, ax_to, exm, (fst (lazy_run true 80 (p_call (p_edm_memset ax_vars ax_to 9), a_init exm))),
    (snd (lazy_run true 80 (p_call (p_edm_memset ax_vars ax_to 9), a_init exm))).
  split; [vm_compute; reflexivity|]. split.
  { destruct (lazy_run true 80 (p_call (p_edm_memset ax_vars ax_to 9), a_init exm)) eqn:E; cbn [fst snd]; rewrite <- E; apply lazy_steps. }
  vm_compute. auto.
Qed.
Print Assumptions C100_events_refuted.
(** The others do, for jagged copies as far as they return. *)
Theorem C100_events_partial : forall sz v l e from to k value, 
  runs_as true any_exn (p_setup_vector v) (setup_vector v) /\ runs_as true any_exn (p_memset_vector sz v value) (memset_vector sz v value) /\
  runs_as true any_exn (p_copy_vector sz k from to) (copy_vector sz k from to) /\ runs_as true any_exn (p_setup_jagged l) (setup_jagged l) /\
  runs_as true no_exn (p_memset_jagged sz l value) (memset_jagged sz l value) /\ runs_as true any_exn (p_edm_setup e) (edm_setup e).
Proof.
  intros sz v l e from to k value. destruct (runs_vector true sz v from to k value) as (A & B & C & _).
  destruct (runs_jagged sz l l l k value) as (D & E & _). destruct (runs_edm [] e e e k value) as (F & _). auto 10.
Qed.
Print Assumptions C100_events_partial.
Example C100_ex : fst (memset_jagged 4 ex_to 9 exm) = Ret tt /\
  (let c := lazy_run true 80 (p_call (p_memset_jagged 4 ex_to 9), a_init exm) in fst c = PRet tt /\ get_bytes (a_mem (snd c)) 408 4 = Some [9; 9; 9; 9]).
Proof. vm_compute. auto. Qed.

(** C101: SYCL.  The order of issue is not kept by the queue: a memset followed by a copy to
    the same place. *)
Theorem C101_order_refuted : exists l m m' s, sync_ops l m = (Ret tt, m') /\ sy_steps (burst l, sy_init m) ([], s) /\ sy_q s = [] /\ ~ meq (sy_mem s) m'.
Proof.
  set (m := mkM (fun x => if (64 <=? x) && (x <? 512) then Some 1 else None) (fun _ => false) false).
  set (a := AOSet 1 400 0). set (b := AOCopy type_unknown 1 64 400).
  set (m1 := put_bytes m 400 [1]). set (m2 := put_bytes m1 400 [0]).
  exists [a; b], m, (put_bytes (put_bytes m 400 [0]) 400 [1]), (mkSy m2 [] 2 [] [[]]).
  split; [reflexivity|]. split; [|split; [reflexivity|]].
  - unfold burst. cbn [map app].
    eapply sy_trans; [apply sy_call; reflexivity|]. eapply sy_trans; [apply sy_call; reflexivity|].
    eapply sy_trans; [eapply (sy_exec _ _ [(0%nat, a)] 1 b [] m1); [reflexivity|reflexivity]|].
    eapply sy_trans; [eapply (sy_exec _ _ [] 0 a [] m2); [reflexivity|reflexivity]|].
    eapply sy_trans; [apply sy_call; reflexivity|]. eapply sy_trans; [apply sy_call; reflexivity|]. apply sy_refl.
  - intros (E & _). specialize (E 400). vm_compute in E. discriminate.
Qed.
Print Assumptions C101_order_refuted.
(** Operations that do not conflict give the expected result in any order, and the wait
    covers all of them. *)
Theorem C101_independent_partial : forall l m m' cs s, independent l -> sync_ops l m = (Ret tt, m') -> sy_steps (burst l, sy_init m) (cs, s) ->
  (cs = [] -> sy_q s = [] /\ meq (sy_mem s) m') /\
  (forall i o, In (i, o) (sy_q s) -> exists m1, sync_op o (sy_mem s) = (Ret tt, m1)) /\
  (cs <> [] -> exists c, sy_step (cs, s) c).
Proof. exact sycl_burst. Qed.
Print Assumptions C101_independent_partial.
Example C101_ex : independent [AOCopy host_to_device 4 64 400; AOCopy host_to_device 4 64 404; AOSet 4 300 0] /\
  fst (sync_ops [AOCopy host_to_device 4 64 400; AOCopy host_to_device 4 64 404; AOSet 4 300 0] exm) = Ret tt.
Proof.
  split; [|vm_compute; reflexivity]. repeat constructor; intros (x & [(W & [R|R])|(W & [R|R])]); cbn in *; unfold CopyProofs.within in *; try lia; contradiction.
Qed.
