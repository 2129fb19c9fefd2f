(** Claims on the resources and wrappers of the device libraries. *)
From Verif Require Import Base BaseLemmas Devices DevicesProofs Wrappers WrappersProofs.

(** C102: memory is allocated on the device of the resource, whatever the current device is,
    and the current device is the same afterwards, also if the allocation fails. *)
Theorem C102_allocate : forall dev_ok orc r bytes al s o s', dev_ok (rt_cur s) = true -> res_allocate dev_ok orc r bytes al s = (o, s') ->
  rt_cur s' = rt_cur s /\
  match o with
  | Ret p => if bytes =? 0 then p = 0 /\ s' = s
             else orc (rt_n s) = Some p /\
                  rt_live s' = (p, match r with RDevice d => MDevice d | RHost => MPinned | RManaged => MManaged | RSycl k q => MSycl k q end) :: rt_live s
  | Throw e => rt_live s' = rt_live s /\ e = match r with RSycl _ _ => bad_alloc | _ => runtime_error end
  | UB => False
  end.
Proof. exact allocate_spec. Qed.
Print Assumptions C102_allocate.
(** select_device restores the device after any code that is run under it, nested uses
    included. *)
Theorem C102_select : forall dev_ok (A : Type) d (body : rt -> outcome A * rt) s r s', dev_ok (rt_cur s) = true ->
  with_device dev_ok d body s = (r, s') -> rt_cur s' = rt_cur s.
Proof. intros dev_ok A d body s r s' H E. exact (proj1 (with_device_spec dev_ok d body s r s' H E)). Qed.
Print Assumptions C102_select.
Definition dv_ok (d : Z) : bool := (0 <=? d) && (d <? 2).
Definition dv_orc (n : nat) : option Z := nth_error [4096; 8192] n.
Definition dv_s : rt := mkRt 0 [] 0.
Example C102_ex : dv_ok (rt_cur dv_s) = true /\
  res_allocate dv_ok dv_orc (RDevice 1) 100 256 dv_s = (Ret 4096, mkRt 0 [(4096, MDevice 1)] 1) /\
  res_allocate dv_ok dv_orc (RDevice 7) 100 256 dv_s = (Throw runtime_error, dv_s) /\
  fst (with_device dv_ok 1 (fun s => with_device dv_ok 0 (fun s => (Ret (rt_cur s), s)) s) dv_s) = Ret 0.
Proof. vm_compute. auto. Qed.
(** C116: a resource made for device [d] - for the device that was current then, if [d] is
    -1 - allocates on that device ever after. *)
Theorem C116_default_device : forall dev_ok orc d s0 bytes al s p s', dev_ok (rt_cur s) = true -> bytes <> 0 ->
  res_allocate dev_ok orc (make_device_resource d s0) bytes al s = (Ret p, s') ->
  rt_live s' = (p, MDevice (if d =? -1 then rt_cur s0 else d)) :: rt_live s /\ rt_cur s' = rt_cur s.
Proof.
  intros dev_ok orc d s0 bytes al s p s' H NB E. destruct (allocate_spec dev_ok orc _ bytes al s _ s' H E) as (C & A).
  replace (bytes =? 0) with false in A by lia. destruct A as (_ & A). auto.
Qed.
Print Assumptions C116_default_device.
Example C116_ex : res_allocate dv_ok dv_orc (make_device_resource (-1) dv_s) 100 256 (mkRt 1 [] 0) =
    (Ret 4096, mkRt 1 [(4096, MDevice 0)] 1) /\
  res_allocate dv_ok dv_orc (make_device_resource 1 dv_s) 100 256 (mkRt 0 [] 0) = (Ret 4096, mkRt 0 [(4096, MDevice 1)] 1).
Proof. vm_compute. auto. Qed.
(** C103: select_device::device() is the device that was selected. *)
Theorem C103_device_refuted : exists dev_ok d s, dev_ok d = true /\ dev_ok (rt_cur s) = true /\ select_device_device d s <> d.
Proof. exists dv_ok, 1, dv_s. vm_compute. repeat split; congruence. Qed.
Print Assumptions C103_device_refuted.

(** It is the device that was current before, so the claim holds if that was [d]. *)
Theorem C103_previous_partial : forall d s, select_device_device d s = rt_cur s.
Proof. reflexivity. Qed.
Print Assumptions C103_previous_partial.
Example C103_ex : select_device_device 1 (mkRt 1 [] 0) = 1 /\ select_device_device 0 (mkRt 1 [] 0) = 1.
Proof. auto. Qed.

(** C104: equality of resources is an equivalence relation, and what was allocated
    with one of them may be deallocated with any equal one. *)
Theorem C104_equivalence : forall a b c, res_equal a a = true /\ res_equal a b = res_equal b a /\
  (res_equal a b = true -> res_equal b c = true -> res_equal a c = true).
Proof. exact (equal_equiv (fun _ => true)). Qed.
Print Assumptions C104_equivalence.
Theorem C104_deallocate : forall dev_ok orc r r' bytes al s p s1 o s', bytes <> 0 -> dev_ok (rt_cur s) = true ->
  res_allocate dev_ok orc r bytes al s = (Ret p, s1) -> p <> 0 -> (forall d, r = RDevice d -> dev_ok d = true) -> res_equal r r' = true ->
  res_deallocate dev_ok r' p s1 = (o, s') -> o = Ret tt /\ rt_cur s' = rt_cur s /\ rt_live s' = rt_live s.
Proof.
  intros dev_ok orc r r' bytes al s p s1 o s' NB H E NP D EQ E2. destruct (allocate_spec dev_ok orc r bytes al s _ s1 H E) as (C & A).
  replace (bytes =? 0) with false in A by lia. destruct A as (_ & L).
  destruct (deallocate_equal dev_ok r r' p s1 o s' NP ltac:(now rewrite C) ltac:(rewrite L; cbn; now rewrite Z.eqb_refl) D EQ E2) as (X & Y & Z).
  split; [auto|]. split; [congruence|]. rewrite Z, L. cbn. now rewrite Z.eqb_refl.
Qed.
Print Assumptions C104_deallocate.
Example C104_ex : res_equal (RDevice 1) (RDevice 1) = true /\ res_equal (RDevice 1) (RDevice 0) = false /\ res_equal RHost RManaged = false /\
  (let s1 := snd (res_allocate dv_ok dv_orc (RDevice 1) 100 256 dv_s) in res_deallocate dv_ok (RDevice 1) 4096 s1 = (Ret tt, mkRt 0 [] 1)).
Proof. vm_compute. auto. Qed.
(** C105: equal resources provide memory of the same kind.  Not for the SYCL resources. *)
Theorem C105_kind_refuted : exists a b dev_ok orc s p q, res_equal a b = true /\
  rt_live (snd (res_allocate dev_ok orc a 8 8 s)) = [(p, MSycl SDevice 0)] /\ rt_live (snd (res_allocate dev_ok orc b 8 8 s)) = [(q, MSycl SHost 0)].
Proof. exists (RSycl SDevice 0), (RSycl SHost 0), dv_ok, dv_orc, dv_s, 4096, 4096. vm_compute. auto. Qed.
Print Assumptions C105_kind_refuted.
Theorem C105_kind_partial : forall a b, res_equal a b = true -> (forall k q, a <> RSycl k q) -> a = b.
Proof.
  intros [d| | |k q] [d'| | |k' q'] E N; cbn in E; try discriminate; auto; [f_equal; lia|]. destruct (N k q eq_refl).
Qed.
Print Assumptions C105_kind_partial.

(** C106: a coalescing resource goes on to its next upstream when one is out of memory.
    Not if it is a CUDA or HIP resource, which throws std::runtime_error. *)
Theorem C106_coalescing_refuted : exists dev_ok orc ups s, orc 0%nat = None /\ orc 1%nat = Some 8192 /\ length ups = 2%nat /\
  fst (coal_allocate dev_ok orc ups 8 8 s) = Throw runtime_error.
Proof. exists dv_ok, (fun n => nth n [None; Some 8192] None), [RDevice 0; RManaged], dv_s. vm_compute. auto. Qed.
Print Assumptions C106_coalescing_refuted.
Theorem C106_coalescing_sycl_partial : forall dev_ok orc ups bytes al, bytes <> 0 -> Forall (fun r => exists k q, r = RSycl k q) ups ->
  forall s o s', coal_allocate dev_ok orc ups bytes al s = (o, s') ->
  match o with
  | Ret p => exists i, (i < length ups)%nat /\ (forall j, (j < i)%nat -> orc (rt_n s + j)%nat = None) /\ orc (rt_n s + i)%nat = Some p
  | Throw e => e = bad_alloc /\ (forall j, (j < length ups)%nat -> orc (rt_n s + j)%nat = None)
  | UB => False
  end.
Proof.
  intros dev_ok orc ups bytes al NB F s o s' E.
  assert (F' : Forall is_sycl ups) by (eapply Forall_impl; [|exact F]; intros r (k & q & ->); exact I).
  pose proof (coalescing_sycl dev_ok orc ups bytes al NB F' s o s' E) as H. destruct o as [p|e|]; [|tauto|auto].
  destruct H as (i & r & H1 & H2 & H3 & _). exists i. split; [eapply nth_error_lt; eauto|auto].
Qed.
Print Assumptions C106_coalescing_sycl_partial.
Example C106_ex : fst (coal_allocate dv_ok (fun n => nth n [None; Some 8192] None) [RSycl SDevice 0; RSycl SHost 0] 8 8 dv_s) = Ret 8192.
Proof. reflexivity. Qed.

(** C107: the block that a device resource returns has the alignment that was asked for.  The
    alignment is ignored by the CUDA and HIP resources: this runtime aligns to 256 bytes. *)
Theorem C107_alignment_refuted : exists dev_ok orc s p, (forall n q, orc n = Some q -> (256 | q)) /\
  fst (res_allocate dev_ok orc (RDevice 0) 8 4096 s) = Ret p /\ ~ (4096 | p).
Proof.
  exists dv_ok, (fun _ => Some 256), dv_s, 256. split; [intros n q E; injection E as <-; exists 1; reflexivity|]. split; [reflexivity|].
  intros (x & C). lia.
Qed.
Print Assumptions C107_alignment_refuted.
(** For alignments that divide what the runtime gives, it has. *)
Theorem C107_alignment_partial : forall dev_ok orc r bytes al s p s', (forall n q, orc n = Some q -> (256 | q)) -> (al | 256) -> dev_ok (rt_cur s) = true ->
  res_allocate dev_ok orc r bytes al s = (Ret p, s') -> (al | p).
Proof.
  intros dev_ok orc r bytes al s p s' O A H E. destruct (allocate_spec dev_ok orc r bytes al s _ s' H E) as (_ & X).
  destruct (bytes =? 0); [destruct X as (-> & _); apply Z.divide_0_r|]. destruct X as (X & _). eapply Z.divide_trans; eauto.
Qed.
Print Assumptions C107_alignment_partial.
Example C107_ex : (forall n q, (fun _ : nat => Some 256) n = Some q -> (256 | q)) /\ (16 | 256) /\
  fst (res_allocate dv_ok (fun _ => Some 256) (RDevice 1) 8 16 dv_s) = Ret 256.
Proof. split; [intros n q E; injection E as <-; exists 1; reflexivity|]. split; [exists 16; reflexivity|reflexivity]. Qed.

(** C108: stream_wrapper.  A stream made by the library is destroyed exactly once, when its
    last owner is gone; the stream of an owner is the one that it owns. *)
Theorem C108_life : forall l s, wrun stream_step l ws_init = Some s ->
  (forall i d, nth_error (ws_dead s) i = Some d -> d = if Nat.eqb (length (filter (owns i) (ws_obj s))) 0 then 1%nat else 0%nat) /\
  (forall a w i, nth_error (ws_obj s) a = Some (Some w) -> w_managed w = Some i -> w_ptr w = Lib i /\ nth_error (ws_dead s) i = Some 0%nat).
Proof.
  intros l s R. destruct (stream_run l _ _ init_inv R) as ((L & H) & W & C). split; [exact H|]. intros a w i Ha Hm. split; [eapply C; eauto|].
  specialize (W a w i Ha Hm). destruct (nth_error (ws_dead s) i) as [d|] eqn:E; [|apply nth_error_None in E; lia]. f_equal. rewrite (H i d E).
  pose proof (owners_pos i _ a _ Ha ltac:(apply owns_iff; exact Hm)). destruct (owners i (ws_obj s)); [lia|reflexivity].
Qed.
Print Assumptions C108_life.
(** A copy denotes the same stream. *)
Theorem C108_copy : forall ext l s b s' w w', wrun stream_step l ws_init = Some s -> get_w s b = Some w ->
  stream_step (WCopy b) s = Some s' -> last (ws_obj s') None = Some w' -> denotes ext s' (w_ptr w') = denotes ext s (w_ptr w).
Proof. exact stream_copy. Qed.
Print Assumptions C108_copy.
Definition wx : list wop := [WNew 5; WCopy 0; WMove 1; WWrap (Ext 3); WAssign 0 3; WNew 6; WMoveAssign 3 4; WDestroy 2].
Example C108_ex : exists s, wrun stream_step wx ws_init = Some s /\ ws_dead s = [1; 0]%nat /\ get_w s 3 = Some (mkW (Lib 1) (Some 1%nat)) /\ get_w s 0 = Some (mkW (Ext 3) None).
Proof. eexists. split; [reflexivity|]. vm_compute. auto. Qed.
(** C109: after [a = b], [a] denotes what [b] denoted before.  Not if [b] wraps the stream
    that [a] owns: the assignment destroys it. *)
Theorem C109_assign_refuted : exists l s s' wb wa, wrun stream_step l ws_init = Some s /\ get_w s 1 = Some wb /\ denotes (fun _ => 0) s (w_ptr wb) = Some 5 /\
  stream_step (WAssign 0 1) s = Some s' /\ get_w s' 0 = Some wa /\ denotes (fun _ => 0) s' (w_ptr wa) = None.
Proof.
  exists [WNew 5; WWrap (Lib 0)]. do 4 eexists. split; [reflexivity|]. split; [reflexivity|]. split; [reflexivity|]. split; [reflexivity|]. split; [reflexivity|]. reflexivity.
Qed.
Print Assumptions C109_assign_refuted.
(** It does if [b] owns its stream, and if [b] wraps a foreign one. *)
Theorem C109_assign_partial : forall ext l s s' a b wb wa, wrun stream_step l ws_init = Some s -> get_w s b = Some wb ->
  (w_managed wb <> None \/ exists n, w_ptr wb = Ext n) -> stream_step (WAssign a b) s = Some s' -> get_w s' a = Some wa ->
  w_ptr wa = w_ptr wb /\ denotes ext s' (w_ptr wa) = denotes ext s (w_ptr wb).
Proof.
  intros ext l s s' a b wb wa R G K E Ga'. pose proof (stream_run l _ _ init_inv R) as I. pose proof (stream_inv _ _ _ I E) as I'.
  cbn [stream_step] in E. rewrite G in E. destruct (get_w s a) as [w0|] eqn:Ga; [|discriminate]. injection E as <-.
  destruct (Nat.eqb a b) eqn:N.
  { apply Nat.eqb_eq in N. subst b. assert (wa = wb) by congruence. subst. auto. }
  assert (P : wa = wb).
  { assert (O : ws_obj (put_w s a (Some wb)) = upd (ws_obj s) a (Some wb)).
    { unfold put_w, release. destruct (managed (nth a (ws_obj s) None)); [|reflexivity]. destruct (Nat.eqb _ 0); reflexivity. }
    apply get_nth in Ga'. rewrite O in Ga'. apply get_nth in Ga. rewrite nth_error_upd_eq in Ga' by (eapply nth_error_lt; eauto). congruence. }
  subst wa. split; [auto|]. destruct (w_ptr wb) as [i|n] eqn:Ep; [|reflexivity].
  destruct K as [K|(n & K)]; [|discriminate]. destruct (w_managed wb) as [j|] eqn:Em; [|congruence].
  destruct I as ((L & H) & W & C). destruct I' as ((L' & H') & W' & C').
  pose proof (get_nth _ _ _ G) as Hb. pose proof (get_nth _ _ _ Ga') as Ha.
  pose proof (C _ _ _ Hb Em) as X. rewrite Ep in X. injection X as ->.
  assert (Ei : ws_id (put_w s a (Some wb)) = ws_id s).
  { unfold put_w, release. destruct (managed (nth a (ws_obj s) None)); [|reflexivity]. destruct (Nat.eqb _ 0); reflexivity. }
  cbn [denotes]. rewrite Ei. destruct (nth_error (ws_id s) j); [|reflexivity].
  assert (D : forall s0 c, life s0 -> wf s0 -> nth_error (ws_obj s0) c = Some (Some wb) -> nth_error (ws_dead s0) j = Some 0%nat).
  { intros s0 c (L0 & H0) W0 Hc. specialize (W0 c wb j Hc Em). destruct (nth_error (ws_dead s0) j) as [d|] eqn:E; [|apply nth_error_None in E; lia]. f_equal. rewrite (H0 j d E).
    pose proof (owners_pos j _ c _ Hc ltac:(apply owns_iff; exact Em)). destruct (owners j (ws_obj s0)); [lia|reflexivity]. }
  rewrite (D _ a (conj L' H') W' Ha), (D s b (conj L H) W Hb). reflexivity.
Qed.
Print Assumptions C109_assign_partial.
Example C109_ex : exists s s' wa, wrun stream_step [WNew 5; WNew 6] ws_init = Some s /\ stream_step (WAssign 0 1) s = Some s' /\ get_w s' 0 = Some wa /\
  denotes (fun _ => 0) s' (w_ptr wa) = Some 6 /\ ws_dead s' = [1; 0]%nat.
Proof. do 3 eexists. split; [reflexivity|]. split; [reflexivity|]. split; [reflexivity|]. vm_compute. auto. Qed.

(** C110: queue_wrapper.  A queue object made by the library has at most one owner, and is
    destroyed exactly once, with its owner. *)
Theorem C110_life : forall l s, wrun queue_step l ws_init = Some s ->
  forall i d, nth_error (ws_dead s) i = Some d -> (length (filter (owns i) (ws_obj s)) <= 1)%nat /\
    d = if Nat.eqb (length (filter (owns i) (ws_obj s))) 0 then 1%nat else 0%nat.
Proof. intros l s R i d H. destruct (queue_run l _ _ qinit_inv R) as (((L & X) & S) & W). split; [apply S|apply X; exact H]. Qed.
Print Assumptions C110_life.
Example C110_ex : exists s, wrun queue_step wx ws_init = Some s /\ ws_dead s = [0; 1; 0]%nat /\ ws_id s = [5; 5; 6] /\ get_w s 0 = Some (mkW (Ext 3) (Some 0%nat)).
Proof. eexists. split; [reflexivity|]. vm_compute. auto. Qed.
(** C111: a copy denotes the same queue as the original.  Not after a wrapper of a foreign queue was
    assigned to one that owns its queue: that one is kept, and the copy is made of it. *)
Theorem C111_copy_refuted : exists l s s' w w', wrun queue_step l ws_init = Some s /\ get_w s 0 = Some w /\ denotes (fun _ => 7) s (w_ptr w) = Some 7 /\
  queue_step (WCopy 0) s = Some s' /\ last (ws_obj s') None = Some w' /\ denotes (fun _ => 7) s' (w_ptr w') = Some 5.
Proof.
  exists [WNew 5; WWrap (Ext 0); WAssign 0 1]. do 4 eexists. split; [reflexivity|]. split; [reflexivity|]. split; [reflexivity|]. split; [reflexivity|]. split; [reflexivity|]. reflexivity.
Qed.
Print Assumptions C111_copy_refuted.
Theorem C111_copy_partial : forall ext l s b s' w w', wrun queue_step l ws_init = Some s -> get_w s b = Some w ->
  (forall i, w_managed w = Some i -> w_ptr w = Lib i) -> queue_step (WCopy b) s = Some s' -> last (ws_obj s') None = Some w' ->
  denotes ext s' (w_ptr w') = denotes ext s (w_ptr w).
Proof. exact queue_copy. Qed.
Print Assumptions C111_copy_partial.
Example C111_ex : exists s w, wrun queue_step [WNew 5; WCopy 0; WMove 1] ws_init = Some s /\ get_w s 2 = Some w /\ w = mkW (Lib 1) (Some 1%nat).
Proof. do 2 eexists. split; [reflexivity|]. split; reflexivity. Qed.
(** C112: after a move assignment the target denotes what the source denoted.  Not if the
    source wraps the queue that the target owns. *)
Theorem C112_move_refuted : exists l s s' wb wa, wrun queue_step l ws_init = Some s /\ get_w s 1 = Some wb /\ denotes (fun _ => 0) s (w_ptr wb) = Some 5 /\
  queue_step (WMoveAssign 0 1) s = Some s' /\ get_w s' 0 = Some wa /\ denotes (fun _ => 0) s' (w_ptr wa) = None.
Proof.
  exists [WNew 5; WWrap (Lib 0)]. do 4 eexists. split; [reflexivity|]. split; [reflexivity|]. split; [reflexivity|]. split; [reflexivity|]. split; [reflexivity|]. reflexivity.
Qed.
Print Assumptions C112_move_refuted.
(** It does if the source denotes what it owns, or owns nothing and does not denote what the
    target owns. *)
Theorem C112_move_partial : forall ext l s a b wa wb s' w', wrun queue_step l ws_init = Some s -> get_w s a = Some wa -> get_w s b = Some wb ->
  (forall i, w_managed wb = Some i -> w_ptr wb = Lib i) ->
  (w_managed wb = None -> forall i, w_managed wa = Some i -> w_ptr wb <> Lib i) ->
  queue_step (WMoveAssign a b) s = Some s' -> get_w s' a = Some w' ->
  denotes ext s' (w_ptr w') = denotes ext s (w_ptr wb).
Proof. exact queue_move_assign. Qed.
Print Assumptions C112_move_partial.
Example C112_ex : exists s wa wb s' w', wrun queue_step [WNew 5; WNew 6] ws_init = Some s /\ get_w s 0 = Some wa /\ get_w s 1 = Some wb /\
  queue_step (WMoveAssign 0 1) s = Some s' /\ get_w s' 0 = Some w' /\ w_managed wb = Some 1%nat /\ w_ptr wb = Lib 1 /\
  denotes (fun _ => 0) s' (w_ptr w') = Some 6 /\ ws_dead s' = [1; 0]%nat.
Proof. do 5 eexists. split; [reflexivity|]. split; [reflexivity|]. split; [reflexivity|]. split; [reflexivity|]. split; [reflexivity|]. vm_compute. auto. Qed.
