(** Threads that share a stack of memory resources: C141. *)
From Verif Require Import Base BaseLemmas Stack StackProofs StackExamples PropStack Sync SyncStack SyncStackProofs.
From Coq Require Import Permutation.
From Verif Require PropSync.

(** What the threads may do: requests of 1 to 2^63 bytes with an alignment of at most 16; a
    block is given back once, by any thread, after the call that allocated it has returned. *)
Definition threads_legal (tr : list (label scall sres)) : Prop :=
  forall before l after, tr = before ++ l :: after -> lg l = 0%nat ->
    match lc l with
    | SAlloc size align => 0 < size <= 2 ^ 63 /\ pow2 align /\ align <= 16
    | SFree b => In b (held before)
    end.

Lemma layer_correct l : layer_ok l -> correct (layer_res l).
Proof. intros H. destruct (layers_correct [l] (Forall_cons _ H (Forall_nil _))) as (K & _). exact (Forall_inv K). Qed.

(** The blocks that the threads hold at any time do not overlap; no call has undefined
    behaviour or fails other than with std::bad_alloc; the calls made to the stack, and those
    that the stack makes to the lowest resource, are legal sequential histories. *)
Theorem C141_shared : forall l ls u0 tr s bottom, layer_ok l -> Forall layer_ok ls ->
  r_init (layer_res l) (fst u0) (snd u0) -> exec (shared_step (layer_res l)) u0 tr s -> threads_legal tr ->
  stacked (map layer_res ls) (ulog (snd (ust s))) bottom -> upstream_ok bottom ->
  pairwise_disjoint (held tr) /\
  (forall b, In b (held tr) -> (balign b | bptr b) /\ 0 < bptr b /\
     exists u, In u (ulive bottom) /\ bptr u <= bptr b /\ bptr b + bsize b <= bptr u + bsize u) /\
  (forall e r, In e tr -> lr e = Some r ->
     match lc e with
     | SAlloc _ _ => (exists p, r = RAlloc (Ret p)) \/ r = RAlloc (Throw bad_alloc)
     | SFree _ => r = RFree (Ret tt)
     end) /\
  upstream_ok (calls tr) /\ legal_calls (calls tr) /\ legal_calls bottom.
Proof.
  intros l ls u0 tr s bottom Hl HL HI HE HT HS HU. destruct (layers_correct _ HL) as (K & _).
  destruct (shared_stack _ _ _ _ _ _ (layer_correct l Hl) K HI HE HT HS HU) as (A1 & A2 & A3 & pe & A4 & _).
  apply legal_calls_eq in A2.
  destruct (C140_stack (l :: ls) (calls tr) bottom) as (B1 & B2 & B3 & B4); auto.
  { cbn [map stacked]. exists (fst (ust s)), (snd (ust s)). auto. }
  split; [apply (pairwise_disjoint_perm _ _ A4), pairwise_disjoint_app in B2; tauto|].
  split; [intros b Hb; apply B4; rewrite A4; apply in_or_app; auto|].
  split; [|auto]. intros e r He Hr. rewrite Forall_forall in A3. specialize (A3 _ He). unfold good_label in A3.
  rewrite Hr in A3. exact A3.
Qed.
Print Assumptions C141_shared.

(** The model lets a call of the stack take effect at once when it ends; this is justified
    because no call of the stack begins before the one that began before it has ended. *)
Theorem C141_exclusive : forall l u0 tr s i j t k c t' k' c',
  exec (shared_step (layer_res l)) u0 tr s -> (i < j)%nat ->
  nth_error tr i = Some (mkL t k 2 c None) -> nth_error tr j = Some (mkL t' k' 2 c' None) ->
  exists m r, (i < m < j)%nat /\ nth_error tr m = Some (mkL t k 3 c (Some r)).
Proof. intros l u0 tr s i j t k c t' k' c' HE HJ HI HK. exact (PropSync.C29_exclusive _ _ _ _ _ _ _ _ _ _ _ _ _ _ _ HE HI HK HJ). Qed.
Print Assumptions C141_exclusive.

(** When the threads are done and have given back everything, destroying the stack returns
    all memory to the lowest resource. *)
Theorem C141_released : forall l ls u0 tr s bottom, layer_ok l -> Forall layer_ok ls ->
  r_init (layer_res l) (fst u0) (snd u0) -> exec (shared_step (layer_res l)) u0 tr s -> threads_legal tr ->
  (forall t, phase (th s t) = 0%nat) -> held tr = [] ->
  destroyed (map layer_res ls) (ulog (r_destroy (layer_res l) (fst (ust s)) (snd (ust s)))) bottom ->
  upstream_ok bottom -> legal_calls bottom /\ ulive bottom = [].
Proof.
  intros l ls u0 tr s bottom Hl HL HI HE HT HP HH HD HU. destruct (layers_correct _ HL) as (K & _).
  rewrite legal_calls_eq. exact (shared_released _ _ _ _ _ _ (layer_correct l Hl) K HI HE HT HP HH HD HU).
Qed.
Print Assumptions C141_released.

(** Two threads on a binary page resource on a contiguous resource; the second one gives back
    the block of the first one, and is in the middle of another call at the end. *)
Definition sy_a : block := mkBlock stk_base 100 16.
Definition sy_A := SAlloc 100 16.
Definition sy_B := SAlloc 200 8.
Definition sy_sched : list (nat * scall) :=
  [(0, sy_A); (1, sy_B); (0, sy_A); (0, sy_A); (0, sy_A); (0, sy_A); (1, sy_B); (1, sy_B); (0, sy_A); (1, sy_B); (1, sy_B); (1, sy_B);
   (1, SFree sy_a); (0, sy_B); (1, SFree sy_a); (1, SFree sy_a); (1, SFree sy_a)]%nat.
Definition sy_u0 : rstate (layer_res LBinaryPage) * world :=
  (Buddy.init, mkWorld [] (answers [UAlloc (2 ^ 16) 16 (Some stk_base)])).
Definition sy_run (sched : list (nat * scall)) :=
  match schedule (layer_res LBinaryPage) sched [] (init sy_u0) with Some x => x | None => ([], init sy_u0) end.

Lemma sy_exec sched : exec (shared_step (layer_res LBinaryPage)) sy_u0 (fst (sy_run sched)) (snd (sy_run sched)).
Proof.
  unfold sy_run. destruct (schedule _ sched [] (init sy_u0)) as [[tr s]|] eqn:E; [|apply exec_nil].
  eapply schedule_exec; [apply exec_nil|exact E].
Qed.

Ltac sy_legal := apply legal_from_ok; vm_compute; repeat split; try discriminate; try tauto;
  first [exists 4; split; [discriminate|reflexivity]|exists 3; split; [discriminate|reflexivity]].

Example C141_shared_ex :
  layer_ok LBinaryPage /\ Forall layer_ok [LContiguous (2 ^ 22)] /\
  r_init (layer_res LBinaryPage) (fst sy_u0) (snd sy_u0) /\
  exec (shared_step (layer_res LBinaryPage)) sy_u0 (fst (sy_run sy_sched)) (snd (sy_run sy_sched)) /\
  threads_legal (fst (sy_run sy_sched)) /\
  stacked (map layer_res [LContiguous (2 ^ 22)]) (ulog (snd (ust (snd (sy_run sy_sched))))) (rev stk4) /\
  upstream_ok (rev stk4) /\
  held (fst (sy_run sy_sched)) = [mkBlock (stk_base + 256) 200 8].
Proof.
  split; [exact Logic.I|]. split; [constructor; [cbn [layer_ok]; lia|constructor]|].
  split; [split; reflexivity|]. split; [apply sy_exec|].
  split; [sy_legal|].
  split; [|split; [apply upstream_okb_ok; vm_compute; reflexivity|vm_compute; reflexivity]].
  replace (ulog (snd (ust (snd (sy_run sy_sched))))) with (rev [UAlloc (2 ^ 16) 16 (Some stk_base)]) by (vm_compute; reflexivity).
  cbn [map layer_res stacked].
  destruct (replay_layer (contiguous_res (2 ^ 22)) [UAlloc (2 ^ 16) 16 (Some stk_base)] (Contiguous.mkC (2 ^ 22) stk_base stk_base)
    (mkWorld (rev stk4) (answers stk4))) with (l := rev stk4) as (s4 & w4 & R4 & E4);
    [exists (mkWorld [] (answers stk4)); split; reflexivity|vm_compute; reflexivity|].
  exists s4, w4. split; [exact R4|exact E4].
Qed.

Example C141_exclusive_ex : exists p q, p <> q /\
  nth_error (fst (sy_run sy_sched)) 3 = Some (mkL 0 0 2 sy_A None)%nat /\
  nth_error (fst (sy_run sy_sched)) 4 = Some (mkL 0 0 3 sy_A (Some (RAlloc (Ret p))))%nat /\
  nth_error (fst (sy_run sy_sched)) 7 = Some (mkL 1 0 2 sy_B None)%nat /\
  nth_error (fst (sy_run sy_sched)) 9 = Some (mkL 1 0 3 sy_B (Some (RAlloc (Ret q))))%nat.
Proof. exists stk_base, (stk_base + 256). split; [discriminate|]. repeat split. Qed.

(** The calls in flight end and the last blocks are given back. *)
Definition sy_b : block := mkBlock (stk_base + 256) 200 8.
Definition sy_done : list (nat * scall) :=
  (sy_sched ++ [(1, SFree sy_b); (1, SFree sy_b)] ++ repeat (0, SFree sy_b) 5 ++ repeat (0, SFree sy_b) 6
   ++ repeat (1, SFree (mkBlock stk_base 200 8)) 6)%nat.
Example C141_released_ex :
  exec (shared_step (layer_res LBinaryPage)) sy_u0 (fst (sy_run sy_done)) (snd (sy_run sy_done)) /\
  threads_legal (fst (sy_run sy_done)) /\ (forall t, phase (th (snd (sy_run sy_done)) t) = 0%nat) /\
  held (fst (sy_run sy_done)) = [] /\ length (calls (fst (sy_run sy_done))) = 6%nat /\
  destroyed (map layer_res [LContiguous (2 ^ 22)])
    (ulog (r_destroy (layer_res LBinaryPage) (fst (ust (snd (sy_run sy_done)))) (snd (ust (snd (sy_run sy_done)))))) (rev stk4d) /\
  upstream_ok (rev stk4d).
Proof.
  split; [apply sy_exec|]. split; [sy_legal|].
  split; [intros [|[|t]]; vm_compute; reflexivity|]. split; [vm_compute; reflexivity|]. split; [vm_compute; reflexivity|].
  split; [|apply upstream_okb_ok; vm_compute; reflexivity].
  match goal with |- destroyed _ ?x _ => replace x with (rev [UAlloc (2 ^ 16) 16 (Some stk_base); UFree stk_base (2 ^ 16) 16]) by (vm_compute; reflexivity) end.
  cbn [map layer_res destroyed].
  destruct (replay_destroyed (contiguous_res (2 ^ 22)) [UAlloc (2 ^ 16) 16 (Some stk_base); UFree stk_base (2 ^ 16) 16]
    (Contiguous.mkC (2 ^ 22) stk_base stk_base) (mkWorld (rev stk4) (answers stk4))) with (l := rev stk4d) as (s4 & w4 & R4 & E4);
    [exists (mkWorld [] (answers stk4)); split; reflexivity|vm_compute; reflexivity|].
  exists s4, w4. split; [exact R4|exact E4].
Qed.
