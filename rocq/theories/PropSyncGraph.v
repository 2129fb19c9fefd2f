(** C153: synchronized resources in any places of a graph of resources. *)
From Verif Require Import Base SyncGraph SyncGraphProofs.
From Coq Require Import List Bool Arith Lia.
Import ListNotations.
Local Open Scope nat_scope.

(** If every way of the threads to resource [m] goes through the synchronized resource [s] (or is [s] itself), no two threads
    are inside of [m] at the same time. *)
Theorem C153_exclusion : forall sync ups entries s m progs sched ts,
  (forall m n, In n (ups m) -> n < m) -> sync s = true -> (forall i l, path ups (entries i) (m :: l) -> s = m \/ In s l) ->
  (forall i l, nth_error progs i = Some l -> wf ups (entries i) [] l = true) ->
  sgrun sync (map (mkThread []) progs) sched = Some ts ->
  forall i j t u, nth_error ts i = Some t -> nth_error ts j = Some u -> In m (t_stack t) -> In m (t_stack u) -> i = j.
Proof. exact exclusion_thm. Qed.
Print Assumptions C153_exclusion.

(** What [m] sees is a sequence of calls one after the other, each entered and left by one thread. *)
Theorem C153_sequential : forall sync ups entries s m progs sched,
  (forall m n, In n (ups m) -> n < m) -> sync s = true -> (forall i l, path ups (entries i) (m :: l) -> s = m \/ In s l) ->
  (forall i l, nth_error progs i = Some l -> wf ups (entries i) [] l = true) ->
  exists is_, events sync m (map (mkThread []) progs) sched = flat_map (fun i => [(i, true); (i, false)]) is_ \/
    exists i, events sync m (map (mkThread []) progs) sched = flat_map (fun i => [(i, true); (i, false)]) is_ ++ [(i, true)].
Proof.
  intros sync ups entries s m progs sched A S G O. pose proof (sequential_thm sync ups entries s m progs sched A S G O) as H.
  unfold sginit in H. revert H. generalize (events sync m (map (mkThread []) progs) sched). intros l.
  assert (K : forall n l, length l <= n -> one_by_one None l = true ->
    exists is_, l = flat_map (fun i => [(i, true); (i, false)]) is_ \/ exists i, l = flat_map (fun i => [(i, true); (i, false)]) is_ ++ [(i, true)]).
  { clear. induction n as [|n IH]; intros l L H.
    - destruct l; [exists []; left; reflexivity|cbn [length] in L; lia].
    - destruct l as [|[i b] l]; [exists []; left; reflexivity|]. cbn [one_by_one] in H. destruct b; [|discriminate].
      destruct l as [|[j b] l]; [exists []; right; exists i; reflexivity|]. cbn [one_by_one] in H. destruct b; [discriminate|].
      apply andb_true_iff in H. destruct H as [E H]. apply Nat.eqb_eq in E. subst j. cbn [length] in L.
      destruct (IH l ltac:(lia) H) as (is_ & [->|(k & ->)]); exists (i :: is_); [left; reflexivity|right; exists k; reflexivity]. }
  intros H. exact (K (length l) l (le_n _) H).
Qed.
Print Assumptions C153_sequential.

(** There is no deadlock: as long as a thread has something left to do, some thread can go on. *)
Theorem C153_deadlock_free : forall sync ups entries progs sched ts,
  (forall m n, In n (ups m) -> n < m) ->
  (forall i l, nth_error progs i = Some l -> wf ups (entries i) [] l = true) ->
  sgrun sync (map (mkThread []) progs) sched = Some ts ->
  forall i t, nth_error ts i = Some t -> t_rest t <> [] -> exists j, sgstep sync ts j <> None.
Proof. intros sync ups entries progs sched ts A. exact (deadlock_thm sync ups entries A progs sched ts). Qed.
Print Assumptions C153_deadlock_free.

(** Every run has at most as many steps as the threads have events, and can be continued until all threads
    have finished. *)
Theorem C153_complete : forall sync ups entries progs sched ts,
  (forall m n, In n (ups m) -> n < m) ->
  (forall i l, nth_error progs i = Some l -> wf ups (entries i) [] l = true) ->
  sgrun sync (map (mkThread []) progs) sched = Some ts ->
  length sched <= list_sum (map (@length act) progs) /\
  exists sched' ts', sgrun sync ts sched' = Some ts' /\ length ts' = length progs /\ Forall (fun t => t = mkThread [] []) ts' /\
    length sched + length sched' = list_sum (map (@length act) progs).
Proof. intros sync ups entries progs sched ts A. exact (complete_thm sync ups entries A progs sched ts). Qed.
Print Assumptions C153_complete.

(** A graph: 0 the lowest resource, 1 a pool on it, 2 a synchronized resource, 3 a pool on 2, 4 a synchronized one on 3, 5 a coalescing
    resource that uses 4 and 2.  Thread 0 calls 5, thread 1 calls 2 and 4. *)
Definition ex_sync (n : nat) : bool := Nat.eqb n 2 || Nat.eqb n 4.
Definition ex_ups (n : nat) : list nat := nth n [[]; [0]; [1]; [2]; [3]; [4; 2]] [].
Definition ex_entries (i : nat) : list nat := nth i [[5]; [2; 4]] [].
Definition ex_progs : list (list act) :=
  [[Enter 5; Enter 4; Enter 3; Enter 2; Enter 1; Exit; Exit; Exit; Exit; Enter 2; Enter 1; Enter 0; Exit; Exit; Exit; Exit];
   [Enter 2; Enter 1; Enter 0; Exit; Exit; Exit; Enter 4; Enter 3; Exit; Exit]].
Example C153_ok_ex :
  (forall m n, In n (ex_ups m) -> n < m) /\ ex_sync 2 = true /\
  (forall i l, path ex_ups (ex_entries i) (1 :: l) -> 2 = 1 \/ In 2 l) /\
  (forall i l, nth_error ex_progs i = Some l -> wf ex_ups (ex_entries i) [] l = true).
Proof.
  assert (E : forall m n, In n (ex_ups m) -> In (m, n) [(1, 0); (2, 1); (3, 2); (4, 3); (5, 4); (5, 2)]).
  { intros m n H. unfold ex_ups in H. destruct m as [|[|[|[|[|[|m]]]]]]; cbn in H; try (destruct m; contradiction);
      repeat (destruct H as [<-|H]; [cbn; tauto|]); contradiction. }
  split; [|split; [reflexivity|split]].
  - intros m n H. apply E in H. cbn [In] in H. repeat (destruct H as [H|H]; [injection H as <- <-; lia|]). destruct H.
  - intros i l [H _]. right. destruct l as [|x l].
    + unfold ex_entries in H. destruct i as [|[|i]]; cbn in H; [| |destruct i; contradiction]; repeat (destruct H as [H|H]; [discriminate H|]); contradiction.
    + apply E in H. cbn [In] in H. repeat (destruct H as [H|H]; [try discriminate H; inversion H; subst; left; reflexivity|]). destruct H.
  - intros i l H. destruct i as [|[|i]]; cbn in H; [injection H as <-; reflexivity|injection H as <-; reflexivity|destruct i; discriminate].
Qed.
(** A run in which thread 1 waits for resource 2: the calls of resource 1, by three different ways, do not overlap. *)
Example C153_run_ex :
  let sched := [0; 0; 0; 0; 0; 0; 0; 1; 1; 1; 0; 1; 1; 1; 0; 0; 1; 0; 0; 0; 0; 0; 0; 1; 1; 1] in
  events ex_sync 1 (map (mkThread []) ex_progs) sched = [(0, true); (0, false); (1, true); (1, false); (0, true); (0, false)] /\
  sgrun ex_sync (map (mkThread []) ex_progs) sched = Some [mkThread [] []; mkThread [] []] /\
  sgrun ex_sync (map (mkThread []) ex_progs) [0; 0; 0; 0; 1] = None.
Proof. repeat split. Qed.
(** The hypotheses are needed.  In a cycle of synchronized resources (assignments can make one, since they replace the
    upstream resource) threads block each other; without a common synchronized resource, here with two of them
    on the same pool, the calls of the pool overlap. *)
Example C153_cycle :
  let ups := fun n => nth n [[1]; [0]] [] in
  let progs := [[Enter 0; Enter 1; Exit; Exit]; [Enter 1; Enter 0; Exit; Exit]] in
  (forall i l, nth_error progs i = Some l -> wf ups [0; 1] [] l = true) /\
  exists ts, sgrun (fun _ => true) (map (mkThread []) progs) [0; 1] = Some ts /\
    sgstep (fun _ => true) ts 0 = None /\ sgstep (fun _ => true) ts 1 = None.
Proof.
  split; [intros i l H; destruct i as [|[|i]]; cbn in H; [injection H as <-; reflexivity|injection H as <-; reflexivity|destruct i; discriminate]|].
  eexists. repeat split.
Qed.
Example C153_two_guards :
  let sync := fun n => Nat.eqb n 2 || Nat.eqb n 3 in
  let progs := [[Enter 2; Enter 1; Exit; Exit]; [Enter 3; Enter 1; Exit; Exit]] in
  events sync 1 (map (mkThread []) progs) [0; 0; 1; 1] = [(0, true); (1, true)].
Proof. reflexivity. Qed.
