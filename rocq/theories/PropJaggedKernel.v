(** Property C134: threads appending to the inner vectors of a jagged vector. *)
From Coq Require Import Permutation.
From Verif Require Import Base BaseLemmas Copy CopyProofs CopyHost Kernel KernelProofs Views JaggedKernel JaggedKernelProofs.

(** [views]: the inner vectors, as described in the memory at [j_ptr jv]; [olds]: their
    elements; [vals]: for every thread, the inner vector and the new element. *)
Theorem C134_kernel sz jv views olds vals m sched : 0 < sz -> length olds = length views ->
  j_size jv = Z.of_nat (length views) ->
  get_bytes m (j_ptr jv) (24 * length views) = Some (flat_map view_bytes_of views) ->
  (forall r bs, In (r, bs) vals -> (r < length views)%nat /\ Z.of_nat (length bs) = sz) ->
  let new_of r := map snd (filter (fun c => Nat.eqb (fst c) r) vals) in
  let memory v x := within (v_sizep v) 4 x \/ within (v_ptr v) (v_cap v * sz) x in
  (forall r v old, nth_error views r = Some v /\ nth_error olds r = Some old ->
     v_sizep v <> 0 /\ 0 <= v_sizep v < 2 ^ 64 /\ 0 <= v_ptr v < 2 ^ 64 /\
     view_size m v (Z.of_nat (length old)) /\ apart (v_sizep v) 4 (v_ptr v) (v_cap v * sz) /\ acc m (v_ptr v) (v_cap v * sz) /\
     Forall (fun b => Z.of_nat (length b) = sz) old /\ get_bytes m (v_ptr v) (Z.to_nat (Z.of_nat (length old) * sz)) = Some (concat old) /\
     Z.of_nat (length old) + Z.of_nat (length (new_of r)) <= v_cap v) ->
  (forall v x, In v views -> memory v x -> within (j_ptr jv) (24 * Z.of_nat (length views)) x -> False) ->
  (forall r1 r2 v1 v2 x, r1 <> r2 -> nth_error views r1 = Some v1 -> nth_error views r2 = Some v2 -> memory v1 x -> memory v2 x -> False) ->
  exists m' thr, jk_run sz jv (m, map (fun c => JAt (fst c) (snd c)) vals) sched = Ret (m', thr) /\ length thr = length vals /\
    changes (fun x => exists r v old, (nth_error views r = Some v /\ nth_error olds r = Some old) /\
      (within (v_sizep v) 4 x \/ within (v_ptr v + Z.of_nat (length old) * sz) (Z.of_nat (length (new_of r)) * sz) x)) m m' /\
    same_acc m m' /\
    ((forall i, (i < length vals)%nat -> (4 <= count_occ Nat.eq_dec sched i)%nat) -> Forall j_done thr) /\
    (Forall j_done thr ->
      (forall i t, nth_error thr i = Some t -> exists r v idx bs old, t = JIn r v (KDone idx bs) /\ nth_error vals i = Some (r, bs) /\
         (nth_error views r = Some v /\ nth_error olds r = Some old) /\
         Z.of_nat (length old) <= idx < Z.of_nat (length old) + Z.of_nat (length (new_of r)) /\
         get_bytes m' (v_ptr v + idx * sz) (Z.to_nat sz) = Some bs) /\
      forall r v old, nth_error views r = Some v /\ nth_error olds r = Some old ->
        let n := Z.of_nat (length old) + Z.of_nat (length (new_of r)) in
        view_size m' v n /\
        exists new, Permutation new (new_of r) /\ get_bytes m' (v_ptr v) (Z.to_nat (n * sz)) = Some (concat (old ++ new))).
Proof. intros H1 H2 H3 H4 H5 new_of memory H6 H7 H8. exact (jagged_kernel_thm sz H1 jv views olds vals m H2 H3 H4 H5 H6 H7 H8 sched). Qed.
Print Assumptions C134_kernel.

(** Three inner vectors of two byte elements, the first with one element; four threads. *)
Definition views134 : list vview := [mkV 4 4112 4128; mkV 0 4116 4136; mkV 2 4120 4136].
Definition mem134 : cmem := put_bytes (put_bytes (put_bytes (mkM (fun _ => Some 0) (fun x => 4096 <=? x) true)
  8192 (flat_map view_bytes_of views134)) 4112 (le32 1)) 4128 [9; 9].
Definition vals134 : list (nat * list Z) := [(0%nat, [1; 2]); (2%nat, [3; 4]); (0%nat, [5; 6]); (2%nat, [7; 8])].
Definition sched134 : list nat := [3; 3; 2; 1; 0; 2; 3; 1; 0; 1; 0; 3; 2; 2; 1; 0]%nat.
Example C134_ex : get_bytes mem134 8192 72 = Some (flat_map view_bytes_of views134) /\
  view_size mem134 (mkV 4 4112 4128) 1 /\ view_size mem134 (mkV 0 4116 4136) 0 /\ view_size mem134 (mkV 2 4120 4136) 0 /\
  get_bytes mem134 4128 2 = Some [9; 9] /\
  match jk_run 2 (mkJ 3 8192 8192) (mem134, map (fun c => JAt (fst c) (snd c)) vals134) sched134 with
  | Ret (m', thr) => Forall j_done thr /\ get_bytes m' 4112 12 = Some (le32 3 ++ le32 0 ++ le32 2) /\
      get_bytes m' 4128 12 = Some [9; 9; 5; 6; 1; 2; 0; 0; 7; 8; 3; 4]
  | _ => False
  end.
Proof.
  split; [vm_compute; reflexivity|]. split; [split; [cbn; lia|]; split; [cbn; lia|vm_compute; reflexivity]|].
  split; [split; [cbn; lia|]; split; [cbn; lia|vm_compute; reflexivity]|]. split; [split; [cbn; lia|]; split; [cbn; lia|vm_compute; reflexivity]|].
  split; [vm_compute; reflexivity|]. vm_compute. split; [repeat constructor|]. split; reflexivity.
Qed.

(** The inner vectors may be too small for all threads: [jk_run] either returns or stops in
    the assertion of [push_back], in a thread that finds its inner vector full. *)
Theorem C134_bounded sz jv views olds vals m sched : 0 < sz -> length olds = length views ->
  j_size jv = Z.of_nat (length views) ->
  get_bytes m (j_ptr jv) (24 * length views) = Some (flat_map view_bytes_of views) ->
  (forall r bs, In (r, bs) vals -> (r < length views)%nat /\ Z.of_nat (length bs) = sz) ->
  let memory v x := within (v_sizep v) 4 x \/ within (v_ptr v) (v_cap v * sz) x in
  (forall r v old, nth_error views r = Some v /\ nth_error olds r = Some old ->
     v_sizep v <> 0 /\ 0 <= v_sizep v < 2 ^ 64 /\ 0 <= v_ptr v < 2 ^ 64 /\
     view_size m v (Z.of_nat (length old)) /\ apart (v_sizep v) 4 (v_ptr v) (v_cap v * sz) /\ acc m (v_ptr v) (v_cap v * sz) /\
     Forall (fun b => Z.of_nat (length b) = sz) old /\ get_bytes m (v_ptr v) (Z.to_nat (Z.of_nat (length old) * sz)) = Some (concat old)) ->
  (forall v x, In v views -> memory v x -> within (j_ptr jv) (24 * Z.of_nat (length views)) x -> False) ->
  (forall r1 r2 v1 v2 x, r1 <> r2 -> nth_error views r1 = Some v1 -> nth_error views r2 = Some v2 -> memory v1 x -> memory v2 x -> False) ->
  let start := (m, map (fun c => JAt (fst c) (snd c)) vals) in
  let good m' thr := length thr = length vals /\ same_acc m m' /\
    changes (fun x => exists r v old, (nth_error views r = Some v /\ nth_error olds r = Some old) /\
      (within (v_sizep v) 4 x \/
       within (v_ptr v + Z.of_nat (length old) * sz)
         (Z.of_nat (Nat.min (length (map snd (filter (fun c => Nat.eqb (fst c) r) vals))) (Z.to_nat (v_cap v) - length old)) * sz) x)) m m' /\
    (forall i j r v idx bs bs', nth_error thr i = Some (JIn r v (KDone idx bs)) -> nth_error thr j = Some (JIn r v (KDone idx bs')) -> i = j) /\
    forall r v old, nth_error views r = Some v /\ nth_error olds r = Some old -> exists n, view_size m' v n /\ Z.of_nat (length old) <= n /\
      get_bytes m' (v_ptr v) (Z.to_nat (Z.of_nat (length old) * sz)) = Some (concat old) /\
      forall i v' idx bs, nth_error thr i = Some (JIn r v' (KDone idx bs)) -> v' = v /\ nth_error vals i = Some (r, bs) /\
        Z.of_nat (length old) <= idx < n /\ get_bytes m' (v_ptr v + idx * sz) (Z.to_nat sz) = Some bs in
  (exists m' thr, jk_run sz jv start sched = Ret (m', thr) /\ good m' thr) \/
  (jk_run sz jv start sched = UB /\ exists before i after m' thr r v bs, sched = before ++ i :: after /\
     jk_run sz jv start before = Ret (m', thr) /\ good m' thr /\
     nth_error thr i = Some (JIn r v (KCall bs)) /\ nth_error views r = Some v /\ view_size m' v (v_cap v)).
Proof. intros H1 H2 H3 H4 H5 memory H6 H7 H8. exact (jagged_kernel_bounded sz H1 jv views olds vals m H2 H3 H4 H5 H6 H7 H8 sched). Qed.
Print Assumptions C134_bounded.

(** One more thread for the third inner vector: it stops in the assertion; the inner vectors
    are as they would be without it. *)
Example C134_bounded_ex :
  jk_run 2 (mkJ 3 8192 8192) (mem134, map (fun c => JAt (fst c) (snd c)) (vals134 ++ [(2%nat, [1; 1])])) (sched134 ++ [4; 4]%nat) = UB /\
  match jk_run 2 (mkJ 3 8192 8192) (mem134, map (fun c => JAt (fst c) (snd c)) (vals134 ++ [(2%nat, [1; 1])])) (sched134 ++ [4]%nat) with
  | Ret (m', thr) => nth_error thr 4 = Some (JIn 2 (mkV 2 4120 4136) (KCall [1; 1])) /\ get_bytes m' 4112 12 = Some (le32 3 ++ le32 0 ++ le32 2) /\
      get_bytes m' 4128 12 = Some [9; 9; 5; 6; 1; 2; 0; 0; 7; 8; 3; 4]
  | _ => False
  end.
Proof. split; [vm_compute; reflexivity|]. vm_compute. split; [reflexivity|]. split; reflexivity. Qed.
