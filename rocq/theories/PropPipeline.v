(** Properties C129 and C130: threads appending to a vector in device memory, and the whole
    way from creating a buffer to reading it back on the host. *)
From Coq Require Import Permutation.
From Verif Require Import Base BaseLemmas IntMath Align Placement PlacementProofs Copy CopyProofs Kernel KernelProofs KernelSafe PipelineProofs.

(** C129: [old] are the elements that the vector has, [vals] those that the threads append.
    [k_done]: the call has returned. *)
Theorem C129_kernel sz v m old vals sched : 0 < sz -> v_sizep v <> 0 -> v_cap v < 2 ^ 32 ->
  view_size m v (Z.of_nat (length old)) ->
  Forall (fun b => Z.of_nat (length b) = sz) (old ++ vals) ->
  Z.of_nat (length old) + Z.of_nat (length vals) <= v_cap v ->
  acc m (v_ptr v) (v_cap v * sz) -> apart (v_sizep v) 4 (v_ptr v) (v_cap v * sz) ->
  get_bytes m (v_ptr v) (Z.to_nat (Z.of_nat (length old) * sz)) = Some (concat old) ->
  exists m' thr, k_run sz v (m, map KCall vals) sched = Ret (m', thr) /\ length thr = length vals /\
    changes (fun x => within (v_sizep v) 4 x \/ within (v_ptr v + Z.of_nat (length old) * sz) (Z.of_nat (length vals) * sz) x) m m' /\
    same_acc m m' /\
    ((forall i, (i < length vals)%nat -> (3 <= count_occ Nat.eq_dec sched i)%nat) -> Forall k_done thr) /\
    (Forall k_done thr ->
      view_size m' v (Z.of_nat (length old) + Z.of_nat (length vals)) /\
      (forall i t, nth_error thr i = Some t -> exists idx bs, t = KDone idx bs /\ nth_error vals i = Some bs /\
         Z.of_nat (length old) <= idx < Z.of_nat (length old) + Z.of_nat (length vals) /\
         get_bytes m' (v_ptr v + idx * sz) (Z.to_nat sz) = Some bs) /\
      exists new, Permutation new vals /\
        get_bytes m' (v_ptr v) (Z.to_nat ((Z.of_nat (length old) + Z.of_nat (length vals)) * sz)) = Some (concat (old ++ new))).
Proof. exact (kernel_thm sz v m old vals sched). Qed.
Print Assumptions C129_kernel.

(** All bytes accessible and zero. *)
Definition mem129 : cmem := mkM (fun _ => Some 0) (fun x => 4096 <=? x) true.
Definition view129 : vview := mkV 4 4112 4128.
Definition sched129 : list nat := [2; 0; 0; 1; 2; 1; 0; 1; 2]%nat.
Definition mem129' : cmem := put_bytes (put_bytes mem129 4112 (le32 1)) 4128 [9; 9].
Example C129_ex : view_size mem129' view129 1 /\ apart (v_sizep view129) 4 (v_ptr view129) (v_cap view129 * 2) /\
  get_bytes mem129' (v_ptr view129) 2 = Some (concat [[9; 9]]) /\
  match k_run 2 view129 (mem129', map KCall [[1; 2]; [3; 4]; [5; 6]]) sched129 with
  | Ret (m', thr) => thr = [KDone 2 [1; 2]; KDone 3 [3; 4]; KDone 1 [5; 6]] /\ get_bytes m' 4128 8 = Some [9; 9; 5; 6; 1; 2; 3; 4]
  | _ => False
  end.
Proof.
  split; [split; [cbn; lia|]; split; [cbn; lia|vm_compute; reflexivity]|]. split; [intros x Hx; cbn in Hx; lia|].
  split; [vm_compute; reflexivity|]. vm_compute. split; reflexivity.
Qed.

(** The vector may also be too small: a run that does not hit an assertion has not claimed
    more than there is room for, and has not written outside of the free slots. *)
Theorem C129_bounded sz v m n0 vals sched m' thr : 0 < sz -> v_sizep v <> 0 -> view_size m v n0 ->
  Forall (fun b => Z.of_nat (length b) = sz) vals -> apart (v_sizep v) 4 (v_ptr v) (v_cap v * sz) ->
  k_run sz v (m, map KCall vals) sched = Ret (m', thr) ->
  exists claimed, (claimed <= length vals)%nat /\ view_size m' v (n0 + Z.of_nat claimed) /\
    (forall i x, (exists t, nth_error thr i = Some t /\ k_idx t = Some x) -> n0 <= x < n0 + Z.of_nat claimed) /\
    (forall i j ti tj x, nth_error thr i = Some ti -> nth_error thr j = Some tj -> k_idx ti = Some x -> k_idx tj = Some x -> i = j) /\
    (forall i x bs, nth_error thr i = Some (KDone x bs) -> nth_error vals i = Some bs /\ get_bytes m' (v_ptr v + x * sz) (Z.to_nat sz) = Some bs) /\
    changes (fun y => within (v_sizep v) 4 y \/ within (v_ptr v + n0 * sz) ((v_cap v - n0) * sz) y) m m' /\
    (Forall k_done thr -> claimed = length vals).
Proof. exact (kernel_safe sz v m n0 vals sched m' thr). Qed.
Print Assumptions C129_bounded.

(** Two calls with one free slot: one of them hits the assertion. *)
Example C129_bounded_ex : let v := mkV 2 4112 4128 in view_size mem129' v 1 /\
  k_run 2 v (mem129', map KCall [[1; 2]; [3; 4]]) [1; 1; 1]%nat =
    Ret (put_bytes (put_bytes mem129' 4112 (le32 2)) 4130 [3; 4], [KCall [1; 2]; KDone 1 [3; 4]]) /\
  k_run 2 v (mem129', map KCall [[1; 2]; [3; 4]]) [1; 1; 0; 1]%nat = UB.
Proof.
  split; [split; [cbn; lia|]; split; [cbn; lia|vm_compute; reflexivity]|]. split; reflexivity.
Qed.

(** C130. *)
Theorem C130_pipeline sz eal cap w vb b w' vals m q k sched :
  0 < sz -> pow2 eal -> 0 < cap < 2 ^ 32 -> 4 + cap * sz + 2 * Z.max 4 eal < 2 ^ 64 ->
  Forall (fun x => Z.of_nat (length x) = sz) vals -> Z.of_nat (length vals) <= cap ->
  vector_buffer sz eal cap true w = (Ret (vb, Some b), w') -> upstream_ok (ulog w') ->
  acc m (bptr b) (bsize b) ->
  let n := Z.of_nat (length vals) * sz in
  (vals <> [] -> q <> 0 /\ kind_check m k (m_dev m (Placement.v_ptr vb)) (m_dev m q) = true) ->
  acc m q n -> apart (bptr b) (bsize b) q n ->
  (forall i, (i < length vals)%nat -> (3 <= count_occ Nat.eq_dec sched i)%nat) ->
  let v := mkV (Placement.v_cap vb) (Placement.v_size vb) (Placement.v_ptr vb) in
  exists m1 m2 thr m3 new,
    setup_vector v m = (Ret tt, m1) /\
    k_run sz v (m1, map KCall vals) sched = Ret (m2, thr) /\
    copy_to_vec sz k v q m2 = (Ret (Z.of_nat (length vals)), m3) /\
    Permutation new vals /\ get_bytes m3 q (Z.to_nat n) = Some (concat new) /\
    changes (fun x => within (bptr b) (bsize b) x \/ within q n x) m m3.
Proof. exact (pipeline_thm sz eal cap w vb b w' vals m q k sched). Qed.
Print Assumptions C130_pipeline.

Definition w130 : world := mkWorld [] (fun _ => Some 4112).
Example C130_ex : exists w', vector_buffer 2 2 4 true w130 = (Ret (mkView 4 4112 4116, Some (mkBlock 4112 20 16)), w') /\
  upstream_ok (ulog w') /\ acc mem129 4112 20 /\ acc mem129 64 6 /\ apart 4112 20 64 6 /\
  kind_check mem129 device_to_host (m_dev mem129 4116) (m_dev mem129 64) = true /\
  (forall i, (i < 3)%nat -> (3 <= count_occ Nat.eq_dec sched129 i)%nat).
Proof.
  eexists. split; [reflexivity|]. split; [apply upstream_okb_ok; reflexivity|]. split; [discriminate|]. split; [discriminate|].
  split; [intros x Hx; lia|]. split; [reflexivity|]. intros [|[|[|i]]] Hi; cbn; lia.
Qed.
