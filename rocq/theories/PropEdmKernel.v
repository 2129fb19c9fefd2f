(** Property C136: threads adding elements to an SoA container in device memory. *)
From Coq Require Import Permutation.
From Verif Require Import Base BaseLemmas DeviceVector Copy CopyProofs EdmDevice EdmDeviceProofs EdmKernel EdmKernelProofs.

(** [old]: the elements that the container has, as bytes by variable; [rows]: what the
    threads assign; [dflt]: the bytes of default constructed elements. *)
Theorem C136_kernel vars d dflt m (old : list (list (list Z))) (rows : list (list (option (list Z)))) sched :
  length (ed_vars d) = length vars -> ed_sizep d <> 0 -> ed_cap d < 2 ^ 32 ->
  (forall k v x, nth_error vars k = Some v -> nth_error (ed_vars d) k = Some x ->
     match x with
     | EScalar _ => True
     | EVector y => 0 < ve_sz v /\ Placement.v_cap y = ed_cap d /\ Placement.v_size y = ed_sizep d /\
         acc m (Placement.v_ptr y) (ed_cap d * ve_sz v) /\ apart (ed_sizep d) 4 (Placement.v_ptr y) (ed_cap d * ve_sz v) /\
         Z.of_nat (length (nth k dflt [])) = ve_sz v
     | EJagged _ _ _ _ => False
     end) ->
  (forall k k' v v' y y', k <> k' -> nth_error vars k = Some v -> nth_error vars k' = Some v' ->
     nth_error (ed_vars d) k = Some (EVector y) -> nth_error (ed_vars d) k' = Some (EVector y') ->
     apart (Placement.v_ptr y) (ed_cap d * ve_sz v) (Placement.v_ptr y') (ed_cap d * ve_sz v')) ->
  get_bytes m (ed_sizep d) 4 = Some (le32 (Z.of_nat (length old))) ->
  Z.of_nat (length old) + Z.of_nat (length rows) <= ed_cap d ->
  (forall p row k v y, nth_error old p = Some row -> nth_error vars k = Some v -> nth_error (ed_vars d) k = Some (EVector y) ->
     get_bytes m (Placement.v_ptr y + Z.of_nat p * ve_sz v) (Z.to_nat (ve_sz v)) = Some (nth k row [])) ->
  (forall row k bs, In row rows -> nth_error row k = Some (Some bs) ->
     exists v y, nth_error vars k = Some v /\ nth_error (ed_vars d) k = Some (EVector y) /\ Z.of_nat (length bs) = ve_sz v) ->
  exists m' thr, e_run vars d dflt (m, map ECall rows) sched = Ret (m', thr) /\ length thr = length rows /\
    changes (fun x => within (ed_sizep d) 4 x \/ exists p k v y, Z.of_nat (length old) <= p < Z.of_nat (length old) + Z.of_nat (length rows) /\
      nth_error vars k = Some v /\ nth_error (ed_vars d) k = Some (EVector y) /\ within (Placement.v_ptr y + p * ve_sz v) (ve_sz v) x) m m' /\
    same_acc m m' /\
    (forall p row k v y, nth_error old p = Some row -> nth_error vars k = Some v -> nth_error (ed_vars d) k = Some (EVector y) ->
       get_bytes m' (Placement.v_ptr y + Z.of_nat p * ve_sz v) (Z.to_nat (ve_sz v)) = Some (nth k row [])) /\
    (forall i idx row, nth_error thr i = Some (EDone idx row) -> nth_error rows i = Some row /\
       Z.of_nat (length old) <= idx < Z.of_nat (length old) + Z.of_nat (length rows) /\
       forall k v y, nth_error vars k = Some v -> nth_error (ed_vars d) k = Some (EVector y) ->
         get_bytes m' (Placement.v_ptr y + idx * ve_sz v) (Z.to_nat (ve_sz v)) = Some (match nth k row None with Some b => b | None => nth k dflt [] end)) /\
    ((forall i, (i < length rows)%nat -> (2 * length vars + 4 <= count_occ Nat.eq_dec sched i)%nat) -> Forall e_done thr) /\
    (Forall e_done thr ->
      get_bytes m' (ed_sizep d) 4 = Some (le32 (Z.of_nat (length old) + Z.of_nat (length rows))) /\
      exists new, Permutation new rows /\ forall p row k v y, nth_error new p = Some row ->
        nth_error vars k = Some v -> nth_error (ed_vars d) k = Some (EVector y) ->
        get_bytes m' (Placement.v_ptr y + (Z.of_nat (length old) + Z.of_nat p) * ve_sz v) (Z.to_nat (ve_sz v)) =
          Some (match nth k row None with Some b => b | None => nth k dflt [] end)).
Proof. exact (edm_kernel_thm vars d dflt m old rows sched). Qed.
Print Assumptions C136_kernel.

(** A scalar and two vectors with one element; three threads, the last one assigns to the
    first vector only. *)
Definition vars136 : list var := [mkVar KVector 2 2; mkVar KScalar 4 4; mkVar KVector 1 1].
Definition dev136 : edev := mkDev 4 4112 [EVector (mkView 4 4112 4128); EScalar 4120; EVector (mkView 4 4112 4140)].
Definition mem136 : cmem := put_bytes (put_bytes (put_bytes (mkM (fun _ => Some 7) (fun x => 4096 <=? x) true)
  4112 (le32 1)) 4128 [9; 9]) 4140 [8].
Definition rows136 : list (list (option (list Z))) := [[Some [1; 2]; None; Some [3]]; [Some [4; 5]; None; Some [6]]; [Some [10; 11]; None; None]].
Definition sched136 : list nat := concat (repeat [2; 0; 1]%nat 6) ++ concat (repeat [1; 2; 0]%nat 4).
Example C136_ex :
  (forall k v x, nth_error vars136 k = Some v -> nth_error (ed_vars dev136) k = Some x ->
     match x with
     | EScalar _ => True
     | EVector y => 0 < ve_sz v /\ Placement.v_cap y = ed_cap dev136 /\ Placement.v_size y = ed_sizep dev136 /\
         apart (ed_sizep dev136) 4 (Placement.v_ptr y) (ed_cap dev136 * ve_sz v) /\
         Z.of_nat (length (nth k [[0; 0]; []; [0]] [])) = ve_sz v
     | EJagged _ _ _ _ => False
     end) /\
  apart 4128 (4 * 2) 4140 (4 * 1) /\
  get_bytes mem136 4112 4 = Some (le32 1) /\ get_bytes mem136 4128 2 = Some [9; 9] /\ get_bytes mem136 4140 1 = Some [8] /\
  (forall i, (i < 3)%nat -> (2 * length vars136 + 4 <= count_occ Nat.eq_dec sched136 i)%nat) /\
  match e_run vars136 dev136 [[0; 0]; []; [0]] (mem136, map ECall rows136) sched136 with
  | Ret (m', thr) => Forall e_done thr /\ get_bytes m' 4112 4 = Some (le32 4) /\ get_bytes m' 4120 4 = Some [7; 7; 7; 7] /\
      get_bytes m' 4128 8 = Some [9; 9; 10; 11; 1; 2; 4; 5] /\ get_bytes m' 4140 4 = Some [8; 0; 3; 6]
  | _ => False
  end.
Proof.
  split.
  { intros [|[|[|k]]] v x E1 E2; cbn in E1, E2; try (destruct k; discriminate); injection E1 as <-; injection E2 as <-; cbn -[apart]; auto;
      repeat split; try lia; intros x Hx; lia. }
  split; [intros x Hx; lia|]. split; [vm_compute; reflexivity|]. split; [vm_compute; reflexivity|]. split; [vm_compute; reflexivity|].
  split; [intros [|[|[|i]]] Hi; cbn; lia|]. vm_compute. split; [repeat constructor|]. repeat split.
Qed.

(** The container may be too small for all threads. *)
Theorem C136_bounded vars d dflt m (old : list (list (list Z))) (rows : list (list (option (list Z)))) sched :
  length (ed_vars d) = length vars -> ed_sizep d <> 0 -> ed_cap d < 2 ^ 32 ->
  (forall k v x, nth_error vars k = Some v -> nth_error (ed_vars d) k = Some x ->
     match x with
     | EScalar _ => True
     | EVector y => 0 < ve_sz v /\ Placement.v_cap y = ed_cap d /\ Placement.v_size y = ed_sizep d /\
         acc m (Placement.v_ptr y) (ed_cap d * ve_sz v) /\ apart (ed_sizep d) 4 (Placement.v_ptr y) (ed_cap d * ve_sz v) /\
         Z.of_nat (length (nth k dflt [])) = ve_sz v
     | EJagged _ _ _ _ => False
     end) ->
  (forall k k' v v' y y', k <> k' -> nth_error vars k = Some v -> nth_error vars k' = Some v' ->
     nth_error (ed_vars d) k = Some (EVector y) -> nth_error (ed_vars d) k' = Some (EVector y') ->
     apart (Placement.v_ptr y) (ed_cap d * ve_sz v) (Placement.v_ptr y') (ed_cap d * ve_sz v')) ->
  get_bytes m (ed_sizep d) 4 = Some (le32 (Z.of_nat (length old))) ->
  Z.of_nat (length old) <= ed_cap d ->
  (forall p row k v y, nth_error old p = Some row -> nth_error vars k = Some v -> nth_error (ed_vars d) k = Some (EVector y) ->
     get_bytes m (Placement.v_ptr y + Z.of_nat p * ve_sz v) (Z.to_nat (ve_sz v)) = Some (nth k row [])) ->
  (forall row k bs, In row rows -> nth_error row k = Some (Some bs) ->
     exists v y, nth_error vars k = Some v /\ nth_error (ed_vars d) k = Some (EVector y) /\ Z.of_nat (length bs) = ve_sz v) ->
  let good m' thr n := length thr = length rows /\ get_bytes m' (ed_sizep d) 4 = Some (le32 n) /\ Z.of_nat (length old) <= n <= ed_cap d /\
    changes (fun x => within (ed_sizep d) 4 x \/ exists p k v y, Z.of_nat (length old) <= p < n /\
      nth_error vars k = Some v /\ nth_error (ed_vars d) k = Some (EVector y) /\ within (Placement.v_ptr y + p * ve_sz v) (ve_sz v) x) m m' /\
    (forall p row k v y, nth_error old p = Some row -> nth_error vars k = Some v -> nth_error (ed_vars d) k = Some (EVector y) ->
       get_bytes m' (Placement.v_ptr y + Z.of_nat p * ve_sz v) (Z.to_nat (ve_sz v)) = Some (nth k row [])) /\
    (forall i j idx row row', nth_error thr i = Some (EDone idx row) -> nth_error thr j = Some (EDone idx row') -> i = j) /\
    (forall i idx row, nth_error thr i = Some (EDone idx row) -> nth_error rows i = Some row /\ Z.of_nat (length old) <= idx < n /\
       forall k v y, nth_error vars k = Some v -> nth_error (ed_vars d) k = Some (EVector y) ->
         get_bytes m' (Placement.v_ptr y + idx * ve_sz v) (Z.to_nat (ve_sz v)) = Some (match nth k row None with Some b => b | None => nth k dflt [] end)) in
  (exists m' thr n, e_run vars d dflt (m, map ECall rows) sched = Ret (m', thr) /\ good m' thr n) \/
  (e_run vars d dflt (m, map ECall rows) sched = UB /\ exists before i after m' thr, sched = before ++ i :: after /\
     e_run vars d dflt (m, map ECall rows) before = Ret (m', thr) /\ (exists row, nth_error thr i = Some (ECall row)) /\ good m' thr (ed_cap d)).
Proof. exact (edm_kernel_bounded vars d dflt m old rows sched). Qed.
Print Assumptions C136_bounded.

(** Room for two more elements, and three threads: the third call hits the assertion, with
    both slots in use. *)
Definition dev136b : edev := mkDev 3 4112 [EVector (mkView 3 4112 4128); EScalar 4120; EVector (mkView 3 4112 4140)].
Example C136_bounded_ex :
  (forall k v x, nth_error vars136 k = Some v -> nth_error (ed_vars dev136b) k = Some x ->
     match x with
     | EScalar _ => True
     | EVector y => 0 < ve_sz v /\ Placement.v_cap y = ed_cap dev136b /\ Placement.v_size y = ed_sizep dev136b /\
         apart (ed_sizep dev136b) 4 (Placement.v_ptr y) (ed_cap dev136b * ve_sz v) /\
         Z.of_nat (length (nth k [[0; 0]; []; [0]] [])) = ve_sz v
     | EJagged _ _ _ _ => False
     end) /\
  apart 4128 (3 * 2) 4140 (3 * 1) /\
  e_run vars136 dev136b [[0; 0]; []; [0]] (mem136, map ECall rows136) [2; 0; 0; 2; 0; 1; 0]%nat = UB /\
  match e_run vars136 dev136b [[0; 0]; []; [0]] (mem136, map ECall rows136) (repeat 2 10 ++ repeat 0 10)%nat with
  | Ret (m', thr) => get_bytes m' 4112 4 = Some (le32 3) /\ get_bytes m' 4128 6 = Some [9; 9; 10; 11; 1; 2] /\ get_bytes m' 4140 3 = Some [8; 0; 3]
  | _ => False
  end.
Proof.
  split.
  { intros [|[|[|k]]] v x E1 E2; cbn in E1, E2; try (destruct k; discriminate); injection E1 as <-; injection E2 as <-; cbn -[apart]; auto;
      repeat split; try lia; intros x Hx; lia. }
  split; [intros x Hx; lia|]. split; [vm_compute; reflexivity|]. vm_compute. repeat split.
Qed.
