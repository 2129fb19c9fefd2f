(** Properties C50, C71, C72: edm::buffer. *)
From Verif Require Import Base BaseLemmas IntMath Align Placement PlacementProofs EdmBuffer EdmBufferTheorems EdmBufferFinal.

(** C50.  [all_counters], [all_layouts] and [all_payloads] collect the memory ranges
    the views of the buffer point at; [shape_ok] says that the view of a variable has
    the requested kind, length and capacities; [spans m l] that the range [m] contains
    the blocks [l], starts with one of them and ends with one of them. *)
Theorem C50_layout : forall vars caps rs host w hw r w' hw', vars <> [] -> vars_ok vars ->
  Forall (fun c => 0 <= c < 2 ^ 32) caps -> Z.of_nat (length caps) < 2 ^ 32 -> total caps < 2 ^ 32 ->
  need_all (edm_sects vars caps rs) < 2 ^ 32 ->
  edm_buffer vars caps rs host w hw = (r, w', hw') -> upstream_ok (ulog w') -> upstream_ok (ulog hw') ->
  r = Throw bad_alloc \/
  exists e, r = Ret e /\ In (eb_mem e) (ulive (ulog w')) /\ eb_cap e = Z.of_nat (length caps) /\
    length (eb_views e) = length vars /\
    (forall i v x, nth_error vars i = Some v -> nth_error (eb_views e) i = Some x ->
       shape_ok caps rs (existsb is_jagged vars) (eb_size e) v x) /\
    pairwise_disjoint (all_counters vars rs e ++ all_layouts e ++ all_payloads vars e) /\
    (forall q, In q (all_counters vars rs e ++ all_layouts e ++ all_payloads vars e) -> 0 < bsize q ->
       0 < bptr q /\ (balign q | bptr q) /\ inside q (eb_mem e)) /\
    spans (eb_payload e) (all_payloads vars e) /\
    spans (eb_layout e) (all_layouts e) /\
    spans (eb_size e) (all_counters vars rs e) /\
    (forall x, in_block x (mem_block (eb_size e)) -> exists q, In q (all_counters vars rs e) /\ in_block x q) /\
    pairwise_disjoint [mem_block (eb_size e); mem_block (eb_layout e); mem_block (eb_payload e)].
Proof. exact edm_buffer_layout. Qed.
Print Assumptions C50_layout.

(** The host copy of the layout. *)
Theorem C50_host_layout : forall vars caps rs host w hw e w' hw', vars <> [] -> vars_ok vars ->
  Forall (fun c => 0 <= c < 2 ^ 32) caps -> Z.of_nat (length caps) < 2 ^ 32 -> total caps < 2 ^ 32 ->
  need_all (edm_sects vars caps rs) < 2 ^ 32 ->
  edm_buffer vars caps rs host w hw = (Ret e, w', hw') -> upstream_ok (ulog w') -> upstream_ok (ulog hw') ->
  (host = false -> hw' = hw /\ eb_host_mem e = None /\ eb_host_layout e = eb_layout e /\
     forall i n l h inner, nth_error (eb_views e) i = Some (EJagged n l h inner) -> h = l) /\
  (host = true -> exists hb, eb_host_mem e = Some hb /\ In hb (ulive (ulog hw')) /\
     m_len (eb_host_layout e) = m_len (eb_layout e) /\
     forall i n l h inner, nth_error (eb_views e) i = Some (EJagged n l h inner) -> 0 < n ->
       h - m_ptr (eb_host_layout e) = l - m_ptr (eb_layout e) /\ 0 < h /\ inside (mkBlock h (24 * n) 8) hb).
Proof. exact edm_buffer_host. Qed.
Print Assumptions C50_host_layout.

Definition orc4 (n : nat) : option Z := Some (4096 + 16 * (1 + 1000 * Z.of_nat n)).
Definition w4 : world := mkWorld [] orc4.
Definition vars_ex : list var := [mkVar KJagged 8 8; mkVar KScalar 4 4; mkVar KVector 1 1; mkVar KJagged 32 32].

Example C50_ex : vars_ex <> [] /\ vars_ok vars_ex /\ Forall (fun c => 0 <= c < 2 ^ 32) [2; 0; 3] /\
  need_all (edm_sects vars_ex [2; 0; 3] true) = 759 /\
  (exists e w' hw', edm_buffer vars_ex [2; 0; 3] true true w4 w4 = (Ret e, w', hw') /\
     upstream_ok (ulog w') /\ upstream_ok (ulog hw') /\
     eb_mem e = mkBlock 4112 759 16 /\ eb_size e = mkMem 24 4112 /\ eb_layout e = mkMem 144 4136 /\
     eb_payload e = mkMem 232 4280 /\
     eb_views e = [EJagged 3 4136 4112 [mkView 2 4112 4280; mkView 0 4116 4296; mkView 3 4120 4296];
                   EScalar 4320; EVector (mkView 3 0 4324);
                   EJagged 3 4208 4184 [mkView 2 4124 4352; mkView 0 4128 4416; mkView 3 4132 4416]]).
Proof.
  split; [discriminate|]. split.
  { intros v [<-|[<-|[<-|[<-|[]]]]]; cbn [ve_sz ve_al]; (split; [lia|split; [|apply Z.divide_refl]]).
    - exists 3; split; [lia|reflexivity].
    - exists 2; split; [lia|reflexivity].
    - exists 0; split; [lia|reflexivity].
    - exists 5; split; [lia|reflexivity]. }
  split; [repeat constructor; lia|]. split; [reflexivity|]. do 3 eexists. split; [reflexivity|].
  split; [apply upstream_okb_ok; reflexivity|]. split; [apply upstream_okb_ok; reflexivity|].
  split; [reflexivity|]. split; [reflexivity|]. split; [reflexivity|]. split; reflexivity.
Qed.

Example C50_ex_vectors : exists e w' hw', edm_buffer [mkVar KVector 8 8; mkVar KVector 16 16] [0; 0; 0] true false w4 w4 = (Ret e, w', hw') /\
  upstream_ok (ulog w') /\ eb_size e = mkMem 4 4112 /\ eb_layout e = mkMem 0 0 /\ eb_payload e = mkMem 72 4120 /\
  eb_views e = [EVector (mkView 3 4112 4120); EVector (mkView 3 4112 4144)].
Proof.
  do 3 eexists. split; [reflexivity|]. split; [apply upstream_okb_ok; reflexivity|].
  split; [reflexivity|]. split; [reflexivity|]. split; reflexivity.
Qed.

(** C71 does not hold: the length of the payload view is cast to 32 bits; beyond 4 GiB
    it no longer covers the elements. *)
Theorem C71_refuted : exists vars caps e w hw w' hw', vars <> [] /\ vars_ok vars /\
  Forall (fun c => 0 <= c < 2 ^ 32) caps /\ need_all (edm_sects vars caps true) < 2 ^ 64 /\
  edm_buffer vars caps true false w hw = (Ret e, w', hw') /\ upstream_ok (ulog w') /\
  exists b, In b (all_payloads vars e) /\ ~ inside b (mem_block (eb_payload e)).
Proof.
  exists [mkVar KJagged 8 8], [2 ^ 29 + 1]. eexists. exists (mkWorld [] (fun n => Some (2 ^ 40 * (1 + Z.of_nat n)))), w4. do 2 eexists.
  split; [discriminate|]. split.
  { intros v [<-|[]]. cbn [ve_sz ve_al]. split; [lia|]. split; [exists 3; split; [lia|reflexivity]|apply Z.divide_refl]. }
  split; [repeat constructor; lia|]. split; [vm_compute; reflexivity|]. split; [vm_compute; reflexivity|].
  split; [apply upstream_okb_ok; reflexivity|]. eexists. split; [left; reflexivity|].
  intros H. specialize (H (1099511627808 + 100)). unfold in_block, mem_block in H. cbn [bptr bsize v_ptr v_cap m_ptr m_len ve_sz] in H.
  cbn in H. lia.
Qed.
Print Assumptions C71_refuted.

(** C72: construction that fails releases what it obtained; destruction releases
    everything. *)
Theorem C72_released : forall vars caps rs host w hw r w' hw', vars <> [] -> vars_ok vars ->
  Forall (fun c => 0 <= c < 2 ^ 32) caps -> Z.of_nat (length caps) < 2 ^ 32 -> total caps < 2 ^ 32 ->
  need_all (edm_sects vars caps rs) < 2 ^ 32 ->
  edm_buffer vars caps rs host w hw = (r, w', hw') -> upstream_ok (ulog w') -> upstream_ok (ulog hw') ->
  frees_ok (ulog w) -> frees_ok (ulog hw) ->
  (r = Throw bad_alloc /\ ulive (ulog w') = ulive (ulog w) /\ ulive (ulog hw') = ulive (ulog hw) /\
     frees_ok (ulog w') /\ frees_ok (ulog hw')) \/
  exists e, r = Ret e /\ forall w2 hw2, edm_destroy e w' hw' = (w2, hw2) ->
    ulive (ulog w2) = ulive (ulog w) /\ ulive (ulog hw2) = ulive (ulog hw) /\ frees_ok (ulog w2) /\ frees_ok (ulog hw2).
Proof. exact edm_buffer_released. Qed.
Print Assumptions C72_released.

(** The host allocation fails: the main block is returned. *)
Example C72_ex : let r := edm_buffer vars_ex [2; 0; 3] true true w4 (mkWorld [] (fun _ => None)) in
  fst (fst r) = Throw bad_alloc /\ ulog (snd (fst r)) = [UFree 4112 759 16; UAlloc 759 16 (Some 4112)].
Proof. split; reflexivity. Qed.
