(** Property C137: the whole way from creating an SoA buffer to reading it back on the host. *)
From Coq Require Import Permutation.
From Verif Require Import Base BaseLemmas IntMath Align Placement PlacementProofs EdmBuffer EdmBufferTheorems EdmBufferFinal EdmDevice Copy CopyProofs EdmCopy CopyHost
  EdmKernel EdmKernelProofs EdmPipelineProofs.

Lemma places_map2 vars : forall qs, map2 place_of vars qs = map (fun c => match vk (fst c) with KScalar => HPScalar (snd c) | _ => HPVector (snd c) end) (combine vars qs).
Proof. induction vars as [|v vars IH]; intros [|q qs]; try reflexivity. cbn [map2 combine map fst snd]. rewrite IH. reflexivity. Qed.

(** [caps]: as many entries as the buffer has room for elements; [m]: the memory after the
    constructor of the buffer; [dev]: whether its resource gives device memory; [dflt]: the
    bytes of a default constructed element of every variable; [rows]: what every thread
    assigns; [qs]: where the scalars and the resized vectors of the target are. *)
Theorem C137_pipeline vars caps host w hw e w' hw' dflt rows m qs k dev sched :
  (forall v, In v vars -> 0 < ve_sz v /\ pow2 (ve_al v) /\ (ve_al v | ve_sz v)) ->
  (forall v, In v vars -> vk v <> KJagged) -> (exists v, In v vars /\ vk v = KVector) ->
  caps <> [] -> Forall (fun c => 0 <= c < 2 ^ 32) caps -> Z.of_nat (length caps) < 2 ^ 32 -> fold_right Z.add 0 caps < 2 ^ 32 ->
  need_all (edm_sects vars caps true) < 2 ^ 32 ->
  edm_buffer vars caps true host w hw = (Ret e, w', hw') -> upstream_ok (ulog w') -> upstream_ok (ulog hw') ->
  (forall x, in_block x (eb_mem e) -> m_byte m x <> None /\ m_dev m x = dev) ->
  (forall i v, nth_error vars i = Some v -> vk v = KVector -> Z.of_nat (length (nth i dflt [])) = ve_sz v) ->
  (forall row i bs, In row rows -> nth_error row i = Some (Some bs) ->
     exists v, nth_error vars i = Some v /\ vk v = KVector /\ Z.of_nat (length bs) = ve_sz v) ->
  Z.of_nat (length rows) <= Z.of_nat (length caps) ->
  k <> host_to_device -> k <> device_to_device -> kind_check m k dev false = true ->
  let n := Z.of_nat (length rows) in
  let len v := match vk v with KScalar => ve_sz v | _ => n * ve_sz v end in
  length qs = length vars ->
  (forall i v q, nth_error vars i = Some v -> nth_error qs i = Some q -> q <> 0 /\ m_dev m q = false /\ acc m q (len v) /\
     forall x, within q (len v) x -> ~ in_block x (eb_mem e)) ->
  (forall i j v v' q q', i <> j -> nth_error vars i = Some v -> nth_error vars j = Some v' ->
     nth_error qs i = Some q -> nth_error qs j = Some q' -> apart q (len v) q' (len v')) ->
  (forall i, (i < length rows)%nat -> (2 * length vars + 4 <= count_occ Nat.eq_dec sched i)%nat) ->
  exists m1 d m2 thr m3 new,
    edm_setup (buffer_view e) m = (Ret tt, m1) /\
    dev_make vars (eb_cap e) (eb_size e) (eb_views e) = Ret d /\
    e_run vars d dflt (m1, map ECall rows) sched = Ret (m2, thr) /\ Forall e_done thr /\
    edm_to_host vars k (buffer_view e) (map (fun c => match vk (fst c) with KScalar => HPScalar (snd c) | _ => HPVector (snd c) end) (combine vars qs)) m2 =
      (Ret (map (fun v => match vk v with KScalar => HSScalar | _ => HSVector n end) vars), m3) /\
    Permutation new rows /\
    (forall i v q, nth_error vars i = Some v -> nth_error qs i = Some q -> vk v = KVector ->
       get_bytes m3 q (Z.to_nat (n * ve_sz v)) = Some (concat (map (fun row => match nth i row None with Some b => b | None => nth i dflt [] end) new))) /\
    (forall i v p q, nth_error vars i = Some v -> nth_error qs i = Some q -> nth_error (eb_views e) i = Some (EScalar p) ->
       get_bytes m3 q (Z.to_nat (ve_sz v)) = get_bytes m p (Z.to_nat (ve_sz v))) /\
    changes (fun x => in_block x (eb_mem e) \/ exists i v q, nth_error vars i = Some v /\ nth_error qs i = Some q /\ within q (len v) x) m m3.
Proof.
  intros Hv Hj Hex Hc H1 H2 H3 H4 Eb U1 U2 Hm Hd Hr Hroom K1 K2 K3 n len Lq Hq Hqq Hs. rewrite <- places_map2.
  apply (edm_pipeline_thm vars caps host w hw e w' hw' dflt rows m qs k dev sched); auto.
  - split; [destruct Hex as (v & I & _) ; intros ->; destruct I|]. repeat (split; [assumption|]). exact H3.
  - destruct (existsb is_jagged vars) eqn:E; [|reflexivity]. apply existsb_exists in E. destruct E as (v & I & E). specialize (Hj v I). unfold is_jagged in E. destruct (vk v); congruence.
Qed.
Print Assumptions C137_pipeline.

(** A scalar and two vectors in device memory, with room for four elements, and three threads. *)
Definition vars137 : list var := [mkVar KVector 2 2; mkVar KScalar 4 4; mkVar KVector 1 1].
Definition w137 : world := mkWorld [] (fun _ => Some 4112).
Definition hw137 : world := mkWorld [] (fun _ => Some 64).
Definition m137 : cmem := mkM (fun x => if (64 <=? x) && (x <? 16384) then Some 7 else None) (fun x => 4096 <=? x) true.
Definition rows137 : list (list (option (list Z))) := [[Some [1; 2]; None; Some [3]]; [Some [4; 5]; None; Some [6]]; [Some [10; 11]; None; None]].
Definition sched137 : list nat := concat (repeat [2; 0; 1]%nat 6) ++ concat (repeat [1; 2; 0]%nat 4).
Example C137_ex : exists e w' hw', edm_buffer vars137 [0; 0; 0; 0] true false w137 hw137 = (Ret e, w', hw') /\
  upstream_ok (ulog w') /\ upstream_ok (ulog hw') /\ need_all (edm_sects vars137 [0; 0; 0; 0] true) < 2 ^ 32 /\
  (forall x, in_block x (eb_mem e) -> m_byte m137 x <> None /\ m_dev m137 x = true) /\
  (forall i, (i < 3)%nat -> (2 * length vars137 + 4 <= count_occ Nat.eq_dec sched137 i)%nat) /\
  kind_check m137 device_to_host true false = true /\
  let '(r1, m1) := edm_setup (buffer_view e) m137 in
  r1 = Ret tt /\
  match dev_make vars137 (eb_cap e) (eb_size e) (eb_views e) with
  | Ret d =>
      match e_run vars137 d [[0; 0]; []; [0]] (m1, map ECall rows137) sched137 with
      | Ret (m2, _) =>
          let '(r3, m3) := edm_to_host vars137 device_to_host (buffer_view e) [HPVector 1024; HPScalar 1032; HPVector 1040] m2 in
          r3 = Ret [HSVector 3; HSScalar; HSVector 3] /\ get_bytes m3 1024 6 = Some [10; 11; 1; 2; 4; 5] /\
          get_bytes m3 1032 4 = Some [7; 7; 7; 7] /\ get_bytes m3 1040 3 = Some [0; 3; 6]
      | _ => False
      end
  | _ => False
  end.
Proof.
  do 3 eexists. split; [vm_compute; reflexivity|].
  split; [apply upstream_okb_ok; reflexivity|]. split; [apply upstream_okb_ok; reflexivity|]. split; [vm_compute; reflexivity|]. split.
  { intros x Hx. unfold in_block in Hx. cbn [eb_mem bptr bsize] in Hx. unfold m137. cbn [m_byte m_dev].
    replace ((64 <=? x) && (x <? 16384)) with true by lia. split; [discriminate|lia]. }
  split; [intros [|[|[|i]]] Hi; cbn; lia|]. split; [reflexivity|]. vm_compute. repeat split.
Qed.
