(** Property C135: the whole way from creating a jagged buffer to reading it back on the
    host. *)
From Coq Require Import Permutation.
From Verif Require Import Base BaseLemmas IntMath Align Placement Copy CopyProofs EdmCopy CopyHost Views Kernel JaggedKernel JaggedPipelineProofs.

(** [m]: the memory after the constructor of the buffer; [dev]: whether its resource gives
    device memory; [vals]: for every thread, the inner vector and the new element; [qs]: where
    the resized inner vectors of the target have their elements. *)
Theorem C135_pipeline sz eal caps host w hw j w' hw' vals m0 qs k dev sched :
  0 < sz -> pow2 eal -> caps <> [] -> (forall c, In c caps -> 0 <= c < 2 ^ 32) -> Z.of_nat (length caps) * 24 < 2 ^ 64 ->
  4 * Z.of_nat (length caps) + fold_right Z.add 0 caps * sz + 2 * Z.max 4 eal < 2 ^ 64 ->
  jagged_buffer sz eal caps true host w hw = (Ret j, w', hw') -> upstream_ok (ulog w') -> upstream_ok (ulog hw') ->
  (forall b, b = jb_outer j \/ b = jb_host j \/ jb_inner j = Some b -> acc m0 (bptr b) (bsize b)) ->
  (forall b x, jb_inner j = Some b -> in_block x b -> m_dev m0 x = dev) ->
  (host = true -> kind_check m0 host_to_device (m_dev m0 (jb_host_ptr j)) (m_dev m0 (jb_ptr j)) = true /\
     forall x, in_block x (jb_host j) -> ~ in_block x (jb_outer j) /\ forall b, jb_inner j = Some b -> ~ in_block x b) ->
  (forall r bs, In (r, bs) vals -> (r < length caps)%nat /\ Z.of_nat (length bs) = sz) ->
  let new_of r := map snd (filter (fun c => Nat.eqb (fst c) r) vals) in
  (forall r c, nth_error caps r = Some c -> Z.of_nat (length (new_of r)) <= c) ->
  length qs = length caps ->
  (forall r q, nth_error qs r = Some q -> let n := Z.of_nat (length (new_of r)) * sz in
     (0 < n -> q <> 0 /\ kind_check m0 k dev (m_dev m0 q) = true) /\ acc m0 q n /\
     forall x b, within q n x -> jb_inner j = Some b -> ~ in_block x b) ->
  (forall r1 r2 q1 q2 x, r1 <> r2 -> nth_error qs r1 = Some q1 -> nth_error qs r2 = Some q2 ->
     within q1 (Z.of_nat (length (new_of r1)) * sz) x -> within q2 (Z.of_nat (length (new_of r2)) * sz) x -> False) ->
  (forall i, (i < length vals)%nat -> (4 <= count_occ Nat.eq_dec sched i)%nat) ->
  let views := map cv (jb_views j) in
  let m := put_bytes m0 (jb_host_ptr j) (flat_map view_bytes_of views) in
  exists m1 m2 thr m3 news,
    setup_described views (jb_host_ptr j) (jb_ptr j) m = (Ret tt, m1) /\
    jk_run sz (mkJ (Z.of_nat (length caps)) (jb_ptr j) (jb_host_ptr j)) (m1, map (fun c => JAt (fst c) (snd c)) vals) sched = Ret (m2, thr) /\
    copy_to_vecs sz k views qs m2 = (Ret (map (fun new => Z.of_nat (length new)) news), m3) /\
    length news = length caps /\
    (forall r new, nth_error news r = Some new -> Permutation new (new_of r)) /\
    (forall r q new, nth_error qs r = Some q -> nth_error news r = Some new ->
       get_bytes m3 q (Z.to_nat (Z.of_nat (length new) * sz)) = Some (concat new)).
Proof. exact (jagged_pipeline_thm sz eal caps host w hw j w' hw' vals m0 qs k dev sched). Qed.
Print Assumptions C135_pipeline.

(** Three inner vectors of two byte elements in device memory, with the description on the
    host, and five threads. *)
Definition w135 : world := mkWorld [] (fun i => match i with O => Some 8192 | _ => Some 4112 end).
Definition hw135 : world := mkWorld [] (fun _ => Some 64).
Definition m135 : cmem := mkM (fun x => if (64 <=? x) && (x <? 16384) then Some 0 else None) (fun x => 4096 <=? x) true.
Definition vals135 : list (nat * list Z) := [(0%nat, [1; 2]); (2%nat, [3; 4]); (0%nat, [5; 6]); (2%nat, [7; 8]); (0%nat, [9; 10])].
Definition sched135 : list nat := [3; 3; 2; 1; 0; 2; 3; 1; 0; 4; 1; 0; 4; 3; 2; 4; 2; 4; 1; 0]%nat.
Example C135_ex : exists j w' hw', jagged_buffer 2 2 [4; 0; 2] true true w135 hw135 = (Ret j, w', hw') /\
  upstream_ok (ulog w') /\ upstream_ok (ulog hw') /\ jb_inner j = Some (mkBlock 4112 32 16) /\
  acc m135 4112 32 /\ acc m135 8192 72 /\ acc m135 64 72 /\
  (forall i, (i < length vals135)%nat -> (4 <= count_occ Nat.eq_dec sched135 i)%nat) /\
  kind_check m135 device_to_host true (m_dev m135 1024) = true /\
  let views := map cv (jb_views j) in
  views = [mkV 4 4112 4124; mkV 0 4116 4132; mkV 2 4120 4132] /\
  let '(r1, m1) := setup_described views (jb_host_ptr j) (jb_ptr j) (put_bytes m135 (jb_host_ptr j) (flat_map view_bytes_of views)) in
  r1 = Ret tt /\
  match jk_run 2 (mkJ 3 (jb_ptr j) (jb_host_ptr j)) (m1, map (fun c => JAt (fst c) (snd c)) vals135) sched135 with
  | Ret (m2, _) =>
      let '(r3, m3) := copy_to_vecs 2 device_to_host views [1024; 0; 1040] m2 in
      r3 = Ret [3; 0; 2] /\ get_bytes m3 1024 6 = Some [5; 6; 1; 2; 9; 10] /\ get_bytes m3 1040 4 = Some [7; 8; 3; 4]
  | _ => False
  end.
Proof.
  do 3 eexists. split; [vm_compute; reflexivity|].
  assert (A : forall a n, 64 <= a -> a + n <= 16384 -> acc m135 a n).
  { intros a n H1 H2 x Hx. unfold m135. cbn [m_byte]. replace ((64 <=? x) && (x <? 16384)) with true by lia. discriminate. }
  split; [apply upstream_okb_ok; reflexivity|]. split; [apply upstream_okb_ok; reflexivity|]. split; [reflexivity|].
  split; [apply A; lia|]. split; [apply A; lia|]. split; [apply A; lia|]. split.
  { intros i Hi. do 5 (destruct i as [|i]; [vm_compute; lia|]). cbn in Hi. lia. }
  split; [reflexivity|]. vm_compute. repeat split.
Qed.
