(** Properties C34-C36, C67-C70: aligned_multiple_placement and the buffers. *)
From Verif Require Import Base BaseLemmas IntMath Align Placement PlacementProofs JaggedBufferProofs.

Definition orc4 (n : nat) : option Z := Some (4096 + 16 * (1 + 1000 * Z.of_nat n)).
Definition w4 : world := mkWorld [] orc4.

(** C34. *)
Theorem C34_placement : forall w ts r w', ts <> [] ->
  (forall t, In t ts -> 0 < s_esz t /\ pow2 (s_al t) /\ 0 <= s_n t) ->
  need_all ts < 2 ^ 64 ->
  placement w ts = (r, w') -> upstream_ok (ulog w') ->
  (r = Throw bad_alloc /\ ulive (ulog w') = ulive (ulog w)) \/
  exists b ps, r = Ret (b, ps) /\ ulive (ulog w') = b :: ulive (ulog w) /\
    length ps = length ts /\
    (forall i t x, nth_error ts i = Some t -> nth_error ps i = Some x ->
       (s_n t = 0 -> x = 0) /\
       (0 < s_n t -> 0 < x /\ (s_al t | x) /\ inside (mkBlock x (s_n t * s_esz t) (s_al t)) b)) /\
    (forall i j t u x y, (i < j)%nat -> nth_error ts i = Some t -> nth_error ps i = Some x ->
       nth_error ts j = Some u -> nth_error ps j = Some y -> 0 < s_n t -> 0 < s_n u ->
       x + s_n t * s_esz t <= y).
Proof. exact placement_thm. Qed.
Print Assumptions C34_placement.

Definition ts_ex : list sect := [mkSect 1 1 3; mkSect 64 64 2; mkSect 4 4 0; mkSect 8 8 5; mkSect 2 2 1].
Example C34_ex : (forall t, In t ts_ex -> 0 < s_esz t /\ pow2 (s_al t) /\ 0 <= s_n t) /\ need_all ts_ex = 493 /\
  fst (placement w4 ts_ex) = Ret (mkBlock 4112 493 16, [4112; 4160; 0; 4288; 4328]) /\
  upstream_ok (ulog (snd (placement w4 ts_ex))).
Proof.
  split; [|split; [reflexivity|split; [reflexivity|apply upstream_okb_ok; reflexivity]]].
  intros t [<-|[<-|[<-|[<-|[<-|[]]]]]]; cbn; (split; [lia|split; [|lia]]).
  - exists 0; split; [lia|reflexivity].
  - exists 6; split; [lia|reflexivity].
  - exists 2; split; [lia|reflexivity].
  - exists 3; split; [lia|reflexivity].
  - exists 1; split; [lia|reflexivity].
Qed.

(** C67 does not hold: counts whose byte size exceeds 2^64 are not reported; the
    first sub-array is null although its count is not 0, the second one extends
    beyond the allocation. *)
Theorem C67_refuted : exists w ts b ps w', ts <> [] /\
  (forall t, In t ts -> 0 < s_esz t /\ pow2 (s_al t) /\ 0 <= s_n t < 2 ^ 64) /\
  placement w ts = (Ret (b, ps), w') /\ upstream_ok (ulog w') /\
  exists i j t u y, nth_error ts i = Some t /\ nth_error ps i = Some 0 /\ 0 < s_n t /\
    nth_error ts j = Some u /\ nth_error ps j = Some y /\ bptr b + bsize b < y + s_n u * s_esz u.
Proof.
  exists w4, [mkSect 8 8 (2 ^ 61); mkSect 8 8 (2 ^ 61 + 1)], (mkBlock 4112 24 16), [0; 4112]. eexists.
  split; [discriminate|]. split.
  { intros t [<-|[<-|[]]]; cbn [s_esz s_al s_n]; (split; [lia|split; [exists 3; split; [lia|reflexivity]|lia]]). }
  split; [reflexivity|]. split; [apply upstream_okb_ok; reflexivity|].
  exists 0%nat, 1%nat. do 3 eexists. split; [reflexivity|]. split; [reflexivity|]. split; [reflexivity|].
  split; [reflexivity|]. split; reflexivity.
Qed.
Print Assumptions C67_refuted.

(** C35. *)
Theorem C35_empty : forall esz eal rs w, vector_buffer esz eal 0 rs w = (Ret (mkView 0 0 0, None), w).
Proof. exact vector_buffer_zero. Qed.
Print Assumptions C35_empty.

Theorem C35_buffer : forall esz eal cap rs w r w', 0 < esz -> pow2 eal -> 0 < cap ->
  4 + cap * esz + 2 * Z.max 4 eal < 2 ^ 64 ->
  vector_buffer esz eal cap rs w = (r, w') -> upstream_ok (ulog w') ->
  (r = Throw bad_alloc /\ ulive (ulog w') = ulive (ulog w)) \/
  exists v b, r = Ret (v, Some b) /\ ulive (ulog w') = b :: ulive (ulog w) /\
    v_cap v = cap /\ 0 < v_ptr v /\ (eal | v_ptr v) /\ inside (mkBlock (v_ptr v) (cap * esz) eal) b /\
    (rs = false -> v_size v = 0) /\
    (rs = true -> 0 < v_size v /\ (4 | v_size v) /\ inside (mkBlock (v_size v) 4 4) b /\
       ~ overlap (mkBlock (v_size v) 4 4) (mkBlock (v_ptr v) (cap * esz) eal)).
Proof. exact vector_buffer_thm. Qed.
Print Assumptions C35_buffer.

Example C35_ex : fst (vector_buffer 32 32 7 true w4) = Ret (mkView 7 4112 4128, Some (mkBlock 4112 292 16)) /\
  fst (vector_buffer 32 32 7 false w4) = Ret (mkView 7 0 4128, Some (mkBlock 4112 288 16)) /\
  upstream_ok (ulog (snd (vector_buffer 32 32 7 true w4))).
Proof. split; [reflexivity|]. split; [reflexivity|]. apply upstream_okb_ok. reflexivity. Qed.

(** C36. *)
Theorem C36_buffer : forall esz eal caps rs host w hw j w' hw', 0 < esz -> pow2 eal ->
  (forall c, In c caps -> 0 <= c < 2 ^ 32) -> Z.of_nat (length caps) * 24 < 2 ^ 64 ->
  4 * Z.of_nat (length caps) + fold_right Z.add 0 caps * esz + 2 * Z.max 4 eal < 2 ^ 64 ->
  jagged_buffer esz eal caps rs host w hw = (Ret j, w', hw') ->
  upstream_ok (ulog w') -> upstream_ok (ulog hw') -> frees_ok (ulog w) -> frees_ok (ulog hw) ->
  map v_cap (jb_views j) = caps /\
  (forall i v u, nth_error (jb_views j) i = Some v -> nth_error (jb_views j) (S i) = Some u ->
     v_ptr u = v_ptr v + v_cap v * esz /\ (rs = true -> v_size u = v_size v + 4)) /\
  (forall v, In v (jb_views j) -> 0 < v_cap v -> 0 < v_ptr v /\
     exists b, jb_inner j = Some b /\ In b (ulive (ulog w')) /\ inside (mkBlock (v_ptr v) (v_cap v * esz) eal) b) /\
  (rs = false -> pairwise_disjoint (map (payload_of esz eal) (jb_views j)) /\
     forall v, In v (jb_views j) -> v_size v = 0) /\
  (rs = true -> pairwise_disjoint (map counter_of (jb_views j) ++ map (payload_of esz eal) (jb_views j)) /\
     forall v, In v (jb_views j) -> 0 < v_size v /\ (4 | v_size v) /\
       exists b, jb_inner j = Some b /\ In b (ulive (ulog w')) /\ inside (mkBlock (v_size v) 4 4) b).
Proof. exact jagged_buffer_thm. Qed.
Print Assumptions C36_buffer.

Example C36_ex : fst (fst (jagged_buffer 8 8 [3; 0; 0; 2; 1] true true w4 w4)) =
    Ret (mkJBuf 4112 4112
      [mkView 3 20112 20136; mkView 0 20116 20160; mkView 0 20120 20160; mkView 2 20124 20160; mkView 1 20128 20176]
      (mkBlock 4112 120 16) (mkBlock 4112 120 16) (Some (mkBlock 20112 84 16))) /\
  upstream_ok (ulog (snd (fst (jagged_buffer 8 8 [3; 0; 0; 2; 1] true true w4 w4)))).
Proof. split; [reflexivity|]. apply upstream_okb_ok. reflexivity. Qed.

(** C117. *)
Theorem C117_outer : forall esz eal caps rs host w hw j w' hw', 0 < esz -> pow2 eal -> caps <> [] ->
  (forall c, In c caps -> 0 <= c < 2 ^ 32) -> Z.of_nat (length caps) * 24 < 2 ^ 64 ->
  4 * Z.of_nat (length caps) + fold_right Z.add 0 caps * esz + 2 * Z.max 4 eal < 2 ^ 64 ->
  jagged_buffer esz eal caps rs host w hw = (Ret j, w', hw') ->
  upstream_ok (ulog w') -> upstream_ok (ulog hw') -> frees_ok (ulog w) -> frees_ok (ulog hw) ->
  (exists b, In b (ulive (ulog w')) /\ bptr b = jb_ptr j /\ bsize b = 24 * Z.of_nat (length caps) /\
     forall i, jb_inner j = Some i -> In i (ulive (ulog w'))) /\
  (host = true -> exists b, In b (ulive (ulog hw')) /\ bptr b = jb_host_ptr j /\
     bsize b = 24 * Z.of_nat (length caps)) /\
  (host = false -> jb_host_ptr j = jb_ptr j).
Proof. exact jagged_buffer_outer. Qed.
Print Assumptions C117_outer.

Example C117_ex :
  match jagged_buffer 8 8 [3; 0; 2] true true w4 w4, jagged_buffer 8 8 [3; 0; 2] false false w4 w4 with
  | (Ret j, w', hw'), (Ret k, v', _) =>
      jb_ptr j = 4112 /\ ulive (ulog hw') = [mkBlock 4112 72 16] /\
      In (mkBlock 4112 72 16) (ulive (ulog w')) /\
      jb_ptr k = jb_host_ptr k /\ In (mkBlock (jb_ptr k) 72 16) (ulive (ulog v'))
  | _, _ => False
  end.
Proof. vm_compute. repeat split; auto. Qed.

(** C68 does not hold for fixed-size jagged buffers of over-aligned types: the inner
    memory is only 16-byte aligned. *)
Theorem C68_refuted : exists esz eal caps w hw j w' hw' v, 0 < esz /\ pow2 eal /\ (eal | esz) /\
  jagged_buffer esz eal caps false false w hw = (Ret j, w', hw') /\ upstream_ok (ulog w') /\
  In v (jb_views j) /\ 0 < v_cap v /\ ~ (eal | v_ptr v).
Proof.
  exists 32, 32, [2], w4, w4. do 4 eexists. split; [lia|]. split; [exists 5; split; [lia|reflexivity]|].
  split; [exists 1; reflexivity|]. split; [reflexivity|]. split; [apply upstream_okb_ok; reflexivity|].
  split; [left; reflexivity|]. split; [reflexivity|]. cbn. intros (k & Hk). lia.
Qed.
Print Assumptions C68_refuted.

(** C68 for resizable buffers, or alignments up to 16. *)
Theorem C68_partial : forall esz eal caps rs host w hw j w' hw', 0 < esz -> pow2 eal -> (eal | esz) ->
  (forall c, In c caps -> 0 <= c < 2 ^ 32) -> Z.of_nat (length caps) * 24 < 2 ^ 64 ->
  4 * Z.of_nat (length caps) + fold_right Z.add 0 caps * esz + 2 * Z.max 4 eal < 2 ^ 64 ->
  jagged_buffer esz eal caps rs host w hw = (Ret j, w', hw') ->
  upstream_ok (ulog w') -> upstream_ok (ulog hw') -> frees_ok (ulog w) -> frees_ok (ulog hw) ->
  rs = true \/ eal <= 16 ->
  forall v, In v (jb_views j) -> 0 < v_cap v -> (eal | v_ptr v).
Proof. exact jagged_buffer_aligned. Qed.
Print Assumptions C68_partial.

(** C69: construction that fails releases what it obtained; destruction releases
    everything, with the sizes obtained. *)
Theorem C69_released : forall esz eal caps rs host w hw r w' hw', 0 < esz -> pow2 eal ->
  (forall c, In c caps -> 0 <= c < 2 ^ 32) -> Z.of_nat (length caps) * 24 < 2 ^ 64 ->
  4 * Z.of_nat (length caps) + fold_right Z.add 0 caps * esz + 2 * Z.max 4 eal < 2 ^ 64 ->
  jagged_buffer esz eal caps rs host w hw = (r, w', hw') ->
  upstream_ok (ulog w') -> upstream_ok (ulog hw') -> frees_ok (ulog w) -> frees_ok (ulog hw) ->
  frees_ok (ulog w') /\ frees_ok (ulog hw') /\
  ((r = Throw bad_alloc /\ ulive (ulog w') = ulive (ulog w) /\ ulive (ulog hw') = ulive (ulog hw)) \/
   exists j, r = Ret j /\ forall w2 hw2, jagged_destroy j host w' hw' = (w2, hw2) ->
     frees_ok (ulog w2) /\ frees_ok (ulog hw2) /\
     ulive (ulog w2) = ulive (ulog w) /\ ulive (ulog hw2) = ulive (ulog hw)).
Proof. exact jagged_buffer_released. Qed.
Print Assumptions C69_released.

Example C69_ex : let orc n := if Nat.eqb n 2 then None else orc4 n in
  fst (fst (jagged_buffer 8 8 [3; 4] false false (mkWorld [UAlloc 5 16 (Some 96)] orc) w4)) = Throw bad_alloc /\
  ulive (ulog (snd (fst (jagged_buffer 8 8 [3; 4] false false (mkWorld [UAlloc 5 16 (Some 96)] orc) w4)))) = [mkBlock 96 5 16].
Proof. split; reflexivity. Qed.

(** C70 does not hold: capacities are truncated to 32 bits without notice. *)
Theorem C70_refuted : exists esz eal caps w hw j w' hw', 0 < esz /\ pow2 eal /\
  (forall c, In c caps -> 0 <= c < 2 ^ 64) /\
  jagged_buffer esz eal caps true false w hw = (Ret j, w', hw') /\ upstream_ok (ulog w') /\
  map v_cap (jb_views j) <> caps.
Proof.
  exists 1, 1, [2 ^ 32 + 5], (mkWorld [] (fun n => Some (2 ^ 40 * (1 + Z.of_nat n)))), w4. do 3 eexists. split; [lia|]. split; [exists 0; split; [lia|reflexivity]|].
  split; [intros c [<-|[]]; lia|]. split; [reflexivity|]. split; [apply upstream_okb_ok; reflexivity|].
  cbn. discriminate.
Qed.
Print Assumptions C70_refuted.
