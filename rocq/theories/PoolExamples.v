(** Concrete histories of the pool resource. *)
From Verif Require Import Base BaseLemmas History IntMath IntMathProofs Align AlignProofs
  Pool PoolProofs PoolHistory PoolTheorems.

Definition pex_world : world := mkWorld [] (fun n => Some (2 ^ 40 * (Z.of_nat n + 1))).
Definition pex_sl : Z := 4.
Definition dsm (r : option (pst * world * list block)) : pst * list uevent * list block :=
  match r with Some (s, w, l) => (s, ulog w, l) | None => (mkPool [] [] [] [], [], []) end.

Lemma default_valid : opts_valid default_options.
Proof.
  split; [split; split; vm_compute; congruence|split; [reflexivity|vm_compute; congruence]].
Qed.
Lemma default_safe : opts_safe default_options.
Proof.
  split; [exact default_valid|]. split; [vm_compute; congruence|]. split; [vm_compute; congruence|].
  intros k Hk (H1 & H2). change (smallest default_options) with (2 ^ 4) in H1.
  change (largest default_options) with (2 ^ 20) in H2.
  change (min_bytes default_options) with (2 ^ 10). change (min_blocks default_options) with (2 ^ 4).
  assert (4 <= k) by (apply Z.pow_le_mono_r_iff in H1; lia).
  destruct (Z.le_gt_cases k 10) as [L|L].
  - left. exists (2 ^ (10 - k)). rewrite <- Z.pow_add_r by lia. f_equal. lia.
  - right. rewrite <- Z.pow_add_r by lia. apply Z.pow_le_mono_r; lia.
Qed.

Lemma pow2_ex k a : 0 <= k -> a = 2 ^ k -> pow2 a.
Proof. intros H ->. exists k. auto. Qed.

(** Reachability of the result of a call sequence. *)
Lemma pool_run o s0 sl ops st l live : pool_construct o = Ret (sl, s0) ->
  ops_legal pool_legal ops ->
  run (pool_allocate o sl) (pool_deallocate o sl) ops s0 pex_world [] = Some (st, mkWorld l (uorc pex_world), live) ->
  pool_reach o sl st (mkWorld l (uorc pex_world)) live.
Proof.
  intros E HL HR. exists s0. split; auto.
  eapply (run_reach _ _ _ _ _ ops s0 pex_world []); [|exact HL|exact HR]. apply reach_init. reflexivity.
Qed.

(** Pooled, oversized and overaligned requests mixed; one cached block. *)
Definition pex_ops : list hop :=
  [HAlloc 100 16; HAlloc (2 ^ 21) 16; HAlloc 300 64; HAlloc 7 8; HAlloc 120 4; HFree 3; HAlloc (2 ^ 20 + 1) 64; HFree 4].
Definition pex_result := Eval vm_compute in
  dsm (run (pool_allocate default_options 4) (pool_deallocate default_options 4) pex_ops
         (st0 default_options) pex_world []).
Definition pex_st : pst := fst (fst pex_result).
Definition pex_w : world := mkWorld (snd (fst pex_result)) (uorc pex_world).
Definition pex_live : list block := snd pex_result.
Lemma pex_reach : pool_reach default_options 4 pex_st pex_w pex_live.
Proof.
  apply (pool_run _ (st0 default_options) _ pex_ops).
  - reflexivity.
  - unfold pex_ops, ops_legal, pool_legal.
    repeat (split; [split; [lia|split; [|lia]]; (apply (pow2_ex 4); [lia|reflexivity]) ||
       (apply (pow2_ex 6); [lia|reflexivity]) || (apply (pow2_ex 3); [lia|reflexivity]) || (apply (pow2_ex 2); [lia|reflexivity])|]); auto.
  - vm_compute. reflexivity.
Qed.
Lemma pex_ok : upstream_ok (ulog pex_w).
Proof. apply upstream_okb_ok. vm_compute. reflexivity. Qed.

(** C12 witnesses. *)
Definition opts_zero : options := mkOpts 0 0 (2 ^ 20) (2 ^ 30) 16 (2 ^ 20) 16 true 16 16.
Definition opts_odd : options := mkOpts 1 1000 (2 ^ 20) (2 ^ 30) 16 (2 ^ 20) 16 true 16 16.
Lemma pool_unsafe o : o = opts_zero \/ o = opts_odd ->
  opts_valid o /\ exists sl s0, pool_construct o = Ret (sl, s0) /\
    pool_reach o sl s0 pex_world [] /\ upstream_ok (ulog pex_world) /\
    exists st' w', pool_legal 10 8 /\ pool_allocate o sl s0 pex_world 10 8 = (UB, st', w') /\
      upstream_ok (ulog w').
Proof.
  assert (HL : pool_legal 10 8).
  { split; [lia|]. split; [|lia]. apply (pow2_ex 3); [lia|reflexivity]. }
  intros [-> | ->].
  - split; [split; [split; split; vm_compute; congruence|split; [reflexivity|vm_compute; congruence]]|].
    exists 4, (st0 opts_zero). split; [reflexivity|]. split.
    + exists (st0 opts_zero). split; [reflexivity|]. apply reach_init. reflexivity.
    + split; [exact I|]. eexists. eexists. split; [exact HL|]. split; [vm_compute; reflexivity|].
      apply upstream_okb_ok. vm_compute. reflexivity.
  - split; [split; [split; split; vm_compute; congruence|split; [reflexivity|vm_compute; congruence]]|].
    exists 4, (st0 opts_odd). split; [reflexivity|]. split.
    + exists (st0 opts_odd). split; [reflexivity|]. apply reach_init. reflexivity.
    + split; [exact I|]. eexists. eexists. split; [exact HL|]. split; [vm_compute; reflexivity|].
      exact I.
Qed.

(** C14 witness: cache {(130, 32), (65536, 64)}, request (128, 64). *)
Definition cut_ops : list hop := [HAlloc 130 32; HAlloc 65536 64; HFree 1; HFree 0].
Definition cut_result := Eval vm_compute in
  dsm (run (pool_allocate default_options 4) (pool_deallocate default_options 4) cut_ops
         (st0 default_options) pex_world []).
Definition cut_st : pst := fst (fst cut_result).
Definition cut_w : world := mkWorld (snd (fst cut_result)) (uorc pex_world).
Lemma cut_reach : pool_reach default_options 4 cut_st cut_w [].
Proof.
  apply (pool_run _ (st0 default_options) _ cut_ops).
  - reflexivity.
  - unfold cut_ops, ops_legal, pool_legal.
    split; [split; [lia|split; [apply (pow2_ex 5); [lia|reflexivity]|lia]]|].
    split; [split; [lia|split; [apply (pow2_ex 6); [lia|reflexivity]|lia]]|]. auto.
  - vm_compute. reflexivity.
Qed.
Lemma cut_ok : upstream_ok (ulog cut_w).
Proof. apply upstream_okb_ok. vm_compute. reflexivity. Qed.
Lemma pool_cutoff_missed : exists o sl st w live bytes al p st' d,
  opts_valid o /\ pool_reach o sl st w live /\ upstream_ok (ulog w) /\ pool_legal bytes al /\
  0 < bytes /\ smallest o <= bytes /\ pool_allocate o sl st w bytes al = (Ret p, st', w) /\
  In d (p_cached st) /\ od_ptr d = p /\ size_cutoff o * bytes <= od_size d.
Proof.
  exists default_options, 4, cut_st, cut_w, [], 128, 64.
  exists (2 * 2 ^ 40). eexists. exists (mkO 65536 64 (2 * 2 ^ 40)).
  split; [exact default_valid|]. split; [exact cut_reach|]. split; [exact cut_ok|].
  split; [split; [lia|split; [apply (pow2_ex 6); [lia|reflexivity]|lia]]|].
  split; [lia|]. split; [vm_compute; congruence|]. split; [vm_compute; reflexivity|].
  split; [right; left; reflexivity|]. split; [reflexivity|]. vm_compute. congruence.
Qed.

(** C62 witness: cache {(128, 4096), (256, 64)}, request (128, 64). *)
Definition mis_ops : list hop := [HAlloc 128 4096; HAlloc 256 64; HFree 1; HFree 0].
Definition mis_result := Eval vm_compute in
  dsm (run (pool_allocate default_options 4) (pool_deallocate default_options 4) mis_ops
         (st0 default_options) pex_world []).
Definition mis_st : pst := fst (fst mis_result).
Definition mis_w : world := mkWorld (snd (fst mis_result)) (uorc pex_world).
Lemma mis_reach : pool_reach default_options 4 mis_st mis_w [].
Proof.
  apply (pool_run _ (st0 default_options) _ mis_ops).
  - reflexivity.
  - unfold mis_ops, ops_legal, pool_legal.
    split; [split; [lia|split; [apply (pow2_ex 12); [lia|reflexivity]|lia]]|].
    split; [split; [lia|split; [apply (pow2_ex 6); [lia|reflexivity]|lia]]|]. auto.
  - vm_compute. reflexivity.
Qed.
Lemma mis_ok : upstream_ok (ulog mis_w).
Proof. apply upstream_okb_ok. vm_compute. reflexivity. Qed.
Lemma pool_cache_missed : exists o sl st w live bytes al r st' w' d,
  opts_valid o /\ cache_oversized o = true /\
  pool_reach o sl st w live /\ upstream_ok (ulog w) /\ pool_legal bytes al /\
  0 < bytes /\ smallest o <= bytes /\ (largest o < bytes \/ alignment o < al) /\
  In d (p_cached st) /\ bytes <= od_size d /\ (al | od_align d) /\
  od_size d < size_cutoff o * bytes /\ od_align d < align_cutoff o * al /\
  pool_allocate o sl st w bytes al = (r, st', w') /\ ulog w' <> ulog w.
Proof.
  exists default_options, 4, mis_st, mis_w, [], 128, 64.
  eexists. eexists. eexists. exists (mkO 256 64 (2 * 2 ^ 40)).
  split; [exact default_valid|]. split; [reflexivity|]. split; [exact mis_reach|]. split; [exact mis_ok|].
  split; [split; [lia|split; [apply (pow2_ex 6); [lia|reflexivity]|lia]]|].
  split; [lia|]. split; [vm_compute; congruence|]. split; [right; vm_compute; congruence|]. split; [right; left; reflexivity|].
  split; [vm_compute; congruence|]. split; [exists 1; reflexivity|]. split; [vm_compute; congruence|]. split; [vm_compute; congruence|].
  split; [vm_compute; reflexivity|]. vm_compute. discriminate.
Qed.

(** The cutoffs of the default options. *)
Lemma pool_default_cutoffs : forall sl st w live bytes al p st',
  pool_reach default_options sl st w live -> upstream_ok (ulog w) ->
  pool_legal bytes al -> 2 ^ 20 < bytes \/ 16 < al -> 0 < bytes ->
  pool_allocate default_options sl st w bytes al = (Ret p, st', w) ->
  let need := Z.max bytes 16 in
  exists d, In d (p_cached st) /\ od_ptr d = p /\ need <= od_size d /\ al <= od_align d /\
    od_align d < 16 * al /\
    ((forall x, In x (p_cached st) -> need <= od_size x -> al <= od_align x) -> od_size d < 16 * need).
Proof.
  intros sl st w live bytes al p st' R U L O B A need.
  destruct (pool_cache_hit default_options sl st w live bytes al p st' default_valid R U L B O A)
    as (d & D1 & D2 & D3 & D4 & _ & D5 & D6).
  change (smallest default_options) with 16 in *. change (align_cutoff default_options) with 16 in *.
  change (size_cutoff default_options) with 16 in *. fold need in D3, D6.
  assert (Ha : 0 < al) by (destruct L as (? & (k & Hk & ->) & ?); apply Z.pow_pos_nonneg; lia).
  exists d. repeat split; auto.
  - pose proof (Z.div_mod (od_align d) al ltac:(lia)).
    pose proof (Z.mod_pos_bound (od_align d) al ltac:(lia)). nia.
  - intros H. specialize (D6 H). assert (0 < need) by (unfold need; lia).
    pose proof (Z.div_mod (od_size d) need ltac:(lia)).
    pose proof (Z.mod_pos_bound (od_size d) need ltac:(lia)). nia.
Qed.
