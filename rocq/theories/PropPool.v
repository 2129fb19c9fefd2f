(** Properties C09-C14 and C62-C65: the pool memory resource. *)
From Verif Require Import Base BaseLemmas IntMath Align AlignProofs Pool PoolProofs PoolHistory
  PoolTheorems PoolExamples.
From Coq Require Import Permutation.

(** C09: live blocks are pairwise disjoint and inside live upstream blocks. *)
Theorem C09_disjoint : forall o sl st w live,
  opts_valid o -> pool_reach o sl st w live -> upstream_ok (ulog w) ->
  pairwise_disjoint live /\ forall b, In b live -> exists u, In u (ulive (ulog w)) /\ inside b u.
Proof. exact pool_disjoint. Qed.
Print Assumptions C09_disjoint.

(** The hypotheses of C09-C12 hold for a history that mixes pooled, oversized and
    overaligned blocks, with one oversized block in the cache. *)
Example C09_ex : opts_valid default_options /\ pool_reach default_options 4 pex_st pex_w pex_live /\
  upstream_ok (ulog pex_w) /\ length pex_live = 4%nat /\ length (p_cached pex_st) = 1%nat /\
  length (p_chunks pex_st) = 2%nat.
Proof.
  split; [exact default_valid|]. split; [exact pex_reach|]. split; [exact pex_ok|].
  split; [reflexivity|]. split; reflexivity.
Qed.

(** C10: a returned block is aligned, and its bytes lie in one live upstream block
    and in no other live block. *)
Theorem C10_block : forall o sl st w live bytes al p st' w',
  opts_valid o -> pool_reach o sl st w live -> pool_legal bytes al -> 0 < bytes ->
  pool_allocate o sl st w bytes al = (Ret p, st', w') -> upstream_ok (ulog w') ->
  (al | p) /\ 0 < p /\
  (exists u, In u (ulive (ulog w')) /\ bptr u <= p /\ p + bytes <= bptr u + bsize u) /\
  forall b, In b live -> ~ overlap (mkBlock p bytes al) b.
Proof. exact pool_block. Qed.
Print Assumptions C10_block.

Example C10_ex : exists p st', pool_legal (2 ^ 21 - 5) 8 /\
  pool_allocate default_options 4 pex_st pex_w (2 ^ 21 - 5) 8 = (Ret p, st', pex_w) /\
  p_cached pex_st <> [] /\ p_cached st' = [].
Proof.
  eexists. eexists. split.
  - split; [lia|]. split; [|lia]. exists 3. split; [lia|reflexivity].
  - split; [vm_compute; reflexivity|]. split; [vm_compute; discriminate|reflexivity].
Qed.

(** C11: during the life of the resource and in its destructor, upstream blocks are
    released once, with the size and alignment they were allocated with; what remains
    is one upstream block for each oversized or overaligned block still live. *)
Theorem C11_released : forall o sl st w live,
  opts_valid o -> pool_reach o sl st w live -> upstream_ok (ulog w) ->
  frees_ok (ulog w) /\ frees_ok (ulog (pool_destroy o st w)) /\
  exists held, Permutation (ulive (ulog (pool_destroy o st w))) held /\
    Forall2 backs (filter (fun b => (largest o <? bsize b) || (alignment o <? balign b)) live) held.
Proof. exact pool_released. Qed.
Print Assumptions C11_released.

Theorem C11_all : forall o sl st w live,
  opts_valid o -> pool_reach o sl st w live -> upstream_ok (ulog w) ->
  (forall b, In b live -> bsize b <= largest o /\ balign b <= alignment o) ->
  ulive (ulog (pool_destroy o st w)) = [].
Proof. exact pool_all_released. Qed.
Print Assumptions C11_all.

Example C11_ex : length (ulive (ulog pex_w)) = 5%nat /\
  length (ulive (ulog (pool_destroy default_options pex_st pex_w))) = 2%nat /\
  pool_reach default_options 4 cut_st cut_w [] /\ length (ulive (ulog cut_w)) = 2%nat.
Proof. split; [reflexivity|]. split; [reflexivity|]. split; [exact cut_reach|reflexivity]. Qed.

(** C12 does not hold: two accepted option sets whose first allocation takes the back
    of an empty vector, and fails an assertion. *)
Theorem C12_refuted : forall o, o = opts_zero \/ o = opts_odd ->
  opts_valid o /\ exists sl s0, pool_construct o = Ret (sl, s0) /\
    pool_reach o sl s0 pex_world [] /\ upstream_ok (ulog pex_world) /\
    exists st' w', pool_legal 10 8 /\ pool_allocate o sl s0 pex_world 10 8 = (UB, st', w') /\
      upstream_ok (ulog w').
Proof. exact pool_unsafe. Qed.
Print Assumptions C12_refuted.

(** It holds for options with a positive minimum block count and a minimum chunk size
    that is a multiple of each block size above it: every allocation returns or
    reports the failure of upstream, and every deallocation succeeds. *)
Theorem C12_safe_partial : forall o sl st w live,
  opts_safe o -> pool_reach o sl st w live -> upstream_ok (ulog w) ->
  (forall bytes al r st' w', pool_legal bytes al -> pool_allocate o sl st w bytes al = (r, st', w') ->
     (exists p, r = Ret p) \/
     (r = Throw bad_alloc /\ exists s a, ulog w' = UAlloc s a None :: ulog w)) /\
  (forall b, In b live ->
     exists st' w', pool_deallocate o sl st w (bptr b) (bsize b) (balign b) = (Ret tt, st', w')).
Proof. exact pool_defined. Qed.
Print Assumptions C12_safe_partial.

(** Deallocation is safe for all accepted options. *)
Theorem C12_deallocate_partial : forall o sl st w live b,
  opts_valid o -> pool_reach o sl st w live -> upstream_ok (ulog w) -> In b live ->
  exists st' w', pool_deallocate o sl st w (bptr b) (bsize b) (balign b) = (Ret tt, st', w').
Proof. exact pool_dealloc_defined. Qed.
Print Assumptions C12_deallocate_partial.

Example C12_ex : opts_safe default_options.
Proof. exact default_safe. Qed.

(** C13: LIFO reuse; the pair of calls restores the state. *)
Theorem C13_lifo : forall o sl st w live b bytes al,
  opts_valid o -> pool_reach o sl st w live -> upstream_ok (ulog w) -> In b live ->
  bsize b <= largest o -> balign b <= alignment o ->
  pool_legal bytes al -> 0 < bytes <= largest o -> al <= alignment o ->
  Z.log2_up (Z.max bytes (smallest o)) = Z.log2_up (Z.max (bsize b) (smallest o)) ->
  exists st', pool_deallocate o sl st w (bptr b) (bsize b) (balign b) = (Ret tt, st', w) /\
    pool_allocate o sl st' w bytes al = (Ret (bptr b), st, w).
Proof. exact pool_lifo. Qed.
Print Assumptions C13_lifo.

Example C13_ex : exists b, In b pex_live /\ bsize b = 120 /\ balign b = 4 /\
  Z.log2_up (Z.max 65 (smallest default_options)) = Z.log2_up (Z.max (bsize b) (smallest default_options)).
Proof. eexists. split; [right; left; reflexivity|]. split; [reflexivity|]. split; reflexivity. Qed.

(** C14 does not hold: the cutoff is checked for the first candidate only. *)
Theorem C14_refuted : exists o sl st w live bytes al p st' d,
  opts_valid o /\ pool_reach o sl st w live /\ upstream_ok (ulog w) /\ pool_legal bytes al /\
  0 < bytes /\ smallest o <= bytes /\ pool_allocate o sl st w bytes al = (Ret p, st', w) /\
  In d (p_cached st) /\ od_ptr d = p /\ size_cutoff o * bytes <= od_size d.
Proof. exact pool_cutoff_missed. Qed.
Print Assumptions C14_refuted.

(** C14 (restricted) and C63: a reused block fits, is a smallest one that fits,
    respects the alignment cutoff, and respects the size cutoff when all cached
    blocks that are large enough are aligned enough. *)
Theorem C14_C63_cache_partial : forall o sl st w live bytes al p st',
  opts_valid o -> pool_reach o sl st w live -> upstream_ok (ulog w) ->
  pool_legal bytes al -> 0 < bytes -> largest o < bytes \/ alignment o < al ->
  pool_allocate o sl st w bytes al = (Ret p, st', w) ->
  let need := Z.max bytes (smallest o) in
  exists d, In d (p_cached st) /\ od_ptr d = p /\ need <= od_size d /\ al <= od_align d /\
    (forall x, In x (p_cached st) -> need <= od_size x -> al <= od_align x -> od_size d <= od_size x) /\
    od_align d / al < align_cutoff o /\
    ((forall x, In x (p_cached st) -> need <= od_size x -> al <= od_align x) ->
     od_size d / need < size_cutoff o).
Proof. exact pool_cache_hit. Qed.
Print Assumptions C14_C63_cache_partial.

(** The same with the default options: a factor of 16 for both cutoffs. *)
Theorem C14_default_partial : forall sl st w live bytes al p st',
  pool_reach default_options sl st w live -> upstream_ok (ulog w) ->
  pool_legal bytes al -> 2 ^ 20 < bytes \/ 16 < al -> 0 < bytes ->
  pool_allocate default_options sl st w bytes al = (Ret p, st', w) ->
  let need := Z.max bytes 16 in
  exists d, In d (p_cached st) /\ od_ptr d = p /\ need <= od_size d /\ al <= od_align d /\
    od_align d < 16 * al /\
    ((forall x, In x (p_cached st) -> need <= od_size x -> al <= od_align x) -> od_size d < 16 * need).
Proof. exact pool_default_cutoffs. Qed.
Print Assumptions C14_default_partial.

Example C14_default_ex : exists p st', pool_allocate default_options 4 cut_st cut_w 128 32 = (Ret p, st', cut_w) /\
  (forall x, In x (p_cached cut_st) -> 128 <= od_size x -> 32 <= od_align x).
Proof.
  eexists. eexists. split; [vm_compute; reflexivity|]. intros x [<-|[<-|[]]]; vm_compute; congruence.
Qed.

(** C63: the part without the size cutoff. *)
Theorem C63_best_fit : forall o sl st w live bytes al p st',
  opts_valid o -> pool_reach o sl st w live -> upstream_ok (ulog w) ->
  pool_legal bytes al -> 0 < bytes -> largest o < bytes \/ alignment o < al ->
  pool_allocate o sl st w bytes al = (Ret p, st', w) ->
  let need := Z.max bytes (smallest o) in
  exists d, In d (p_cached st) /\ od_ptr d = p /\ need <= od_size d /\ al <= od_align d /\
    (forall x, In x (p_cached st) -> need <= od_size x -> al <= od_align x -> od_size d <= od_size x) /\
    od_align d / al < align_cutoff o.
Proof. exact pool_best_fit. Qed.
Print Assumptions C63_best_fit.

Example C63_ex : exists p st', pool_allocate default_options 4 cut_st cut_w 128 64 = (Ret p, st', cut_w) /\
  length (p_cached cut_st) = 2%nat.
Proof. eexists. eexists. split; [vm_compute; reflexivity|reflexivity]. Qed.

(** C62 does not hold: the alignment cutoff of the first candidate hides later ones. *)
Theorem C62_refuted : exists o sl st w live bytes al r st' w' d,
  opts_valid o /\ cache_oversized o = true /\
  pool_reach o sl st w live /\ upstream_ok (ulog w) /\ pool_legal bytes al /\
  0 < bytes /\ smallest o <= bytes /\ (largest o < bytes \/ alignment o < al) /\
  In d (p_cached st) /\ bytes <= od_size d /\ (al | od_align d) /\
  od_size d < size_cutoff o * bytes /\ od_align d < align_cutoff o * al /\
  pool_allocate o sl st w bytes al = (r, st', w') /\ ulog w' <> ulog w.
Proof. exact pool_cache_missed. Qed.
Print Assumptions C62_refuted.

(** C62 (restricted): a suitable cached block within the size cutoff is used if no
    suitable cached block is beyond the alignment cutoff. *)
Theorem C62_cutoffs_partial : forall o sl st w live bytes al d, opts_valid o -> cache_oversized o = true ->
  pool_reach o sl st w live -> upstream_ok (ulog w) -> pool_legal bytes al -> 0 < bytes ->
  largest o < bytes \/ alignment o < al ->
  let need := Z.max bytes (smallest o) in
  In d (p_cached st) -> need <= od_size d -> al <= od_align d -> od_size d / need < size_cutoff o ->
  (forall x, In x (p_cached st) -> need <= od_size x -> al <= od_align x ->
   od_align x / al < align_cutoff o) ->
  exists p st', pool_allocate o sl st w bytes al = (Ret p, st', w).
Proof. exact pool_cache_found. Qed.
Print Assumptions C62_cutoffs_partial.

Example C62_ex : pool_reach default_options 4 mis_st mis_w [] /\ upstream_ok (ulog mis_w) /\
  pool_legal 200 64 /\ alignment default_options < 64 /\
  In (mkO 256 64 (2 * 2 ^ 40)) (p_cached mis_st) /\
  (forall x, In x (p_cached mis_st) -> 200 <= od_size x -> 64 <= od_align x ->
   od_align x / 64 < align_cutoff default_options).
Proof.
  split; [exact mis_reach|]. split; [exact mis_ok|].
  split; [split; [lia|split; [apply (pow2_ex 6); [lia|reflexivity]|lia]]|].
  split; [vm_compute; congruence|]. split; [right; left; reflexivity|].
  intros x [<-|[<-|[]]]; vm_compute; congruence.
Qed.

(** C64 does not hold for a smallest block size of 0: the logarithm is taken before
    the options are checked. *)
Theorem C64_refuted : exists o, opts_range o /\ check_valid o = false /\ pool_construct o = UB.
Proof. exact pool_construct_zero. Qed.
Print Assumptions C64_refuted.
Theorem C64_nonzero_partial : forall o, opts_range o -> smallest o <> 0 ->
  (check_valid o = false -> pool_construct o = Throw invalid_argument) /\
  (check_valid o = true -> exists s, pool_construct o = Ret s).
Proof. exact pool_construct_valid. Qed.
Print Assumptions C64_nonzero_partial.

(** The same with the conditions spelled out; the products wrap. *)
Theorem C64_conditions_partial o : opts_range o -> smallest o <> 0 ->
  let pow2_or_0 x := x = 0 \/ exists k, 0 <= k /\ x = 2 ^ k in
  let accepted := pow2_or_0 (smallest o) /\ pow2_or_0 (largest o) /\ pow2_or_0 (alignment o) /\
    max_bytes o <> 0 /\ max_blocks o <> 0 /\ largest o <> 0 /\
    min_blocks o <= max_blocks o /\ min_bytes o <= max_bytes o /\ smallest o <= largest o /\
    (min_blocks o * smallest o) mod 2 ^ 64 <= max_bytes o /\ (min_blocks o * largest o) mod 2 ^ 64 <= max_bytes o /\
    min_bytes o <= (max_blocks o * largest o) mod 2 ^ 64 /\ min_bytes o <= (max_blocks o * smallest o) mod 2 ^ 64 /\
    alignment o <= smallest o in
  (accepted -> exists a b, 0 <= a <= b /\ smallest o = 2 ^ a /\ largest o = 2 ^ b /\
     pool_construct o = Ret (a, mkPool (repeat (mkBucket [] 0) (Z.to_nat (b - a + 1))) [] [] [])) /\
  (~ accepted -> pool_construct o = Throw invalid_argument).
Proof. exact (pool_construct_conditions o). Qed.
Print Assumptions C64_conditions_partial.

Example C64_ex : exists o, opts_range o /\ smallest o <> 0 /\ check_valid o = false.
Proof.
  exists (mkOpts 16 1024 (2 ^ 20) (2 ^ 30) 16 (2 ^ 20) 64 true 16 16).
  split; [split; split; vm_compute; congruence|]. split; [discriminate|reflexivity].
Qed.

(** The default options are accepted. *)
Example C64_accepted_ex : smallest default_options <> 0 /\
  exists s, pool_construct default_options = Ret (4, s) /\ length (p_pools s) = 17%nat.
Proof. split; [discriminate|]. eexists. split; [vm_compute; reflexivity|reflexivity]. Qed.

(** C65: [is_aligned] is exact up to 2^61 and wrong for 2^62. *)
Theorem C65_refuted : pow2 (2 ^ 62) /\ (2 ^ 62 | 2 ^ 62) /\ is_aligned (2 ^ 62) (2 ^ 62) = false.
Proof. exact is_aligned_wrong. Qed.
Print Assumptions C65_refuted.
Theorem C65_small_partial : forall ptr al, pow2 al -> al <= 2 ^ 61 -> 0 <= ptr < 2 ^ 64 ->
  (is_aligned ptr al = true <-> (al | ptr)).
Proof. exact is_aligned_spec. Qed.
Print Assumptions C65_small_partial.

Example C65_ex : is_aligned 4096 64 = true /\ is_aligned 4112 64 = false.
Proof. split; reflexivity. Qed.
