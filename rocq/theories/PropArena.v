(** Properties C15-C20 and C66: the arena memory resource. *)
From Verif Require Import Base BaseLemmas History IntMath Arena ArenaSets ArenaProofs ArenaExamples.

(** C15 does not hold: over an upstream that returns adjacent blocks, two live blocks
    overlap after three allocations. *)
Theorem C15_refuted : exists initial maximum st w b c,
  0 < initial <= maximum /\ arena_reach any_legal initial maximum st w [b; c; mkBlock 4096 256 16] /\
  upstream_ok (ulog w) /\ overlap b c.
Proof. exact arena_overlap. Qed.
Print Assumptions C15_refuted.

(** C16 does not hold: a request larger than the superblocks gets the null pointer, a
    request close to 2^64 gets a block without any byte. *)
Theorem C16_refuted :
  (exists initial maximum st w size al st' w',
    0 < initial <= maximum /\ arena_reach any_legal initial maximum st w [] /\
    any_legal size al /\ 0 < size <= maximum /\
    arena_allocate st w size al = (Ret 0, st', w') /\ upstream_ok (ulog w')) /\
  (exists initial maximum st w size al p q st' st'',
    0 < initial <= maximum /\ arena_reach any_legal initial maximum st w [] /\ upstream_ok (ulog w) /\
    any_legal size al /\ 0 < size /\
    arena_allocate st w size al = (Ret p, st', w) /\ arena_allocate st' w 256 16 = (Ret q, st'', w) /\ p = q).
Proof. exact arena_unusable. Qed.
Print Assumptions C16_refuted.

(** C17 does not hold: returning the only block of a fully used arena dereferences
    [end()]. *)
Theorem C17_refuted : exists initial maximum st w b,
  0 < initial <= maximum /\ arena_reach any_legal initial maximum st w [b] /\ upstream_ok (ulog w) /\
  arena_deallocate st w (bptr b) (bsize b) (balign b) = (UB, st, w).
Proof. exact arena_end_dereferenced. Qed.
Print Assumptions C17_refuted.

(** C18 does not hold: [maximum_size_] is never read. *)
Theorem C18_refuted : exists initial maximum st w live,
  0 < initial <= maximum /\ arena_reach any_legal initial maximum st w live /\ upstream_ok (ulog w) /\
  maximum < fold_right (fun u n => bsize u + n) 0 (ulive (ulog w)).
Proof. exact arena_over_maximum. Qed.
Print Assumptions C18_refuted.

(** What remains of C18: [current_size_] counts what is held, modulo 2^64, and every
    superblock has the initial size or 2^18 bytes. *)
Theorem C18_current_partial : forall legal initial maximum st w live,
  arena_reach legal initial maximum st w live ->
  a_current st = fold_right (fun u n => bsize u + n) 0 (ulive (ulog w)) mod 2 ^ 64 /\
  forall u, In u (ulive (ulog w)) -> bsize u = initial \/ bsize u = 2 ^ 18.
Proof. exact arena_current. Qed.
Print Assumptions C18_current_partial.

Example C18_ex : arena_reach (arena_legal 1024) 1024 (2 ^ 30) aex_st aex_w aex_live /\
  a_current aex_st = 264192 /\ map bsize (ulive (ulog aex_w)) = [2 ^ 18; 1024; 1024].
Proof. split; [exact aex_reach|]. split; reflexivity. Qed.

(** C19 does not hold for adjacent upstream blocks. *)
Theorem C19_refuted : exists initial maximum st w live w',
  0 < initial <= maximum /\ arena_reach any_legal initial maximum st w live /\ upstream_ok (ulog w) /\
  arena_destroy st w = Ret w' /\ ~ frees_ok (ulog w').
Proof. exact arena_wrong_free. Qed.
Print Assumptions C19_refuted.

(** C19 for upstream blocks that never touch: everything is handed back with its size. *)
Theorem C19_apart_partial : forall initial maximum st w live, 0 < initial < 2 ^ 64 ->
  arena_reach (arena_legal initial) initial maximum st w live -> upstream_apart (ulog w) ->
  a_free st <> [] ->
  exists w', arena_destroy st w = Ret w' /\ frees_ok (ulog w') /\ ulive (ulog w') = [].
Proof. exact arena_destructor. Qed.
Print Assumptions C19_apart_partial.

(** C20: over an upstream whose blocks never touch, with requests of at most the
    initial size or 2^18 bytes, whichever is larger (after rounding up to a multiple
    of 256), live blocks - as rounded - are disjoint and inside upstream blocks ... *)
Theorem C20_blocks : forall initial maximum st w live, 0 < initial < 2 ^ 64 ->
  arena_reach (arena_legal initial) initial maximum st w live -> upstream_apart (ulog w) ->
  pairwise_disjoint (map (fun b => mkBlock (bptr b) (ceil256 (bsize b)) 16) live) /\
  pairwise_disjoint live /\
  forall b, In b live -> 0 < bptr b /\ (16 | bptr b) /\
    exists u, In u (ulive (ulog w)) /\ inside (mkBlock (bptr b) (ceil256 (bsize b)) 16) u.
Proof. exact arena_blocks. Qed.
Print Assumptions C20_blocks.

(** ... allocation succeeds or reports the failure of upstream ... *)
Theorem C20_allocate : forall initial maximum st w live size al r st' w', 0 < initial < 2 ^ 64 ->
  arena_reach (arena_legal initial) initial maximum st w live -> arena_legal initial size al -> 0 < size ->
  arena_allocate st w size al = (r, st', w') -> upstream_apart (ulog w') ->
  (exists p, r = Ret p /\ 0 < p) \/
  (r = Throw bad_alloc /\ exists s a, ulog w' = UAlloc s a None :: ulog w).
Proof. exact arena_alloc_defined. Qed.
Print Assumptions C20_allocate.

(** ... and deallocation is defined exactly if the free set is not empty. *)
Theorem C20_deallocate : forall initial maximum st w live b, 0 < initial < 2 ^ 64 ->
  arena_reach (arena_legal initial) initial maximum st w live -> upstream_apart (ulog w) -> In b live ->
  (a_free st <> [] -> exists st', arena_deallocate st w (bptr b) (bsize b) (balign b) = (Ret tt, st', w)) /\
  (a_free st = [] -> arena_deallocate st w (bptr b) (bsize b) (balign b) = (UB, st, w)).
Proof. exact arena_dealloc_defined. Qed.
Print Assumptions C20_deallocate.

(** The hypotheses of C19 (restricted) and C20 hold for a history with three
    superblocks, four live blocks and a fragmented free set. *)
Example C20_ex : arena_reach (arena_legal 1024) 1024 (2 ^ 30) aex_st aex_w aex_live /\
  upstream_apart (ulog aex_w) /\ length aex_live = 4%nat /\ length (a_free aex_st) = 2%nat /\
  length (ulive (ulog aex_w)) = 3%nat.
Proof.
  split; [exact aex_reach|]. split; [exact aex_apart|]. split; [reflexivity|]. split; reflexivity.
Qed.

(** [ceil256]: the smallest multiple of 256 that is not smaller. *)
Theorem C20_ceil256 : forall n, 0 <= n -> n <= ceil256 n < n + 256 /\ (256 | ceil256 n).
Proof. exact ceil256_spec. Qed.
Print Assumptions C20_ceil256.

(** C66 does not hold: the requested alignment is ignored. *)
Theorem C66_refuted : exists initial maximum st w b,
  0 < initial <= maximum /\ arena_reach any_legal initial maximum st w [b] /\ upstream_apart (ulog w) /\
  ~ (balign b | bptr b).
Proof. exact arena_misaligned. Qed.
Print Assumptions C66_refuted.

(** C113: under the conditions of C20 the free set and the live blocks, as rounded,
    tile the upstream memory, and no two free blocks touch. *)
Theorem C113_tiling : forall initial maximum st w live, 0 < initial < 2 ^ 64 ->
  arena_reach (arena_legal initial) initial maximum st w live -> upstream_apart (ulog w) ->
  let pieces := map (fun x => mkBlock (fst x) (snd x) 16) (a_free st) ++
                map (fun b => mkBlock (bptr b) (ceil256 (bsize b)) 16) live in
  pairwise_disjoint pieces /\
  (forall x, In x pieces -> 0 < bsize x /\ exists u, In u (ulive (ulog w)) /\ inside x u) /\
  (forall u y, In u (ulive (ulog w)) -> in_block y u -> exists x, In x pieces /\ in_block y x) /\
  (forall x y, In x (a_free st) -> In y (a_free st) -> fst x + snd x <> fst y).
Proof. exact arena_tiling. Qed.
Print Assumptions C113_tiling.

(** C114: a request below 2^18 bytes, as rounded, is served at the start of the lowest
    free block that is large enough, without upstream; if there is none, or for larger
    requests, one superblock is requested from upstream. *)
Theorem C114_first_fit : forall initial maximum st w live size al r st' w', 0 < initial < 2 ^ 64 ->
  arena_reach (arena_legal initial) initial maximum st w live -> arena_legal initial size al -> 0 < size ->
  arena_allocate st w size al = (r, st', w') -> upstream_apart (ulog w') ->
  (forall b, ceil256 size < 2 ^ 18 -> In b (a_free st) -> ceil256 size <= snd b ->
     (forall c, In c (a_free st) -> ceil256 size <= snd c -> fst b <= fst c) ->
     r = Ret (fst b) /\ w' = w) /\
  (2 ^ 18 <= ceil256 size \/ (forall b, In b (a_free st) -> snd b < ceil256 size) ->
   exists x, ulog w' = UAlloc (if initial <? ceil256 size then 2 ^ 18 else initial) 16 x :: ulog w).
Proof. exact arena_upstream_use. Qed.
Print Assumptions C114_first_fit.

Example C114_ex : arena_reach (arena_legal 1024) 1024 (2 ^ 30) aex_st aex_w aex_live /\
  arena_legal 1024 700 8 /\
  (exists st', arena_allocate aex_st aex_w 700 8 = (Ret (3 * 2 ^ 40 + 2048), st', aex_w)) /\
  upstream_apart (ulog aex_w).
Proof.
  split; [exact aex_reach|]. split; [split; [lia|vm_compute; congruence]|].
  split; [eexists; reflexivity|exact aex_apart].
Qed.
