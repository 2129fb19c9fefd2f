(** Properties C03-C08 and C55: the binary page (buddy) memory resource. *)
From Verif Require Import Base BaseLemmas History IntMath Buddy BuddyTree BuddyProofs BuddyHistory BuddyExamples.

(** C03: live blocks are pairwise disjoint and inside upstream blocks. *)
Theorem C03_disjoint : forall st w live,
  buddy_reach st w live -> upstream_ok (ulog w) ->
  pairwise_disjoint live /\
  forall b, In b live -> exists u, In u (ulive (ulog w)) /\ inside b u.
Proof. exact buddy_disjoint. Qed.
Print Assumptions C03_disjoint.

(** The hypotheses of C03, C04, C06, C07 hold for a history with two superpages,
    splits, a deallocation and four live blocks. *)
Example C03_ex : buddy_reach ex_state ex_w ex_live /\ upstream_ok (ulog ex_w) /\
  length ex_live = 4%nat /\ length ex_state = 2%nat.
Proof. split; [exact ex_reach|]. split; [exact ex_ok|]. split; reflexivity. Qed.

(** C04: no undefined behaviour: every allocation returns or reports the failure
    of upstream, every deallocation of a live block succeeds. *)
Theorem C04_defined : forall st w live, buddy_reach st w live ->
  (forall size align r st' w', buddy_legal size align ->
     do_allocate st w size align = (r, st', w') -> upstream_ok (ulog w') ->
     (exists p, r = Ret p) \/
     (r = Throw bad_alloc /\ exists s a, ulog w' = UAlloc s a None :: ulog w)) /\
  (forall b, upstream_ok (ulog w) -> In b live ->
     exists st', do_deallocate st w (bptr b) (bsize b) (balign b) = (Ret tt, st', w)).
Proof. exact buddy_defined. Qed.
Print Assumptions C04_defined.

Example C04_ex : exists b, In b ex_live /\ buddy_legal 5000 16.
Proof.
  eexists. split; [left; reflexivity|]. split; [lia|]. exists 4. split; [lia|reflexivity].
Qed.

(** C05: with nothing live, every superpage is one vacant page again, and a
    request between its smallest page size and its full size is served without
    upstream. *)
Theorem C05_coalesced : forall st w,
  buddy_reach st w [] -> upstream_ok (ulog w) ->
  forall sp, In sp st ->
    sp_pages sp = VACANT :: repeat NON_EXTANT 510 /\
    forall size align,
      (2 ^ (sp_size sp - 9) < size \/ sp_size sp = 16 /\ 0 < size) -> size <= 2 ^ sp_size sp ->
      exists p st', do_allocate st w size align = (Ret p, st', w).
Proof. exact buddy_coalesced. Qed.
Print Assumptions C05_coalesced.

Example C05_ex : buddy_reach ex_state_e ex_w_e [] /\ upstream_ok (ulog ex_w_e) /\
  map sp_size ex_state_e = [16; 22] /\ 2 ^ (22 - 9) < 2 ^ 20 <= 2 ^ 22.
Proof. split; [exact ex_reach_e|]. split; [exact ex_ok_e|]. split; [reflexivity|lia]. Qed.

(** C06: upstream is asked exactly if no vacant page serves the request; otherwise
    a smallest serving page is used, from its first byte. *)
Theorem C06_upstream : forall st w live size align r st' w',
  buddy_reach st w live -> 0 < size <= 2 ^ 63 ->
  do_allocate st w size align = (r, st', w') -> upstream_ok (ulog w') ->
  ((exists k i g, serves st size k i g) ->
     w' = w /\ exists k i g sp p, serves st size k i g /\
       (forall k' i' g', serves st size k' i' g' -> g <= g') /\
       nth_error st k = Some sp /\ r = Ret p /\
       p = sp_base sp + Z.of_nat (S i - 2 ^ Nat.log2 (S i)) * 2 ^ g) /\
  (~ (exists k i g, serves st size k i g) ->
     exists m a res, ulog w' = UAlloc (2 ^ m) a res :: ulog w /\
       size <= 2 ^ m /\ 2 ^ 16 <= 2 ^ m /\
       (res = None -> r = Throw bad_alloc) /\
       (forall q, res = Some q -> exists p, r = Ret p)).
Proof. exact buddy_upstream. Qed.
Print Assumptions C06_upstream.

Example C06_ex : serves ex_state 700 0 8 13 /\ 0 < 700 <= 2 ^ 63.
Proof.
  split; [|lia]. eexists. split; [reflexivity|]. split; [reflexivity|].
  split; [reflexivity|]. vm_compute. split; [discriminate|]. left; discriminate.
Qed.

(** C07: nothing is given back before destruction; the destructor gives back every
    upstream block exactly once, with its own pointer, size and alignment. *)
Theorem C07_returned : forall st w live, buddy_reach st w live ->
  (forall p s a, ~ In (UFree p s a) (ulog w)) /\
  frees_ok (ulog (destroy st w)) /\ ulive (ulog (destroy st w)) = [].
Proof. exact buddy_life. Qed.
Print Assumptions C07_returned.

Example C07_ex : length (ulog ex_w) = 2%nat /\ length (ulog (destroy ex_state ex_w)) = 4%nat.
Proof. split; reflexivity. Qed.

(** C08 is false: alignment 64 requested, address 16-aligned only, although
    upstream honours the alignment it is asked for. *)
Theorem C08_refuted : exists st w b,
  buddy_reach st w [b] /\ upstream_ok (ulog w) /\ pow2 (balign b) /\ ~ (balign b | bptr b).
Proof. exact buddy_misaligned. Qed.
Print Assumptions C08_refuted.

(** C08, what does hold: all blocks are 16-aligned (the default alignment). *)
Theorem C08_align16_partial : forall st w live b,
  buddy_reach st w live -> upstream_ok (ulog w) -> In b live -> (16 | bptr b).
Proof. exact buddy_align16. Qed.
Print Assumptions C08_align16_partial.

(** C55 is false: a completely free superpage of 2^30 bytes does not serve a
    request of 100 bytes. *)
Theorem C55_refuted : exists st w sp size r st' w',
  buddy_reach st w [] /\ upstream_ok (ulog w') /\ st = [sp] /\
  0 < size <= 2 ^ sp_size sp /\
  do_allocate st w size 1 = (r, st', w') /\ w' <> w.
Proof. exact buddy_small_request. Qed.
Print Assumptions C55_refuted.
