(** Properties C21 and C22: the contiguous memory resource. *)
From Verif Require Import Base BaseLemmas IntMath Align AlignProofs Contiguous ContiguousProofs.
From Coq Require Import Sorted.

(** C21: all blocks ever handed out (also freed ones) are aligned, inside the
    upstream block, in increasing order and pairwise disjoint. *)
Theorem C21_blocks : forall w size st w' ops, 0 <= size ->
  c_construct w size = (Ret st, w') -> upstream_ok (ulog w') -> cops_legal ops ->
  exists l st', c_run ops st = Ret (l, st') /\
    StronglySorted (fun b c => bptr b + bsize b <= bptr c) l /\ pairwise_disjoint l /\
    forall b, In b l -> 0 < bsize b /\ (balign b | bptr b) /\
      inside b (mkBlock (c_begin st) size max_align) /\
      In (mkBlock (c_begin st) size max_align) (ulive (ulog w')).
Proof. exact contiguous_blocks. Qed.
Print Assumptions C21_blocks.

(** C22: a request succeeds iff some aligned start at or after the bump pointer
    leaves room; the least such start is used; a failure changes nothing. *)
Theorem C22_fit : forall w size st w' ops l st' sz al, 0 <= size ->
  c_construct w size = (Ret st, w') -> upstream_ok (ulog w') -> cops_legal ops ->
  c_run ops st = Ret (l, st') -> req_legal sz al -> 0 < sz ->
  let fits p := c_next st' <= p /\ (al | p) /\ p + sz <= c_begin st + size in
  ((~ exists p, fits p) -> c_allocate st' sz al = (Throw bad_alloc, st')) /\
  ((exists p, fits p) -> exists p st'', c_allocate st' sz al = (Ret p, st'') /\ fits p /\
     (forall q, fits q -> p <= q) /\ c_next st'' = p + sz) /\
  (forall p' s' a', c_deallocate st' p' s' a' = st').
Proof. exact contiguous_fit. Qed.
Print Assumptions C22_fit.

(** C22: construction and destruction make exactly one matching pair of upstream
    calls, whatever happens in between. *)
Theorem C22_life : forall w size st w' ops l st',
  c_construct w size = (Ret st, w') -> c_run ops st = Ret (l, st') ->
  ulog (c_destroy st' w') = UFree (c_begin st) size max_align ::
     UAlloc size max_align (Some (c_begin st)) :: ulog w.
Proof. exact contiguous_life. Qed.
Print Assumptions C22_life.

(** A concrete history: requests with different alignments, one failure, a
    deallocation in between. *)
Definition ex_ops : list cop :=
  [CAlloc 10 1; CAlloc 100 64; CDealloc 4112 10 1; CAlloc 5000 8; CAlloc 7 4; CAlloc 0 8].
Example C21_ex :
  let w := mkWorld [] (fun _ => Some 4112) in
  exists st w', c_construct w 1000 = (Ret st, w') /\ upstream_ok (ulog w') /\
    cops_legal ex_ops /\
    c_run ex_ops st = Ret ([mkBlock 4112 10 1; mkBlock 4160 100 64; mkBlock 4260 7 4],
                           mkC 1000 4112 4267).
Proof.
  eexists. eexists. split; [reflexivity|]. split; [apply upstream_okb_ok; reflexivity|]. split.
  - cbn [cops_legal ex_ops]. unfold req_legal.
    repeat split; try lia; first [exists 0; split; [lia|reflexivity]|exists 6; split; [lia|reflexivity]
     |exists 3; split; [lia|reflexivity]|exists 2; split; [lia|reflexivity]].
  - vm_compute. reflexivity.
Qed.
Example C22_ex : req_legal 100 256 /\ 0 < 100 /\
  (4267 <= 4352 /\ (256 | 4352) /\ 4352 + 100 <= 4112 + 1000).
Proof.
  split; [split; [lia|split; [exists 8; split; [lia|reflexivity]|lia]]|].
  split; [lia|]. split; [lia|]. split; [exists 17; reflexivity|lia].
Qed.
