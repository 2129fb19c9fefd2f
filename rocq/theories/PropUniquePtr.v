(** Properties C32, C33 and C59-C61: unique pointers and allocator objects. *)
From Verif Require Import Base BaseLemmas IntMath UniquePtr UniquePtrProofs.

(** C32: for any program that makes, moves, resets and finally destroys unique
    pointers, each step of the trace is a legal lifetime event (blocks are
    returned as they were obtained, with no object alive in them; objects are
    constructed in free space of a live block and destroyed once), and in the end
    no block and no object is left. *)
Theorem C32_lifetimes : forall k ops s l,
  Forall (uop_legal k) ops -> u_run (repeat u_null k) ops = (s, l) ->
  upstream_ok (ulog_of (l ++ u_end s)) -> lsteps ([], []) (l ++ u_end s) ([], []).
Proof. exact u_life. Qed.
Print Assumptions C32_lifetimes.

(** C33 is false: the alignment of the element type is not passed on. *)
Theorem C33_refuted : exists esz al p u,
  pow2 al /\ (al | esz) /\ (max_align | p) /\
  make_unique_obj esz 1 (Some p) None = (Ret u, [EAlloc esz max_align (Some p); ECtor p esz]) /\
  upstream_ok [UAlloc esz max_align (Some p)] /\ ~ (al | p).
Proof.
  exists 64, 64, 4112. eexists. split; [exists 6; split; [lia|reflexivity]|].
  split; [exists 1; reflexivity|]. split; [exists 257; reflexivity|]. split; [reflexivity|].
  split; [apply upstream_okb_ok; reflexivity|]. intros (c & Hc). lia.
Qed.
Print Assumptions C33_refuted.

(** For alignments up to that of [std::max_align_t] it holds. *)
Theorem C33_aligned_partial : forall esz n p fail r l a e al,
  pow2 al -> al <= 16 -> (al | esz) -> (max_align | p) ->
  make_unique_obj esz n (Some p) fail = (r, l) -> In (ECtor a e) l -> (al | a).
Proof. exact make_obj_aligned. Qed.
Print Assumptions C33_aligned_partial.

(** C59 is false: when a constructor throws, the memory and the elements already
    constructed are lost. *)
Theorem C59_refuted :
  make_unique_obj 8 3 (Some 4096) (Some 2%nat) =
    (Throw runtime_error, [EAlloc 24 16 (Some 4096); ECtor 4096 8; ECtor 4104 8]) /\
  new_object 8 8 (Some 4096) true = (Throw runtime_error, [EAlloc 8 8 (Some 4096)]).
Proof. split; reflexivity. Qed.
Print Assumptions C59_refuted.

(** C60 is false: the byte count wraps around and too little is allocated. *)
Theorem C60_refuted : exists n, Z.of_nat n < 2 ^ 64 /\ Z.of_nat n * 8 > 16 /\
  make_unique_alloc 8 n (Some 4096) =
    (Ret (mkU 4096 16 0 n 8 false), [EAlloc 16 16 (Some 4096)]) /\
  allocate_object 8 8 (Z.of_nat n) (Some 4096) = (Ret 4096, [EAlloc 16 8 (Some 4096)]).
Proof.
  exists (Z.to_nat (2 ^ 61 + 2)). unfold make_unique_alloc, allocate_object.
  rewrite (Z2Nat.id (2 ^ 61 + 2)) by lia.
  split; [lia|]. split; [lia|]. split; reflexivity.
Qed.
Print Assumptions C60_refuted.

(** It holds as long as the number of bytes fits into [std::size_t]. *)
Theorem C60_fits_partial : forall esz n al fail, 0 < esz -> Z.of_nat n * esz < 2 ^ 64 ->
  (forall res u l s a q, make_unique_obj esz n res fail = (Ret u, l) -> In (EAlloc s a q) l -> s = Z.of_nat n * esz) /\
  (forall res u l s a q, make_unique_alloc esz n res = (Ret u, l) -> In (EAlloc s a q) l -> s = Z.of_nat n * esz) /\
  (forall res p l s a q, allocate_object esz al (Z.of_nat n) res = (Ret p, l) -> In (EAlloc s a q) l -> s = Z.of_nat n * esz).
Proof. exact byte_counts. Qed.
Print Assumptions C60_fits_partial.

(** C59, exactly what is lost when constructor [k] throws: the block and the [k] elements
    constructed before. *)
Theorem C59_lost_partial : forall esz n k p, 0 < esz -> Z.of_nat n * esz < 2 ^ 64 -> (k < n)%nat ->
  make_unique_obj esz n (Some p) (Some k) =
    (Throw runtime_error, EAlloc (Z.of_nat n * esz) 16 (Some p) :: map (fun i => ECtor (p + Z.of_nat i * esz) esz) (seq 0 k)).
Proof. exact make_obj_throws. Qed.
Print Assumptions C59_lost_partial.

(** C61: allocator::new_object / delete_object and allocate_object /
    deallocate_object are matching pairs. *)
Theorem C61_objects : forall esz al res p l, 0 < esz < 2 ^ 64 ->
  new_object esz al res false = (Ret p, l) ->
  res = Some p /\ (p <> 0 ->
  l ++ delete_object esz al p =
    [EAlloc esz al (Some p); ECtor p esz; EDtor p esz; EFree p esz al]).
Proof. exact object_pair. Qed.
Print Assumptions C61_objects.
Theorem C61_arrays : forall esz al n res p l,
  allocate_object esz al n res = (Ret p, l) -> p <> 0 ->
  exists s, l ++ deallocate_object esz al n p = [EAlloc s al (Some p); EFree p s al] /\
    (0 <= n * esz < 2 ^ 64 -> s = n * esz).
Proof. exact array_pair. Qed.
Print Assumptions C61_arrays.

(** ** Concrete cases *)

Definition ex_ops : list uop :=
  [UMakeObj 0 8 3 (Some 4096); UMakeAlloc 1 4 5 (Some 8192); UMove 0 1; UMakeObj 0 8 0 None;
   UMakeObj 2 8 1 None; UMakeObj 1 16 2 (Some 640)].
Example C32_ex : exists s, Forall (uop_legal 3) ex_ops /\
  u_run (repeat u_null 3) ex_ops = (s,
    [EAlloc 24 16 (Some 4096); ECtor 4096 8; ECtor 4104 8; ECtor 4112 8;
     EAlloc 20 16 (Some 8192); EFree 8192 20 16; EAlloc 8 16 None; EAlloc 32 16 (Some 640);
     ECtor 640 16; ECtor 656 16; EDtor 4096 8; EDtor 4104 8; EDtor 4112 8; EFree 4096 24 16]) /\
  u_end s = [EDtor 640 16; EDtor 656 16; EFree 640 32 16] /\
  upstream_ok (ulog_of (snd (u_run (repeat u_null 3) ex_ops) ++ u_end s)).
Proof.
  eexists. split; [repeat constructor; cbn; lia|]. split; [vm_compute; reflexivity|].
  split; [reflexivity|]. apply upstream_okb_ok. reflexivity.
Qed.

Example C33_ex : pow2 8 /\ 8 <= 16 /\ (8 | 24) /\ (max_align | 4112) /\ exists r l,
  make_unique_obj 24 2 (Some 4112) None = (r, l) /\ In (ECtor 4136 24) l.
Proof.
  split; [exists 3; split; [lia|reflexivity]|]. split; [lia|].
  split; [exists 3; reflexivity|]. split; [exists 257; reflexivity|].
  eexists. eexists. split; [reflexivity|]. simpl. tauto.
Qed.

Example C61_ex : exists l, new_object 40 8 (Some 4096) false = (Ret 4096, l) /\
  allocate_object 40 8 7 (Some 640) = (Ret 640, [EAlloc 280 8 (Some 640)]).
Proof. eexists. split; reflexivity. Qed.

Example C60_ex : exists u l, make_unique_obj 8 3 (Some 4096) None = (Ret u, l) /\ In (EAlloc 24 16 (Some 4096)) l /\
  0 < 8 /\ Z.of_nat 3 * 8 < 2 ^ 64 /\ (2 < 3)%nat.
Proof. eexists. eexists. split; [reflexivity|]. split; [left; reflexivity|]. cbn. lia. Qed.
