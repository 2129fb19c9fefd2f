(** Properties C30, C31 and C58: default and host memory resources. *)
From Verif Require Import Base BaseLemmas IntMath Align AlignProofs HostRes HostResProofs History.

(** C30: operation [i] of any sequence of atomic accesses (set returns the
    previous value, get the current one) sees the latest value set before it. *)
Theorem C30_last_set : forall nd ops,
  fst (dr_run nd nd ops) = last_set nd nd ops /\
  forall i o, nth_error ops i = Some o ->
    nth_error (snd (dr_run nd nd ops)) i = Some (last_set nd nd (firstn i ops)).
Proof. exact (fun nd ops => dr_run_spec nd ops nd). Qed.
Print Assumptions C30_last_set.

(** C31: the arguments of [std::aligned_alloc]. *)
Theorem C31_arguments : forall bytes alignment,
  0 < bytes < 2 ^ 63 -> pow2 alignment -> alignment <= 2 ^ 62 ->
  let size := ha_size bytes alignment in
  let align := ha_align alignment in
  (align | size) /\ bytes <= size <= bytes + align /\ alignment <= align /\ pow2 align /\ 16 <= align.
Proof. exact ha_args. Qed.
Print Assumptions C31_arguments.

(** C31: first branch, over all histories. *)
Theorem C31_aligned_alloc : forall s w live,
  reach ha_alloc' ha_free' host_legal tt fresh s w live -> upstream_ok (ulog w) ->
  pairwise_disjoint live /\ frees_ok (ulog w) /\
  forall b, In b live -> (balign b | bptr b) /\
    exists u, In u (ulive (ulog w)) /\ inside b u /\ bptr u = bptr b.
Proof. exact ha_blocks. Qed.
Print Assumptions C31_aligned_alloc.

(** C31: second branch, over all histories in which the user also overwrites the
    blocks arbitrarily. *)
Theorem C31_malloc : forall m w live, hf_reach host_legal m w live -> upstream_ok (ulog w) ->
  pairwise_disjoint live /\ frees_ok (ulog w) /\
  (forall b, In b live -> (balign b | bptr b) /\
    exists u, In u (ulive (ulog w)) /\ inside b u /\
      inside (mkBlock (bptr b - ptr_size) ptr_size ptr_size) u /\ (ptr_size | bptr b - ptr_size) /\
      hf_deallocate m w (bptr b) (bsize b) (balign b) =
        (Ret tt, m, up_free w (bptr u) (bsize u) (balign u))) /\
  (forall b c, In b live -> In c live -> ~ overlap b (mkBlock (bptr c - ptr_size) ptr_size 1)).
Proof. exact hf_blocks. Qed.
Print Assumptions C31_malloc.

Theorem C31_assert : forall m w size align m' w' r, host_legal size align ->
  hf_allocate m w size align = (r, m', w') -> upstream_ok (ulog w') -> r <> UB.
Proof. exact hf_defined. Qed.
Print Assumptions C31_assert.

(** C31: requests for zero bytes are answered by a null pointer, which can be given back; neither
    asks for memory. *)
Theorem C31_zero : forall m w bytes align,
  ha_allocate w 0 align = (Ret 0, w) /\ ha_deallocate w 0 bytes align = (Ret tt, w) /\
  hf_allocate m w 0 align = (Ret 0, m, w) /\ hf_deallocate m w 0 bytes align = (Ret tt, m, w).
Proof. intros m w bytes align. repeat split. Qed.
Print Assumptions C31_zero.

(** C58 is false: requests close to the largest [std::size_t] wrap around, and
    both branches succeed with a block that is far too small. *)
Theorem C58_refuted : exists w w' w'' m m',
  ha_allocate w (2 ^ 64 - 8) 16 = (Ret 4096, w') /\ upstream_ok (ulog w') /\
  ulog w' = [UAlloc 0 16 (Some 4096)] /\
  hf_allocate m w (2 ^ 64 - 22) 16 = (Ret 4112, m', w'') /\ upstream_ok (ulog w'') /\
  ulog w'' = [UAlloc 1 16 (Some 4096)].
Proof.
  exists (mkWorld [] (fun _ => Some 4096)). eexists. eexists. exists (fun _ => 0). eexists.
  split; [vm_compute; reflexivity|].
  split; [apply upstream_okb_ok; reflexivity|]. split; [reflexivity|].
  split; [vm_compute; reflexivity|].
  split; [apply upstream_okb_ok; reflexivity|]. reflexivity.
Qed.
Print Assumptions C58_refuted.

(** ** Concrete cases *)

Example C30_ex : dr_run 7 7 [DRGet; DRSet 5; DRGet; DRSet 0; DRSet 9; DRGet] =
  (9, [7; 7; 5; 5; 7; 9]).
Proof. reflexivity. Qed.

Definition ex_orc (n : nat) : option Z := nth n [Some 64; Some 4096; None; Some 640; Some 8192] None.

Example C31_ex1 : exists w live,
  reach ha_alloc' ha_free' host_legal tt fresh tt w live /\ upstream_ok (ulog w) /\
  ulog w = [UFree 4096 128 32; UAlloc 16 16 None; UAlloc 128 32 (Some 4096); UAlloc 16 16 (Some 64)] /\
  live = [mkBlock 64 10 8].
Proof.
  eexists. eexists. split; [|split; [|split]].
  - eapply (run_reach _ _ host_legal _ fresh
      [HAlloc 10 8; HAlloc 100 32; HAlloc 5 1; HFree 0]);
      [apply (reach_init _ _ _ _ _ _ (mkWorld [] ex_orc)); reflexivity| |vm_compute; reflexivity].
    cbn. unfold host_legal. repeat split; try lia; first
      [exists 3; split; [lia|reflexivity]|exists 5; split; [lia|reflexivity]|exists 0; split; [lia|reflexivity]].
  - apply upstream_okb_ok. reflexivity.
  - reflexivity.
  - reflexivity.
Qed.

(** Two blocks, the first filled with ones by the user, the second returned. *)
Example C31_ex2 : exists m w live,
  hf_reach host_legal m w live /\ upstream_ok (ulog w) /\
  ulog w = [UFree 4096 139 16; UAlloc 139 16 (Some 4096); UAlloc 25 16 (Some 64)] /\
  live = [mkBlock 72 10 8] /\ m 64 = 64 /\ m 72 = 1.
Proof.
  do 3 eexists. split; [|split; [|split; [|split; [|split]]]].
  - eapply (hfr_free host_legal _ _ _ (mkBlock 4128 100 32)).
    + eapply (hfr_write host_legal _ _ _ (mkBlock 72 10 8) (fun a => if (64 <? a) && (a <? 82) then 1 else _)).
      * eapply (hfr_alloc host_legal _ _ _ 100 32).
        -- eapply (hfr_alloc host_legal _ _ _ 10 8).
           ++ apply (hfr_init host_legal (fun _ => 0) (mkWorld [] ex_orc)). reflexivity.
           ++ split; [lia|]. split; [exists 3; split; [lia|reflexivity]|lia].
           ++ vm_compute. reflexivity.
        -- split; [lia|]. split; [exists 5; split; [lia|reflexivity]|lia].
        -- vm_compute. reflexivity.
      * simpl. auto.
      * intros a Ha. destruct (Z.ltb_spec 64 a); cbn [andb]; [|reflexivity].
        destruct (Z.ltb_spec a 82); [|reflexivity].
        exfalso. apply Ha. exists (Z.max a 72). unfold in_block, ptr_size. cbn [bptr bsize]. lia.
    + simpl. auto.
    + reflexivity.
  - apply upstream_okb_ok. reflexivity.
  - reflexivity.
  - reflexivity.
  - reflexivity.
  - reflexivity.
Qed.
