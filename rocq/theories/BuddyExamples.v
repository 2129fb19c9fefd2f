(** Concrete histories of the binary page resource. *)
From Verif Require Import Base BaseLemmas History IntMath Buddy BuddyProofs BuddyHistory.

(** An upstream with blocks far apart. *)
Definition ex_world : world := mkWorld [] (fun n => Some (2 ^ 40 * (Z.of_nat n + 1))).
Definition ex_ops : list hop :=
  [HAlloc 100 16; HAlloc 3000 16; HAlloc (2 ^ 21 + 1) 16; HAlloc 300 16; HFree 2; HAlloc 256 8].
Definition ex_result := Eval vm_compute in run do_allocate do_deallocate ex_ops init ex_world [].
Definition ex_state : state := match ex_result with Some (s, _, _) => s | None => [] end.
Definition ex_log : list uevent := match ex_result with Some (_, w, _) => ulog w | None => [] end.
Definition ex_live : list block := match ex_result with Some (_, _, l) => l | None => [] end.
Definition ex_w : world := mkWorld ex_log (uorc ex_world).

Lemma ex_legal : ops_legal buddy_legal ex_ops.
Proof.
  cbn [ops_legal ex_ops]. unfold buddy_legal.
  repeat split; try lia; try (exists 4; split; [lia|reflexivity]).
  exists 3; split; [lia|reflexivity].
Qed.

Lemma ex_reach : buddy_reach ex_state ex_w ex_live.
Proof.
  apply (run_reach do_allocate do_deallocate buddy_legal init fresh ex_ops init ex_world []).
  - apply reach_init. reflexivity.
  - exact ex_legal.
  - vm_compute. reflexivity.
Qed.

Lemma ex_ok : upstream_ok (ulog ex_w).
Proof. apply upstream_okb_ok. vm_compute. reflexivity. Qed.

(** A history that ends with no live block. *)
Definition ex_ops_e : list hop :=
  [HAlloc 100 16; HAlloc 3000 16; HAlloc (2 ^ 21 + 1) 16; HFree 1; HFree 1; HFree 0].
Definition ex_result_e := Eval vm_compute in run do_allocate do_deallocate ex_ops_e init ex_world [].
Definition ex_state_e : state := match ex_result_e with Some (s, _, _) => s | None => [] end.
Definition ex_log_e : list uevent := match ex_result_e with Some (_, w, _) => ulog w | None => [] end.
Definition ex_w_e : world := mkWorld ex_log_e (uorc ex_world).
Lemma ex_reach_e : buddy_reach ex_state_e ex_w_e [].
Proof.
  apply (run_reach do_allocate do_deallocate buddy_legal init fresh ex_ops_e init ex_world []).
  - apply reach_init. reflexivity.
  - cbn [ops_legal ex_ops_e]. unfold buddy_legal.
    repeat split; try lia; try (exists 4; split; [lia|reflexivity]).
  - vm_compute. reflexivity.
Qed.
Lemma ex_ok_e : upstream_ok (ulog ex_w_e).
Proof. apply upstream_okb_ok. vm_compute. reflexivity. Qed.

(** C08 witness: an upstream block at an address that is 16-aligned only. *)
Definition mis_world : world := mkWorld [] (fun _ => Some 4112).
Lemma buddy_misaligned : exists st w b,
  buddy_reach st w [b] /\ upstream_ok (ulog w) /\ pow2 (balign b) /\ ~ (balign b | bptr b).
Proof.
  exists (match run do_allocate do_deallocate [HAlloc 64 64] init mis_world [] with Some (s, _, _) => s | None => [] end).
  exists (mkWorld (match run do_allocate do_deallocate [HAlloc 64 64] init mis_world [] with Some (_, w, _) => ulog w | None => [] end) (uorc mis_world)).
  exists (mkBlock 4112 64 64).
  assert (HP : pow2 64) by (exists 6; split; [lia|reflexivity]).
  split; [|split; [|split]].
  - apply (run_reach do_allocate do_deallocate buddy_legal init fresh [HAlloc 64 64] init mis_world []).
    + apply reach_init. reflexivity.
    + cbn [ops_legal]. unfold buddy_legal. repeat split; auto; lia.
    + vm_compute. reflexivity.
  - apply upstream_okb_ok. vm_compute. reflexivity.
  - exact HP.
  - cbn [balign bptr]. intros (q & Hq). lia.
Qed.

(** C55 witness: the only superpage is completely free and huge, yet a small
    request goes upstream. *)
Definition big_world : world := mkWorld [] (fun n => Some (2 ^ 40 * (Z.of_nat n + 1))).
Lemma buddy_small_request : exists st w sp size r st' w',
  buddy_reach st w [] /\ upstream_ok (ulog w') /\ st = [sp] /\
  0 < size <= 2 ^ sp_size sp /\
  do_allocate st w size 1 = (r, st', w') /\ w' <> w.
Proof.
  pose (R := run do_allocate do_deallocate [HAlloc (2 ^ 30) 16; HFree 0] init big_world []).
  pose (st := match R with Some (s, _, _) => s | None => [] end).
  pose (w := mkWorld (match R with Some (_, w, _) => ulog w | None => [] end) (uorc big_world)).
  pose (A := do_allocate st w 100 1).
  exists st, w, (new_superpage 30 (2 ^ 40)), 100, (fst (fst A)), (snd (fst A)), (snd A).
  split; [|split; [|split; [|split; [|split]]]].
  - apply (run_reach do_allocate do_deallocate buddy_legal init fresh [HAlloc (2 ^ 30) 16; HFree 0] init big_world []).
    + apply reach_init. reflexivity.
    + cbn [ops_legal]. unfold buddy_legal. repeat split; try lia. exists 4; split; [lia|reflexivity].
    + vm_compute. reflexivity.
  - apply upstream_okb_ok. vm_compute. reflexivity.
  - vm_compute. reflexivity.
  - cbn [new_superpage sp_size]. lia.
  - unfold A. destruct (do_allocate st w 100 1) as [[r s] w']. reflexivity.
  - intros E. apply (f_equal (fun w => length (ulog w))) in E. vm_compute in E. discriminate.
Qed.
