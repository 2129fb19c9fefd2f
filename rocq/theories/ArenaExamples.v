(** Concrete histories of the arena resource. *)
From Verif Require Import Base BaseLemmas History IntMath Arena ArenaSets ArenaProofs.

Definition any_legal (size al : Z) : Prop := 0 <= size < 2 ^ 64 /\ pow2 al.

Definition start_of (r : outcome unit * ast * world) : ast * world := (snd (fst r), snd r).
Definition finish_of (r : option (ast * world * list block)) : ast * list uevent * list block :=
  match r with Some (s, w, l) => (s, ulog w, l) | None => (mkArena 0 0 0 [] [], [], []) end.

Lemma arena_run legal initial maximum orc s0 w0 ops st l live :
  arena_construct initial maximum (mkWorld [] orc) = (Ret tt, s0, w0) ->
  ops_legal legal ops ->
  run arena_allocate arena_deallocate ops s0 w0 [] = Some (st, mkWorld l orc, live) ->
  arena_reach legal initial maximum st (mkWorld l orc) live.
Proof.
  intros E HL HR. exists s0.
  eapply (run_reach _ _ _ _ _ ops s0 w0 []); [|exact HL|exact HR]. apply reach_init.
  exists (mkWorld [] orc). split; [reflexivity|exact E].
Qed.

Lemma pow2_16 : pow2 16. Proof. exists 4. split; [lia|reflexivity]. Qed.

(** C15, C18, C19: adjacent superblocks of 512 bytes at 4096 and 4608. *)
Definition adj_orc (n : nat) : option Z := match n with O => Some 4096 | _ => Some 4608 end.
Definition adj_ops : list hop := [HAlloc 256 16; HAlloc 512 16; HAlloc 256 16].
Definition adj_start := Eval vm_compute in start_of (arena_construct 512 1024 (mkWorld [] adj_orc)).
Definition adj_result := Eval vm_compute in
  finish_of (run arena_allocate arena_deallocate adj_ops (fst adj_start) (mkWorld (ulog (snd adj_start)) adj_orc) []).
Definition adj_st : ast := fst (fst adj_result).
Definition adj_w : world := mkWorld (snd (fst adj_result)) adj_orc.
Lemma adj_reach maximum : maximum <> 2 ^ 64 - 1 ->
  arena_reach any_legal 512 maximum (mkArena (a_superblock adj_st) maximum (a_current adj_st) (a_free adj_st) (a_alloc adj_st))
    adj_w (snd adj_result).
Proof.
  intros HM.
  assert (HM' : (maximum =? 2 ^ 64 - 1) = false) by (apply Z.eqb_neq; auto).
  eapply (arena_run any_legal 512 maximum adj_orc _ _ adj_ops).
  - unfold arena_construct. rewrite HM'. reflexivity.
  - cbn [ops_legal adj_ops]. unfold any_legal. pose proof pow2_16. repeat (split; [split; [lia|auto]|]). auto.
  - reflexivity.
Qed.
Lemma adj_ok : upstream_ok (ulog adj_w).
Proof. apply upstream_okb_ok. reflexivity. Qed.

Lemma arena_overlap : exists initial maximum st w b c,
  0 < initial <= maximum /\ arena_reach any_legal initial maximum st w [b; c; mkBlock 4096 256 16] /\
  upstream_ok (ulog w) /\ overlap b c.
Proof.
  exists 512, 1024. eexists. exists adj_w, (mkBlock 4608 256 16), (mkBlock 4352 512 16).
  split; [lia|]. split; [exact (adj_reach 1024 ltac:(lia))|]. split; [exact adj_ok|].
  exists 4608. unfold in_block. cbn. lia.
Qed.

Lemma arena_over_maximum : exists initial maximum st w live,
  0 < initial <= maximum /\ arena_reach any_legal initial maximum st w live /\ upstream_ok (ulog w) /\
  maximum < fold_right (fun u n => bsize u + n) 0 (ulive (ulog w)).
Proof.
  exists 512, 600. eexists. exists adj_w. eexists. split; [lia|]. split; [exact (adj_reach 600 ltac:(lia))|].
  split; [exact adj_ok|]. vm_compute. reflexivity.
Qed.

Lemma arena_wrong_free : exists initial maximum st w live w',
  0 < initial <= maximum /\ arena_reach any_legal initial maximum st w live /\ upstream_ok (ulog w) /\
  arena_destroy st w = Ret w' /\ ~ frees_ok (ulog w').
Proof.
  exists 512, 1024. eexists. exists adj_w. eexists. eexists. split; [lia|]. split; [exact (adj_reach 1024 ltac:(lia))|].
  split; [exact adj_ok|]. split; [vm_compute; reflexivity|].
  cbn [ulog]. intros F. repeat (match type of F with _ /\ _ => destruct F as (?F1 & F) | frees_ok (_ :: _) => cbn [frees_ok] in F end).
  match goal with H : In _ (ulive [UAlloc _ _ _; UAlloc _ _ _]) |- _ => vm_compute in H;
    repeat (destruct H as [H|H]; try discriminate); auto end.
Qed.

(** C16: request above the superblock size; request close to 2^64. *)
Definition far_orc (n : nat) : option Z := Some (2 ^ 40 * (Z.of_nat n + 1)).
Definition big_start := Eval vm_compute in start_of (arena_construct 512 (2 ^ 30) (mkWorld [] far_orc)).
Lemma arena_unusable :
  (exists initial maximum st w size al st' w',
    0 < initial <= maximum /\ arena_reach any_legal initial maximum st w [] /\
    any_legal size al /\ 0 < size <= maximum /\
    arena_allocate st w size al = (Ret 0, st', w') /\ upstream_ok (ulog w')) /\
  (exists initial maximum st w size al p q st' st'',
    0 < initial <= maximum /\ arena_reach any_legal initial maximum st w [] /\ upstream_ok (ulog w) /\
    any_legal size al /\ 0 < size /\
    arena_allocate st w size al = (Ret p, st', w) /\ arena_allocate st' w 256 16 = (Ret q, st'', w) /\ p = q).
Proof.
  assert (HR : arena_reach any_legal 512 (2 ^ 30) (fst big_start) (mkWorld (ulog (snd big_start)) far_orc) []).
  { eapply (arena_run any_legal 512 (2 ^ 30) far_orc _ _ []); [reflexivity|exact I|reflexivity]. }
  split.
  - exists 512, (2 ^ 30), (fst big_start), (mkWorld (ulog (snd big_start)) far_orc), (2 ^ 18 + 1), 16.
    eexists. eexists. split; [lia|]. split; [exact HR|]. split; [split; [lia|exact pow2_16]|].
    split; [lia|]. split; [vm_compute; reflexivity|]. apply upstream_okb_ok. vm_compute. reflexivity.
  - exists 512, (2 ^ 30), (fst big_start), (mkWorld (ulog (snd big_start)) far_orc), (2 ^ 64 - 10), 16, (2 ^ 40), (2 ^ 40).
    eexists. eexists. split; [lia|]. split; [exact HR|]. split; [apply upstream_okb_ok; vm_compute; reflexivity|].
    split; [split; [lia|exact pow2_16]|]. split; [lia|]. split; [vm_compute; reflexivity|].
    split; [vm_compute; reflexivity|reflexivity].
Qed.

(** C17: an arena of 256 bytes, fully used. *)
Definition one_start := Eval vm_compute in start_of (arena_construct 256 (2 ^ 30) (mkWorld [] far_orc)).
Definition one_result := Eval vm_compute in
  finish_of (run arena_allocate arena_deallocate [HAlloc 100 16] (fst one_start) (mkWorld (ulog (snd one_start)) far_orc) []).
Lemma arena_end_dereferenced : exists initial maximum st w b,
  0 < initial <= maximum /\ arena_reach any_legal initial maximum st w [b] /\ upstream_ok (ulog w) /\
  arena_deallocate st w (bptr b) (bsize b) (balign b) = (UB, st, w).
Proof.
  exists 256, (2 ^ 30), (fst (fst one_result)), (mkWorld (snd (fst one_result)) far_orc), (mkBlock (2 ^ 40) 100 16).
  split; [lia|]. split; [|split].
  - eapply (arena_run any_legal 256 (2 ^ 30) far_orc _ _ [HAlloc 100 16]); [reflexivity| |vm_compute; reflexivity].
    cbn [ops_legal]. split; [|exact I]. split; [lia|exact pow2_16].
  - apply upstream_okb_ok. reflexivity.
  - vm_compute. reflexivity.
Qed.

(** C66: alignment 32 requested, upstream answers with a multiple of 16. *)
Definition odd_orc (n : nat) : option Z := Some 4112.
Lemma arena_misaligned : exists initial maximum st w b,
  0 < initial <= maximum /\ arena_reach any_legal initial maximum st w [b] /\ upstream_apart (ulog w) /\
  ~ (balign b | bptr b).
Proof.
  exists 512, 1024. eexists. exists (mkWorld [UAlloc 512 16 (Some 4112)] odd_orc), (mkBlock 4112 100 32).
  split; [lia|]. split; [|split].
  - eapply (arena_run any_legal 512 1024 odd_orc _ _ [HAlloc 100 32]); [reflexivity| |vm_compute; reflexivity].
    cbn [ops_legal]. split; [|exact I]. split; [lia|]. exists 5. split; [lia|reflexivity].
  - cbn. split; [lia|]. split; [lia|]. split; [exists 257; reflexivity|]. split; [intros c []|exact I].
  - intros (k & Hk). cbn in Hk. lia.
Qed.

(** C20: three superblocks, fragmented. *)
Definition aex_ops : list hop :=
  [HAlloc 200 16; HAlloc 300 16; HAlloc 1 8; HAlloc 900 16; HAlloc 5000 16; HFree 3; HFree 0; HAlloc 2000 64].
Definition aex_start := Eval vm_compute in start_of (arena_construct 1024 (2 ^ 30) (mkWorld [] far_orc)).
Definition aex_result := Eval vm_compute in
  finish_of (run arena_allocate arena_deallocate aex_ops (fst aex_start) (mkWorld (ulog (snd aex_start)) far_orc) []).
Definition aex_st : ast := fst (fst aex_result).
Definition aex_w : world := mkWorld (snd (fst aex_result)) far_orc.
Definition aex_live : list block := snd aex_result.
Lemma aex_reach : arena_reach (arena_legal 1024) 1024 (2 ^ 30) aex_st aex_w aex_live.
Proof.
  eapply (arena_run (arena_legal 1024) 1024 (2 ^ 30) far_orc _ _ aex_ops); [reflexivity| |vm_compute; reflexivity].
  cbn [ops_legal aex_ops]. unfold arena_legal, ceil256.
  repeat (split; [split; [lia|vm_compute; congruence]|]). exact I.
Qed.
Lemma aex_apart : upstream_apart (ulog aex_w).
Proof.
  cbn. repeat (split; [lia|]). 
  split; [apply Z.mod_divide; [lia|reflexivity]|]. split; [intros c [<-|[<-|[]]]; cbn; lia|].
  repeat (split; [lia|]). split; [apply Z.mod_divide; [lia|reflexivity]|]. split; [intros c [<-|[]]; cbn; lia|].
  repeat (split; [lia|]). split; [apply Z.mod_divide; [lia|reflexivity]|]. split; [intros c []|exact I].
Qed.
