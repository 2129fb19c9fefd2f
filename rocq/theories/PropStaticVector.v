(** Properties of static_vector: C39, C40, C41, C75, C76, C77. *)
From Verif Require Import Base BaseLemmas Slots StaticVector StaticVectorProofs StaticVectorTheorems.

(** ** C39: the operations refine a bounded list *)
Theorem C39_step {A : Type} (dflt : A) (s : svec A) l o r l' :
  sholds s l -> args_ok o = true -> alias_ok o = true -> slstep dflt (sv_cap s) l o = Some (r, l') ->
  exists s', sstep dflt s o = Ret (r, s') /\ sholds s' l' /\ sv_cap s' = sv_cap s.
Proof. exact (sstep_thm dflt s l o r l'). Qed.
Print Assumptions C39_step.

Theorem C39_runs {A : Type} (dflt : A) ops (s : svec A) l rs l' :
  sholds s l -> (forall o, In o ops -> args_ok o = true /\ alias_ok o = true) ->
  slruns dflt (sv_cap s) l ops = Some (rs, l') ->
  exists s', sruns dflt s ops = Ret (rs, s') /\ sholds s' l' /\ sv_cap s' = sv_cap s.
Proof. exact (sruns_thm dflt ops s l rs l'). Qed.
Print Assumptions C39_runs.

Theorem C39_elements {A : Type} (s : svec A) l : sholds s l -> sv_elements s = Ret l.
Proof. exact (selements_thm s l). Qed.
Print Assumptions C39_elements.

Theorem C39_default_construct {A : Type} cap : Z.of_nat cap < 2 ^ 63 ->
  sholds (@sv_new A cap) [] /\ sv_cap (@sv_new A cap) = Z.of_nat cap.
Proof. exact (raw_holds cap). Qed.
Print Assumptions C39_default_construct.

Theorem C39_range_construct {A : Type} cap (v : list A) : Z.of_nat cap < 2 ^ 63 -> slen v <= Z.of_nat cap ->
  exists s, sv_new_range cap v = Ret s /\ sholds s v /\ sv_cap s = Z.of_nat cap.
Proof. exact (new_range_thm cap v). Qed.
Print Assumptions C39_range_construct.

Theorem C39_copy_construct {A : Type} (p : svec A) l : sholds p l ->
  exists s, sv_new_copy p = Ret s /\ sholds s l /\ sv_cap s = sv_cap p.
Proof. exact (new_copy_thm p l). Qed.
Print Assumptions C39_copy_construct.

(** A run over all kinds of operations, on a vector of capacity 7. *)
Definition c39_ops : list (sop Z) :=
  [SPush (AVal 1); SPush (AVal 2); SInsert 1 (AVal 5); SInsertN 0 2 (ARef 1); SPush (ARef 4); SInsertRange 2 [8];
   SErase 0; SPop; SEraseRange 1 3; SResizeVal 5 (ARef 0); SAt 4; SEmplaceBack (AVal 3); SAssign 3 (AVal 4); SResize 4;
   SEmplace 2 (AVal 6); SBack; SFront; SSize; SGet 2].
Example C39_runs_ex :
  slruns 0 7 [] c39_ops =
    Some ([SUnit; SUnit; SPos 1; SPos 0; SUnit; SPos 2; SPos 0; SUnit; SPos 1; SUnit; SElem 5; SElem 3; SUnit; SUnit; SPos 2; SElem 0; SElem 4; SNum 5; SElem 6],
          [4; 4; 6; 4; 0]) /\
  forallb (fun o => args_ok o && alias_ok o) c39_ops = true.
Proof. split; vm_compute; reflexivity. Qed.
Example C39_runs_model :
  match sruns 0 (sv_new 7) c39_ops with Ret (_, s) => sv_elements s | _ => UB end = Ret [4; 4; 6; 4; 0].
Proof. vm_compute. reflexivity. Qed.

(** ** C40: element lifetimes *)
(** The constructor with a size and a value destroys objects which do not exist. *)
Theorem C40_refuted : exists (cap : nat) (n : Z) (x : Z), 0 < n <= Z.of_nat cap /\ sv_new_fill cap n x = UB.
Proof. exists 3%nat, 2, 7. split; [cbn; lia|exact (new_fill_bad 3 2 7 eq_refl)]. Qed.
Print Assumptions C40_refuted.

Theorem C40_fill_construct {A : Type} cap n (x : A) : 0 < n -> sv_new_fill cap n x = UB.
Proof. exact (new_fill_bad cap n x). Qed.
Print Assumptions C40_fill_construct.

(** With the other constructors ([sholds] is established by C39_*_construct and kept by
    C39_step): no storage of an object was ever reused without destroying the object, and
    the objects are exactly the elements.  That every destructor call hits an object is
    part of C39_step: [sv_destruct] has no result otherwise. *)
Theorem C40_lifetimes_partial {A : Type} (s : svec A) l :
  sholds s l -> sv_lost s = 0%nat /\ forall i, (exists a, nth_error (sv_mem s) i = Some (SVal a)) <-> Z.of_nat i < sv_size s.
Proof. exact (lifetimes_thm s l). Qed.
Print Assumptions C40_lifetimes_partial.

Theorem C40_destroy_partial {A : Type} (s : svec A) l : sholds s l -> exists s', sv_delete s = Ret s' /\ sholds s' [].
Proof. exact (delete_thm s l). Qed.
Print Assumptions C40_destroy_partial.

Example C40_ex : exists s, sv_new_range 4 [1; 2; 3] = Ret s /\ sholds s [1; 2; 3].
Proof. destruct (C39_range_construct 4 [1; 2; 3]) as (s & E & H & _); [reflexivity|cbn; lia|]. exists s. auto. Qed.

(** ** C41: inserting an element of the vector itself *)
(** [insert(begin(), v[1])] on [1; 2; 3] inserts 1 instead of 2. *)
Theorem C41_refuted : exists (s s' : svec Z) l,
  sholds s l /\ l = [1; 2; 3] /\ sv_insert s 0 (ARef 1) = Ret (0, s') /\ sv_elements s' = Ret [1; 1; 2; 3].
Proof.
  destruct (C39_range_construct 5 [1; 2; 3]) as (s & E & H & _); [reflexivity|cbn; lia|].
  vm_compute in E. injection E as <-. eexists. eexists. exists [1; 2; 3]. split; [exact H|]. split; [reflexivity|]. split; vm_compute; reflexivity.
Qed.
Print Assumptions C41_refuted.

(** What is inserted when the argument lies at or beyond [p + n]: the element [n] places
    before it. *)
Theorem C41_late_alias {A : Type} (s : svec A) l p n i :
  sholds s l -> 0 < n -> 0 <= p <= slen l -> slen l + n <= sv_cap s -> p + n <= i < slen l ->
  exists b, nth_error l (Z.to_nat (i - n)) = Some b /\
  exists s', sv_insert_n s p n (ARef i) = Ret (p, s') /\
             sholds s' (firstn (Z.to_nat p) l ++ repeat b (Z.to_nat n) ++ skipn (Z.to_nat p) l).
Proof. exact (late_alias_thm s l p n i). Qed.
Print Assumptions C41_late_alias.

(** Arguments before [p + n] are inserted correctly. *)
Theorem C41_early_alias_partial {A : Type} (s : svec A) l p n i a :
  sholds s l -> 0 < n -> 0 <= p <= slen l -> slen l + n <= sv_cap s -> 0 <= i < p + n -> nth_error l (Z.to_nat i) = Some a ->
  exists s', sv_insert_n s p n (ARef i) = Ret (p, s') /\
             sholds s' (firstn (Z.to_nat p) l ++ repeat a (Z.to_nat n) ++ skipn (Z.to_nat p) l).
Proof. exact (early_alias_thm s l p n i a). Qed.
Print Assumptions C41_early_alias_partial.

Example C41_ex : exists s : svec Z, sholds s [1; 2; 3] /\ slen [1; 2; 3] + 2 <= sv_cap s.
Proof.
  destruct (C39_range_construct 6 [1; 2; 3]) as (s & E & H & C); [reflexivity|cbn; lia|]. exists s. split; [exact H|]. rewrite C. cbn. lia.
Qed.

(** ** C75: copy assignment *)
(** After [a = b], the old element of [a] is lost and destroying [a] is undefined. *)
Theorem C75_refuted : exists (a b : svec Z), sholds a [1] /\ sholds b [2; 3] /\
  sv_lost (sv_copy_assign a b) = 1%nat /\ sv_delete (sv_copy_assign a b) = UB.
Proof.
  destruct (C39_range_construct 2 [1]) as (a & Ea & Ha & _); [reflexivity|cbn; lia|].
  destruct (C39_range_construct 2 [2; 3]) as (b & Eb & Hb & _); [reflexivity|cbn; lia|].
  exists a, b. split; [exact Ha|]. split; [exact Hb|]. vm_compute in Ea. vm_compute in Eb. injection Ea as <-. injection Eb as <-.
  split; vm_compute; reflexivity.
Qed.
Print Assumptions C75_refuted.

(** The values are the right ones. *)
Theorem C75_values_partial {A : Type} (a b : svec A) l : sholds b l -> sv_elements (sv_copy_assign a b) = Ret l.
Proof. exact (copy_assign_values a b l). Qed.
Print Assumptions C75_values_partial.

(** ** C76: alignment of the elements *)
(** A 16-aligned element type, in a static_vector placed at a 16-aligned address. *)
Theorem C76_refuted : exists base i, (sv_alignof | base) /\ (16 | base) /\ ~ (16 | sv_element_address base 16 i).
Proof.
  exists 4096, 0. split; [exists 512; reflexivity|]. split; [exists 256; reflexivity|]. intros D. apply Z.mod_divide in D; [|discriminate]. discriminate D.
Qed.
Print Assumptions C76_refuted.

Theorem C76_aligned_partial base sizeof_t alignof_t i :
  (sv_alignof | base) -> (alignof_t | 8) -> (alignof_t | sizeof_t) -> (alignof_t | sv_element_address base sizeof_t i).
Proof. exact (element_aligned base sizeof_t alignof_t i). Qed.
Print Assumptions C76_aligned_partial.
Example C76_ex : (sv_alignof | 4096) /\ (4 | 8) /\ (4 | 12).
Proof. split; [exists 512; reflexivity|]. split; [exists 2; reflexivity|exists 3; reflexivity]. Qed.

(** ** C77: calls outside of the specification stop at an assert *)
Theorem C77_asserts {A : Type} (dflt : A) (s : svec A) l o :
  sholds s l -> args_ok o = true -> iters_ok o = true -> no_alias o = true -> (forall i, o <> SGet i) ->
  slstep dflt (sv_cap s) l o = None -> sstep dflt s o = UB.
Proof. exact (asserts_thm dflt s l o). Qed.
Print Assumptions C77_asserts.
Example C77_ex : slstep 0 5 [1; 2; 3] (SInsertN 1 (2 ^ 64 - 1) (AVal 9)) = None /\
  args_ok (SInsertN 1 (2 ^ 64 - 1) (AVal 9)) = true /\ slstep 0 5 [1; 2; 3] (SErase 3) = None.
Proof. repeat split; vm_compute; reflexivity. Qed.
