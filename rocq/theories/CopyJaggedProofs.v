(** Proofs about vecmem::copy for jagged vectors. *)
From Verif Require Import Base BaseLemmas Copy CopyProofs.

(** The sizes that the inner vectors of a jagged view have in a memory: either none is
    resizable, or the sizes stand one after the other, as in the buffers of the library. *)
Definition fixed_sizes (l : list vview) : Prop := Forall (fun v => v_sizep v = 0) l.
Definition sizes_at (p : Z) (l : list vview) : Prop :=
  p <> 0 /\ forall i v, nth_error l i = Some v -> v_sizep v = p + 4 * Z.of_nat i.
Definition jagged_sizes (m : cmem) (l : list vview) (s : list Z) : Prop :=
  Forall2 (fun v n => 0 <= n <= v_cap v /\ v_cap v < 2 ^ 32) l s /\
  ((fixed_sizes l /\ s = map v_cap l) \/
   exists p, sizes_at p l /\ (0 < p) /\ get_bytes m p (4 * length l) = Some (flat_map le32 s)).

Lemma get_bytes_app n k : forall m a, get_bytes m a (n + k) =
  match get_bytes m a n, get_bytes m (a + Z.of_nat n) k with Some x, Some y => Some (x ++ y) | _, _ => None end.
Proof.
  induction n as [|n IH]; intros m a; cbn [Nat.add get_bytes].
  - change (Z.of_nat 0) with 0. rewrite Z.add_0_r. destruct (get_bytes m a k); reflexivity.
  - rewrite IH. replace (a + Z.of_nat (S n)) with (a + 1 + Z.of_nat n) by lia. destruct (m_byte m a); [|reflexivity].
    destruct (get_bytes m (a + 1) n); [|reflexivity]. destruct (get_bytes m (a + 1 + Z.of_nat n) k); reflexivity.
Qed.

Lemma unle32s_le32s s : Forall (fun n => 0 <= n < 2 ^ 32) s -> unle32s (length s) (flat_map le32 s) = s.
Proof.
  induction 1 as [|n s Hn _ IH]; [reflexivity|]. cbn [length unle32s flat_map].
  change (firstn 4 (le32 n ++ flat_map le32 s)) with (le32 n). change (skipn 4 (le32 n ++ flat_map le32 s)) with (flat_map le32 s).
  rewrite IH, unle32_le32 by auto. reflexivity.
Qed.
Lemma le32s_len s : length (flat_map le32 s) = (4 * length s)%nat.
Proof. induction s as [|n s IH]; [reflexivity|]. cbn [flat_map]. rewrite app_length, IH, le32_len. cbn [length]. lia. Qed.

Lemma Forall2_len {A B} (R : A -> B -> Prop) l l' : Forall2 R l l' -> length l = length l'.
Proof. induction 1; cbn; congruence. Qed.

Lemma get_sizes_from_fixed l m : fixed_sizes l -> get_sizes_from l m = (Ret None, m).
Proof.
  induction 1 as [|v l H _ IH]; [reflexivity|]. cbn [get_sizes_from]. rewrite H. cbn [Z.eqb negb]. rewrite Bool.andb_false_r.
  rewrite IH. reflexivity.
Qed.

Lemma sizes_at_tail p v l : sizes_at p (v :: l) -> 0 < p -> v_sizep v = p /\ sizes_at (p + 4) l.
Proof.
  intros (H0 & H) Hp. split; [rewrite (H 0%nat v eq_refl); lia|]. split; [lia|]. intros i w Hi. rewrite (H (S i) w Hi). lia.
Qed.

Lemma get_sizes_from_at m : forall l s p, Forall2 (fun v n => 0 <= n <= v_cap v /\ v_cap v < 2 ^ 32) l s -> sizes_at p l -> 0 < p ->
  get_bytes m p (4 * length l) = Some (flat_map le32 s) ->
  get_sizes_from l m = (Ret (Some s), m) \/ (get_sizes_from l m = (Ret None, m) /\ s = map v_cap l).
Proof.
  induction l as [|v l IH]; intros s p F Hs Hp Hg.
  - inversion F; subst. right. split; reflexivity.
  - inversion F as [|? n ? s' Hn F']; subst. destruct (sizes_at_tail _ _ _ Hs Hp) as (Hv & Hs'). cbn [get_sizes_from].
    destruct (v_cap v =? 0) eqn:Ec; cbn [negb andb].
    + assert (n = 0) by lia. subst n.
      assert (Hg' : get_bytes m (p + 4) (4 * length l) = Some (flat_map le32 s')).
      { replace (4 * length (v :: l))%nat with (4 + 4 * length l)%nat in Hg by (cbn [length]; lia). rewrite get_bytes_app in Hg.
        destruct (get_bytes m p 4) as [x|] eqn:Ex; [|discriminate]. change (Z.of_nat 4) with 4 in Hg.
        destruct (get_bytes m (p + 4) (4 * length l)) as [y|] eqn:Ey; [|discriminate]. injection Hg as E. f_equal.
        apply get_bytes_len in Ex. cbn [flat_map] in E. apply (f_equal (skipn 4)) in E.
        change (skipn 4 (le32 0 ++ flat_map le32 s')) with (flat_map le32 s') in E. rewrite skipn_app, skipn_all2, Ex in E by lia. exact E. }
      destruct (IH s' (p + 4) F' Hs' ltac:(lia) Hg') as [G|(G & E)]; rewrite G; cbn [cbind option_map].
      * left. reflexivity.
      * right. split; [reflexivity|]. cbn [map]. f_equal; [lia|auto].
    + rewrite Hv. replace (p =? 0) with false by lia. cbn [negb]. left.
      rewrite (do_copy_out_ok (4 * Z.of_nat (length (v :: l))) p m (flat_map le32 (n :: s'))).
      * cbn [cbind]. rewrite (Forall2_len _ _ _ F). rewrite unle32s_le32s; [reflexivity|].
        clear - F. induction F; constructor; auto. lia.
      * lia.
      * replace (Z.to_nat (4 * Z.of_nat (length (v :: l)))) with (4 * length (v :: l))%nat by lia. exact Hg.
Qed.

Theorem get_sizes_ok m l s : jagged_sizes m l s -> get_sizes l m = (Ret s, m).
Proof.
  intros (F & [(H & ->)|(p & H & Hp & Hg)]); unfold get_sizes.
  - rewrite get_sizes_from_fixed by auto. reflexivity.
  - destruct (get_sizes_from_at m l s p F H Hp Hg) as [G|(G & E)]; rewrite G; cbn [cbind]; congruence.
Qed.

(** ** set_sizes *)
Lemma check_sizes_ok perform : forall s l, Forall2 (fun v n => n <= v_cap v) l s ->
  (perform = true -> Forall (fun v => v_sizep v <> 0) l -> check_sizes s l perform = Ret true) /\
  (fixed_sizes l -> l <> [] -> check_sizes s l perform = Ret false).
Proof.
  intros s l F. revert perform. induction F as [|v n l s Hn F IH]; intros perform; cbn [check_sizes].
  - split; [intros -> _; reflexivity|congruence].
  - replace (v_cap v <? n) with false by lia. split.
    + intros -> H. inversion H as [|? ? Hv H']; subst. replace (v_sizep v =? 0) with false by lia. apply IH; auto.
    + intros H _. inversion H as [|? ? Hv H']; subst. rewrite Hv. cbn [Z.eqb]. destruct l as [|w l].
      * inversion F; subst. reflexivity.
      * apply IH; [auto|discriminate].
Qed.

Lemma sizes_at_nonnull p l : sizes_at p l -> 0 < p -> Forall (fun v => v_sizep v <> 0) l.
Proof.
  intros (_ & H) Hp. apply Forall_forall. intros v Hv. apply In_nth_error in Hv. destruct Hv as (i & Hi). rewrite (H i v Hi). lia.
Qed.

(** A fixed target is left alone; a resizable one gets exactly the sizes. *)
Theorem set_sizes_fixed s l m : Forall2 (fun v n => n <= v_cap v) l s -> fixed_sizes l -> set_sizes s l m = (Ret tt, m).
Proof.
  intros F H. unfold set_sizes. destruct l as [|v l]; [inversion F; subst; reflexivity|]. destruct s as [|n s]; [inversion F|].
  rewrite (Forall2_len _ _ _ F), Nat.eqb_refl. cbn [negb].
  destruct (check_sizes_ok true _ _ F) as (_ & G). rewrite G; auto. discriminate.
Qed.
Theorem set_sizes_resizable s l m p : Forall2 (fun v n => 0 <= n <= v_cap v /\ v_cap v < 2 ^ 32) l s -> sizes_at p l -> 0 < p ->
  acc m p (4 * Z.of_nat (length l)) ->
  exists m', set_sizes s l m = (Ret tt, m') /\ jagged_sizes m' l s /\ same_acc m m' /\
    changes (within p (4 * Z.of_nat (length l))) m m' /\ get_bytes m' p (4 * length l) = Some (flat_map le32 s).
Proof.
  intros F H Hp Ha. unfold set_sizes. pose proof (Forall2_len _ _ _ F) as L. destruct l as [|v l].
  - inversion F; subst. exists m. split; [reflexivity|]. split; [|split; [apply same_acc_refl|split; [apply changes_refl|reflexivity]]].
    split; [constructor|]. left. split; [constructor|reflexivity].
  - destruct s as [|n s]; [inversion F|]. replace (Nat.eqb (length (n :: s)) (length (v :: l))) with true by (symmetry; apply Nat.eqb_eq; auto). cbn [negb].
    assert (F' : Forall2 (fun v n => n <= v_cap v) (v :: l) (n :: s)).
    { clear - F. induction F; constructor; auto. lia. }
    destruct (check_sizes_ok true _ _ F') as (G & _). rewrite G by (auto; apply (sizes_at_nonnull p); auto).
    destruct (sizes_at_tail _ _ _ H Hp) as (Hv & _). rewrite Hv.
    destruct (do_copy_in_ok type_unknown (flat_map le32 (n :: s)) p m) as (m' & G' & C & S & B).
    + discriminate.
    + lia.
    + unfold kind_check. cbn [kind_ok]. apply Bool.orb_true_r.
    + rewrite le32s_len, <- L. replace (Z.of_nat (4 * length (v :: l))) with (4 * Z.of_nat (length (v :: l))) by lia. exact Ha.
    + exists m'. split; [exact G'|]. rewrite le32s_len, <- L in C, B.
      replace (Z.of_nat (4 * length (v :: l))) with (4 * Z.of_nat (length (v :: l))) in C by lia.
      split; [|split; [exact S|split; [exact C|exact B]]]. split; [exact F|]. right. exists p. auto.
Qed.
(** Wrong numbers of sizes, and sizes beyond the capacities, are reported without a write. *)
Theorem set_sizes_length s l m : length s <> length l -> set_sizes s l m = (Throw length_error, m).
Proof.
  intros H. unfold set_sizes. assert (E : Nat.eqb (length s) (length l) = false) by (apply Nat.eqb_neq; auto).
  destruct s, l; try rewrite E; try reflexivity. exfalso. apply H. reflexivity.
Qed.
Lemma check_sizes_bad s l b : Exists (fun p => v_cap (fst p) < snd p) (combine l s) -> exists e, check_sizes s l b = Throw e.
Proof.
  revert s b. induction l as [|v l IH]; intros s b; [intros H; inversion H|]. destruct s as [|n s]; [intros H; inversion H|].
  cbn [combine check_sizes]. destruct (v_cap v <? n) eqn:E; [intros _; eexists; reflexivity|]. intros H.
  inversion H as [? ? Hh|? ? Ht]; subst; [cbn in Hh; lia|]. destruct (v_sizep v =? 0); [apply IH; auto|]. destruct b; [apply IH; auto|]. eexists. reflexivity.
Qed.
Theorem set_sizes_capacity s l m : length s = length l -> Exists (fun p => v_cap (fst p) < snd p) (combine l s) ->
  exists e, set_sizes s l m = (Throw e, m).
Proof.
  intros L H. unfold set_sizes. destruct s as [|n s]; [destruct l; inversion H|]. destruct l as [|v l]; [inversion H|].
  rewrite L, Nat.eqb_refl. cbn [negb]. destruct (check_sizes_bad _ _ true H) as (e & G). rewrite G. exists e. reflexivity.
Qed.
(** For consistent targets it is always [length_error]. *)
Theorem set_sizes_capacity' s l m : length s = length l -> Exists (fun p => v_cap (fst p) < snd p) (combine l s) ->
  (fixed_sizes l \/ Forall (fun v => v_sizep v <> 0) l) -> set_sizes s l m = (Throw length_error, m).
Proof.
  intros L H C. unfold set_sizes. destruct s as [|n s]; [destruct l; inversion H|]. destruct l as [|v l]; [inversion H|].
  rewrite L, Nat.eqb_refl. cbn [negb].
  assert (G : forall l s b, Exists (fun p => v_cap (fst p) < snd p) (combine l s) ->
            (fixed_sizes l \/ (b = true /\ Forall (fun v => v_sizep v <> 0) l)) -> check_sizes s l b = Throw length_error).
  { clear. induction l as [|v l IH]; intros s b H; [inversion H|]. destruct s as [|n s]; [inversion H|]. cbn [combine check_sizes] in *.
    destruct (v_cap v <? n) eqn:E; [reflexivity|]. inversion H as [? ? Hh|? ? Ht]; subst; [cbn in Hh; lia|].
    intros [C|(-> & C)]; inversion C as [|? ? Cv C']; subst.
    - rewrite Cv. cbn [Z.eqb]. apply IH; auto.
    - replace (v_sizep v =? 0) with false by lia. apply IH; auto.
  }
  rewrite (G _ _ _ H); [reflexivity|]. destruct C; auto.
Qed.
