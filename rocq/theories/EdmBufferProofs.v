(** Proofs about edm::buffer. *)
From Verif Require Import Base BaseLemmas IntMath IntMathProofs Align AlignProofs Placement PlacementProofs JaggedBufferProofs EdmBuffer.

(** ** Lists of sections *)
Lemma placed_app lo hi ts1 ts2 ps : Forall sect_ok ts1 -> placed lo hi (ts1 ++ ts2) ps ->
  exists mid, lo <= mid /\ placed lo mid ts1 (firstn (length ts1) ps) /\ placed mid hi ts2 (skipn (length ts1) ps).
Proof.
  intros HF. revert lo ps. induction HF as [|t ts (H1 & H2 & H3) HF IH]; intros lo ps H.
  - exists lo. split; [lia|]. split; [cbn; lia|exact H].
  - destruct ps as [|x ps]; [destruct H|]. cbn [app placed length firstn skipn] in *.
    destruct (s_n t =? 0).
    + destruct H as (-> & H). destruct (IH _ _ H) as (mid & M0 & M1 & M2). exists mid. auto.
    + destruct H as (A & B & H). destruct (IH _ _ H) as (mid & M0 & M1 & M2). exists mid.
      pose proof (Z.mul_nonneg_nonneg (s_n t) (s_esz t) H3 ltac:(lia)). split; [lia|]. auto.
Qed.

Definition count (ts : list sect) : Z := fold_right (fun t m => s_n t + m) 0 ts.

(** Sections of the same type leave no gaps. *)
Definition uniform (E A : Z) (ts : list sect) : Prop :=
  forall t, In t ts -> 0 < s_n t -> s_esz t = E /\ s_al t = A.

Lemma aligned_unique A lo x : 0 < A -> (A | lo) -> (A | x) -> lo <= x < lo + A -> x = lo.
Proof.
  intros HA (k & ->) (m & ->) H. assert (m = k); [|subst; auto].
  destruct (Z_lt_ge_dec m k) as [L|L].
  - pose proof (Z.mul_lt_mono_pos_r A m k HA). lia.
  - destruct (Z.eq_dec m k); auto. pose proof (Z.mul_le_mono_nonneg_r (k + 1) m A ltac:(lia) ltac:(lia)). lia.
Qed.

Lemma uniform_aligned E A lo hi ts ps : 0 < E -> 0 < A -> (A | E) -> Forall sect_ok ts -> uniform E A ts ->
  (A | lo) -> placed lo hi ts ps ->
  forall i t x, nth_error ts i = Some t -> nth_error ps i = Some x -> 0 < s_n t -> x = lo + E * count (firstn i ts).
Proof.
  intros HE HA HAE HF. revert lo ps. induction HF as [|u ts (H1 & H2 & H3) HF IH]; intros lo ps HU Hlo HP [|i] t x Et Ex Hn;
    try discriminate; destruct ps as [|y ps]; try discriminate; cbn [placed nth_error firstn] in *.
  - injection Et as ->. injection Ex as ->. replace (s_n t =? 0) with false in HP by (symmetry; apply Z.eqb_neq; lia).
    destruct HP as (P1 & P2 & _). destruct (HU t (or_introl eq_refl) Hn) as (_ & EA). rewrite EA in *.
    cbn [count fold_right]. rewrite Z.mul_0_r, Z.add_0_r. apply (aligned_unique A); auto.
  - cbn [count fold_right]. fold (count (firstn i ts)). assert (HU' : uniform E A ts) by (intros v Hv; apply HU; right; auto).
    destruct (s_n u =? 0) eqn:E0.
    + apply Z.eqb_eq in E0. destruct HP as (_ & HP). rewrite E0, Z.add_0_l. eapply IH; eauto.
    + apply Z.eqb_neq in E0. destruct HP as (P1 & P2 & HP). destruct (HU u (or_introl eq_refl) ltac:(lia)) as (EE & EA).
      rewrite EE, EA in *. assert (y = lo) by (apply (aligned_unique A); auto). subst y.
      rewrite (IH (lo + s_n u * E) ps HU' ltac:(apply Z.divide_add_r; [auto|apply Z.divide_mul_r; auto]) HP i t x Et Ex Hn).
      rewrite Z.mul_add_distr_l. lia.
Qed.

Lemma count_nonneg ts : Forall sect_ok ts -> 0 <= count ts.
Proof. induction 1 as [|t ts (_ & _ & H3) HF IH]; cbn [count fold_right]; [lia|]. fold (count ts). lia. Qed.

Lemma uniform_first E A lo hi ts ps : 0 < lo -> 0 < E -> 0 < A -> (A | E) -> Forall sect_ok ts -> uniform E A ts ->
  placed lo hi ts ps ->
  (0 < count ts -> 0 < find_first ps /\ (A | find_first ps)) /\
  forall i t x, nth_error ts i = Some t -> nth_error ps i = Some x -> 0 < s_n t ->
    x = find_first ps + E * count (firstn i ts).
Proof.
  intros Hlo0 HE HA HAE HF. revert ps. induction HF as [|u ts (H1 & H2 & H3) HF IH]; intros ps HU HP.
  - split; [cbn; lia|]. intros [|i]; discriminate.
  - destruct ps as [|y ps]; [destruct HP|]. cbn [placed] in HP. cbn [count fold_right find_first]. fold (count ts).
    assert (HU' : uniform E A ts) by (intros v Hv; apply HU; right; auto).
    destruct (s_n u =? 0) eqn:E0.
    + apply Z.eqb_eq in E0. destruct HP as (-> & HP). rewrite E0, Z.eqb_refl, Z.add_0_l.
      destruct (IH ps HU' HP) as (I1 & I2). split; [auto|].
      intros [|i] t x Et Ex Hn; cbn [nth_error] in *.
      * injection Et as ->. lia.
      * cbn [firstn count fold_right]. fold (count (firstn i ts)). rewrite E0, Z.add_0_l. eauto.
    + apply Z.eqb_neq in E0. destruct HP as (P1 & P2 & HP). destruct (HU u (or_introl eq_refl) ltac:(lia)) as (EE & EA).
      rewrite EE, EA in *. replace (y =? 0) with false by (symmetry; apply Z.eqb_neq; lia).
      split; [intros _; split; [lia|auto]|]. intros [|i] t x Et Ex Hn; cbn [nth_error] in *.
      * injection Ex as ->. cbn. lia.
      * cbn [firstn count fold_right]. fold (count (firstn i ts)).
        rewrite (uniform_aligned E A (y + s_n u * E) hi ts ps HE HA HAE HF HU' ltac:(apply Z.divide_add_r; [auto|apply Z.divide_mul_r; auto]) HP i t x Et Ex Hn).
        rewrite Z.mul_add_distr_l. lia.
Qed.

(** ** find_first_pointer, find_last_pointer *)
Definition some_ptr (l : list (Z * sect)) : bool := existsb (fun x => negb (fst x =? 0)) l.

Lemma find_last_rev_app l p t : find_last_rev (l ++ [(p, t)]) =
  if some_ptr l then find_last_rev l else if p =? 0 then 0 else p + s_esz t * s_n t.
Proof.
  induction l as [|[q u] l IH]; cbn [app find_last_rev some_ptr existsb fst]; [reflexivity|].
  destruct (q =? 0); cbn [negb orb]; auto.
Qed.
Lemma existsb_rev {X} (f : X -> bool) l : existsb f (rev l) = existsb f l.
Proof.
  induction l as [|x l IH]; cbn [rev existsb]; auto. rewrite existsb_app, IH. cbn [existsb].
  destruct (f x), (existsb f l); reflexivity.
Qed.
Lemma find_last_cons p t ps ts : find_last (p :: ps) (t :: ts) =
  if some_ptr (combine ps ts) then find_last ps ts else if p =? 0 then 0 else p + s_esz t * s_n t.
Proof.
  unfold find_last. cbn [combine rev]. rewrite find_last_rev_app. unfold some_ptr. rewrite existsb_rev. reflexivity.
Qed.

Lemma some_ptr_spec lo hi ts ps : 0 < lo -> Forall sect_ok ts -> placed lo hi ts ps ->
  (some_ptr (combine ps ts) = true <-> 0 < count ts).
Proof.
  intros Hlo HF. revert lo Hlo ps. induction HF as [|u ts (H1 & H2 & H3) HF IH]; intros lo Hlo ps HP.
  - destruct ps; [|destruct HP]. cbn. split; [discriminate|lia].
  - destruct ps as [|y ps]; [destruct HP|]. cbn [placed] in HP. cbn [combine some_ptr existsb count fold_right fst].
    fold (count ts). pose proof (count_nonneg ts HF). destruct (s_n u =? 0) eqn:E0.
    + apply Z.eqb_eq in E0. destruct HP as (-> & HP). rewrite E0, Z.eqb_refl. cbn [negb orb]. apply (IH lo Hlo ps HP).
    + apply Z.eqb_neq in E0. destruct HP as (P1 & P2 & HP).
      replace (y =? 0) with false by (symmetry; apply Z.eqb_neq; lia). cbn [negb orb]. split; [lia|auto].
Qed.

(** The ends of the sub-arrays. *)
Lemma find_ends lo hi ts ps : 0 < lo -> Forall sect_ok ts -> placed lo hi ts ps ->
  (count ts = 0 -> find_first ps = 0 /\ find_last ps ts = 0) /\
  (0 < count ts ->
     lo <= find_first ps /\ find_last ps ts <= hi /\
     (exists i t, nth_error ts i = Some t /\ 0 < s_n t /\ nth_error ps i = Some (find_first ps)) /\
     (exists j u y, nth_error ts j = Some u /\ 0 < s_n u /\ nth_error ps j = Some y /\ find_last ps ts = y + s_n u * s_esz u)) /\
  (forall i t x, nth_error ts i = Some t -> nth_error ps i = Some x -> 0 < s_n t ->
     find_first ps <= x /\ x + s_n t * s_esz t <= find_last ps ts).
Proof.
  intros Hlo HF. revert lo Hlo ps. induction HF as [|u ts (H1 & H2 & H3) HF IH]; intros lo Hlo ps HP.
  - destruct ps; [|destruct HP]. cbn. split; [auto|]. split; [lia|]. intros [|i]; discriminate.
  - destruct ps as [|y ps]; [destruct HP|]. cbn [placed] in HP. rewrite find_last_cons. cbn [count fold_right find_first].
    fold (count ts). pose proof (count_nonneg ts HF) as Hc. destruct (s_n u =? 0) eqn:E0.
    + apply Z.eqb_eq in E0. destruct HP as (-> & HP). rewrite E0, Z.eqb_refl, Z.add_0_l.
      destruct (IH lo Hlo ps HP) as (I1 & I2 & I3). pose proof (some_ptr_spec lo hi ts ps Hlo HF HP) as SP.
      split; [|split].
      * intros Hz. destruct (I1 Hz) as (F1 & F2). split; [auto|]. destruct (some_ptr (combine ps ts)); auto.
      * intros Hz. destruct (some_ptr (combine ps ts)); [|apply SP in Hz; discriminate].
        destruct (I2 Hz) as (A & B & (i & t & C) & (j & v & z & D)). split; [auto|]. split; [auto|]. split.
        -- exists (S i), t. exact C.
        -- exists (S j), v, z. exact D.
      * intros [|i] t x Et Ex Hn; cbn [nth_error] in *; [injection Et as ->; lia|].
        assert (0 < count ts).
        { clear - HF Et Hn. revert i Et. induction HF as [|v ts (_ & _ & H3) HF IH]; intros [|i] Et; try discriminate; cbn [nth_error count fold_right] in *; fold (count ts).
          - injection Et as ->. pose proof (count_nonneg ts HF). lia.
          - specialize (IH _ Et). lia. }
        destruct (some_ptr (combine ps ts)); [|apply SP in H; discriminate]. eauto.
    + apply Z.eqb_neq in E0. destruct HP as (P1 & P2 & HP).
      replace (y =? 0) with false by (symmetry; apply Z.eqb_neq; lia).
      pose proof (Z.mul_nonneg_nonneg (s_n u) (s_esz u) H3 ltac:(lia)) as Hm.
      assert (Hlo' : 0 < y + s_n u * s_esz u) by lia.
      destruct (IH _ Hlo' ps HP) as (I1 & I2 & I3). pose proof (some_ptr_spec _ hi ts ps Hlo' HF HP) as SP.
      pose proof (placed_le _ _ _ _ HF HP) as Hle. rewrite (Z.mul_comm (s_esz u)).
      split; [lia|]. split.
      * intros _. split; [lia|]. destruct (some_ptr (combine ps ts)) eqn:ES.
        -- destruct (I2 (proj1 SP eq_refl)) as (A & B & _ & (j & v & z & D)). split; [auto|]. split.
           ++ exists 0%nat, u. split; [reflexivity|]. split; [lia|reflexivity].
           ++ exists (S j), v, z. exact D.
        -- split; [lia|]. split.
           ++ exists 0%nat, u. split; [reflexivity|]. split; [lia|reflexivity].
           ++ exists 0%nat, u, y. split; [reflexivity|]. split; [lia|]. split; reflexivity.
      * intros [|i] t x Et Ex Hn; cbn [nth_error] in *.
        -- injection Et as ->. injection Ex as ->. split; [lia|]. destruct (some_ptr (combine ps ts)) eqn:ES; [|lia].
           destruct (I2 (proj1 SP eq_refl)) as (A & B & _ & (j & v & z & D1 & D2 & D3 & D4)).
           destruct (placed_nth _ _ _ _ HF HP j v z D1 D3) as (_ & D5). specialize (D5 D2).
           rewrite Forall_forall in HF. pose proof (HF v (nth_error_In _ _ D1)) as (V1 & _).
           pose proof (Z.mul_nonneg_nonneg (s_n v) (s_esz v) ltac:(lia) ltac:(lia)). lia.
        -- destruct (placed_nth _ _ _ _ HF HP i t x Et Ex) as (_ & D5). specialize (D5 Hn).
           destruct (I3 i t x Et Ex Hn) as (J1 & J2). split; [lia|].
           destruct (some_ptr (combine ps ts)) eqn:ES; [auto|].
           assert (0 < count ts); [|apply SP in H; discriminate].
           { clear - HF Et Hn. revert i Et. induction HF as [|v ts (_ & _ & H3) HF IH]; intros [|i] Et; try discriminate; cbn [nth_error count fold_right] in *; fold (count ts).
             - injection Et as ->. pose proof (count_nonneg ts HF). lia.
             - specialize (IH _ Et). lia. }
Qed.
