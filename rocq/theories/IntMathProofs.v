(** Proofs about [IntMath]. *)
From Verif Require Import Base IntMath.

Lemma pow2_pos k : 0 <= k -> 0 < 2 ^ k.
Proof. intros. apply Z.pow_pos_nonneg; lia. Qed.

Lemma pow2_succ k : 0 <= k -> 2 ^ (k + 1) = 2 * 2 ^ k.
Proof. intros. rewrite Z.pow_add_r by lia. lia. Qed.

Lemma wrap_shift1 i : 0 <= i < 64 -> wrap64 (Z.shiftl 1 i) = 2 ^ i.
Proof.
  intros H. rewrite Z.shiftl_mul_pow2 by lia. rewrite Z.mul_1_l.
  unfold wrap64, two64. apply Z.mod_small. split.
  - apply Z.pow_nonneg; lia.
  - apply Z.pow_lt_mono_r; lia.
Qed.

(** Loop invariant of [round_up]. *)
Lemma round_up_loop_spec fuel : forall i size,
  0 <= i -> i + Z.of_nat fuel = 64 ->
  (forall j, 0 <= j < i -> 2 ^ j < size) ->
  (exists r, i <= r < 64 /\ round_up_loop fuel i size = r /\ size <= 2 ^ r /\
        (forall j, 0 <= j < r -> 2 ^ j < size))
  \/ (round_up_loop fuel i size = 0 /\ forall j, 0 <= j < 64 -> 2 ^ j < size).
Proof.
  induction fuel as [|f IH]; intros i size Hi Hf Hj; cbn [round_up_loop].
  - right. split; auto. intros j Hjj. apply Hj. lia.
  - rewrite wrap_shift1 by lia.
    destruct (Z.leb_spec size (2 ^ i)) as [Hle|Hgt].
    + left. exists i. repeat split; auto; lia.
    + destruct (IH (i + 1) size) as [(r & H1 & H2 & H3 & H4)|H]; auto; try lia.
      { intros j Hjj. destruct (Z.eq_dec j i) as [->|]; [lia|]. apply Hj. lia. }
      left. exists r. repeat split; auto; lia.
Qed.

Lemma round_up_spec n :
  0 <= n <= 2 ^ 63 ->
  0 <= round_up n < 64 /\ n <= 2 ^ round_up n /\
  (forall j, 0 <= j < round_up n -> 2 ^ j < n).
Proof.
  intros H. unfold round_up.
  destruct (round_up_loop_spec 64 0 n) as [(r & H1 & H2 & H3 & H4)|[_ H2]]; try lia.
  - subst r. repeat split; auto; lia.
  - specialize (H2 63). lia.
Qed.

Lemma round_up_large n : 2 ^ 63 < n < 2 ^ 64 -> round_up n = 0.
Proof.
  intros H. unfold round_up.
  destruct (round_up_loop_spec 64 0 n) as [(r & H1 & H2 & H3 & H4)|[H1 _]]; try lia; auto.
  exfalso. assert (2 ^ r <= 2 ^ 63) by (apply Z.pow_le_mono_r; lia). lia.
Qed.

Lemma round_up_mono m n : 0 <= m -> m <= n -> n <= 2 ^ 63 -> round_up m <= round_up n.
Proof.
  intros H1 H2 H3.
  destruct (round_up_spec m) as (Hm1 & Hm2 & Hm3); [lia|].
  destruct (round_up_spec n) as (Hn1 & Hn2 & Hn3); [lia|].
  destruct (Z_le_gt_dec (round_up m) (round_up n)); auto.
  exfalso. specialize (Hm3 (round_up n)). lia.
Qed.

(** Bit-level facts for [clzl]. *)
Lemma land_pow2_zero x k : 0 <= x -> 0 <= k ->
  (Z.land x (2 ^ k) =? 0) = negb (Z.testbit x k).
Proof.
  intros Hx Hk. destruct (Z.testbit x k) eqn:E; simpl.
  - apply Z.eqb_neq. intros H.
    assert (Z.testbit (Z.land x (2 ^ k)) k = false) by (rewrite H; apply Z.bits_0).
    rewrite Z.land_spec, E, Z.pow2_bits_true in H0 by lia. discriminate.
  - apply Z.eqb_eq. apply Z.bits_inj'. intros n Hn.
    rewrite Z.land_spec, Z.bits_0, Z.pow2_bits_eqb by lia.
    destruct (Z.eqb_spec k n) as [->|]; [rewrite E|]; auto using andb_false_r.
Qed.

Lemma testbit_shift63 i b : 0 < i < 2 ^ 64 -> 0 <= b <= 63 ->
  Z.testbit (wrap64 (Z.shiftl i b)) 63 = Z.testbit i (63 - b).
Proof.
  intros Hi Hb. unfold wrap64, two64. rewrite Z.mod_pow2_bits_low by lia.
  rewrite Z.shiftl_spec by lia. reflexivity.
Qed.

Lemma clzl_loop_spec fuel : forall i b,
  0 < i < 2 ^ 64 -> 0 <= b -> b + Z.of_nat fuel = 64 ->
  Z.log2 i <= 63 - b ->
  clzl_loop fuel i b = Some (63 - Z.log2 i).
Proof.
  induction fuel as [|f IH]; intros i b Hi Hb Hf Hl; cbn [clzl_loop].
  - pose proof (Z.log2_nonneg i). lia.
  - rewrite land_pow2_zero; [|apply Z.mod_pos_bound; reflexivity|lia].
    rewrite testbit_shift63 by lia.
    destruct (Z.eq_dec (Z.log2 i) (63 - b)) as [E|NE].
    + rewrite <- E, Z.bit_log2 by lia. cbn [negb]. f_equal. lia.
    + rewrite Z.bits_above_log2 by lia. cbn [negb]. apply IH; auto; lia.
Qed.

Lemma clzl_spec i : 0 < i < 2 ^ 64 -> clzl i = Some (63 - Z.log2 i).
Proof.
  intros H. apply clzl_loop_spec; auto; try lia.
  pose proof (Z.log2_lt_pow2 i 64). lia.
Qed.

Lemma clzl_zero : clzl 0 = None.
Proof. reflexivity. Qed.

Lemma log2_eq x : 0 < x < 2 ^ 64 -> log2 x = Some (Z.log2 x).
Proof. intros H. unfold log2. rewrite clzl_spec by auto. f_equal. lia. Qed.

Lemma log2_spec x : 0 < x < 2 ^ 64 ->
  exists r, log2 x = Some r /\ 0 <= r < 64 /\ 2 ^ r <= x < 2 ^ (r + 1).
Proof.
  intros H. exists (Z.log2 x). rewrite log2_eq by auto.
  pose proof (Z.log2_spec x). pose proof (Z.log2_lt_pow2 x 64).
  pose proof (Z.log2_nonneg x).
  rewrite <- Z.add_1_r in *. repeat split; lia.
Qed.

(** [x & (x-1)] clears the lowest set bit, so it is zero exactly for powers of
    two (and zero). *)
Lemma land_pred_pow2 k : 0 <= k -> Z.land (2 ^ k) (2 ^ k - 1) = 0.
Proof.
  intros Hk. replace (2 ^ k - 1) with (Z.ones k).
  - rewrite Z.land_ones by lia. apply Z.mod_same. pose proof (pow2_pos k). lia.
  - rewrite Z.ones_equiv. lia.
Qed.

Lemma land_pred_zero_pow2 x : 0 < x -> Z.land x (x - 1) = 0 -> x = 2 ^ Z.log2 x.
Proof.
  intros Hx H. set (k := Z.log2 x).
  pose proof (Z.log2_spec x Hx) as [H1 H2]. fold k in H1, H2.
  assert (Hk : 0 <= k) by apply Z.log2_nonneg.
  destruct (Z.eq_dec x (2 ^ k)) as [|NE]; auto.
  exfalso.
  assert (Z.log2 (x - 1) = k) as E.
  { apply Z.log2_unique; lia. }
  assert (Hb : Z.testbit (Z.land x (x - 1)) k = true).
  { rewrite Z.land_spec. unfold k at 1. rewrite Z.bit_log2 by lia.
    rewrite <- E. rewrite Z.bit_log2; [auto|].
    pose proof (pow2_pos k). lia. }
  rewrite H, Z.bits_0 in Hb. discriminate.
Qed.

Lemma is_power_of_2_spec x : 0 <= x < 2 ^ 64 ->
  (is_power_of_2 x = true <-> x = 0 \/ exists k, 0 <= k /\ x = 2 ^ k).
Proof.
  intros Hx. unfold is_power_of_2. rewrite Z.eqb_eq.
  destruct (Z.eq_dec x 0) as [->|NZ].
  { rewrite Z.land_0_l. tauto. }
  assert (E : wrap64 (x - 1) = x - 1) by (apply Z.mod_small; unfold two64; lia).
  rewrite E. split.
  - intros H. right. exists (Z.log2 x). split; [apply Z.log2_nonneg|].
    apply land_pred_zero_pow2; lia.
  - intros [->|(k & Hk & ->)]; [lia|]. apply land_pred_pow2; auto.
Qed.

Lemma log2_ri_spec x : 0 < x < 2 ^ 64 ->
  exists r, log2_ri x = Some r /\ 0 <= r <= 64 /\ x <= 2 ^ r /\
            (forall j, 0 <= j < r -> 2 ^ j < x).
Proof.
  intros H. unfold log2_ri. destruct (log2_spec x H) as (r & -> & Hr & H1 & H2).
  destruct (is_power_of_2 x) eqn:E.
  - apply is_power_of_2_spec in E; [|lia]. destruct E as [->|(k & Hk & ->)]; [lia|].
    assert (k = r).
    { assert (k < r + 1) by (apply (Z.pow_lt_mono_r_iff 2); lia).
      assert (r <= k) by (apply (Z.pow_le_mono_r_iff 2); lia). lia. }
    subst k. exists r. repeat split; try lia.
    intros j Hj. apply Z.pow_lt_mono_r; lia.
  - exists (r + 1). repeat split; try lia.
    intros j Hj.
    assert (2 ^ j <= 2 ^ r) by (apply Z.pow_le_mono_r; lia).
    destruct (Z.eq_dec x (2 ^ r)) as [->|]; [|lia].
    exfalso. assert (is_power_of_2 (2 ^ r) = true); [|congruence].
    apply is_power_of_2_spec; [lia|]. right. exists r. lia.
Qed.

Lemma round_up_large_both n : 2 ^ 63 < n < 2 ^ 64 ->
  round_up n = 0 /\ round_up_checked n = UB.
Proof.
  intros H. split; [apply round_up_large; auto|].
  unfold round_up_checked. destruct (Z.leb_spec n (2 ^ 63)); [lia|reflexivity].
Qed.
