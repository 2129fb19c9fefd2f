(** [std_align] finds the least aligned address. *)
From Coq Require Import Znumtheory.
From Verif Require Import Base IntMath IntMathProofs Align.

(** Clearing the low [k] bits. *)
Lemma land_high x k : 0 <= x < 2 ^ 64 -> 0 <= k <= 64 ->
  Z.land x (2 ^ 64 - 2 ^ k) = x - x mod 2 ^ k.
Proof.
  intros Hx Hk. assert (Hp : 0 < 2 ^ k) by (apply pow2_pos; lia).
  assert (E : x - x mod 2 ^ k = Z.shiftl (Z.shiftr x k) k).
  { rewrite Z.shiftl_mul_pow2, Z.shiftr_div_pow2 by lia.
    rewrite (Z.div_mod x (2 ^ k)) at 1 by lia. lia. }
  rewrite E.
  assert (E2 : 2 ^ 64 - 2 ^ k = Z.shiftl (Z.ones (64 - k)) k).
  { rewrite Z.shiftl_mul_pow2, Z.ones_equiv by lia.
    assert (E3 : 2 ^ 64 = 2 ^ (64 - k) * 2 ^ k)
      by (rewrite <- Z.pow_add_r by lia; f_equal; lia).
    rewrite E3. generalize (2 ^ (64 - k)) (2 ^ k). clear. intros. unfold Z.pred. nia. }
  rewrite E2. apply Z.bits_inj'. intros n Hn.
  rewrite Z.land_spec, !Z.shiftl_spec by lia.
  destruct (Z_lt_ge_dec n k) as [H|H].
  - rewrite !(Z.testbit_neg_r _ (n - k)) by lia. apply andb_false_r.
  - rewrite Z.shiftr_spec by lia. replace (n - k + k) with n by lia.
    destruct (Z_lt_ge_dec n 64) as [H64|H64].
    + rewrite Z.ones_spec_low by lia. apply andb_true_r.
    + rewrite (Z.ones_spec_high) by lia. rewrite andb_false_r.
      destruct (Z.eq_dec x 0) as [->|]; [symmetry; apply Z.bits_0|].
      symmetry. apply Z.bits_above_log2; [lia|].
      apply Z.log2_lt_pow2; [lia|]. apply Z.lt_le_trans with (2 ^ 64); [lia|].
      apply Z.pow_le_mono_r; lia.
Qed.

Lemma wrap64_neg_pow2 k : 0 <= k < 64 -> wrap64 (- 2 ^ k) = 2 ^ 64 - 2 ^ k.
Proof.
  intros Hk. unfold wrap64, two64.
  assert (0 < 2 ^ k) by (apply pow2_pos; lia).
  assert (2 ^ k < 2 ^ 64) by (apply Z.pow_lt_mono_r; lia).
  symmetry. apply (Z.mod_unique _ _ (-1)); lia.
Qed.

(** The padding needed. *)
Definition pad (align ptr : Z) : Z := (- ptr) mod align.

Lemma pad_bounds align ptr : 0 < align -> 0 <= pad align ptr < align.
Proof. intros. unfold pad. apply Z.mod_pos_bound. lia. Qed.

Lemma pad_divide align ptr : 0 < align -> (align | ptr + pad align ptr).
Proof.
  intros Ha. unfold pad. apply Z.mod_divide; [lia|].
  rewrite Zplus_mod_idemp_r. replace (ptr + - ptr) with 0 by lia. apply Z.mod_0_l. lia.
Qed.

(** [ptr + pad] is the least aligned address from [ptr] on. *)
Lemma pad_least align ptr q : 0 < align -> ptr <= q -> (align | q) -> ptr + pad align ptr <= q.
Proof.
  intros Ha Hq (c & Hc). subst q. unfold pad.
  destruct (Z.eq_dec (ptr mod align) 0) as [E|NE].
  - rewrite Z.mod_opp_l_z by lia. lia.
  - rewrite Z.mod_opp_l_nz by lia.
    pose proof (Z.div_mod ptr align ltac:(lia)).
    pose proof (Z.mod_pos_bound ptr align Ha).
    assert (ptr / align < c).
    { apply Z.nle_gt. intros H'. assert (c * align <= (ptr / align) * align) by nia. lia. }
    nia.
Qed.

Lemma std_align_eq align size ptr space : pow2 align -> align < 2 ^ 64 ->
  0 <= ptr < 2 ^ 64 -> 0 <= size -> 0 <= space < 2 ^ 64 ->
  std_align align size ptr space =
  if space <? size + pad align ptr then None
  else Some (wrap64 (ptr + pad align ptr), space - pad align ptr).
Proof.
  intros (k & Hk & ->) Hal Hptr Hsize Hspace. unfold std_align.
  assert (Hp : 0 < 2 ^ k) by (apply pow2_pos; lia).
  assert (Hk64 : k < 64) by (apply (Z.pow_lt_mono_r_iff 2); lia).
  pose proof (pad_bounds (2 ^ k) ptr Hp) as Hpad.
  assert (Hdiv : (2 ^ k | 2 ^ 64)).
  { exists (2 ^ (64 - k)). rewrite <- Z.pow_add_r by lia. f_equal. lia. }
  rewrite wrap64_neg_pow2 by lia.
  assert (Hal2 : Z.land (wrap64 (ptr - 1 + 2 ^ k)) (2 ^ 64 - 2 ^ k) = wrap64 (ptr + pad (2 ^ k) ptr)).
  { rewrite land_high; [|unfold wrap64, two64; apply Z.mod_pos_bound; lia|lia].
    unfold wrap64, two64.
    assert (Em : ((ptr - 1 + 2 ^ k) mod 2 ^ 64) mod 2 ^ k = (ptr - 1 + 2 ^ k) mod 2 ^ k).
    { symmetry. apply Zmod_div_mod; try lia. auto. }
    rewrite Em.
    assert (Eq : ptr + pad (2 ^ k) ptr = (ptr - 1 + 2 ^ k) - (ptr - 1 + 2 ^ k) mod 2 ^ k).
    { unfold pad. pose proof (Z.div_mod (ptr - 1 + 2 ^ k) (2 ^ k) ltac:(lia)) as D1.
      pose proof (Z.mod_pos_bound (ptr - 1 + 2 ^ k) (2 ^ k) Hp) as B1.
      pose proof (Z.div_mod (- ptr) (2 ^ k) ltac:(lia)) as D2.
      pose proof (Z.mod_pos_bound (- ptr) (2 ^ k) Hp) as B2.
      set (q1 := (ptr - 1 + 2 ^ k) / 2 ^ k) in *. set (q2 := (- ptr) / 2 ^ k) in *.
      assert (q1 = - q2) by nia. nia. }
    rewrite Eq.
    set (y := ptr - 1 + 2 ^ k) in *.
    assert (Hy : 0 <= y < 2 ^ 64 + 2 ^ 64) by (unfold y; lia).
    assert (Hym : 0 <= y mod 2 ^ k <= y).
    { split; [apply Z.mod_pos_bound; lia|apply Z.mod_le; lia]. }
    destruct (Z_lt_ge_dec y (2 ^ 64)) as [Hl|Hl].
    - rewrite (Z.mod_small y (2 ^ 64)) by lia.
      rewrite (Z.mod_small (y - _) (2 ^ 64)); lia.
    - assert (E1 : y mod 2 ^ 64 = y - 2 ^ 64).
      { symmetry. apply (Z.mod_unique _ _ 1); lia. }
      rewrite E1. apply (Z.mod_unique _ _ 1); [|lia]. left.
      assert (y mod 2 ^ k = (y - 2 ^ 64) mod 2 ^ k).
      { destruct Hdiv as (c & Hc). rewrite Hc. replace (y - c * 2 ^ k) with (y + (- c) * 2 ^ k) by lia.
        rewrite Z.mod_add by lia. reflexivity. }
      assert ((y - 2 ^ 64) mod 2 ^ k <= y - 2 ^ 64) by (apply Z.mod_le; lia). lia. }
  rewrite Hal2.
  assert (Hd : wrap64 (wrap64 (ptr + pad (2 ^ k) ptr) - ptr) = pad (2 ^ k) ptr).
  { unfold wrap64, two64. rewrite Zminus_mod_idemp_l.
    replace (ptr + pad (2 ^ k) ptr - ptr) with (pad (2 ^ k) ptr) by lia.
    apply Z.mod_small. lia. }
  rewrite Hd.
  destruct (Z.ltb_spec space size); destruct (Z.ltb_spec (space - size) (pad (2 ^ k) ptr));
    destruct (Z.ltb_spec space (size + pad (2 ^ k) ptr)); auto; lia.
Qed.

(** Usable form: inside the address space nothing wraps. *)
Lemma std_align_ok align size ptr space : pow2 align -> align < 2 ^ 64 ->
  0 <= ptr -> 0 < size -> 0 <= space -> ptr + space <= 2 ^ 64 -> ptr < 2 ^ 64 ->
  space < 2 ^ 64 ->
  std_align align size ptr space =
  if space <? size + pad align ptr then None
  else Some (ptr + pad align ptr, space - pad align ptr).
Proof.
  intros Ha Hal Hptr Hsize Hspace Hsum Hlt Hs64.
  rewrite std_align_eq by (auto; lia).
  destruct (Z.ltb_spec space (size + pad align ptr)); auto.
  unfold wrap64, two64. rewrite Z.mod_small; auto.
  destruct Ha as (k & Hk & ->). pose proof (pad_bounds (2 ^ k) ptr (pow2_pos k Hk)). lia.
Qed.

Lemma is_aligned_spec ptr al : pow2 al -> al <= 2 ^ 61 -> 0 <= ptr < 2 ^ 64 ->
  (is_aligned ptr al = true <-> (al | ptr)).
Proof.
  intros Ha Hal Hp. assert (Hpos : 0 < al) by (destruct Ha as (k & Hk & ->); apply pow2_pos; auto).
  unfold is_aligned. pose proof (pad_bounds al ptr Hpos) as Hb.
  assert (E2 : wrap64 (2 * al) = 2 * al) by (unfold wrap64, two64; apply Z.mod_small; lia).
  assert (E4 : wrap64 (4 * al) = 4 * al) by (unfold wrap64, two64; apply Z.mod_small; lia).
  rewrite E2, E4, std_align_eq by (auto; lia).
  destruct (Z.ltb_spec (4 * al) (2 * al + pad al ptr)); [lia|]. rewrite Z.eqb_eq. split.
  - intros E. assert (P0 : pad al ptr = 0).
    { unfold wrap64, two64 in E. destruct (Z_lt_ge_dec (ptr + pad al ptr) (2 ^ 64)) as [L|G].
      - rewrite Z.mod_small in E by lia. lia.
      - rewrite <- (Z.mod_unique (ptr + pad al ptr) (2 ^ 64) 1 (ptr + pad al ptr - 2 ^ 64)) in E by lia. lia. }
    pose proof (pad_divide al ptr Hpos) as D. rewrite P0, Z.add_0_r in D. auto.
  - intros D. pose proof (pad_least al ptr ptr Hpos ltac:(lia) D).
    assert (P0 : pad al ptr = 0) by lia. rewrite P0, Z.add_0_r. unfold wrap64, two64. apply Z.mod_small. lia.
Qed.
