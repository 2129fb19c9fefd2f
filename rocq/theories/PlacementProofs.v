(** Proofs about aligned_multiple_placement and the buffers built on it. *)
From Verif Require Import Base BaseLemmas IntMath IntMathProofs Align AlignProofs Placement.

(** A type and count as C++ can give it. *)
Definition sect_ok (t : sect) : Prop := 0 < s_esz t /\ pow2 (s_al t) /\ 0 <= s_n t.
(** Bytes asked for, without overflow. *)
Definition need (ts : list sect) : Z := fold_right (fun t m => s_n t * s_esz t + m) 0 ts.
Definition need_all (ts : list sect) : Z := need ts + Z.of_nat (length ts) * placement_align ts.

(** The sub-arrays lie between [lo] and [hi], in order. *)
Fixpoint placed (lo hi : Z) (ts : list sect) (ps : list Z) : Prop :=
  match ts, ps with
  | [], [] => lo <= hi
  | t :: ts', x :: ps' =>
      if s_n t =? 0 then x = 0 /\ placed lo hi ts' ps'
      else lo <= x < lo + s_al t /\ (s_al t | x) /\ placed (x + s_n t * s_esz t) hi ts' ps'
  | _, _ => False
  end.

Lemma need_nonneg ts : Forall sect_ok ts -> 0 <= need ts.
Proof.
  induction 1 as [|t ts (H1 & H2 & H3) HF IH]; cbn [need fold_right]; [lia|].
  change (fold_right _ 0 ts) with (need ts).
  pose proof (Z.mul_nonneg_nonneg (s_n t) (s_esz t) H3 ltac:(lia)). lia.
Qed.

Lemma placement_align_ge ts t : In t ts -> s_al t <= placement_align ts.
Proof.
  induction ts as [|u ts IH]; intros []; cbn [placement_align fold_right].
  - subst. apply Z.le_max_l.
  - pose proof (IH H). change (fold_right _ 0 ts) with (placement_align ts). lia.
Qed.
Lemma placement_align_nonneg ts : 0 <= placement_align ts.
Proof. induction ts; cbn [placement_align fold_right]; [lia|]. change (fold_right _ 0 ts) with (placement_align ts). lia. Qed.

Lemma wrap64_small x : 0 <= x < 2 ^ 64 -> wrap64 x = x.
Proof. intros. unfold wrap64, two64. apply Z.mod_small. lia. Qed.
Lemma wrap32_small x : 0 <= x < 2 ^ 32 -> wrap32 x = x.
Proof. intros. unfold wrap32. apply Z.mod_small. lia. Qed.

Lemma helper_ok m ts : Forall sect_ok ts -> (forall t, In t ts -> s_al t <= m) -> forall p q,
  0 <= p -> p + q < 2 ^ 64 -> need ts + Z.of_nat (length ts) * m <= q ->
  exists ps, placement_helper p q ts = Ret ps /\ placed p (p + q) ts ps.
Proof.
  induction 1 as [|t ts (H1 & H2 & H3) HF IH]; intros Hm p q Hp Hq Hn.
  - exists []. split; [reflexivity|]. cbn in *. lia.
  - cbn [placement_helper placed].
    assert (Hm0 : 0 <= m).
    { pose proof (Hm t (or_introl eq_refl)). destruct H2 as (k & Hk & E). pose proof (pow2_pos k Hk). lia. }
    assert (Hal : 0 < s_al t <= m).
    { split; [|apply Hm; left; reflexivity]. destruct H2 as (k & Hk & ->). apply pow2_pos. auto. }
    unfold need in Hn. cbn [fold_right length] in Hn. fold (need ts) in Hn.
    pose proof (need_nonneg ts HF) as Hnn.
    pose proof (Z.mul_nonneg_nonneg (s_n t) (s_esz t) H3 ltac:(lia)) as Hs.
    pose proof (Z.mul_nonneg_nonneg (Z.of_nat (length ts)) m ltac:(lia) Hm0) as Hl.
    rewrite Nat2Z.inj_succ, Z.mul_succ_l in Hn.
    rewrite (Z.mul_comm (s_esz t)). rewrite wrap64_small by lia.
    destruct (s_n t =? 0) eqn:E.
    + apply Z.eqb_eq in E. rewrite E. change (0 <? 0 * s_esz t) with false.
      destruct (IH ltac:(intros; apply Hm; right; auto) p q Hp Hq ltac:(lia)) as (ps & Eps & HP).
      cbn. rewrite Eps. exists (0 :: ps). split; [reflexivity|]. split; auto.
    + apply Z.eqb_neq in E.
      pose proof (Z.mul_pos_pos (s_n t) (s_esz t) ltac:(lia) H1) as Hs'.
      replace (0 <? s_n t * s_esz t) with true by (symmetry; apply Z.ltb_lt; auto).
      pose proof (pad_bounds (s_al t) p ltac:(lia)) as Hb.
      rewrite std_align_ok; auto; try lia.
      replace (q <? s_n t * s_esz t + pad (s_al t) p) with false by (symmetry; apply Z.ltb_ge; lia).
      rewrite !wrap64_small by lia.
      destruct (IH ltac:(intros; apply Hm; right; auto) (p + pad (s_al t) p + s_n t * s_esz t)
                  (q - pad (s_al t) p - s_n t * s_esz t) ltac:(lia) ltac:(lia) ltac:(lia)) as (ps & Eps & HP).
      rewrite Eps. exists (p + pad (s_al t) p :: ps). split; [reflexivity|].
      split; [lia|]. split; [apply pad_divide; lia|].
      match goal with H : placed _ ?a _ _ |- placed _ ?b _ _ => replace b with a by lia end. auto.
Qed.

Lemma placed_length lo hi ts ps : placed lo hi ts ps -> length ps = length ts.
Proof.
  revert lo ps. induction ts as [|t ts IH]; intros lo [|x ps] H; cbn [placed] in H; try contradiction; auto.
  cbn [length]. f_equal. destruct (s_n t =? 0).
  - destruct H as (_ & H). eauto.
  - destruct H as (_ & _ & H). eauto.
Qed.

Lemma placed_le lo hi ts ps : Forall sect_ok ts -> placed lo hi ts ps -> lo <= hi.
Proof.
  intros HF. revert lo ps. induction HF as [|t ts (H1 & H2 & H3) HF IH]; intros lo [|x ps] H; cbn [placed] in H; try contradiction; auto.
  destruct (s_n t =? 0) eqn:E.
  - destruct H as (_ & H). eauto.
  - destruct H as (? & _ & H). apply IH in H.
    pose proof (Z.mul_nonneg_nonneg (s_n t) (s_esz t) H3 ltac:(lia)). lia.
Qed.

Lemma placed_nth lo hi ts ps : Forall sect_ok ts -> placed lo hi ts ps ->
  forall i t x, nth_error ts i = Some t -> nth_error ps i = Some x ->
  (s_n t = 0 -> x = 0) /\
  (0 < s_n t -> lo <= x /\ x + s_n t * s_esz t <= hi /\ (s_al t | x)).
Proof.
  intros HF. revert lo ps. induction HF as [|u ts (H1 & H2 & H3) HF IH]; intros lo ps H [|i] t x Et Ex;
    try discriminate; destruct ps as [|y ps]; try discriminate; cbn [placed nth_error] in *.
  - injection Et as ->. injection Ex as ->. destruct (s_n t =? 0) eqn:E.
    + apply Z.eqb_eq in E. split; [tauto|lia].
    + apply Z.eqb_neq in E. split; [lia|]. intros _. destruct H as (Ha & Hb & H).
      apply placed_le in H; [|auto]. split; [lia|]. split; [lia|auto].
  - destruct (s_n u =? 0) eqn:E.
    + destruct H as (_ & H). eapply IH; eauto.
    + destruct H as (Ha & Hb & H). destruct (IH _ _ H i t x Et Ex) as (HA & HB). split; [auto|].
      intros Hn. destruct (HB Hn) as (B1 & B2 & B3).
      pose proof (Z.mul_nonneg_nonneg (s_n u) (s_esz u) H3 ltac:(lia)). split; [lia|]. split; [lia|auto].
Qed.

Lemma placed_order lo hi ts ps : Forall sect_ok ts -> placed lo hi ts ps ->
  forall i j t u x y, (i < j)%nat -> nth_error ts i = Some t -> nth_error ps i = Some x ->
  nth_error ts j = Some u -> nth_error ps j = Some y -> 0 < s_n t -> 0 < s_n u ->
  x + s_n t * s_esz t <= y.
Proof.
  intros HF. revert lo ps. induction HF as [|u ts (H1 & H2 & H3) HF IH];
    intros lo ps H [|i] [|j] t v x y Hij Et Ex Ev Ey Ht Hv; try lia; try discriminate;
    destruct ps as [|z ps]; try discriminate; cbn [placed nth_error] in *.
  - injection Et as ->. injection Ex as ->.
    replace (s_n t =? 0) with false in H by (symmetry; apply Z.eqb_neq; lia).
    destruct H as (_ & _ & H). pose proof (placed_nth _ _ _ _ HF H j v y Ev Ey) as (_ & HB). specialize (HB Hv). lia.
  - destruct (s_n u =? 0).
    + destruct H as (_ & H). eapply (IH _ _ H i j); eauto; lia.
    + destruct H as (_ & _ & H). eapply (IH _ _ H i j); eauto; lia.
Qed.

Lemma placement_bytes_eq ts : Forall sect_ok ts -> need_all ts < 2 ^ 64 -> placement_bytes ts = need_all ts.
Proof.
  intros HF H. unfold placement_bytes. change (wrap64 (need_all ts) = need_all ts). apply wrap64_small.
  split; [|auto]. unfold need_all. pose proof (need_nonneg ts HF).
  pose proof (Z.mul_nonneg_nonneg (Z.of_nat (length ts)) _ ltac:(lia) (placement_align_nonneg ts)). lia.
Qed.

Lemma need_all_pos ts : Forall sect_ok ts -> ts <> [] -> 0 < need_all ts.
Proof.
  intros HF Hne. unfold need_all. pose proof (need_nonneg ts HF).
  destruct ts as [|t ts]; [congruence|].
  assert (0 < placement_align (t :: ts)).
  { inversion HF as [|? ? (_ & (k & Hk & E) & _)]; subst. pose proof (pow2_pos k Hk).
    pose proof (placement_align_ge (t :: ts) t (or_introl eq_refl)). lia. }
  pose proof (Z.mul_pos_pos (Z.of_nat (length (t :: ts))) _ ltac:(cbn [length]; lia) H0). lia.
Qed.

(** The whole function: one allocation; everything is placed inside it. *)
Lemma placement_ok w ts r w' : Forall sect_ok ts -> ts <> [] -> need_all ts < 2 ^ 64 ->
  placement w ts = (r, w') -> upstream_ok (ulog w') ->
  (exists p ps, r = Ret (mkBlock p (need_all ts) 16, ps) /\ ulog w' = UAlloc (need_all ts) 16 (Some p) :: ulog w /\
     0 < p /\ placed p (p + need_all ts) ts ps) \/
  (r = Throw bad_alloc /\ ulog w' = UAlloc (need_all ts) 16 None :: ulog w).
Proof.
  intros HF Hne Hn E HU. unfold placement in E. rewrite placement_bytes_eq in E by auto.
  pose proof (need_all_pos ts HF Hne) as Hpos. unfold alloc_bytes in E.
  replace (need_all ts =? 0) with false in E by (symmetry; apply Z.eqb_neq; lia).
  unfold up_alloc in E. destruct (uorc w (length (ulog w))) as [p|] eqn:Eo.
  - left. cbn [bptr] in E.
    assert (Ew : w' = mkWorld (UAlloc (need_all ts) max_align (Some p) :: ulog w) (uorc w)) by congruence.
    subst w'. cbn [ulog upstream_ok] in HU. destruct HU as (Hp & Hb & _).
    destruct (helper_ok (placement_align ts) ts HF (placement_align_ge ts) p (need_all ts) ltac:(lia) Hb
                ltac:(unfold need_all; lia)) as (ps & Eps & HP).
    rewrite Eps in E. exists p, ps. split; [injection E as E1; subst r; reflexivity|]. split; [reflexivity|]. split; auto.
  - right. split; [congruence|]. injection E as <- <-. reflexivity.
Qed.

(** ** Statements for the property file *)

Lemma placement_thm w ts r w' : ts <> [] ->
  (forall t, In t ts -> 0 < s_esz t /\ pow2 (s_al t) /\ 0 <= s_n t) ->
  need_all ts < 2 ^ 64 ->
  placement w ts = (r, w') -> upstream_ok (ulog w') ->
  (r = Throw bad_alloc /\ ulive (ulog w') = ulive (ulog w)) \/
  exists b ps, r = Ret (b, ps) /\ ulive (ulog w') = b :: ulive (ulog w) /\
    length ps = length ts /\
    (forall i t x, nth_error ts i = Some t -> nth_error ps i = Some x ->
       (s_n t = 0 -> x = 0) /\
       (0 < s_n t -> 0 < x /\ (s_al t | x) /\ inside (mkBlock x (s_n t * s_esz t) (s_al t)) b)) /\
    (forall i j t u x y, (i < j)%nat -> nth_error ts i = Some t -> nth_error ps i = Some x ->
       nth_error ts j = Some u -> nth_error ps j = Some y -> 0 < s_n t -> 0 < s_n u ->
       x + s_n t * s_esz t <= y).
Proof.
  intros Hne HF Hn E HU. apply Forall_forall in HF.
  destruct (placement_ok w ts r w' HF Hne Hn E HU) as [(p & ps & -> & El & Hp & HP)|(-> & El)].
  - right. exists (mkBlock p (need_all ts) 16), ps. split; [reflexivity|]. split; [rewrite El; reflexivity|].
    split; [eapply placed_length; eauto|]. split.
    + intros i t x Et Ex. destruct (placed_nth _ _ _ _ HF HP i t x Et Ex) as (HA & HB). split; [auto|].
      intros Hpos. destruct (HB Hpos) as (H1 & H2 & H3). split; [lia|]. split; [auto|].
      intros z Hz. unfold in_block in *. cbn [bptr bsize] in *. lia.
    + intros. eapply placed_order; eauto.
  - left. split; [reflexivity|]. rewrite El. reflexivity.
Qed.

(** vector_buffer. *)
Lemma vector_buffer_zero esz eal rs w : vector_buffer esz eal 0 rs w = (Ret (mkView 0 0 0, None), w).
Proof. reflexivity. Qed.

Lemma vector_buffer_thm esz eal cap rs w r w' : 0 < esz -> pow2 eal -> 0 < cap -> 4 + cap * esz + 2 * Z.max 4 eal < 2 ^ 64 ->
  vector_buffer esz eal cap rs w = (r, w') -> upstream_ok (ulog w') ->
  (r = Throw bad_alloc /\ ulive (ulog w') = ulive (ulog w)) \/
  exists v b, r = Ret (v, Some b) /\ ulive (ulog w') = b :: ulive (ulog w) /\
    v_cap v = cap /\ 0 < v_ptr v /\ (eal | v_ptr v) /\ inside (mkBlock (v_ptr v) (cap * esz) eal) b /\
    (rs = false -> v_size v = 0) /\
    (rs = true -> 0 < v_size v /\ (4 | v_size v) /\ inside (mkBlock (v_size v) 4 4) b /\
       ~ overlap (mkBlock (v_size v) 4 4) (mkBlock (v_ptr v) (cap * esz) eal)).
Proof.
  intros He Ha Hc Hn E HU. unfold vector_buffer in E.
  replace (cap =? 0) with false in E by (symmetry; apply Z.eqb_neq; lia).
  set (k := if rs then 1 else 0) in *.
  assert (Hk : 0 <= k <= 1) by (subst k; destruct rs; lia).
  set (ts := [mkSect 4 4 k; mkSect esz eal cap]) in *.
  destruct (placement w ts) as [r0 w0] eqn:Ep.
  assert (Hw : w0 = w').
  { destruct r0 as [[b [|s [|d [|]]]]|e|]; congruence. }
  subst w0.
  assert (Hal0 : 0 < eal) by (destruct Ha as (j & Hj & ->); apply pow2_pos; auto).
  assert (HN : need_all ts < 2 ^ 64).
  { unfold need_all, need, ts, placement_align. cbn [fold_right length s_n s_esz s_al]. lia. }
  assert (HF : Forall sect_ok ts).
  { constructor; [|constructor; [|constructor]]; unfold sect_ok; cbn [s_n s_esz s_al].
    - split; [lia|]. split; [exists 2; split; [lia|reflexivity]|lia].
    - split; [lia|]. split; [auto|lia]. }
  destruct (placement_ok w ts r0 w' HF ltac:(discriminate) HN Ep HU) as [(p & ps & -> & El & Hp & HP)|(-> & El)].
  2:{ left. split; [congruence|]. rewrite El. reflexivity. }
  right. pose proof (placed_length _ _ _ _ HP) as HL. destruct ps as [|s [|d [|]]]; try discriminate HL.
  exists (mkView cap s d), (mkBlock p (need_all ts) 16). split; [congruence|]. split; [rewrite El; reflexivity|].
  split; [reflexivity|]. cbn [v_cap v_size v_ptr].
  destruct (placed_nth _ _ _ _ HF HP 1%nat _ _ eq_refl eq_refl) as (_ & HD). cbn [s_n s_esz s_al] in HD. specialize (HD Hc).
  destruct (placed_nth _ _ _ _ HF HP 0%nat _ _ eq_refl eq_refl) as (HS0 & HS). cbn [s_n s_esz s_al] in HS0, HS.
  split; [lia|]. split; [tauto|]. split.
  { intros z Hz. unfold in_block in *. cbn [bptr bsize] in *. lia. }
  split.
  { intros ->. apply HS0. reflexivity. }
  intros ->. specialize (HS ltac:(reflexivity)). subst k.
  pose proof (placed_order _ _ _ _ HF HP 0%nat 1%nat _ _ _ _ ltac:(lia) eq_refl eq_refl eq_refl eq_refl ltac:(reflexivity) Hc) as HO.
  cbn [s_n s_esz] in HO. split; [lia|]. split; [tauto|]. split.
  { intros z Hz. unfold in_block in *. cbn [bptr bsize] in *. lia. }
  intros (z & Hz1 & Hz2). unfold in_block in *. cbn [bptr bsize] in *. lia.
Qed.
