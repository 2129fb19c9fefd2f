(** Buffers of the same schema and capacities, whose payloads have the same length, have
    the same layout. *)
From Verif Require Import Base BaseLemmas IntMath IntMathProofs Align AlignProofs Placement PlacementProofs JaggedBufferProofs
  EdmBuffer EdmBufferProofs EdmBufferTheorems EdmBufferFinal StaticVectorProofs.

(** ** Sub-arrays placed from two different addresses *)
(** End of the last sub-array; [e] if there is none. *)
Definition last_end (e : Z) (ps : list Z) (ts : list sect) : Z := if some_ptr (combine ps ts) then find_last ps ts else e.

Lemma last_end_skip e ps t ts : last_end e (0 :: ps) (t :: ts) = last_end e ps ts.
Proof.
  unfold last_end. cbn [combine some_ptr existsb fst]. change (existsb (fun x : Z * sect => negb (fst x =? 0)) (combine ps ts)) with (some_ptr (combine ps ts)).
  cbn [Z.eqb negb orb]. rewrite find_last_cons. destruct (some_ptr (combine ps ts)); reflexivity.
Qed.
Lemma last_end_step e x ps t ts : x <> 0 -> last_end e (x :: ps) (t :: ts) = last_end (x + s_n t * s_esz t) ps ts.
Proof.
  intros H. unfold last_end. cbn [combine some_ptr existsb fst].
  change (existsb (fun x : Z * sect => negb (fst x =? 0)) (combine ps ts)) with (some_ptr (combine ps ts)).
  replace (x =? 0) with false by lia. cbn [negb orb]. rewrite find_last_cons. replace (x =? 0) with false by lia.
  destruct (some_ptr (combine ps ts)); lia.
Qed.

(** The next aligned addresses after [e1] and [e2]. *)
Lemma next_aligned A e1 e2 x1 x2 : 0 < A -> e1 <= x1 < e1 + A -> (A | x1) -> e2 <= x2 < e2 + A -> (A | x2) ->
  (A | x2 - x1) /\ ((A | e2 - e1) -> x2 - x1 = e2 - e1).
Proof.
  intros HA H1 D1 H2 D2. assert (D : (A | x2 - x1)) by (apply Z.divide_sub_r; auto). split; [exact D|]. intros De.
  assert (D' : (A | (x2 - x1) - (e2 - e1))) by (apply Z.divide_sub_r; auto). destruct D' as (q & Hq).
  assert (q = 0); [|subst; lia].
  destruct (Z.lt_trichotomy q 0) as [L|[L|L]]; [exfalso|auto|exfalso].
  - assert (q * A <= (-1) * A) by (apply Z.mul_le_mono_nonneg_r; lia). lia.
  - assert (1 * A <= q * A) by (apply Z.mul_le_mono_nonneg_r; lia). lia.
Qed.

(** A difference that is a multiple of a power of two stays one. *)
Lemma placed_multiple A ts : pow2 A -> Forall sect_ok ts -> forall e1 e2 hi1 hi2 ps1 ps2, 0 < e1 -> 0 < e2 ->
  placed e1 hi1 ts ps1 -> placed e2 hi2 ts ps2 -> (A | e2 - e1) -> (A | last_end e2 ps2 ts - last_end e1 ps1 ts).
Proof.
  intros HA. induction 1 as [|t ts (T1 & T2 & T3) F IH]; intros e1 e2 hi1 hi2 ps1 ps2 P1 P2 H1 H2 D.
  - destruct ps1; [|destruct H1]. destruct ps2; [|destruct H2]. exact D.
  - destruct ps1 as [|x1 ps1]; [destruct H1|]. destruct ps2 as [|x2 ps2]; [destruct H2|]. cbn [placed] in H1, H2.
    destruct (s_n t =? 0) eqn:E0.
    + destruct H1 as (-> & H1). destruct H2 as (-> & H2). rewrite !last_end_skip. apply (IH e1 e2 hi1 hi2); auto.
    + destruct H1 as (A1 & D1 & H1). destruct H2 as (A2 & D2 & H2).
      assert (Hal : 0 < s_al t) by (destruct T2 as (k & Hk & ->); apply pow2_pos; auto).
      assert (0 < s_n t * s_esz t) by (apply Z.mul_pos_pos; lia).
      rewrite !last_end_step by lia. apply (IH _ _ hi1 hi2); auto; try lia.
      replace (x2 + s_n t * s_esz t - (x1 + s_n t * s_esz t)) with (x2 - x1) by lia.
      destruct (next_aligned (s_al t) e1 e2 x1 x2 Hal A1 D1 A2 D2) as (N1 & N2).
      destruct (Z.le_gt_cases A (s_al t)) as [L|L].
      * apply (Z.divide_trans _ (s_al t)); [apply pow2_divide_le; auto|auto].
      * rewrite N2; [auto|]. apply (Z.divide_trans _ A); [apply pow2_divide_le; auto; lia|auto].
Qed.

(** Either all sub-arrays have moved by the same distance, or the end has moved by a
    different one. *)
Lemma placed_shift ts : Forall sect_ok ts -> forall e1 e2 hi1 hi2 ps1 ps2, 0 < e1 -> 0 < e2 ->
  placed e1 hi1 ts ps1 -> placed e2 hi2 ts ps2 ->
  last_end e2 ps2 ts - last_end e1 ps1 ts = e2 - e1 ->
  forall i t x y, nth_error ts i = Some t -> 0 < s_n t -> nth_error ps1 i = Some x -> nth_error ps2 i = Some y -> y - x = e2 - e1.
Proof.
  induction 1 as [|t ts (T1 & T2 & T3) F IH]; intros e1 e2 hi1 hi2 ps1 ps2 P1 P2 H1 H2 E i u x y; [destruct i; discriminate|].
  destruct ps1 as [|x1 ps1]; [destruct H1|]. destruct ps2 as [|x2 ps2]; [destruct H2|]. cbn [placed] in H1, H2.
  destruct (s_n t =? 0) eqn:E0.
  - destruct H1 as (-> & H1). destruct H2 as (-> & H2). rewrite !last_end_skip in E. destruct i as [|i]; cbn [nth_error].
    + intros Et Hn. injection Et as <-. lia.
    + intros Et Hn Ex Ey. eapply (IH e1 e2 hi1 hi2 ps1 ps2) with (i := i); eauto.
  - destruct H1 as (A1 & D1 & H1). destruct H2 as (A2 & D2 & H2).
    assert (Hal : 0 < s_al t) by (destruct T2 as (k & Hk & ->); apply pow2_pos; auto).
    assert (0 < s_n t * s_esz t) by (apply Z.mul_pos_pos; lia).
    rewrite !last_end_step in E by lia.
    destruct (next_aligned (s_al t) e1 e2 x1 x2 Hal A1 D1 A2 D2) as (N1 & N2).
    assert (Dd : (s_al t | e2 - e1)).
    { rewrite <- E. apply (placed_multiple (s_al t) ts T2 F _ _ hi1 hi2); auto; try lia.
      replace (x2 + s_n t * s_esz t - (x1 + s_n t * s_esz t)) with (x2 - x1) by lia. exact N1. }
    specialize (N2 Dd). destruct i as [|i]; cbn [nth_error].
    + intros _ _ Ex Ey. injection Ex as <-. injection Ey as <-. exact N2.
    + intros Et Hn Ex Ey. rewrite <- N2. replace (x2 - x1) with (x2 + s_n t * s_esz t - (x1 + s_n t * s_esz t)) by lia.
      eapply (IH _ _ hi1 hi2 ps1 ps2) with (i := i); eauto; lia.
Qed.

Lemma placed_rel ts : Forall sect_ok ts -> forall lo1 lo2 hi1 hi2 ps1 ps2, 0 < lo1 -> 0 < lo2 ->
  placed lo1 hi1 ts ps1 -> placed lo2 hi2 ts ps2 ->
  find_last ps1 ts - find_first ps1 = find_last ps2 ts - find_first ps2 ->
  forall i t x y, nth_error ts i = Some t -> 0 < s_n t -> nth_error ps1 i = Some x -> nth_error ps2 i = Some y ->
    x - find_first ps1 = y - find_first ps2.
Proof.
  induction 1 as [|t ts (T1 & T2 & T3) F IH]; intros lo1 lo2 hi1 hi2 ps1 ps2 P1 P2 H1 H2 E i u x y; [destruct i; discriminate|].
  destruct ps1 as [|x1 ps1]; [destruct H1|]. destruct ps2 as [|x2 ps2]; [destruct H2|]. cbn [placed] in H1, H2.
  destruct (s_n t =? 0) eqn:E0.
  - destruct H1 as (-> & H1). destruct H2 as (-> & H2). cbn [find_first Z.eqb] in *. rewrite !find_last_cons in E. cbn [Z.eqb] in E.
    pose proof (some_ptr_spec _ _ _ _ P1 F H1) as S1. pose proof (some_ptr_spec _ _ _ _ P2 F H2) as S2.
    destruct i as [|i]; cbn [nth_error].
    + intros Et Hn. injection Et as <-. lia.
    + intros Et Hn Ex Ey. apply (IH lo1 lo2 hi1 hi2 ps1 ps2 P1 P2 H1 H2) with (i := i) (t := u); auto.
      destruct (find_ends _ _ _ _ P1 F H1) as (Z1 & _). destruct (find_ends _ _ _ _ P2 F H2) as (Z2 & _).
      pose proof (count_nonneg ts F) as C0.
      destruct (some_ptr (combine ps1 ts)), (some_ptr (combine ps2 ts)); auto.
      * assert (0 < count ts) by (apply S1; auto). exfalso. assert (false = true) by (apply S2; auto). discriminate.
      * assert (0 < count ts) by (apply S2; auto). exfalso. assert (false = true) by (apply S1; auto). discriminate.
      * assert (count ts = 0) by (destruct (Z.eq_dec (count ts) 0); auto; assert (false = true) by (apply S1; lia); discriminate).
        destruct (Z1 H) as (_ & ->). destruct (Z2 H) as (_ & ->). exact E.
  - destruct H1 as (A1 & D1 & H1). destruct H2 as (A2 & D2 & H2).
    assert (0 < s_n t * s_esz t) by (apply Z.mul_pos_pos; lia).
    assert (EL : forall z zs, z <> 0 -> find_last (z :: zs) (t :: ts) = last_end (z + s_n t * s_esz t) zs ts).
    { intros z zs Hz. rewrite find_last_cons. unfold last_end. replace (z =? 0) with false by lia. destruct (some_ptr (combine zs ts)); lia. }
    cbn [find_first] in *. replace (x1 =? 0) with false in * by lia. replace (x2 =? 0) with false in * by lia.
    rewrite !EL in E by lia. destruct i as [|i]; cbn [nth_error].
    + intros _ _ Ex Ey. injection Ex as <-. injection Ey as <-. lia.
    + intros Et Hn Ex Ey.
      pose proof (placed_shift ts F (x1 + s_n t * s_esz t) (x2 + s_n t * s_esz t) hi1 hi2 ps1 ps2 ltac:(lia) ltac:(lia) H1 H2 ltac:(lia) i u x y Et Hn Ex Ey). lia.
Qed.

(** ** The parts of a buffer *)
Definition edm_parts (vars : list var) (caps : list Z) (rs : bool) (e : ebuf) : Prop :=
  exists p a b hi sizes ls hs ps, 0 < p /\ p <= a <= b /\ hi - p < 2 ^ 32 /\
    (exists all, (16 | p) /\ placed p hi (edm_sects vars caps rs) all /\ ps = skipn (length all - length vars) all) /\ eb_mem e = mkBlock p (hi - p) 16 /\ eb_cap e = wrap32 (Z.of_nat (length caps)) /\ placed b hi (map (payload_sect caps) vars) ps /\
    length sizes = length vars /\ length ls = length vars /\ length hs = length vars /\ length ps = length vars /\
    eb_views e = make_views caps vars sizes ls hs ps /\ eb_payload e = find_view ps (map (payload_sect caps) vars) /\
    ((rs = false /\ sizes = map (fun _ => 0) vars /\ eb_size e = mkMem 0 0) \/
     (rs = true /\ existsb is_jagged vars = true /\ placed p a (map (size_sect caps) vars) sizes /\
        eb_size e = mkMem (4 * count (map (size_sect caps) vars)) (find_first sizes)) \/
     (rs = true /\ existsb is_jagged vars = false /\ exists s, sizes = map (fun _ => s) vars /\ eb_size e = mkMem 4 s)).

Section Parts.
  Variables (vars : list var) (caps : list Z) (rs host : bool).
  Hypothesis Hne : vars <> [].
  Hypothesis HV : vars_ok vars.
  Hypothesis HC : Forall (fun c => 0 <= c < 2 ^ 32) caps.
  Hypothesis HN : Z.of_nat (length caps) < 2 ^ 32.
  Hypothesis HT : total caps < 2 ^ 32.
  Hypothesis Hneed : need_all (edm_sects vars caps rs) < 2 ^ 32.
  Let LS := map (layout_sect caps) vars.
  Let PS := map (payload_sect caps) vars.
  Let SS := map (size_sect caps) vars.

  Lemma finish_parts mem msize sizes ls ps w hw e w' hw' : length ls = length vars ->
    edm_finish vars caps host mem msize sizes ls ps w hw = (Ret e, w', hw') -> upstream_ok (ulog hw') ->
    w' = w /\ exists hs, length hs = length vars /\ eb_views e = make_views caps vars sizes ls hs ps /\
      eb_payload e = find_view ps PS /\ eb_size e = msize /\ eb_mem e = mem /\ eb_cap e = wrap32 (Z.of_nat (length caps)).
  Proof.
    intros Hl E HU. unfold edm_finish in E. fold LS PS in E. destruct host.
    - destruct (placement hw LS) as [[[hb hl]| |] hw1] eqn:EP; try discriminate. injection E as <- <- <-. split; [reflexivity|].
      exists hl. split; [|cbn; auto].
      assert (HLne : LS <> []) by (unfold LS; destruct vars; [congruence|discriminate]).
      destruct (placement_ok hw LS _ _ (LS_ok vars caps) HLne (need_LS vars caps rs HV Hneed) EP HU) as [(q & hs & E & _ & _ & P)|(E & _)]; [|discriminate].
      injection E as _ ->. rewrite (placed_length _ _ _ _ P). apply map_length.
    - injection E as <- <- <-. split; [reflexivity|]. exists (map (fun _ => 0) vars). split; [apply map_length|cbn; auto].
  Qed.

  Lemma edm_buffer_parts w hw e w' hw' : edm_buffer vars caps rs host w hw = (Ret e, w', hw') ->
    upstream_ok (ulog w') -> upstream_ok (ulog hw') -> edm_parts vars caps rs e.
  Proof.
    intros E HU HU'. unfold edm_buffer in E.
    assert (SO := sects_ok vars caps rs HV Hneed). assert (SN := sects_ne vars caps rs Hne HV Hneed).
    assert (Hrs : rs = true \/ rs = false) by (destruct rs; auto).
    destruct Hrs as [Ers|Ers]; rewrite Ers in E; [unfold edm_resizable in E; destruct (existsb is_jagged vars) eqn:EJ|unfold edm_fixed in E].
    - destruct (placement w _) as [[[mem l]| |] w1] eqn:EP; try discriminate.
      assert (El : length (firstn (length vars) (skipn (length vars) l)) = length vars -> w' = w1).
      { intros Hl. apply (finish_parts _ _ _ _ _ _ _ _ _ _ Hl E HU'). }
      assert (Ew : w' = w1).
      { clear El. unfold edm_finish in E. destruct host; [destruct (placement hw _) as [[[? ?]| |] ?]; try discriminate|]; congruence. }
      subst w1.
      pose proof SO as SO'. pose proof SN as SN'. pose proof Hneed as HN'. unfold edm_sects in SO', SN', HN'. rewrite Ers, EJ in SO', SN', HN'.
      destruct (placement_ok _ _ _ _ SO' SN' ltac:(lia) EP HU) as [(p & ps & E1 & EU & Hp & HP)|(E1 & _)]; [|discriminate].
      assert (D16 : (16 | p)) by (pose proof HU as HU2; rewrite EU in HU2; cbn [upstream_ok] in HU2; apply HU2).
      injection E1 as -> ->. assert (HP0 := HP). assert (L0 := placed_length _ _ _ _ HP).
      destruct (placed_app _ _ _ _ _ (SS_ok vars caps) HP) as (a & Ha & P1 & P2).
      destruct (placed_app _ _ _ _ _ (LS_ok vars caps) P2) as (b & Hb & P3 & P4).
      rewrite map_length in P1, P2, P3, P4. rewrite map_length in P3, P4.
      pose proof (placed_length _ _ _ _ P1) as L1. pose proof (placed_length _ _ _ _ P3) as L3. pose proof (placed_length _ _ _ _ P4) as L4.
      rewrite map_length in L1, L3, L4.
      rewrite (combine_sizes caps vars _ _ _ (SS_ok vars caps) P1) in E.
      destruct (finish_parts _ _ _ _ _ _ _ _ _ _ L3 E HU') as (_ & hs & Lh & V1 & V2 & V3 & V4 & V5).
      exists p, a, b, (p + need_all (map (size_sect caps) vars ++ map (layout_sect caps) vars ++ map (payload_sect caps) vars)),
        (firstn (length vars) ps), (firstn (length vars) (skipn (length vars) ps)), hs, (skipn (length vars) (skipn (length vars) ps)).
      split; [exact Hp|]. split; [lia|]. split; [lia|]. split; [eexists; split; [exact D16|]; unfold edm_sects; rewrite Ers, ?EJ; split; [exact HP0|]; rewrite L0, !app_length, !map_length, skipn_skipn'; f_equal; lia|]. split; [rewrite V4; f_equal; lia|]. split; [exact V5|]. repeat (split; [auto|]). right. left. split; [auto|]. split; [auto|]. split; [auto|].
      rewrite V3. f_equal. rewrite <- (count_SS vars caps).
      pose proof (uniform_first 4 4 p a SS _ Hp ltac:(lia) ltac:(lia) (Z.divide_refl 4) (SS_ok vars caps) (SS_uniform vars caps) P1) as U.
      rewrite wrap32_small; [unfold SS; lia|].
      pose proof (count_nonneg SS (SS_ok vars caps)) as C0. fold SS.
      assert (Cn : count SS * 4 = need SS).
      { clear. unfold SS. induction vars as [|v l IH]; [reflexivity|]. cbn [map count need fold_right]. fold (count (map (size_sect caps) l)) (need (map (size_sect caps) l)).
        rewrite <- IH. cbn [size_sect s_n s_esz]. lia. }
      rewrite Cn. split; [apply need_nonneg; apply SS_ok|]. apply Z.le_lt_trans with (2 := HN').
      unfold need_all. rewrite need_app. fold SS. pose proof (Forall_app sect_ok SS (map (layout_sect caps) vars ++ map (payload_sect caps) vars)) as FA.
      pose proof (need_nonneg _ (proj2 (proj1 FA SO'))).
      pose proof (Z.mul_nonneg_nonneg (Z.of_nat (length (SS ++ map (layout_sect caps) vars ++ map (payload_sect caps) vars))) _ ltac:(lia) (placement_align_nonneg (SS ++ map (layout_sect caps) vars ++ map (payload_sect caps) vars))). lia.
    - destruct (placement w _) as [[[mem l]| |] w1] eqn:EP; try discriminate.
      destruct l as [|size l]; [discriminate|].
      assert (Ew : w' = w1).
      { unfold edm_finish in E. destruct host; [destruct (placement hw _) as [[[? ?]| |] ?]; try discriminate|]; congruence. }
      subst w1.
      pose proof SO as SO'. pose proof SN as SN'. pose proof Hneed as HN'. unfold edm_sects in SO', SN', HN'. rewrite Ers, EJ in SO', SN', HN'.
      cbn [app] in SO', SN', HN'.
      destruct (placement_ok _ _ _ _ SO' SN' ltac:(lia) EP HU) as [(p & ps & E1 & EU & Hp & HP)|(E1 & _)]; [|discriminate].
      assert (D16 : (16 | p)) by (pose proof HU as HU2; rewrite EU in HU2; cbn [upstream_ok] in HU2; apply HU2).
      assert (HP0 := HP). assert (L0 := placed_length _ _ _ _ HP). injection E1 as -> E1. cbn [placed] in HP.
      subst ps. cbn [placed] in HP. cbn [s_n s_esz s_al] in HP. destruct HP as (Q1 & Q2 & HP).
      destruct (placed_app _ _ _ _ _ (LS_ok vars caps) HP) as (b & Hb & P3 & P4). rewrite map_length in P3, P4.
      pose proof (placed_length _ _ _ _ P3) as L3. pose proof (placed_length _ _ _ _ P4) as L4. rewrite map_length in L3, L4.
      destruct (finish_parts _ _ _ _ _ _ _ _ _ _ L3 E HU') as (_ & hs & Lh & V1 & V2 & V3 & V4 & V5).
      exists p, (size + 4), b, (p + need_all (mkSect 4 4 1 :: map (layout_sect caps) vars ++ map (payload_sect caps) vars)),
        (map (fun _ => size) vars), (firstn (length vars) l), hs, (skipn (length vars) l).
      split; [exact Hp|]. split; [lia|]. split; [lia|]. split; [eexists; split; [exact D16|]; unfold edm_sects; rewrite Ers, ?EJ; split; [exact HP0|]; rewrite L0; cbn [length]; rewrite !app_length, !map_length; replace (S (length vars + length vars) - length vars)%nat with (S (length vars)) by lia; reflexivity|]. split; [rewrite V4; f_equal; lia|]. split; [exact V5|]. split; [auto|]. split; [apply map_length|]. repeat (split; [auto|]).
      right. right. split; [auto|]. split; [auto|]. exists size. auto.
    - destruct (placement w _) as [[[mem l]| |] w1] eqn:EP; try discriminate.
      assert (Ew : w' = w1).
      { unfold edm_finish in E. destruct host; [destruct (placement hw _) as [[[? ?]| |] ?]; try discriminate|]; congruence. }
      subst w1.
      pose proof SO as SO'. pose proof SN as SN'. pose proof Hneed as HN'. unfold edm_sects in SO', SN', HN'. rewrite Ers in SO', SN', HN'.
      cbn [app] in SO', SN', HN'.
      destruct (placement_ok _ _ _ _ SO' SN' ltac:(lia) EP HU) as [(p & ps & E1 & EU & Hp & HP)|(E1 & _)]; [|discriminate].
      assert (D16 : (16 | p)) by (pose proof HU as HU2; rewrite EU in HU2; cbn [upstream_ok] in HU2; apply HU2).
      injection E1 as -> ->. assert (HP0 := HP). assert (L0 := placed_length _ _ _ _ HP).
      destruct (placed_app _ _ _ _ _ (LS_ok vars caps) HP) as (b & Hb & P3 & P4). rewrite map_length in P3, P4.
      pose proof (placed_length _ _ _ _ P3) as L3. pose proof (placed_length _ _ _ _ P4) as L4. rewrite map_length in L3, L4.
      destruct (finish_parts _ _ _ _ _ _ _ _ _ _ L3 E HU') as (_ & hs & Lh & V1 & V2 & V3 & V4 & V5).
      exists p, p, b, (p + need_all (map (layout_sect caps) vars ++ map (payload_sect caps) vars)),
        (map (fun _ => 0) vars), (firstn (length vars) ps), hs, (skipn (length vars) ps).
      split; [exact Hp|]. split; [lia|]. split; [lia|]. split; [eexists; split; [exact D16|]; unfold edm_sects; rewrite Ers, ?EJ; split; [exact HP0|]; cbn [app]; rewrite L0, !app_length, !map_length; f_equal; lia|]. split; [rewrite V4; f_equal; lia|]. split; [exact V5|]. split; [auto|]. split; [apply map_length|]. repeat (split; [auto|]). left. auto.
  Qed.
End Parts.

(** ** Same layout *)
(** Two blocks of the same size, at the same place in two memory views. *)
Definition same_place (m1 m2 : mview) (b1 b2 : block) : Prop :=
  bsize b1 = bsize b2 /\ (0 < bsize b1 -> bptr b1 - m_ptr m1 = bptr b2 - m_ptr m2).

Lemma Forall2_concat {A B} (R : A -> B -> Prop) l1 l2 : Forall2 (Forall2 R) l1 l2 -> Forall2 R (concat l1) (concat l2).
Proof. induction 1; cbn [concat]; [constructor|]. apply Forall2_app; auto. Qed.

Lemma inner_same esz h1 h2 d1 d2 m1 m2 al caps : 0 < esz -> Forall (fun c => 0 <= c < 2 ^ 32) caps -> 
  forall i1 i2 off, (0 < total caps -> d1 - m_ptr m1 = d2 - m_ptr m2) ->
  Forall2 (same_place m1 m2) (map (fun x => mkBlock (v_ptr x) (v_cap x * esz) al) (inner_views esz h1 d1 i1 off caps))
    (map (fun x => mkBlock (v_ptr x) (v_cap x * esz) al) (inner_views esz h2 d2 i2 off caps)).
Proof.
  intros Hz. induction 1 as [|c caps Hc F IH]; intros i1 i2 off H; cbn [inner_views map]; constructor.
  - unfold same_place. cbn [bsize bptr v_ptr v_cap]. split; [reflexivity|]. intros Hp. rewrite wrap32_small in Hp by lia.
    assert (0 < c) by (destruct (Z.eq_dec c 0) as [->|]; lia). pose proof (total_nonneg caps F). cbn [total fold_right] in H. fold (total caps) in H. lia.
  - apply IH. intros Ht. apply H. cbn [total fold_right]. fold (total caps). lia.
Qed.
Lemma counters_same esz h1 h2 d1 d2 m1 m2 caps : forall i off, h1 <> 0 -> h2 <> 0 -> h1 - m_ptr m1 = h2 - m_ptr m2 ->
  Forall2 (same_place m1 m2) (map (fun x => mkBlock (v_size x) 4 4) (inner_views esz h1 d1 i off caps))
    (map (fun x => mkBlock (v_size x) 4 4) (inner_views esz h2 d2 i off caps)).
Proof.
  induction caps as [|c caps IH]; intros i off N1 N2 H; cbn [inner_views map]; constructor; [|apply IH; auto].
  unfold same_place. cbn [bsize bptr v_size]. split; [reflexivity|]. intros _.
  replace (h1 =? 0) with false by lia. replace (h2 =? 0) with false by lia. lia.
Qed.

Lemma Forall_firstn' {A} (P : A -> Prop) l n : Forall P l -> Forall P (firstn n l).
Proof. intros F. revert n. induction F; intros [|n]; cbn [firstn]; constructor; auto. Qed.

Section Same.
  Variables (vars : list var) (caps : list Z).
  Hypothesis HV : vars_ok vars.
  Hypothesis HC : Forall (fun c => 0 <= c < 2 ^ 32) caps.
  Hypothesis HT : total caps < 2 ^ 32.

  (** Pointwise, over the lists of [make_views]. *)
  Lemma payloads_same m1 m2 vs : (forall v, In v vs -> 0 < ve_sz v) ->
    forall s1 s2 l1 l2 h1 h2 p1 p2, length s1 = length vs -> length s2 = length vs -> length l1 = length vs -> length l2 = length vs ->
    length h1 = length vs -> length h2 = length vs -> length p1 = length vs -> length p2 = length vs ->
    (forall i v x y, nth_error vs i = Some v -> 0 < payload_size caps v -> nth_error p1 i = Some x -> nth_error p2 i = Some y ->
       x - m_ptr m1 = y - m_ptr m2) ->
    Forall2 (Forall2 (same_place m1 m2)) (map2 payload_blocks vs (make_views caps vs s1 l1 h1 p1)) (map2 payload_blocks vs (make_views caps vs s2 l2 h2 p2)).
  Proof.
    induction vs as [|v vs IH]; intros Hs [|s1 ss1] [|s2 ss2] [|l1 ll1] [|l2 ll2] [|h1 hh1] [|h2 hh2] [|p1 pp1] [|p2 pp2]; cbn [length]; try lia.
    - intros. constructor.
    - intros. cbn [make_views map2]. constructor.
      2:{ apply IH; auto; try lia; [intros; apply Hs; right; auto|]. intros i u x y E. apply (H7 (S i) u x y E). }
      assert (Hz : 0 < ve_sz v) by (apply Hs; left; auto).
      pose proof (H7 0%nat v p1 p2 eq_refl) as HH. unfold payload_blocks, make_view, payload_size in *. destruct (vk v).
      + constructor; [|constructor]. split; [reflexivity|]. cbn [bsize bptr]. intros _. apply HH; auto. lia.
      + constructor; [|constructor]. split; [reflexivity|]. cbn [bsize bptr v_ptr v_cap]. intros Hp. apply HH; auto.
        destruct (length caps); [|lia]. exfalso. unfold wrap32 in Hp. cbn in Hp. lia.
      + apply inner_same; auto. intros Ht. apply HH; auto. rewrite wrap64_small; lia.
  Qed.

  Lemma counters_all_same m1 m2 vs : forall s1 s2 l1 l2 h1 h2 p1 p2, length s1 = length vs -> length s2 = length vs -> length l1 = length vs -> length l2 = length vs ->
    length h1 = length vs -> length h2 = length vs -> length p1 = length vs -> length p2 = length vs ->
    (forall i v x y, nth_error vs i = Some v -> 0 < layout_size caps v -> nth_error s1 i = Some x -> nth_error s2 i = Some y ->
       x <> 0 /\ y <> 0 /\ x - m_ptr m1 = y - m_ptr m2) ->
    Forall2 (Forall2 (same_place m1 m2)) (map counter_blocks (make_views caps vs s1 l1 h1 p1)) (map counter_blocks (make_views caps vs s2 l2 h2 p2)).
  Proof.
    induction vs as [|v vs IH]; intros [|s1 ss1] [|s2 ss2] [|l1 ll1] [|l2 ll2] [|h1 hh1] [|h2 hh2] [|p1 pp1] [|p2 pp2]; cbn [length]; try lia.
    - intros. constructor.
    - intros. cbn [make_views map]. constructor.
      2:{ apply IH; auto; try lia. intros i u x y E. apply (H7 (S i) u x y E). }
      pose proof (H7 0%nat v s1 s2 eq_refl) as HH. unfold counter_blocks, make_view, layout_size in *. destruct (vk v); try constructor.
      destruct caps as [|c cs]; [constructor|]. destruct (HH ltac:(cbn [length]; lia) eq_refl eq_refl) as (N1 & N2 & N3).
      apply counters_same; auto.
  Qed.

  Theorem same_layout rs1 rs2 e1 e2 : edm_parts vars caps rs1 e1 -> edm_parts vars caps rs2 e2 ->
    m_len (eb_payload e1) = m_len (eb_payload e2) ->
    Forall2 (same_place (eb_payload e1) (eb_payload e2)) (all_payloads vars e1) (all_payloads vars e2) /\
    (rs1 = true -> rs2 = true -> m_len (eb_size e1) = m_len (eb_size e2) /\
       Forall2 (same_place (eb_size e1) (eb_size e2)) (all_counters vars true e1) (all_counters vars true e2)).
  Proof.
    intros (p1 & a1 & b1 & hi1 & s1 & l1 & h1 & ps1 & A1 & B1 & C1 & _ & _ & _ & D1 & Ls1 & Ll1 & Lh1 & Lp1 & V1 & P1 & S1)
           (p2 & a2 & b2 & hi2 & s2 & l2 & h2 & ps2 & A2 & B2 & C2 & _ & _ & _ & D2 & Ls2 & Ll2 & Lh2 & Lp2 & V2 & P2 & S2) E.
    assert (PO : Forall sect_ok (map (payload_sect caps) vars)) by (apply PS_ok; auto).
    assert (EF : find_last ps1 (map (payload_sect caps) vars) - find_first ps1 = find_last ps2 (map (payload_sect caps) vars) - find_first ps2).
    { rewrite P1, P2 in E. cbn [find_view m_len] in E.
      assert (G : forall p a b hi ps, 0 < p -> p <= a <= b -> hi - p < 2 ^ 32 -> placed b hi (map (payload_sect caps) vars) ps ->
                  0 <= find_last ps (map (payload_sect caps) vars) - find_first ps < 2 ^ 32).
      { intros p a b hi ps G1 G2 G3 G4. destruct (find_ends b hi _ ps ltac:(lia) PO G4) as (F1 & F2 & F3).
        destruct (Z.eq_dec (count (map (payload_sect caps) vars)) 0) as [Hc|Hc]; [destruct (F1 Hc) as (-> & ->); lia|].
        pose proof (count_nonneg _ PO). destruct (F2 ltac:(lia)) as (G5 & G6 & (i & t & Et & Hn & Ex) & _).
        destruct (F3 i t _ Et Ex Hn) as (_ & G7). rewrite Forall_forall in PO. destruct (PO t (nth_error_In _ _ Et)) as (T1 & _).
        pose proof (Z.mul_pos_pos (s_n t) (s_esz t) Hn T1). lia. }
      rewrite !wrap32_small in E; eauto. }
    split.
    - unfold all_payloads. rewrite V1, V2. apply Forall2_concat. apply payloads_same; auto.
      { intros v Hv. apply (HV v Hv). }
      intros i v x y Ev Hn Ex Ey. rewrite P1, P2. cbn [find_view m_ptr].
      apply (placed_rel _ PO b1 b2 hi1 hi2 ps1 ps2 ltac:(lia) ltac:(lia) D1 D2 EF i (payload_sect caps v)); auto.
      rewrite nth_error_map, Ev. reflexivity.
    - intros -> ->. unfold all_counters. destruct S1 as [(? & _)|[(_ & J1 & Q1 & M1)|(_ & J1 & x1 & Q1 & M1)]]; [discriminate| |];
      destruct S2 as [(? & _)|[(_ & J2 & Q2 & M2)|(_ & J2 & x2 & Q2 & M2)]]; try discriminate; try congruence; rewrite J1, M1, M2; cbn [m_len m_ptr]; (split; [reflexivity|]).
      + rewrite V1, V2. apply Forall2_concat. apply counters_all_same; auto. intros i v x y Ev Hn Ex Ey. cbn [m_ptr].
        assert (Et : nth_error (map (size_sect caps) vars) i = Some (size_sect caps v)) by (rewrite nth_error_map, Ev; reflexivity).
        destruct (uniform_first 4 4 p1 a1 _ s1 A1 ltac:(lia) ltac:(lia) (Z.divide_refl 4) (SS_ok vars caps) (SS_uniform vars caps) Q1) as (U1 & U2).
        destruct (uniform_first 4 4 p2 a2 _ s2 A2 ltac:(lia) ltac:(lia) (Z.divide_refl 4) (SS_ok vars caps) (SS_uniform vars caps) Q2) as (W1 & W2).
        rewrite (U2 i _ x Et Ex Hn), (W2 i _ y Et Ey Hn).
        assert (FO : Forall sect_ok (firstn i (map (size_sect caps) vars))) by (apply Forall_firstn'; apply SS_ok).
        pose proof (count_nonneg _ FO).
        destruct (find_ends p1 a1 _ s1 A1 (SS_ok vars caps) Q1) as (_ & _ & F1). destruct (F1 i _ x Et Ex Hn).
        assert (CP : 0 < count (map (size_sect caps) vars)).
        { pose proof (count_firstn (map (size_sect caps) vars) i (size_sect caps v) (SS_ok vars caps) Et) as CF. cbn [s_n size_sect] in *. lia. }
        specialize (U1 CP). specialize (W1 CP). lia.
      + constructor; [|constructor]. split; [reflexivity|]. cbn [bptr m_ptr]. intros _. lia.
  Qed.
End Same.

(** ** Equal lengths *)
(** With alignments of at most 16 and the same sub-arrays, the layout does not depend on
    the address that the memory resource returned. *)
Definition moved (d x : Z) : Z := if x =? 0 then 0 else x + d.
Lemma placed_moved ts : Forall sect_ok ts -> Forall (fun t => s_al t <= 16) ts -> forall lo1 lo2 hi1 hi2 ps1 ps2, 0 < lo1 -> 0 < lo2 ->
  (16 | lo2 - lo1) -> placed lo1 hi1 ts ps1 -> placed lo2 hi2 ts ps2 -> ps2 = map (moved (lo2 - lo1)) ps1 /\ Forall (fun x => x = 0 \/ 0 < x + (lo2 - lo1)) ps1.
Proof.
  induction 1 as [|t ts (T1 & T2 & T3) F IH]; intros HA lo1 lo2 hi1 hi2 ps1 ps2 P1 P2 D H1 H2.
  - destruct ps1; [|destruct H1]. destruct ps2; [|destruct H2]. split; [reflexivity|constructor].
  - inversion HA as [|? ? A1 A2]; subst. destruct ps1 as [|x1 ps1]; [destruct H1|]. destruct ps2 as [|x2 ps2]; [destruct H2|]. cbn [placed] in H1, H2. cbn [map].
    destruct (s_n t =? 0) eqn:E0.
    + destruct H1 as (-> & H1). destruct H2 as (-> & H2). destruct (IH A2 lo1 lo2 hi1 hi2 ps1 ps2 P1 P2 D H1 H2) as (I1 & I2).
      split; [rewrite I1; reflexivity|constructor; auto].
    + destruct H1 as (B1 & D1 & H1). destruct H2 as (B2 & D2 & H2).
      assert (Hal : 0 < s_al t) by (destruct T2 as (k & Hk & ->); apply pow2_pos; auto).
      assert (0 < s_n t * s_esz t) by (apply Z.mul_pos_pos; lia).
      destruct (next_aligned (s_al t) lo1 lo2 x1 x2 Hal B1 D1 B2 D2) as (_ & N2).
      assert (Ed : x2 - x1 = lo2 - lo1).
      { apply N2. apply (Z.divide_trans _ 16); [apply pow2_divide_le; auto; exists 4; split; [lia|reflexivity]|exact D]. }
      destruct (IH A2 (x1 + s_n t * s_esz t) (x2 + s_n t * s_esz t) hi1 hi2 ps1 ps2) as (I1 & I2); auto; try lia.
      { replace (x2 + s_n t * s_esz t - (x1 + s_n t * s_esz t)) with (lo2 - lo1) by lia. exact D. }
      replace (x2 + s_n t * s_esz t - (x1 + s_n t * s_esz t)) with (lo2 - lo1) in I1, I2 by lia.
      split; [|constructor; [right; lia|exact I2]]. f_equal; [|exact I1]. unfold moved. replace (x1 =? 0) with false by lia. lia.
Qed.
Lemma moved_first d ps : Forall (fun x => x = 0 \/ 0 < x + d) ps -> find_first (map (moved d) ps) = moved d (find_first ps).
Proof.
  induction 1 as [|x ps Hx F IH]; [reflexivity|]. cbn [map find_first]. unfold moved at 1 2. destruct (x =? 0) eqn:E; cbn [Z.eqb]; [exact IH|].
  replace (x + d =? 0) with false by lia. unfold moved. rewrite E. reflexivity.
Qed.
Lemma moved_some d ps ts : Forall (fun x => x = 0 \/ 0 < x + d) ps -> some_ptr (combine (map (moved d) ps) ts) = some_ptr (combine ps ts).
Proof.
  intros F. revert ts. induction F as [|x ps Hx F IH]; intros [|t ts]; cbn [map combine]; try reflexivity.
  unfold some_ptr in *. cbn [existsb fst]. rewrite IH. f_equal. unfold moved. destruct (x =? 0) eqn:E; [reflexivity|]. f_equal. lia.
Qed.
Lemma moved_last d ps : Forall (fun x => x = 0 \/ 0 < x + d) ps -> forall ts, find_last (map (moved d) ps) ts =
  if some_ptr (combine ps ts) then find_last ps ts + d else 0.
Proof.
  induction 1 as [|x ps Hx F IH]; intros [|t ts]; try reflexivity. cbn [map]. rewrite !find_last_cons, moved_some, IH by auto.
  cbn [combine]. change (some_ptr ((x, t) :: combine ps ts)) with (negb (x =? 0) || some_ptr (combine ps ts))%bool.
  destruct (some_ptr (combine ps ts)); [rewrite Bool.orb_true_r; reflexivity|]. rewrite Bool.orb_false_r. unfold moved.
  destruct (x =? 0) eqn:E; cbn [negb Z.eqb]; [reflexivity|]. replace (x + d =? 0) with false by lia. lia.
Qed.
Lemma moved_some_first ps ts : length ps = length ts -> some_ptr (combine ps ts) = negb (find_first ps =? 0).
Proof.
  revert ts. induction ps as [|x ps IH]; intros [|t ts]; cbn [length]; try discriminate; [reflexivity|]. intros E. cbn [combine find_first].
  unfold some_ptr. cbn [existsb fst]. fold (some_ptr (combine ps ts)). destruct (x =? 0) eqn:E0; cbn [negb orb]; [apply IH; lia|]. rewrite E0. reflexivity.
Qed.
Lemma none_last ps ts : some_ptr (combine ps ts) = false -> find_last ps ts = 0.
Proof.
  revert ts. induction ps as [|x ps IH]; intros [|t ts] H; try reflexivity. rewrite find_last_cons. cbn [combine] in H. unfold some_ptr in H. cbn [existsb fst] in H.
  fold (some_ptr (combine ps ts)) in H. apply Bool.orb_false_iff in H. destruct H as (H1 & H2). rewrite H2. apply Bool.negb_false_iff in H1. rewrite H1. reflexivity.
Qed.

Theorem same_length vars caps rs e1 e2 : vars <> [] -> vars_ok vars -> (forall v, In v vars -> ve_al v <= 16) ->
  need_all (edm_sects vars caps rs) < 2 ^ 32 -> edm_parts vars caps rs e1 -> edm_parts vars caps rs e2 ->
  m_len (eb_payload e1) = m_len (eb_payload e2).
Proof.
  intros Hne HV HA Hneed (p1 & a1 & b1 & hi1 & s1 & l1 & h1 & ps1 & A1 & _ & _ & (all1 & D1 & P1 & E1) & _ & _ & _ & _ & _ & _ & Lp1 & _ & V1 & _)
    (p2 & a2 & b2 & hi2 & s2 & l2 & h2 & ps2 & A2 & _ & _ & (all2 & D2 & P2 & E2) & _ & _ & _ & _ & _ & _ & Lp2 & _ & V2 & _).
  assert (SO := sects_ok vars caps rs HV Hneed).
  assert (SA : Forall (fun t => s_al t <= 16) (edm_sects vars caps rs)).
  { unfold edm_sects. rewrite !Forall_app. split; [|split].
    - destruct rs; [|constructor]. destruct (existsb is_jagged vars); [|constructor; [cbn; lia|constructor]].
      apply Forall_forall. intros t Ht. apply in_map_iff in Ht. destruct Ht as (v & <- & _). cbn. lia.
    - apply Forall_forall. intros t Ht. apply in_map_iff in Ht. destruct Ht as (v & <- & _). unfold layout_sect. destruct (vk v); cbn; lia.
    - apply Forall_forall. intros t Ht. apply in_map_iff in Ht. destruct Ht as (v & <- & Hv). cbn. apply HA, Hv. }
  destruct (placed_moved _ SO SA p1 p2 hi1 hi2 all1 all2 A1 A2 (Z.divide_sub_r _ _ _ D2 D1) P1 P2) as (M1 & M2).
  assert (Ep : ps2 = map (moved (p2 - p1)) ps1).
  { rewrite E1, E2, M1. rewrite map_length. rewrite !skipn_map. reflexivity. }
  assert (M3 : Forall (fun x => x = 0 \/ 0 < x + (p2 - p1)) ps1).
  { rewrite E1. clear - M2. revert M2. generalize (length all1 - length vars)%nat. intros n F. revert n. induction F; intros [|n]; cbn [skipn]; auto. }
  rewrite V1, V2, Ep. unfold find_view. cbn [m_len]. rewrite moved_first, moved_last by auto.
  rewrite moved_some_first by (rewrite map_length; exact Lp1). unfold moved. destruct (find_first ps1 =? 0) eqn:E0; cbn [negb].
  - rewrite (none_last ps1); [f_equal; lia|]. rewrite moved_some_first by (rewrite map_length; exact Lp1). rewrite E0. reflexivity.
  - f_equal. lia.
Qed.
