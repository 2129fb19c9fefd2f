(** Proofs about jagged_vector_buffer. *)
From Verif Require Import Base BaseLemmas IntMath IntMathProofs Align AlignProofs Placement PlacementProofs.

Lemma total_nonneg caps : Forall (fun c => 0 <= c < 2 ^ 32) caps -> 0 <= total caps.
Proof. induction 1 as [|c caps Hc HF IH]; cbn [total fold_right]; [lia|]. fold (total caps). lia. Qed.

Lemma total_firstn_le caps k : Forall (fun c => 0 <= c < 2 ^ 32) caps -> total (firstn k caps) <= total caps.
Proof.
  intros HF. revert k. induction HF as [|c caps Hc HF IH]; intros [|k]; cbn [firstn total fold_right]; try lia.
  - fold (total caps). pose proof (total_nonneg caps HF). lia.
  - fold (total caps) (total (firstn k caps)). specialize (IH k). lia.
Qed.
Lemma total_firstn_nonneg caps k : Forall (fun c => 0 <= c < 2 ^ 32) caps -> 0 <= total (firstn k caps).
Proof.
  intros HF. apply total_nonneg. apply Forall_forall. intros x Hx. rewrite Forall_forall in HF. apply HF.
  rewrite <- (firstn_skipn k caps). apply in_or_app. auto.
Qed.
Lemma total_firstn_S caps k c : nth_error caps k = Some c -> total (firstn (S k) caps) = total (firstn k caps) + c.
Proof.
  revert k. induction caps as [|d caps IH]; intros [|k] E; try discriminate; cbn [nth_error] in E.
  - injection E as ->. cbn. lia.
  - change (firstn (S (S k)) (d :: caps)) with (d :: firstn (S k) caps).
    change (firstn (S k) (d :: caps)) with (d :: firstn k caps). cbn [total fold_right].
    fold (total (firstn (S k) caps)) (total (firstn k caps)). rewrite (IH _ E). lia.
Qed.
Lemma total_firstn_mono caps j k : Forall (fun c => 0 <= c < 2 ^ 32) caps -> (j <= k)%nat ->
  total (firstn j caps) <= total (firstn k caps).
Proof.
  intros HF H. replace (firstn j caps) with (firstn j (firstn k caps)).
  - apply total_firstn_le. apply Forall_forall. intros x Hx. rewrite Forall_forall in HF. apply HF.
    rewrite <- (firstn_skipn k caps). apply in_or_app. auto.
  - rewrite firstn_firstn. f_equal. lia.
Qed.

Lemma inner_views_nth esz h d caps i off k :
  nth_error (inner_views esz h d i off caps) k =
  match nth_error caps k with
  | Some c => Some (mkView (wrap32 c) (if h =? 0 then 0 else h + 4 * (i + Z.of_nat k))
                           (d + esz * (off + total (firstn k caps))))
  | None => None
  end.
Proof.
  revert i off k. induction caps as [|c caps IH]; intros i off [|k]; cbn [inner_views nth_error]; auto.
  - cbn [firstn total fold_right]. rewrite Z.add_0_r. change (Z.of_nat 0) with 0. rewrite Z.add_0_r. reflexivity.
  - rewrite IH. destruct (nth_error caps k); auto.
    replace (i + 1 + Z.of_nat k) with (i + Z.of_nat (S k)) by lia.
    cbn [firstn total fold_right]. fold (total (firstn k caps)). rewrite Z.add_assoc. reflexivity.
Qed.

Lemma inner_views_caps esz h d caps i off : Forall (fun c => 0 <= c < 2 ^ 32) caps ->
  map v_cap (inner_views esz h d i off caps) = caps.
Proof.
  intros HF. revert i off. induction HF as [|c caps Hc HF IH]; intros i off; cbn [inner_views map]; auto.
  cbn [v_cap]. rewrite wrap32_small by auto. f_equal. auto.
Qed.

Lemma nth_pairwise l : (forall i j b c, (i < j)%nat -> nth_error l i = Some b -> nth_error l j = Some c -> ~ overlap b c) ->
  pairwise_disjoint l.
Proof.
  induction l as [|x l IH]; intros H; cbn [pairwise_disjoint]; auto. split.
  - intros c Hc. apply In_nth_error in Hc. destruct Hc as (j & Hj). apply (H O (S j)); auto. lia.
  - apply IH. intros i j b c Hij Hb Hc. apply (H (S i) (S j)); auto. lia.
Qed.

(** The memory ranges of an inner view. *)
Definition payload_of (esz eal : Z) (v : vview) : block := mkBlock (v_ptr v) (v_cap v * esz) eal.
Definition counter_of (v : vview) : block := mkBlock (v_size v) 4 4.

Section Inner.
  Variables (esz eal h d : Z) (caps : list Z).
  Hypothesis He : 0 < esz.
  Hypothesis HF : Forall (fun c => 0 <= c < 2 ^ 32) caps.
  Let views := inner_views esz h d 0 0 caps.

  Lemma view_at k v : nth_error views k = Some v ->
    exists c, nth_error caps k = Some c /\ 0 <= c < 2 ^ 32 /\ v_cap v = c /\
      v_size v = (if h =? 0 then 0 else h + 4 * Z.of_nat k) /\ v_ptr v = d + esz * total (firstn k caps) /\
      0 <= total (firstn k caps) /\ total (firstn k caps) + c <= total caps.
  Proof.
    intros Hv. unfold views in Hv. rewrite inner_views_nth in Hv. destruct (nth_error caps k) as [c|] eqn:E; [|discriminate].
    injection Hv as <-. exists c. split; [reflexivity|].
    assert (Hc : 0 <= c < 2 ^ 32).
    { apply nth_error_In in E. rewrite Forall_forall in HF. auto. }
    split; [auto|]. cbn [v_cap v_size v_ptr]. split; [apply wrap32_small; auto|]. split; [reflexivity|].
    split; [reflexivity|]. split; [apply total_firstn_nonneg; auto|].
    rewrite <- (total_firstn_S caps k c E). apply total_firstn_le; auto.
  Qed.

  Lemma payloads_disjoint : pairwise_disjoint (map (payload_of esz eal) views).
  Proof.
    apply nth_pairwise. intros i j b c Hij Hb Hc.
    rewrite nth_error_map in Hb, Hc.
    destruct (nth_error views i) as [v|] eqn:Ev; [|discriminate]. destruct (nth_error views j) as [u|] eqn:Eu; [|discriminate].
    injection Hb as <-. injection Hc as <-.
    destruct (view_at i v Ev) as (ci & Ei & Hci & Ecap & _ & Ep & Hn & _).
    destruct (view_at j u Eu) as (cj & Ej & Hcj & Ecap' & _ & Ep' & _ & _).
    intros (x & Hx & Hy). unfold in_block, payload_of in *. cbn [bptr bsize] in *.
    rewrite Ecap, Ep in Hx. rewrite Ecap', Ep' in Hy.
    assert (H1 : total (firstn i caps) + ci <= total (firstn j caps)).
    { rewrite <- (total_firstn_S caps i ci Ei). apply total_firstn_mono; auto. }
    pose proof (Z.mul_le_mono_nonneg_l _ _ esz ltac:(lia) H1) as H2. rewrite Z.mul_add_distr_l in H2.
    rewrite (Z.mul_comm esz ci) in H2. lia.
  Qed.

  Lemma payload_range k v : nth_error views k = Some v ->
    d <= v_ptr v /\ v_ptr v + v_cap v * esz <= d + total caps * esz.
  Proof.
    intros Ev. destruct (view_at k v Ev) as (c & _ & Hc & -> & _ & -> & Hn & Hle).
    pose proof (Z.mul_nonneg_nonneg _ _ (Z.lt_le_incl _ _ He) Hn).
    pose proof (Z.mul_le_mono_nonneg_l _ _ esz ltac:(lia) Hle) as H2. rewrite Z.mul_add_distr_l in H2.
    rewrite (Z.mul_comm esz c), (Z.mul_comm esz (total caps)) in H2. lia.
  Qed.

  Lemma counters_disjoint : h <> 0 -> pairwise_disjoint (map counter_of views).
  Proof.
    intros Hh. apply nth_pairwise. intros i j b c Hij Hb Hc. rewrite nth_error_map in Hb, Hc.
    destruct (nth_error views i) as [v|] eqn:Ev; [|discriminate]. destruct (nth_error views j) as [u|] eqn:Eu; [|discriminate].
    injection Hb as <-. injection Hc as <-.
    destruct (view_at i v Ev) as (_ & _ & _ & _ & Es & _). destruct (view_at j u Eu) as (_ & _ & _ & _ & Es' & _).
    replace (h =? 0) with false in * by (symmetry; apply Z.eqb_neq; auto).
    intros (x & Hx & Hy). unfold in_block, counter_of in *. cbn [bptr bsize] in *. lia.
  Qed.

  Lemma views_length : length views = length caps.
  Proof.
    unfold views. generalize 0 at 1 as i. generalize 0 as off. clear. revert h d.
    induction caps as [|c l IH]; intros; cbn [inner_views length]; auto.
  Qed.
End Inner.

(** The result of [jagged_inner]. *)
Definition inner_ok (esz eal : Z) (caps : list Z) (rs : bool) (h d : Z) (inner : option block) : Prop :=
  (rs = false -> h = 0) /\
  (rs = true -> caps <> [] -> exists b, inner = Some b /\ 0 < h /\ (4 | h) /\
     inside (mkBlock h (4 * Z.of_nat (length caps)) 4) b /\ (0 < total caps -> h + 4 * Z.of_nat (length caps) <= d)) /\
  (0 < total caps -> exists b, inner = Some b /\ 0 < d /\ (rs = true -> (eal | d)) /\ (rs = false -> (16 | d)) /\
     inside (mkBlock d (total caps * esz) eal) b).

Lemma jagged_inner_ok esz eal caps rs w r w' : 0 < esz -> pow2 eal ->
  Forall (fun c => 0 <= c < 2 ^ 32) caps ->
  4 * Z.of_nat (length caps) + total caps * esz + 2 * Z.max 4 eal < 2 ^ 64 ->
  jagged_inner esz eal caps rs w = (r, w') -> upstream_ok (ulog w') ->
  (r = Throw bad_alloc /\ exists s, ulog w' = UAlloc s 16 None :: ulog w) \/
  exists h d inner, r = Ret (h, d, inner) /\ inner_ok esz eal caps rs h d inner /\
    match inner with
    | Some b => balign b = 16 /\ 0 < bptr b /\ ulog w' = UAlloc (bsize b) 16 (Some (bptr b)) :: ulog w
    | None => w' = w
    end.
Proof.
  intros He Ha HF Hn E HU. unfold jagged_inner in E.
  pose proof (total_nonneg caps HF) as Ht.
  assert (Hal0 : 0 < eal) by (destruct Ha as (j & Hj & ->); apply pow2_pos; auto).
  assert (Hte : total caps <= total caps * esz) by (pose proof (Z.mul_le_mono_nonneg_l 1 esz (total caps) Ht ltac:(lia)); lia).
  rewrite (wrap64_small (total caps)) in E by lia.
  destruct rs; cbn [negb andb] in E.
  - destruct (Z.of_nat (length caps) =? 0) eqn:E0; cbn [negb] in E.
    + apply Z.eqb_eq in E0. assert (caps = []) by (destruct caps; [auto|cbn in E0; lia]). subst caps.
      injection E as <- <-. right. exists 0, 0, None. split; [reflexivity|]. split; [|reflexivity].
      split; [discriminate|]. split; [congruence|]. cbn. lia.
    + apply Z.eqb_neq in E0. set (ts := [mkSect 4 4 (Z.of_nat (length caps)); mkSect esz eal (total caps)]) in *.
      destruct (placement w ts) as [r0 w0] eqn:Ep.
      assert (w0 = w') by (destruct r0 as [[b [|s [|d [|]]]]|e|]; congruence). subst w0.
      assert (HN : need_all ts < 2 ^ 64).
      { unfold need_all, need, ts, placement_align. cbn [fold_right length s_n s_esz s_al]. lia. }
      assert (HS : Forall sect_ok ts).
      { constructor; [|constructor; [|constructor]]; unfold sect_ok; cbn [s_n s_esz s_al].
        - split; [lia|]. split; [exists 2; split; [lia|reflexivity]|lia].
        - split; [lia|]. split; [auto|lia]. }
      destruct (placement_ok w ts r0 w' HS ltac:(discriminate) HN Ep HU) as [(p & ps & -> & El & Hp & HP)|(-> & El)].
      2:{ left. split; [congruence|]. eexists. exact El. }
      right. pose proof (placed_length _ _ _ _ HP) as HL. destruct ps as [|s [|d [|]]]; try discriminate HL.
      exists s, d, (Some (mkBlock p (need_all ts) 16)). split; [congruence|]. cbn [balign bptr bsize].
      split; [|split; [reflexivity|]; split; [lia|exact El]].
      destruct (placed_nth _ _ _ _ HS HP 0%nat _ _ eq_refl eq_refl) as (_ & H0). cbn [s_n s_esz s_al] in H0.
      destruct (H0 ltac:(lia)) as (S1 & S2 & S3).
      destruct (placed_nth _ _ _ _ HS HP 1%nat _ _ eq_refl eq_refl) as (_ & H1). cbn [s_n s_esz s_al] in H1.
      split; [discriminate|]. split.
      * intros _ _. eexists. split; [reflexivity|]. split; [lia|]. split; [auto|]. split.
        { intros z Hz. unfold in_block in *. cbn [bptr bsize] in *. lia. }
        intros Hpos.
        pose proof (placed_order _ _ _ _ HS HP 0%nat 1%nat _ _ _ _ ltac:(lia) eq_refl eq_refl eq_refl eq_refl ltac:(cbn [s_n]; lia) Hpos) as HO.
        cbn [s_n s_esz] in HO. lia.
      * intros Hpos. destruct (H1 Hpos) as (D1 & D2 & D3). eexists. split; [reflexivity|]. split; [lia|].
        split; [auto|]. split; [discriminate|].
        intros z Hz. unfold in_block in *. cbn [bptr bsize] in *. lia.
  - destruct (total caps =? 0) eqn:E0; cbn [negb] in E.
    + apply Z.eqb_eq in E0. injection E as <- <-. right. exists 0, 0, None. split; [reflexivity|]. split; [|reflexivity].
      split; [auto|]. split; [discriminate|lia].
    + apply Z.eqb_neq in E0. pose proof (Z.mul_pos_pos (total caps) esz ltac:(lia) He) as Hpos.
      rewrite wrap64_small in E by lia. unfold alloc_bytes in E.
      replace (total caps * esz =? 0) with false in E by (symmetry; apply Z.eqb_neq; lia).
      unfold up_alloc in E. destruct (uorc w (length (ulog w))) as [p|] eqn:Eo; injection E as <- <-.
      * right. cbn [ulog upstream_ok] in HU. destruct HU as (Hp & Hb & Hd & _). unfold max_align in *.
        exists 0, p, (Some (mkBlock p (total caps * esz) 16)). split; [reflexivity|].
        split; [|cbn; auto]. split; [auto|]. split; [discriminate|]. intros _. eexists. split; [reflexivity|].
        split; [auto|]. split; [discriminate|]. split; [auto|]. intros z Hz. exact Hz.
      * left. split; [reflexivity|]. eexists. reflexivity.
Qed.

(** Outer memory. *)
Lemma alloc_outer_ok w n r w' : 0 <= n -> n * 24 < 2 ^ 64 -> alloc_outer w n = (r, w') -> upstream_ok (ulog w') ->
  (n = 0 /\ r = Ret (mkBlock 0 0 16) /\ w' = w) \/
  (0 < n /\ r = Throw bad_alloc /\ ulog w' = UAlloc (n * 24) 16 None :: ulog w) \/
  (0 < n /\ exists p, 0 < p /\ (16 | p) /\ r = Ret (mkBlock p (n * 24) 16) /\ ulog w' = UAlloc (n * 24) 16 (Some p) :: ulog w).
Proof.
  intros Hn Hb E HU. unfold alloc_outer, alloc_bytes in E. destruct (n =? 0) eqn:E0.
  - apply Z.eqb_eq in E0. left. injection E as <- <-. auto.
  - apply Z.eqb_neq in E0. right. unfold view_bytes in E. rewrite wrap64_small in E by lia.
    replace (n * 24 =? 0) with false in E by (symmetry; apply Z.eqb_neq; lia).
    unfold up_alloc in E. destruct (uorc w (length (ulog w))) as [p|]; injection E as <- <-.
    + right. split; [lia|]. cbn [ulog upstream_ok] in HU. exists p. unfold max_align in *. split; [tauto|]. split; [tauto|].
      split; reflexivity.
    + left. split; [lia|]. split; reflexivity.
Qed.

Lemma ulive_remove_head b l : remove1 b (b :: l) = l.
Proof. cbn [remove1]. destruct (block_eq_dec b b); congruence. Qed.

Lemma free_opt_log w b : 0 < bptr b -> ulog (free_bytes w b) = UFree (bptr b) (bsize b) (balign b) :: ulog w.
Proof. intros H. unfold free_bytes. replace (bptr b =? 0) with false by (symmetry; apply Z.eqb_neq; lia). reflexivity. Qed.

Ltac blk := cbn [bptr bsize balign ulive ulog frees_ok].

Lemma alloc_bytes_grow w s r w' : alloc_bytes w s = (r, w') -> exists l, ulog w' = l ++ ulog w.
Proof.
  unfold alloc_bytes, up_alloc. destruct (s =? 0); [intros E; injection E as _ <-; exists []; reflexivity|].
  destruct (uorc w (length (ulog w))); intros E; injection E as _ <-; eexists [_]; reflexivity.
Qed.

(** What a constructed jagged buffer looks like. *)
Definition jbuf_ok (esz eal : Z) (caps : list Z) (rs : bool) (j : jbuf) : Prop :=
  exists h d, inner_ok esz eal caps rs h d (jb_inner j) /\ jb_views j = inner_views esz h d 0 0 caps.

Lemma jagged_buffer_ok esz eal caps rs host w hw r w' hw' : 0 < esz -> pow2 eal ->
  Forall (fun c => 0 <= c < 2 ^ 32) caps -> Z.of_nat (length caps) * 24 < 2 ^ 64 ->
  4 * Z.of_nat (length caps) + total caps * esz + 2 * Z.max 4 eal < 2 ^ 64 ->
  jagged_buffer esz eal caps rs host w hw = (r, w', hw') ->
  upstream_ok (ulog w') -> upstream_ok (ulog hw') -> frees_ok (ulog w) -> frees_ok (ulog hw) ->
  frees_ok (ulog w') /\ frees_ok (ulog hw') /\
  ((r = Throw bad_alloc /\ ulive (ulog w') = ulive (ulog w) /\ ulive (ulog hw') = ulive (ulog hw)) \/
   exists j, r = Ret j /\ jbuf_ok esz eal caps rs j /\
     (forall w2 hw2, jagged_destroy j host w' hw' = (w2, hw2) ->
        frees_ok (ulog w2) /\ frees_ok (ulog hw2) /\
        ulive (ulog w2) = ulive (ulog w) /\ ulive (ulog hw2) = ulive (ulog hw)) /\
     (forall b, jb_inner j = Some b -> In b (ulive (ulog w'))) /\
     (0 < Z.of_nat (length caps) ->
        jb_host_ptr j = bptr (jb_host j) /\ bsize (jb_host j) = 24 * Z.of_nat (length caps) /\
        In (jb_host j) (ulive (ulog (if host then hw' else w'))) /\
        jb_ptr j = bptr (if host then jb_outer j else jb_host j) /\
        (host = true -> bsize (jb_outer j) = 24 * Z.of_nat (length caps) /\ In (jb_outer j) (ulive (ulog w'))))).
Proof.
  intros He Ha HF H24 Hn E HU HU' HFr HFr'. unfold jagged_buffer in E.
  set (n := Z.of_nat (length caps)) in *. assert (Hn0 : 0 <= n) by (unfold n; lia).
  (* logs only grow, so every prefix is fine *)
  assert (Hgrow : forall w1 rs1 wi, jagged_inner esz eal caps rs w1 = (rs1, wi) ->
            exists l, ulog wi = l ++ ulog w1).
  { clear. intros w1 rs1 wi. unfold jagged_inner.
    assert (P : forall ts r x, placement w1 ts = (r, x) -> exists l, ulog x = l ++ ulog w1).
    { intros ts r x. unfold placement. destruct (alloc_bytes w1 (placement_bytes ts)) as [r0 x0] eqn:E0.
      apply alloc_bytes_grow in E0. destruct r0; intros E; injection E as _ <-; auto. }
    destruct (negb rs && negb (wrap64 (total caps) =? 0)).
    - destruct (alloc_bytes w1 _) as [r0 x0] eqn:E0. apply alloc_bytes_grow in E0.
      destruct r0; intros E; injection E as _ <-; auto.
    - destruct (rs && negb (Z.of_nat (length caps) =? 0)).
      + destruct (placement w1 _) as [r0 x0] eqn:E0. apply P in E0.
        destruct r0 as [[b [|s [|d [|]]]]|e|]; intros E; injection E as _ <-; auto.
      + intros E. injection E as _ <-. exists []. reflexivity. }
  assert (Hgrow2 : forall w1 n1 r1 w2, alloc_outer w1 n1 = (r1, w2) -> exists l, ulog w2 = l ++ ulog w1).
  { clear. intros w1 n1 r1 w2. unfold alloc_outer.
    destruct (n1 =? 0); [intros E; injection E as _ <-; exists []; reflexivity|]. apply alloc_bytes_grow. }
  assert (Hgrow3 : forall w1 b, exists l, ulog (free_bytes w1 b) = l ++ ulog w1).
  { clear. intros. unfold free_bytes. destruct (bptr b =? 0); [exists []; reflexivity|eexists [_]; reflexivity]. }
  assert (Hpre : forall l1 l2, upstream_ok (l1 ++ l2) -> upstream_ok l2).
  { clear. induction l1 as [|e l1 IH]; simpl; auto. intros l2. destruct e as [s a [p|]|p s a]; intros; apply IH; tauto. }
  destruct (alloc_outer w (if host then n else 0)) as [ro w1] eqn:Eo.
  destruct host.
  - (* two resources *)
    destruct ro as [o|eo|].
    2:{ injection E as <- <- <-.
        destruct (alloc_outer_ok w n (Throw eo) w1 Hn0 H24 Eo HU) as [(_ & ? & _)|[(_ & ? & El)|(_ & ? & _ & _ & ? & _)]]; try discriminate.
        rewrite El. cbn [frees_ok ulive]. split; auto. split; auto. left. split; [congruence|auto]. }
    2:{ injection E as <- <- <-.
        destruct (alloc_outer_ok w n UB w1 Hn0 H24 Eo HU) as [(_ & ? & _)|[(_ & ? & El)|(_ & ? & _ & _ & ? & _)]]; discriminate. }
    destruct (alloc_outer hw n) as [rh hw1] eqn:Eh.
    assert (HU1 : upstream_ok (ulog w1) /\ upstream_ok (ulog hw1)).
    { destruct rh as [b|e|].
      - destruct (jagged_inner esz eal caps rs w1) as [[[[? ?] ?]|e|] w3] eqn:Ei; injection E as <- <- <-;
          destruct (Hgrow _ _ _ Ei) as (l & El).
        + split; auto. rewrite El in HU. eauto.
        + destruct (Hgrow3 w3 o) as (l3 & El3). destruct (Hgrow3 hw1 b) as (l4 & El4).
          split; [rewrite El3, El in HU; eauto|rewrite El4 in HU'; eauto].
        + split; auto. rewrite El in HU. eauto.
      - injection E as <- <- <-. split; auto. destruct (Hgrow3 w1 o) as (l3 & El3). rewrite El3 in HU. eauto.
      - injection E as <- <- <-. auto. }
    destruct HU1 as [HU1 HU1'].
    assert (Ho : (n = 0 /\ o = mkBlock 0 0 16 /\ w1 = w) \/
                 (0 < n /\ exists p, 0 < p /\ o = mkBlock p (n * 24) 16 /\ ulog w1 = UAlloc (n * 24) 16 (Some p) :: ulog w)).
    { destruct (alloc_outer_ok w n (Ret o) w1 Hn0 H24 Eo HU1) as [(? & Ex & ?)|[(_ & ? & El)|(? & p & ? & ? & Ex & ?)]]; try discriminate.
      - left. injection Ex as ->. auto.
      - right. injection Ex as ->. split; auto. exists p. auto. }
    assert (FO : forall x, ulog x = ulog w1 -> frees_ok (ulog (free_bytes x o)) /\ ulive (ulog (free_bytes x o)) = ulive (ulog w)).
    { intros x Ex. destruct Ho as [(_ & -> & ->)|(_ & p & Hp & -> & El)].
      - unfold free_bytes. cbn [bptr]. rewrite Z.eqb_refl, Ex. auto.
      - rewrite free_opt_log by (cbn [bptr]; auto). rewrite Ex, El. blk. rewrite ulive_remove_head. split; [|auto].
        split; [left; reflexivity|auto]. }
    assert (FW1 : frees_ok (ulog w1)).
    { destruct Ho as [(_ & _ & ->)|(_ & p & _ & _ & El)]; auto. rewrite El. exact HFr. }
    destruct rh as [h|eh|].
    2:{ injection E as <- <- <-.
        destruct (alloc_outer_ok hw n (Throw eh) hw1 Hn0 H24 Eh HU1') as [(_ & ? & _)|[(_ & Ee & El)|(_ & ? & _ & _ & ? & _)]]; try discriminate.
        destruct (FO w1 eq_refl) as [F1 F2]. split; auto. rewrite El. cbn [frees_ok ulive]. split; auto.
        left. split; [congruence|]. auto. }
    2:{ destruct (alloc_outer_ok hw n UB hw1 Hn0 H24 Eh HU1') as [(_ & ? & _)|[(_ & ? & El)|(_ & ? & _ & _ & ? & _)]]; discriminate. }
    assert (Hh : (n = 0 /\ h = mkBlock 0 0 16 /\ hw1 = hw) \/
                 (0 < n /\ exists p, 0 < p /\ h = mkBlock p (n * 24) 16 /\ ulog hw1 = UAlloc (n * 24) 16 (Some p) :: ulog hw)).
    { destruct (alloc_outer_ok hw n (Ret h) hw1 Hn0 H24 Eh HU1') as [(? & Ex & ?)|[(_ & ? & El)|(? & p & ? & ? & Ex & ?)]]; try discriminate.
      - left. injection Ex as ->. auto.
      - right. injection Ex as ->. split; auto. exists p. auto. }
    assert (FH : frees_ok (ulog (free_bytes hw1 h)) /\ ulive (ulog (free_bytes hw1 h)) = ulive (ulog hw)).
    { destruct Hh as [(_ & -> & ->)|(_ & p & Hp & -> & El)].
      - unfold free_bytes. cbn [bptr]. rewrite Z.eqb_refl. auto.
      - rewrite free_opt_log by (cbn [bptr]; auto). rewrite El. blk. rewrite ulive_remove_head. split; [|auto].
        split; [left; reflexivity|auto]. }
    assert (FHW1 : frees_ok (ulog hw1)).
    { destruct Hh as [(_ & _ & ->)|(_ & p & _ & _ & El)]; auto. rewrite El. exact HFr'. }
    destruct (jagged_inner esz eal caps rs w1) as [ri w3] eqn:Ei.
    assert (HU3 : upstream_ok (ulog w3)).
    { destruct ri as [[[? ?] ?]|e|]; injection E as <- <- <-; auto.
      destruct (Hgrow3 w3 o) as (l3 & El3). rewrite El3 in HU. eauto. }
    destruct (jagged_inner_ok esz eal caps rs w1 ri w3 He Ha HF Hn Ei HU3) as [(-> & s & El)|(hd & d & inner & -> & HI & Hin)].
    + injection E as <- <- <-.
      assert (X : frees_ok (ulog (free_bytes w3 o)) /\ ulive (ulog (free_bytes w3 o)) = ulive (ulog w)).
      { destruct Ho as [(_ & -> & ->)|(_ & p & Hp & -> & El1)].
        - unfold free_bytes. cbn [bptr]. rewrite Z.eqb_refl, El. cbn [frees_ok ulive]. auto.
        - rewrite free_opt_log by (cbn [bptr]; auto). rewrite El, El1. blk. rewrite ulive_remove_head. split; [|auto].
          split; [left; reflexivity|auto]. }
      destruct X as [X1 X2]. destruct FH as [FH1 FH2]. split; auto.
    + injection E as <- <- <-.
      assert (FW3 : frees_ok (ulog w3)).
      { destruct inner as [b|]; [destruct Hin as (_ & _ & El); rewrite El; exact FW1|subst w3; auto]. }
      split; [auto|]. split; [auto|]. right. eexists. split; [reflexivity|]. cbn [jb_views jb_inner jb_ptr jb_host_ptr jb_host jb_outer].
      split; [exists hd, d; cbn [jb_views jb_inner]; split; [exact HI|reflexivity]|]. split; [|split].
      * intros w2 hw2 Ed. unfold jagged_destroy in Ed. cbn [jb_inner jb_outer jb_host] in Ed. injection Ed as <- <-.
        destruct FH as [FH1 FH2].
        assert (X : frees_ok (ulog (free_bytes (free_opt w3 inner) o)) /\ ulive (ulog (free_bytes (free_opt w3 inner) o)) = ulive (ulog w)).
        { destruct inner as [b|]; cbn [free_opt].
          - destruct Hin as (Hb1 & Hb2 & El). rewrite <- Hb1 in El.
            destruct Ho as [(_ & -> & ->)|(_ & p & Hp & -> & El1)].
            + unfold free_bytes at 1 3. cbn [bptr]. rewrite Z.eqb_refl. rewrite free_opt_log by auto. rewrite El. blk.
              destruct b as [bp bs ba]; cbn [bptr bsize balign]. rewrite ulive_remove_head. split; auto. split; [left; auto|auto].
            + rewrite (free_opt_log (free_bytes w3 b)) by (cbn [bptr]; auto). rewrite free_opt_log by auto. rewrite El, El1. blk.
              destruct b as [bp bs ba]; cbn [bptr bsize balign]. rewrite !ulive_remove_head. split; auto.
              split; [left; auto|]. split; [left; auto|auto].
          - subst w3. apply FO. reflexivity. }
        destruct X as [X1 X2]. auto.
      * intros b ->. destruct Hin as (Hb1 & _ & El). rewrite El, <- Hb1. cbn [ulive]. left. destruct b; reflexivity.
      * intros Hnp. destruct Hh as [(? & _)|(_ & p & Hp & -> & El1)]; [lia|].
        destruct Ho as [(? & _)|(_ & q & Hq & -> & El2)]; [lia|]. cbn [bptr bsize]. split; [reflexivity|]. split; [lia|].
        split; [rewrite El1; left; reflexivity|]. split; [reflexivity|]. intros _. split; [lia|].
        destruct inner as [b|]; [destruct Hin as (_ & _ & El); rewrite El, El2; right; left; reflexivity|subst w3; rewrite El2; left; reflexivity].
  - (* one resource *)
    assert (Eo' : ro = Ret (mkBlock 0 0 16) /\ w1 = w) by (injection Eo as <- <-; split; reflexivity). destruct Eo' as [-> ->]. clear Eo.
    destruct (alloc_outer w n) as [rh w2] eqn:Eh.
    assert (HU2 : upstream_ok (ulog w2) /\ hw' = hw).
    { destruct rh as [b|e|].
      - destruct (jagged_inner esz eal caps rs w2) as [[[[? ?] ?]|e|] w3] eqn:Ei; injection E as <- <- <-;
          destruct (Hgrow _ _ _ Ei) as (l & El); split; auto.
        + rewrite El in HU. eauto.
        + destruct (Hgrow3 (free_bytes w3 b) (mkBlock 0 0 16)) as (l3 & El3). destruct (Hgrow3 w3 b) as (l4 & El4).
          rewrite El3, El4, El in HU. eauto.
        + rewrite El in HU. eauto.
      - injection E as <- <- <-. cbn in HU. auto.
      - injection E as <- <- <-. auto. }
    destruct HU2 as [HU2 ->].
    destruct rh as [h|eh|].
    2:{ injection E as <- <-.
        destruct (alloc_outer_ok w n (Throw eh) w2 Hn0 H24 Eh HU2) as [(_ & ? & _)|[(_ & Ee & El)|(_ & ? & _ & _ & ? & _)]]; try discriminate.
        unfold free_bytes. cbn [bptr]. rewrite Z.eqb_refl, El. cbn [frees_ok ulive]. split; auto. split; auto.
        left. split; [congruence|auto]. }
    2:{ destruct (alloc_outer_ok w n UB w2 Hn0 H24 Eh HU2) as [(_ & ? & _)|[(_ & ? & El)|(_ & ? & _ & _ & ? & _)]]; discriminate. }
    assert (Hh : (n = 0 /\ h = mkBlock 0 0 16 /\ w2 = w) \/
                 (0 < n /\ exists p, 0 < p /\ h = mkBlock p (n * 24) 16 /\ ulog w2 = UAlloc (n * 24) 16 (Some p) :: ulog w)).
    { destruct (alloc_outer_ok w n (Ret h) w2 Hn0 H24 Eh HU2) as [(? & Ex & ?)|[(_ & ? & El)|(? & p & ? & ? & Ex & ?)]]; try discriminate.
      - left. injection Ex as ->. auto.
      - right. injection Ex as ->. split; auto. exists p. auto. }
    assert (FW2 : frees_ok (ulog w2)).
    { destruct Hh as [(_ & _ & ->)|(_ & p & _ & _ & El)]; auto. rewrite El. exact HFr. }
    assert (Enull : forall x, free_bytes x (mkBlock 0 0 16) = x) by reflexivity.
    destruct (jagged_inner esz eal caps rs w2) as [ri w3] eqn:Ei.
    assert (HU3 : upstream_ok (ulog w3)).
    { destruct ri as [[[? ?] ?]|e|]; injection E as <- <-; auto.
      rewrite Enull in HU. destruct (Hgrow3 w3 h) as (l3 & El3). rewrite El3 in HU. eauto. }
    destruct (jagged_inner_ok esz eal caps rs w2 ri w3 He Ha HF Hn Ei HU3) as [(-> & s & El)|(hd & d & inner & -> & HI & Hin)].
    + injection E as <- <-. rewrite Enull.
      destruct Hh as [(_ & -> & ->)|(_ & p & Hp & -> & El1)].
      * rewrite Enull, El. cbn [frees_ok ulive]. auto 10.
      * rewrite free_opt_log by (cbn [bptr]; auto). rewrite El, El1. blk. rewrite ulive_remove_head. split; [split; [left; auto|auto]|].
        split; auto.
    + injection E as <- <-.
      assert (FW3 : frees_ok (ulog w3)).
      { destruct inner as [b|]; [destruct Hin as (_ & _ & El); rewrite El; exact FW2|subst w3; auto]. }
      split; [auto|]. split; [auto|]. right. eexists. split; [reflexivity|]. cbn [jb_views jb_inner jb_ptr jb_host_ptr jb_host jb_outer].
      split; [exists hd, d; cbn [jb_views jb_inner]; split; [exact HI|reflexivity]|]. split; [|split].
      * intros w4 hw4 Ed. unfold jagged_destroy in Ed. cbn [jb_inner jb_outer jb_host] in Ed. rewrite Enull in Ed. injection Ed as <- <-.
        assert (X : frees_ok (ulog (free_bytes (free_opt w3 inner) h)) /\ ulive (ulog (free_bytes (free_opt w3 inner) h)) = ulive (ulog w)).
        { destruct inner as [b|]; cbn [free_opt].
          - destruct Hin as (Hb1 & Hb2 & El). rewrite <- Hb1 in El.
            destruct Hh as [(_ & -> & ->)|(_ & p & Hp & -> & El1)].
            + rewrite Enull. rewrite free_opt_log by auto. rewrite El. blk.
              destruct b as [bp bs ba]; cbn [bptr bsize balign]. rewrite ulive_remove_head. split; auto. split; [left; auto|auto].
            + rewrite (free_opt_log (free_bytes w3 b)) by (cbn [bptr]; auto). rewrite free_opt_log by auto. rewrite El, El1. blk.
              destruct b as [bp bs ba]; cbn [bptr bsize balign]. rewrite !ulive_remove_head. split; auto.
              split; [left; auto|]. split; [left; auto|auto].
          - subst w3. destruct Hh as [(_ & -> & ->)|(_ & p & Hp & -> & El1)].
            + rewrite Enull. auto.
            + rewrite free_opt_log by (cbn [bptr]; auto). rewrite El1. blk. rewrite ulive_remove_head. split; auto. split; [left; auto|auto]. }
        destruct X as [X1 X2]. auto.
      * intros b ->. destruct Hin as (Hb1 & _ & El). rewrite El, <- Hb1. cbn [ulive]. left. destruct b; reflexivity.
      * intros Hnp. destruct Hh as [(? & _)|(_ & p & Hp & -> & El1)]; [lia|].
        cbn [bptr bsize]. split; [reflexivity|]. split; [lia|]. split.
        { destruct inner as [b|]; [destruct Hin as (_ & _ & El); rewrite El, El1; right; left; reflexivity|subst w3; rewrite El1; left; reflexivity]. }
        split; [reflexivity|discriminate].
Qed.

Lemma pow2_divide_le a b : pow2 a -> pow2 b -> a <= b -> (a | b).
Proof.
  intros (j & Hj & ->) (k & Hk & ->) H. assert (j <= k).
  { destruct (Z_le_gt_dec j k); auto. assert (2 ^ k < 2 ^ j) by (apply Z.pow_lt_mono_r; lia). lia. }
  exists (2 ^ (k - j)). rewrite <- Z.pow_add_r by lia. f_equal. lia.
Qed.

(** ** Statements for the property file *)
Lemma jagged_buffer_thm esz eal caps rs host w hw j w' hw' : 0 < esz -> pow2 eal ->
  (forall c, In c caps -> 0 <= c < 2 ^ 32) -> Z.of_nat (length caps) * 24 < 2 ^ 64 ->
  4 * Z.of_nat (length caps) + fold_right Z.add 0 caps * esz + 2 * Z.max 4 eal < 2 ^ 64 ->
  jagged_buffer esz eal caps rs host w hw = (Ret j, w', hw') ->
  upstream_ok (ulog w') -> upstream_ok (ulog hw') -> frees_ok (ulog w) -> frees_ok (ulog hw) ->
  map v_cap (jb_views j) = caps /\
  (forall i v u, nth_error (jb_views j) i = Some v -> nth_error (jb_views j) (S i) = Some u ->
     v_ptr u = v_ptr v + v_cap v * esz /\ (rs = true -> v_size u = v_size v + 4)) /\
  (forall v, In v (jb_views j) -> 0 < v_cap v -> 0 < v_ptr v /\
     exists b, jb_inner j = Some b /\ In b (ulive (ulog w')) /\ inside (mkBlock (v_ptr v) (v_cap v * esz) eal) b) /\
  (rs = false -> pairwise_disjoint (map (payload_of esz eal) (jb_views j)) /\
     forall v, In v (jb_views j) -> v_size v = 0) /\
  (rs = true -> pairwise_disjoint (map counter_of (jb_views j) ++ map (payload_of esz eal) (jb_views j)) /\
     forall v, In v (jb_views j) -> 0 < v_size v /\ (4 | v_size v) /\
       exists b, jb_inner j = Some b /\ In b (ulive (ulog w')) /\ inside (mkBlock (v_size v) 4 4) b).
Proof.
  intros He Ha HF0 H24 Hn E HU HU' HFr HFr'.
  assert (HF : Forall (fun c => 0 <= c < 2 ^ 32) caps) by (apply Forall_forall; auto).
  destruct (jagged_buffer_ok esz eal caps rs host w hw (Ret j) w' hw' He Ha HF H24 Hn E HU HU' HFr HFr')
    as (_ & _ & [(X & _)|(j' & X & HJ & _ & Hlive & _)]); [discriminate|]. injection X as <-.
  destruct HJ as (h & d & (I1 & I2 & I3) & ->).
  split; [apply inner_views_caps; auto|]. split; [|split; [|split]].
  - intros i v u Ev Eu. rewrite inner_views_nth in Ev, Eu.
    destruct (nth_error caps i) as [c|] eqn:Ec; [|discriminate].
    destruct (nth_error caps (S i)) as [c'|] eqn:Ec'; [|discriminate].
    apply (f_equal (fun o => match o with Some x => x | None => v end)) in Ev, Eu. subst v u. cbn [v_ptr v_cap v_size].
    assert (Hc : 0 <= c < 2 ^ 32) by (apply HF0; eapply nth_error_In; eauto).
    rewrite (total_firstn_S caps i c Ec), (wrap32_small c) by auto. split.
    + rewrite !Z.add_0_l. rewrite Z.mul_add_distr_l. lia.
    + intros Hrs. destruct (I2 Hrs) as (b & _ & Hh & _).
      { intros ->. destruct i; discriminate. }
      replace (h =? 0) with false by (symmetry; apply Z.eqb_neq; lia). lia.
  - intros v Hv Hpos. apply In_nth_error in Hv. destruct Hv as (k & Ev).
    destruct (view_at esz h d caps HF k v Ev) as (c & Ec & Hc & Ecap & _ & _ & Hn0 & Hle).
    destruct (payload_range esz h d caps He HF k v Ev) as (R1 & R2).
    assert (Hc' : 0 < total caps) by lia.
    destruct (I3 Hc') as (b & Eb & Hd & _ & _ & Hin). split; [lia|]. exists b. split; [auto|]. split; [auto|].
    intros x Hx. apply Hin. unfold in_block in *. cbn [bptr bsize] in *. lia.
  - intros Hrs. split; [apply payloads_disjoint; auto|]. intros v Hv. apply In_nth_error in Hv. destruct Hv as (k & Ev).
    destruct (view_at esz h d caps HF k v Ev) as (c & _ & _ & _ & Es & _). rewrite Es, (I1 Hrs). reflexivity.
  - intros Hrs. destruct caps as [|c0 caps'] eqn:Ecaps.
    { cbn. split; [auto|]. intros v []. }
    rewrite <- Ecaps in *. assert (Hne : caps <> []) by (rewrite Ecaps; discriminate).
    destruct (I2 Hrs Hne) as (b & Eb & Hh & Hal & Hin & Hord). split.
    + apply pairwise_disjoint_app. split; [apply counters_disjoint; auto; lia|]. split; [apply payloads_disjoint; auto|].
      intros x y Hx Hy. apply in_map_iff in Hx. apply in_map_iff in Hy.
      destruct Hx as (v & <- & Hv). destruct Hy as (u & <- & Hu).
      apply In_nth_error in Hv. apply In_nth_error in Hu. destruct Hv as (k & Ev). destruct Hu as (m & Eu).
      destruct (view_at esz h d caps HF k v Ev) as (c & Ec & Hc & Ecap & Es & _).
      destruct (view_at esz h d caps HF m u Eu) as (c' & Ec' & Hc' & Ecap' & _ & _ & Hn0 & Hle).
      destruct (payload_range esz h d caps He HF m u Eu) as (R1 & R2).
      apply nth_error_lt in Ec. replace (h =? 0) with false in Es by (symmetry; apply Z.eqb_neq; lia).
      intros (z & Hz1 & Hz2). unfold in_block, counter_of, payload_of in *. cbn [bptr bsize] in *.
      assert (0 < total caps).
      { destruct (Z.eq_dec c' 0) as [->|]; [|lia]. rewrite Ecap' in Hz2. lia. }
      specialize (Hord ltac:(auto)). lia.
    + intros v Hv. apply In_nth_error in Hv. destruct Hv as (k & Ev).
      destruct (view_at esz h d caps HF k v Ev) as (c & Ec & Hc & Ecap & Es & _). apply nth_error_lt in Ec.
      replace (h =? 0) with false in Es by (symmetry; apply Z.eqb_neq; lia). rewrite Es. split; [lia|].
      split; [apply Z.divide_add_r; [auto|apply Z.divide_factor_l]|]. exists b. split; [auto|]. split; [auto|].
      intros x Hx. apply Hin. unfold in_block in *. cbn [bptr bsize] in *. lia.
Qed.

Lemma jagged_buffer_aligned esz eal caps rs host w hw j w' hw' : 0 < esz -> pow2 eal -> (eal | esz) ->
  (forall c, In c caps -> 0 <= c < 2 ^ 32) -> Z.of_nat (length caps) * 24 < 2 ^ 64 ->
  4 * Z.of_nat (length caps) + fold_right Z.add 0 caps * esz + 2 * Z.max 4 eal < 2 ^ 64 ->
  jagged_buffer esz eal caps rs host w hw = (Ret j, w', hw') ->
  upstream_ok (ulog w') -> upstream_ok (ulog hw') -> frees_ok (ulog w) -> frees_ok (ulog hw) ->
  rs = true \/ eal <= 16 ->
  forall v, In v (jb_views j) -> 0 < v_cap v -> (eal | v_ptr v).
Proof.
  intros He Ha Hdiv HF0 H24 Hn E HU HU' HFr HFr' Hor v Hv Hpos.
  assert (HF : Forall (fun c => 0 <= c < 2 ^ 32) caps) by (apply Forall_forall; auto).
  destruct (jagged_buffer_ok esz eal caps rs host w hw (Ret j) w' hw' He Ha HF H24 Hn E HU HU' HFr HFr')
    as (_ & _ & [(X & _)|(j' & X & HJ & _)]); [discriminate|]. injection X as <-.
  destruct HJ as (h & d & (I1 & I2 & I3) & Ej). rewrite Ej in Hv.
  apply In_nth_error in Hv. destruct Hv as (k & Ev).
  destruct (view_at esz h d caps HF k v Ev) as (c & Ec & Hc & Ecap & _ & Ep & Hn0 & Hle).
  destruct (I3 ltac:(lia)) as (b & _ & Hd & D1 & D2 & _). rewrite Ep. apply Z.divide_add_r.
  - destruct rs; [auto|]. destruct Hor as [?|Hor]; [discriminate|].
    apply Z.divide_trans with 16; [|auto]. apply pow2_divide_le; auto. exists 4. split; [lia|reflexivity].
  - apply Z.divide_mul_l. auto.
Qed.

Lemma jagged_buffer_released esz eal caps rs host w hw r w' hw' : 0 < esz -> pow2 eal ->
  (forall c, In c caps -> 0 <= c < 2 ^ 32) -> Z.of_nat (length caps) * 24 < 2 ^ 64 ->
  4 * Z.of_nat (length caps) + fold_right Z.add 0 caps * esz + 2 * Z.max 4 eal < 2 ^ 64 ->
  jagged_buffer esz eal caps rs host w hw = (r, w', hw') ->
  upstream_ok (ulog w') -> upstream_ok (ulog hw') -> frees_ok (ulog w) -> frees_ok (ulog hw) ->
  frees_ok (ulog w') /\ frees_ok (ulog hw') /\
  ((r = Throw bad_alloc /\ ulive (ulog w') = ulive (ulog w) /\ ulive (ulog hw') = ulive (ulog hw)) \/
   exists j, r = Ret j /\ forall w2 hw2, jagged_destroy j host w' hw' = (w2, hw2) ->
     frees_ok (ulog w2) /\ frees_ok (ulog hw2) /\
     ulive (ulog w2) = ulive (ulog w) /\ ulive (ulog hw2) = ulive (ulog hw)).
Proof.
  intros He Ha HF0 H24 Hn E HU HU' HFr HFr'.
  assert (HF : Forall (fun c => 0 <= c < 2 ^ 32) caps) by (apply Forall_forall; auto).
  destruct (jagged_buffer_ok esz eal caps rs host w hw r w' hw' He Ha HF H24 Hn E HU HU' HFr HFr')
    as (F1 & F2 & [X|(j' & X & HJ & HD & _)]); split; auto; split; auto. right. exists j'. auto.
Qed.

Lemma jagged_buffer_outer esz eal caps rs host w hw j w' hw' : 0 < esz -> pow2 eal -> caps <> [] ->
  (forall c, In c caps -> 0 <= c < 2 ^ 32) -> Z.of_nat (length caps) * 24 < 2 ^ 64 ->
  4 * Z.of_nat (length caps) + fold_right Z.add 0 caps * esz + 2 * Z.max 4 eal < 2 ^ 64 ->
  jagged_buffer esz eal caps rs host w hw = (Ret j, w', hw') ->
  upstream_ok (ulog w') -> upstream_ok (ulog hw') -> frees_ok (ulog w) -> frees_ok (ulog hw) ->
  (exists b, In b (ulive (ulog w')) /\ bptr b = jb_ptr j /\ bsize b = 24 * Z.of_nat (length caps) /\
     forall i, jb_inner j = Some i -> In i (ulive (ulog w'))) /\
  (host = true -> exists b, In b (ulive (ulog hw')) /\ bptr b = jb_host_ptr j /\
     bsize b = 24 * Z.of_nat (length caps)) /\
  (host = false -> jb_host_ptr j = jb_ptr j).
Proof.
  intros He Ha Hne HF0 H24 Hn E HU HU' HFr HFr'.
  assert (HF : Forall (fun c => 0 <= c < 2 ^ 32) caps) by (apply Forall_forall; auto).
  destruct (jagged_buffer_ok esz eal caps rs host w hw (Ret j) w' hw' He Ha HF H24 Hn E HU HU' HFr HFr')
    as (_ & _ & [(X & _)|(j' & X & HJ & _ & Hlive & Ho)]); [discriminate|]. injection X as <-.
  destruct Ho as (O1 & O2 & O3 & O4 & O5); [destruct caps; [congruence|cbn [length]; lia]|].
  destruct host.
  - destruct (O5 eq_refl) as [O6 O7]. split; [|split; [|discriminate]].
    + exists (jb_outer j). repeat split; auto.
    + intros _. exists (jb_host j). auto.
  - split; [|split; [discriminate|]].
    + exists (jb_host j). repeat split; auto.
    + intros _. congruence.
Qed.
