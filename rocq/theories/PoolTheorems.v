(** Results about the pool resource. *)
From Verif Require Import Base BaseLemmas History IntMath IntMathProofs Align AlignProofs HostResProofs
  Pool PoolProofs PoolHistory.
From Coq Require Import Permutation Sorted.

(** States a pool resource with options [o] gets into by legal calls. *)
Definition pool_reach (o : options) (sl : Z) (st : pst) (w : world) (live : list block) : Prop :=
  exists s0, pool_construct o = Ret (sl, s0) /\
    reach (pool_allocate o sl) (pool_deallocate o sl) pool_legal s0 fresh st w live.

Lemma pool_reach_sl o sl st w live : opts_valid o -> pool_reach o sl st w live ->
  sl = Z.log2_up (smallest o) /\
  reach (pool_allocate o sl) (pool_deallocate o sl) pool_legal (st0 o) fresh st w live.
Proof.
  intros HO (s0 & E & HR). rewrite (pool_construct_eq o HO) in E. injection E as <- <-. auto.
Qed.

Lemma reach_pinv o sl st w live : opts_valid o -> pool_reach o sl st w live -> upstream_ok (ulog w) ->
  sl = Z.log2_up (smallest o) /\ pinv o st w live.
Proof.
  intros HO HR HU. destruct (pool_reach_sl _ _ _ _ _ HO HR) as (-> & R). split; auto.
  eapply pool_reach_inv; eauto.
Qed.

Lemma filter_partition (f : block -> bool) l :
  Permutation l (filter (fun b => negb (f b)) l ++ filter f l).
Proof.
  induction l as [|x l IH]; cbn [filter]; auto. destruct (f x); cbn [negb app].
  - rewrite <- Permutation_middle. constructor. auto.
  - constructor. auto.
Qed.

Lemma Forall2_backed o l lo : Forall2 (fits o) l lo -> pairwise_disjoint (map odb lo) ->
  pairwise_disjoint l.
Proof.
  induction 1 as [|b d l lo (F1 & F2 & F3) H IH]; cbn [map pairwise_disjoint]; auto.
  intros (H1 & H2). split; [|auto]. intros c Hc (y & Y1 & Y2).
  assert (exists e, In e lo /\ fits o c e) as (e & He & (G1 & G2 & G3)).
  { clear -H Hc. induction H as [|b' d' l lo HF H IH]; [destruct Hc|]. destruct Hc as [->|Hc].
    - exists d'. split; [left|]; auto.
    - destruct (IH Hc) as (e & He & Hf). exists e. split; [right|]; auto. }
  apply (H1 (odb e)); [apply in_map; auto|]. exists y. unfold in_block, odb in *. cbn [bptr bsize]. lia.
Qed.

(** C09 *)
Lemma pinv_disjoint o st w live : opts_valid o -> pinv o st w live -> upstream_ok (ulog w) ->
  pairwise_disjoint live /\ forall b, In b live -> exists u, In u (ulive (ulog w)) /\ inside b u.
Proof.
  intros HO HI HU.
  split; [|intros b Hb; apply (live_backing o HO _ _ _ _ HI HU Hb)].
  pose proof HI as [H1 H2 H3 H4 (lo & G1 & G2) H6 H7 H8 H9 H10].
  assert (HD : pairwise_disjoint (map (cblk o) (p_chunks st) ++ map odb (p_over st))).
  { eapply pairwise_disjoint_perm; [exact H2|apply ulive_disjoint; auto]. }
  assert (HIn : forall b, In b (filter (pooled o) live) -> inside b (full o b)).
  { intros b Hb x Hx. apply filter_In in Hb. destruct Hb as (Hb & Hp).
    destruct (H9 b Hb) as ((L1 & L2 & L3) & Hs). unfold pooled in Hp. apply negb_true_iff in Hp.
    destruct (pooled_facts o HO (bsize b) (balign b) ltac:(lia) L2 Hp) as (A1 & _).
    destruct (lg_bounds o HO (bsize b) Hs A1) as (_ & B2 & _).
    unfold in_block, full, piece in *. cbn [bptr bsize]. lia. }
  apply pairwise_disjoint_app in HD. destruct HD as (D1 & D2 & D3).
  eapply pairwise_disjoint_perm; [symmetry; apply (filter_partition (over o))|].
  apply pairwise_disjoint_app. split; [|split].
  - apply (pd_map_inside (full o)); [exact HIn|].
    unfold owned in H3. apply pairwise_disjoint_app in H3. apply H3.
  - apply (Forall2_backed o _ lo G2).
    assert (D2' : pairwise_disjoint (map odb (p_cached st ++ lo))).
    { eapply pairwise_disjoint_perm; [|exact D2]. apply Permutation_map. exact G1. }
    rewrite map_app in D2'. apply pairwise_disjoint_app in D2'. apply D2'.
  - intros b c Hb Hc (y & Y1 & Y2).
    destruct (H4 (full o b)) as (ch & Hch & I1 & _).
    { unfold owned. apply in_or_app. right. apply in_map. exact Hb. }
    assert (exists e, In e lo /\ fits o c e) as (e & He & (E1 & E2 & E3)).
    { clear -G2 Hc. induction G2 as [|b' d' l lo HF H IH]; [destruct Hc|]. destruct Hc as [->|Hc].
      - exists d'. split; [left|]; auto.
      - destruct (IH Hc) as (e & He & Hf). exists e. split; [right|]; auto. }
    apply (D3 (cblk o ch) (odb e)); [apply in_map; auto|apply in_map|].
    { eapply Permutation_in; [symmetry; exact G1|]. apply in_or_app. auto. }
    exists y. split.
    + apply I1. apply HIn; auto.
    + unfold in_block, odb in *. cbn [bptr bsize]. lia.
Qed.

Lemma pool_disjoint o sl st w live : opts_valid o -> pool_reach o sl st w live ->
  upstream_ok (ulog w) ->
  pairwise_disjoint live /\ forall b, In b live -> exists u, In u (ulive (ulog w)) /\ inside b u.
Proof.
  intros HO HR HU. destruct (reach_pinv _ _ _ _ _ HO HR HU) as (_ & HI).
  exact (pinv_disjoint _ _ _ _ HO HI HU).
Qed.

(** C10 *)
Lemma pool_block o sl st w live bytes al p st' w' : opts_valid o -> pool_reach o sl st w live ->
  pool_legal bytes al -> 0 < bytes -> pool_allocate o sl st w bytes al = (Ret p, st', w') ->
  upstream_ok (ulog w') ->
  (al | p) /\ 0 < p /\
  (exists u, In u (ulive (ulog w')) /\ bptr u <= p /\ p + bytes <= bptr u + bsize u) /\
  forall b, In b live -> ~ overlap (mkBlock p bytes al) b.
Proof.
  intros HO HR HL Hb E HU.
  assert (HR' : pool_reach o sl st' w' (mkBlock p bytes al :: live)).
  { destruct HR as (s0 & E0 & R). exists s0. split; auto.
    pose proof (reach_alloc _ _ _ _ _ _ _ _ _ _ _ _ _ _ R HL E) as Q.
    rewrite (proj2 (Z.eqb_neq bytes 0)) in Q by lia. exact Q. }
  destruct (reach_pinv _ _ _ _ _ HO HR' HU) as (_ & HI).
  destruct (live_backing o HO _ _ _ (mkBlock p bytes al) HI HU (or_introl eq_refl)) as (D1 & D2 & (u & Hu & Hin)).
  cbn [bptr bsize balign] in *. split; auto. split; auto. split.
  - exists u. split; auto. apply inside_iff in Hin; cbn [bptr bsize] in *; lia.
  - destruct (pool_disjoint _ _ _ _ _ HO HR' HU) as (D & _). destruct D as (D & _). exact D.
Qed.

(** C11 *)
Definition free_block (w : world) (b : block) : world := up_free w (bptr b) (bsize b) (balign b).
Lemma free_all bs : forall w rest, Permutation (ulive (ulog w)) (bs ++ rest) -> frees_ok (ulog w) ->
  frees_ok (ulog (fold_left free_block bs w)) /\
  Permutation (ulive (ulog (fold_left free_block bs w))) rest.
Proof.
  induction bs as [|b bs IH]; intros w rest HP HF; cbn [fold_left app] in *; auto.
  assert (Hin : In (mkBlock (bptr b) (bsize b) (balign b)) (ulive (ulog w))).
  { destruct b. eapply Permutation_in; [symmetry; exact HP|left; reflexivity]. }
  apply IH; cbn [free_block up_free ulog ulive frees_ok]; auto.
  apply Permutation_cons_inv with (mkBlock (bptr b) (bsize b) (balign b)).
  rewrite <- remove1_perm by auto. rewrite HP. destruct b. reflexivity.
Qed.

Lemma fold_left_map {A B C} (f : C -> B -> C) (g : A -> B) l : forall c,
  fold_left (fun c a => f c (g a)) l c = fold_left f (map g l) c.
Proof. induction l; intros; cbn; auto. Qed.

Lemma destroy_eq o st w : pool_destroy o st w =
  fold_left free_block (map (cblk o) (p_chunks st) ++ map odb (p_cached st)) w.
Proof.
  unfold pool_destroy. rewrite fold_left_app, <- !fold_left_map. reflexivity.
Qed.

(** What is still held upstream: one block for each live oversized block. *)
Definition backs (b u : block) : Prop :=
  bptr u = bptr b /\ bsize b <= bsize u /\ (balign b | balign u).

Lemma pool_released o sl st w live : opts_valid o -> pool_reach o sl st w live ->
  upstream_ok (ulog w) ->
  frees_ok (ulog w) /\ frees_ok (ulog (pool_destroy o st w)) /\
  exists held, Permutation (ulive (ulog (pool_destroy o st w))) held /\
    Forall2 backs (filter (fun b => (largest o <? bsize b) || (alignment o <? balign b)) live) held.
Proof.
  intros HO HR HU. destruct (reach_pinv _ _ _ _ _ HO HR HU) as (_ & HI).
  pose proof HI as [H1 H2 H3 H4 (lo & G1 & G2) H6 H7 H8 H9 H10]. split; auto.
  rewrite destroy_eq.
  destruct (free_all (map (cblk o) (p_chunks st) ++ map odb (p_cached st)) w (map odb lo)) as (F1 & F2); auto.
  { rewrite H2, <- app_assoc, <- map_app. apply Permutation_app_head. apply Permutation_map. exact G1. }
  split; auto. exists (map odb lo). split; auto.
  assert (EF : filter (fun b => (largest o <? bsize b) || (alignment o <? balign b)) live = filter (over o) live).
  { apply filter_ext. intros b. unfold over, is_oversized, adjust. f_equal.
    pose proof (f_sl o (opts_valid_facts o HO)).
    destruct (Z.ltb_spec (largest o) (bsize b)), (Z.ltb_spec (largest o) (Z.max (bsize b) (smallest o))); auto; lia. }
  rewrite EF. clear -G2. induction G2 as [|b d l lo (F1 & F2 & F3) H IH]; constructor; auto.
  split; [|split]; auto.
Qed.

Lemma pool_all_released o sl st w live : opts_valid o -> pool_reach o sl st w live ->
  upstream_ok (ulog w) ->
  (forall b, In b live -> bsize b <= largest o /\ balign b <= alignment o) ->
  ulive (ulog (pool_destroy o st w)) = [].
Proof.
  intros HO HR HU HN. destruct (pool_released _ _ _ _ _ HO HR HU) as (_ & _ & held & P & F).
  assert (E : filter (fun b => (largest o <? bsize b) || (alignment o <? balign b)) live = []).
  { clear -HN. induction live as [|b l IH]; cbn [filter]; auto.
    destruct (HN b (or_introl eq_refl)) as (A & B). apply Z.ltb_ge in A, B. rewrite A, B. cbn [orb].
    apply IH. intros; apply HN; right; auto. }
  rewrite E in F. inversion F; subst. apply Permutation_nil. symmetry. exact P.
Qed.

(** C12 *)
(** Options for which every chunk satisfies the asserted limits. *)
Definition opts_safe (o : options) : Prop :=
  opts_valid o /\ 0 < min_blocks o /\ 3 * max_blocks o < 2 ^ 64 /\
  forall k, 0 <= k -> smallest o <= 2 ^ k <= largest o ->
    (2 ^ k | min_bytes o) \/ min_bytes o <= min_blocks o * 2 ^ k.

Definition limits (o : options) (lg n : Z) : Prop :=
  min_blocks o <= n <= max_blocks o /\ min_bytes o <= n * 2 ^ lg <= max_bytes o.
Definition prev_ok (o : options) (sl : Z) (pools : list bucket) : Prop :=
  forall i b, nth_error pools i = Some b -> prev b = 0 \/ limits o (sl + Z.of_nat i) (prev b).

Lemma next_ok o prev lg : opts_safe o -> 0 <= lg -> smallest o <= 2 ^ lg <= largest o ->
  prev = 0 \/ limits o lg prev -> limits o lg (next_count o prev lg).
Proof.
  unfold limits.
  intros (HO & HM & H3 & HK) Hlg HL HP. pose proof (opts_valid_facts o HO) as F.
  pose proof (pow2_pos lg Hlg) as Hp. unfold next_count. rewrite !Z.shiftr_div_pow2 by lia.
  destruct (f_mby o F) as (MB1 & MB2). pose proof (f_minb0 o F) as MB0. pose proof (f_minmax o F) as MM.
  pose proof (f_minmaxb o F) as MMB. pose proof (f_c1 o F) as C1. pose proof (f_c2 o F) as C2.
  pose proof (f_mb o F) as FM.
  specialize (HK lg Hlg HL). clear F HO Hlg.
  assert (CB : min_blocks o * 2 ^ lg <= max_bytes o).
  { apply Z.le_trans with (min_blocks o * largest o); [apply Z.mul_le_mono_nonneg_l; lia|auto]. }
  assert (CC : min_bytes o <= max_blocks o * 2 ^ lg).
  { apply Z.le_trans with (max_blocks o * smallest o); [auto|apply Z.mul_le_mono_nonneg_l; lia]. }
  clear C1 C2 HL. generalize dependent (2 ^ lg). intros q HK HP Hp CB CC.
  set (mb := min_bytes o) in *. set (Mb := max_bytes o) in *.
  pose proof (Z.mul_div_le mb q Hp) as D1. pose proof (Z.mul_div_le Mb q Hp) as D2.
  pose proof (Z.mul_succ_div_gt mb q Hp) as D3.
  destruct (Z.eqb_spec prev 0) as [->|NZ].
  - destruct (Z.ltb_spec (min_blocks o) (mb / q)) as [LT|GE].
    + assert (Hx : (min_blocks o + 1) * q <= q * (mb / q)).
      { rewrite (Z.mul_comm q). apply Z.mul_le_mono_nonneg_r; lia. }
      assert (HD : mb = q * (mb / q)).
      { destruct HK as [(z & HK)|HK]; [|lia]. rewrite HK, Z.div_mul by lia. lia. }
      split; [split; [lia|]|rewrite (Z.mul_comm (mb / q) q); lia].
      apply Z.div_le_upper_bound; [auto|]. lia.
    + split; [lia|]. split; [|lia]. destruct HK as [(z & HK)|HK]; [|lia].
      rewrite HK, Z.div_mul in GE by lia. rewrite HK. apply Z.mul_le_mono_nonneg_r; lia.
  - destruct HP as [HP|((P1 & P2) & P3 & P4)]; [lia|].
    unfold wrap64, two64. rewrite Z.mod_small by lia.
    assert (Hge : prev <= prev * 3 / 2) by (apply Z.div_le_lower_bound; lia).
    assert (HqM : prev <= Mb / q) by (apply Z.div_le_lower_bound; lia).
    assert (G : forall n, prev <= n -> n <= Mb / q -> n <= max_blocks o ->
              (min_blocks o <= n <= max_blocks o) /\ mb <= n * q <= Mb).
    { intros n A B C. split; [lia|]. split.
      - apply Z.le_trans with (prev * q); [auto|apply Z.mul_le_mono_nonneg_r; lia].
      - apply Z.le_trans with (Mb / q * q); [apply Z.mul_le_mono_nonneg_r; lia|lia]. }
    destruct (Z.ltb_spec (Mb / q) (prev * 3 / 2)) as [A|A].
    + destruct (Z.ltb_spec (max_blocks o) (Mb / q)); apply G; lia.
    + destruct (Z.ltb_spec (max_blocks o) (prev * 3 / 2)); apply G; lia.
Qed.

Lemma prev_ok_upd o sl pools i b : prev_ok o sl pools ->
  (prev b = 0 \/ limits o (sl + Z.of_nat i) (prev b)) -> prev_ok o sl (upd pools i b).
Proof.
  intros HP Hb j c Hj. destruct (Nat.eq_dec i j) as [->|NE].
  - rewrite nth_error_upd_eq in Hj.
    + injection Hj as <-. exact Hb.
    + apply nth_error_lt in Hj. rewrite upd_length in Hj. exact Hj.
  - rewrite nth_error_upd_ne in Hj by auto. apply HP in Hj. exact Hj.
Qed.

(** One pooled allocation under safe options. *)
Lemma pooled_defined o st w live bytes al r st' w' : opts_safe o ->
  let sl := Z.log2_up (smallest o) in
  pinv o st w live -> prev_ok o sl (p_pools st) ->
  pool_legal bytes al -> 0 < bytes -> is_oversized o (adjust o bytes) al = false ->
  pool_allocate_pooled o sl st w (adjust o bytes) = (r, st', w') ->
  prev_ok o sl (p_pools st') /\
  ((exists p, r = Ret p) \/ (r = Throw bad_alloc /\ exists s a, ulog w' = UAlloc s a None :: ulog w)).
Proof.
  intros HS sl HI HP (L1 & L2 & L3) Hb HNO E. pose proof HS as (HO & HM & H3 & HK).
  destruct (pooled_facts o HO bytes al ltac:(lia) L2 HNO) as (A1 & A2 & A3 & A4).
  destruct (lg_bounds o HO bytes Hb A1) as (B1 & B2 & B3 & B4). fold sl in B1.
  unfold pool_allocate_pooled in E. rewrite log2_ri_up in E by (apply adjust_pos; auto; lia).
  fold (lg_of o bytes) in E. set (lg := lg_of o bytes) in *.
  destruct (bucket_exists o st w live lg HI) as (b & EN); [auto|].
  fold sl in EN. rewrite EN in E. set (idx := Z.to_nat (lg - sl)) in *.
  assert (Hlg : 0 <= lg) by (destruct (sl_ll o HO); unfold sl in *; lia).
  assert (Eidx : sl + Z.of_nat idx = lg) by (unfold idx; lia).
  pose proof (HP idx b EN) as Hprev. rewrite Eidx in Hprev.
  destruct (fl b) as [|p fl'] eqn:EF.
  - pose proof (next_ok o (prev b) lg HS Hlg ltac:(lia) Hprev) as HN.
    set (n := next_count o (prev b) lg) in *. pose proof HN as ((N1 & N2) & N3 & N4).
    assert (Esz : wrap64 (Z.shiftl n lg) = n * 2 ^ lg).
    { rewrite Z.shiftl_mul_pow2 by lia. unfold wrap64, two64. apply Z.mod_small.
      pose proof (f_mby o (opts_valid_facts o HO)). pose proof (pow2_pos lg Hlg). nia. }
    rewrite Esz in E.
    assert (EA : (min_blocks o <=? n) && (n <=? max_blocks o) && (min_bytes o <=? n * 2 ^ lg) &&
                 (n * 2 ^ lg <=? max_bytes o) = true).
    { rewrite !andb_true_iff, !Z.leb_le. auto. }
    rewrite EA in E. unfold up_alloc in E. destruct (uorc w (length (ulog w))) as [q|].
    + unfold pool_take in E. cbn [fl p_pools p_chunks p_cached p_over prev] in E.
      destruct (Z.to_nat n) as [|m] eqn:En; [lia|]. cbn [chunk_blocks] in E.
      injection E as <- <- <-. cbn [p_pools]. split; [|left; eauto].
      rewrite upd_upd. apply prev_ok_upd; auto. cbn [prev]. rewrite Eidx. auto.
    + injection E as <- <- <-. split; auto. right. split; auto. cbn [ulog]. eauto.
  - unfold pool_take in E. rewrite EF in E. injection E as <- <- <-. cbn [p_pools].
    split; [|left; eauto]. apply prev_ok_upd; auto. cbn [prev]. rewrite Eidx. auto.
Qed.

Lemma alloc_defined o st w live bytes al r st' w' : opts_safe o ->
  let sl := Z.log2_up (smallest o) in
  pinv o st w live -> prev_ok o sl (p_pools st) -> pool_legal bytes al ->
  pool_allocate o sl st w bytes al = (r, st', w') ->
  prev_ok o sl (p_pools st') /\
  ((exists p, r = Ret p) \/ (r = Throw bad_alloc /\ exists s a, ulog w' = UAlloc s a None :: ulog w)).
Proof.
  intros HS sl HI HP HL E. unfold pool_allocate in E. destruct (Z.eqb_spec bytes 0) as [->|NZ].
  - injection E as <- <- <-. split; eauto.
  - pose proof HL as (L1 & L2 & L3). rewrite pow2_is in E by (auto; pose proof (pow2_gt0 _ L2); lia).
    cbn [negb] in E. destruct (is_oversized o (adjust o bytes) al) eqn:EO.
    + unfold pool_allocate_oversized, up_alloc in E.
      destruct (if cache_oversized o then _ else None) as [[d c']|].
      * injection E as <- <- <-. cbn [p_pools]. split; eauto.
      * destruct (uorc w (length (ulog w))); injection E as <- <- <-; cbn [p_pools ulog]; split; eauto.
    + eapply pooled_defined; eauto. lia.
Qed.

Lemma reach_prev_ok o st w live : opts_safe o ->
  let sl := Z.log2_up (smallest o) in
  reach (pool_allocate o sl) (pool_deallocate o sl) pool_legal (st0 o) fresh st w live ->
  upstream_ok (ulog w) -> prev_ok o sl (p_pools st).
Proof.
  intros HS sl HR. pose proof HS as (HO & _).
  induction HR as [w Hw|s w live size align p s' w' HR IH HL E|s w live size align e s' w' HR IH HL E
      |s w live b s' w' HR IH Hin E|s w live size align s' w' HR IH E]; intros HU.
  - intros i b Hi. left. cbn [st0 p_pools] in Hi. apply nth_error_In in Hi. apply repeat_spec in Hi. subst. reflexivity.
  - assert (HU0 : upstream_ok (ulog w)).
    { destruct (pool_allocate_log o _ _ _ _ _ _ _ E) as [Q|(a & b & c & Q)]; rewrite Q in HU; auto.
      apply upstream_ok_tail in HU. auto. }
    exact (proj1 (alloc_defined _ _ _ _ _ _ _ _ _ HS (pool_reach_inv o HO _ _ _ HR HU0) (IH HU0) HL E)).
  - assert (HU0 : upstream_ok (ulog w)).
    { destruct (pool_allocate_log o _ _ _ _ _ _ _ E) as [Q|(a & b & c & Q)]; rewrite Q in HU; auto.
      apply upstream_ok_tail in HU. auto. }
    exact (proj1 (alloc_defined _ _ _ _ _ _ _ _ _ HS (pool_reach_inv o HO _ _ _ HR HU0) (IH HU0) HL E)).
  - assert (HU0 : upstream_ok (ulog w)).
    { revert E HU. unfold pool_deallocate. intros E.
      repeat match type of E with
      | context [match ?x with _ => _ end] => destruct x
      end; injection E; intros; subst; try discriminate; auto. }
    specialize (IH HU0). unfold pool_deallocate in E.
    destruct (bptr b =? 0); [injection E as <- <-; auto|].
    destruct (negb _ || negb _); [discriminate|]. destruct (is_oversized _ _ _).
    + destruct (find_ptr _ _) as [[d ov]|]; [|discriminate]. destruct (cache_oversized o).
      * destruct (lower_bound _ _). injection E as <- <-. auto.
      * injection E as <- <-. auto.
    + destruct (log2_ri _) as [lg|]; [|discriminate].
      destruct (nth_error (p_pools s) (Z.to_nat (lg - sl))) as [bk|] eqn:EN; [|discriminate].
      injection E as <- <-. cbn [p_pools]. apply prev_ok_upd; auto. cbn [prev]. apply IH. auto.
  - unfold pool_deallocate in E. simpl in E. injection E as <- <-. auto.
Qed.

Lemma pool_defined o sl st w live : opts_safe o -> pool_reach o sl st w live -> upstream_ok (ulog w) ->
  (forall bytes al r st' w', pool_legal bytes al -> pool_allocate o sl st w bytes al = (r, st', w') ->
     (exists p, r = Ret p) \/
     (r = Throw bad_alloc /\ exists s a, ulog w' = UAlloc s a None :: ulog w)) /\
  (forall b, In b live ->
     exists st' w', pool_deallocate o sl st w (bptr b) (bsize b) (balign b) = (Ret tt, st', w')).
Proof.
  intros HS HR HU. pose proof HS as (HO & _).
  destruct (pool_reach_sl _ _ _ _ _ HO HR) as (-> & R).
  pose proof (pool_reach_inv o HO _ _ _ R HU) as HI. split.
  - intros bytes al r st' w' HL E.
    apply (alloc_defined _ _ _ _ _ _ _ _ _ HS HI (reach_prev_ok _ _ _ _ HS R HU) HL E).
  - intros b Hb. destruct (pool_dealloc_inv o HO _ _ _ _ HI HU Hb) as (st' & w' & E & _). eauto.
Qed.

(** Deallocation never fails, for all valid options. *)
Lemma pool_dealloc_defined o sl st w live b : opts_valid o -> pool_reach o sl st w live ->
  upstream_ok (ulog w) -> In b live ->
  exists st' w', pool_deallocate o sl st w (bptr b) (bsize b) (balign b) = (Ret tt, st', w').
Proof.
  intros HO HR HU Hb. destruct (reach_pinv _ _ _ _ _ HO HR HU) as (-> & HI).
  destruct (pool_dealloc_inv o HO _ _ _ _ HI HU Hb) as (st' & w' & E & _). eauto.
Qed.

(** C13 *)
Lemma upd_restore {A} (l : list A) i x y : nth_error l i = Some x -> upd (upd l i y) i x = l.
Proof. intros H. rewrite upd_upd. apply upd_nth_same. auto. Qed.

Lemma pool_lifo o sl st w live b bytes al : opts_valid o -> pool_reach o sl st w live ->
  upstream_ok (ulog w) -> In b live ->
  bsize b <= largest o -> balign b <= alignment o ->
  pool_legal bytes al -> 0 < bytes <= largest o -> al <= alignment o ->
  Z.log2_up (Z.max bytes (smallest o)) = Z.log2_up (Z.max (bsize b) (smallest o)) ->
  exists st', pool_deallocate o sl st w (bptr b) (bsize b) (balign b) = (Ret tt, st', w) /\
    pool_allocate o sl st' w bytes al = (Ret (bptr b), st, w).
Proof.
  intros HO HR HU Hb HS HA (L1 & L2 & L3) Hby Hal EL. pose proof (opts_valid_facts o HO) as F.
  destruct (reach_pinv _ _ _ _ _ HO HR HU) as (-> & HI).
  destruct (pool_dealloc_inv o HO _ _ _ _ HI HU Hb) as (st1 & w1 & E & _).
  destruct (i_live o _ _ _ HI b Hb) as ((K1 & K2 & K3) & Hs).
  assert (NO : forall s a, s <= largest o -> a <= alignment o -> is_oversized o (adjust o s) a = false).
  { intros s a P Q. unfold is_oversized, adjust. apply orb_false_iff. rewrite !Z.ltb_ge.
    pose proof (f_sl o F). lia. }
  unfold pool_deallocate in E |- *. destruct (Z.eqb_spec (bptr b) 0) as [Z0|NZ].
  { destruct (live_backing o HO _ _ _ _ HI HU Hb) as (_ & P & _). lia. }
  destruct (negb _ || negb _); [discriminate|].
  rewrite (NO _ _ HS HA) in E |- *.
  rewrite log2_ri_up in E |- * by (apply adjust_pos; auto; lia). fold (lg_of o (bsize b)) in E |- *.
  destruct (nth_error (p_pools st) _) as [bk|] eqn:EN; [|discriminate].
  eexists. split; [reflexivity|].
  unfold pool_allocate. rewrite (proj2 (Z.eqb_neq bytes 0)) by lia.
  rewrite pow2_is by (auto; pose proof (pow2_gt0 _ L2); lia). cbn [negb].
  rewrite (NO bytes al) by lia. unfold pool_allocate_pooled.
  rewrite log2_ri_up by (apply adjust_pos; auto; lia).
  assert (EL' : Z.log2_up (adjust o bytes) = lg_of o (bsize b)) by exact EL. rewrite EL'.
  cbn [p_pools]. rewrite nth_error_upd_eq by (eapply nth_error_lt; eauto). cbn [fl].
  unfold pool_take. cbn [fl p_pools p_chunks p_cached p_over prev].
  rewrite upd_restore by (rewrite EN; destruct bk; reflexivity). destruct st; reflexivity.
Qed.

(** C14 and the choice of cached blocks. *)
Lemma find_align_skip al l : forall a b, find_align al l = (a, b) -> forall x, In x a -> od_align x < al.
Proof.
  induction l as [|x l IH]; intros a b E y Hy; cbn [find_align] in E.
  - injection E as <- <-. destruct Hy.
  - destruct (Z.leb_spec al (od_align x)); [injection E as <- <-; destruct Hy|].
    destruct (find_align al l) as [a' b']. injection E as <- <-. destruct Hy as [<-|Hy]; auto.
    eapply IH; eauto.
Qed.

Lemma cache_lookup_best o cache bytes al d cache' : cache_sorted cache ->
  cache_lookup o cache bytes al = Some (d, cache') ->
  In d cache /\ bytes <= od_size d /\ al <= od_align d /\
  (forall x, In x cache -> bytes <= od_size x -> al <= od_align x -> od_size d <= od_size x) /\
  od_align d / al < align_cutoff o /\
  ((forall x, In x cache -> bytes <= od_size x -> al <= od_align x) -> od_size d / bytes < size_cutoff o).
Proof.
  intros S E. destruct (cache_lookup_spec _ _ _ _ _ _ S E) as (P1 & _ & P3 & P4).
  split; [eapply Permutation_in; [symmetry; exact P1|left; auto]|]. split; auto. split; auto.
  unfold cache_lookup in E.
  destruct (lower_bound (mkO bytes al 0) cache) as [before after] eqn:EL.
  destruct (lower_bound_spec _ _ _ _ EL S) as (Ec & H1 & H2).
  destruct after as [|it rest]; [discriminate|].
  destruct (Z.leb_spec (size_cutoff o) (od_size it / bytes)) as [|HC]; [discriminate|].
  assert (HB : forall x, In x before -> bytes <= od_size x -> al <= od_align x -> False).
  { intros x Hx A B. apply H1 in Hx. apply od_lt_spec in Hx. cbn [od_size od_align] in Hx. lia. }
  assert (HSrt : cache_sorted (it :: rest)).
  { rewrite Ec in S. clear -S. induction before as [|x l IH]; cbn [app] in S; auto.
    inversion S; auto. }
  destruct (Z.ltb_spec (od_align it) al) as [LT|GE].
  - destruct (find_align al rest) as [a b] eqn:EFA.
    destruct (find_align_spec _ _ _ _ EFA) as (Er & _). pose proof (find_align_skip _ _ _ _ EFA) as SK.
    destruct b as [|c rest']; [discriminate|].
    destruct (Z.leb_spec (align_cutoff o) (od_align c / al)); [discriminate|]. injection E as <- <-.
    split; [|split; [auto|]].
    + intros x Hx A B. rewrite Ec in Hx. apply in_app_or in Hx. destruct Hx as [Hx|[<-|Hx]]; [exfalso; eauto|lia|].
      rewrite Er in Hx. apply in_app_or in Hx. destruct Hx as [Hx|[<-|Hx]]; [apply SK in Hx; lia|lia|].
      assert (Q : od_le c x).
      { inversion HSrt as [|i r HS' _ [E1 E2]]. rewrite Er in HS'. clear -HS' Hx.
        induction a as [|z a IH]; cbn [app] in HS'; inversion HS' as [|z' l' Q1 Q2]; subst; auto.
        rewrite Forall_forall in Q2. auto. }
      apply od_le_spec in Q. lia.
    + intros HA. exfalso. specialize (HA it). rewrite Ec in HA.
      assert (Hit : In it (before ++ it :: rest)) by (apply in_or_app; right; left; auto).
      pose proof (H2 it (or_introl eq_refl)) as Q. apply od_le_spec in Q. cbn [od_size od_align] in Q.
      specialize (HA Hit). lia.
  - destruct (Z.leb_spec (align_cutoff o) (od_align it / al)); [discriminate|]. injection E as <- <-.
    split; [|split; auto].
    intros x Hx A B. rewrite Ec in Hx. apply in_app_or in Hx. destruct Hx as [Hx|[<-|Hx]]; [exfalso; eauto|lia|].
    inversion HSrt as [|i r HS' Q2]; subst. rewrite Forall_forall in Q2. apply Q2 in Hx.
    apply od_le_spec in Hx. lia.
Qed.

Lemma pool_cache_hit o sl st w live bytes al p st' : opts_valid o -> pool_reach o sl st w live ->
  upstream_ok (ulog w) -> pool_legal bytes al -> 0 < bytes ->
  largest o < bytes \/ alignment o < al ->
  pool_allocate o sl st w bytes al = (Ret p, st', w) ->
  let need := Z.max bytes (smallest o) in
  exists d, In d (p_cached st) /\ od_ptr d = p /\ need <= od_size d /\ al <= od_align d /\
    (forall x, In x (p_cached st) -> need <= od_size x -> al <= od_align x -> od_size d <= od_size x) /\
    od_align d / al < align_cutoff o /\
    ((forall x, In x (p_cached st) -> need <= od_size x -> al <= od_align x) ->
     od_size d / need < size_cutoff o).
Proof.
  intros HO HR HU (L1 & L2 & L3) Hb HV E need. destruct (reach_pinv _ _ _ _ _ HO HR HU) as (_ & HI).
  unfold pool_allocate in E. rewrite (proj2 (Z.eqb_neq bytes 0)) in E by lia.
  rewrite pow2_is in E by (auto; pose proof (pow2_gt0 _ L2); lia). cbn [negb] in E.
  assert (EO : is_oversized o (adjust o bytes) al = true).
  { unfold is_oversized, adjust. apply orb_true_iff. rewrite !Z.ltb_lt. lia. }
  rewrite EO in E. unfold pool_allocate_oversized in E. destruct (cache_oversized o) eqn:EC.
  - destruct (cache_lookup o (p_cached st) (adjust o bytes) al) as [[d c']|] eqn:ECL.
    + injection E as <- <-. destruct (cache_lookup_best _ _ _ _ _ _ (i_sorted o _ _ _ HI) ECL) as (Q1 & Q2).
      exists d. split; [exact Q1|]. split; [reflexivity|]. exact Q2.
    + unfold up_alloc in E. destruct (uorc w _); [|discriminate].
      injection E as _ _ E. destruct w as [lg oc]. injection E as E. exfalso. revert E. cbn [ulog].
      clear. intros E. apply (f_equal (@length _)) in E. cbn in E. lia.
  - unfold up_alloc in E. destruct (uorc w _); [|discriminate].
    injection E as _ _ E. destruct w as [lg oc]. injection E as E. exfalso. revert E. cbn [ulog].
    clear. intros E. apply (f_equal (@length _)) in E. cbn in E. lia.
Qed.

(** Constructor *)
Lemma pool_construct_valid o : opts_range o -> smallest o <> 0 ->
  (check_valid o = false -> pool_construct o = Throw invalid_argument) /\
  (check_valid o = true -> exists s, pool_construct o = Ret s).
Proof.
  intros HR HN. destruct HR as [R1 R2 R3 R4 R5 R6 R7]. unfold pool_construct.
  rewrite log2_ri_up by lia. split; intros HC; rewrite HC; cbn [negb]; auto.
  unfold check_valid in HC. rewrite !andb_true_iff, !negb_true_iff, !orb_false_iff, !Z.eqb_neq in HC.
  rewrite log2_ri_up by lia. eauto.
Qed.

(** The conditions that [check_valid] tests, and the state after construction. *)
Lemma pool_construct_conditions o : opts_range o -> smallest o <> 0 ->
  let pow2_or_0 x := x = 0 \/ exists k, 0 <= k /\ x = 2 ^ k in
  let accepted := pow2_or_0 (smallest o) /\ pow2_or_0 (largest o) /\ pow2_or_0 (alignment o) /\
    max_bytes o <> 0 /\ max_blocks o <> 0 /\ largest o <> 0 /\
    min_blocks o <= max_blocks o /\ min_bytes o <= max_bytes o /\ smallest o <= largest o /\
    (min_blocks o * smallest o) mod 2 ^ 64 <= max_bytes o /\ (min_blocks o * largest o) mod 2 ^ 64 <= max_bytes o /\
    min_bytes o <= (max_blocks o * largest o) mod 2 ^ 64 /\ min_bytes o <= (max_blocks o * smallest o) mod 2 ^ 64 /\
    alignment o <= smallest o in
  (accepted -> exists a b, 0 <= a <= b /\ smallest o = 2 ^ a /\ largest o = 2 ^ b /\
     pool_construct o = Ret (a, mkPool (repeat (mkBucket [] 0) (Z.to_nat (b - a + 1))) [] [] [])) /\
  (~ accepted -> pool_construct o = Throw invalid_argument).
Proof.
  intros HR HN P A. pose proof HR as [R1 R2 R3 R4 R5 R6 R7].
  assert (AC : A <-> check_valid o = true).
  { unfold check_valid, A, P, wrap64. rewrite !andb_true_iff, !negb_true_iff, !orb_false_iff, !Z.eqb_neq, !Z.ltb_ge.
    rewrite !is_power_of_2_spec by lia. tauto. }
  destruct (pool_construct_valid o HR HN) as (F & T). split.
  - intros Ha. pose proof (proj1 AC Ha) as C. destruct Ha as (P1 & P2 & _ & _ & _ & NL & _ & _ & Le & _).
    destruct P1 as [?|(a & A0 & Ea)]; [lia|]. destruct P2 as [?|(b & B0 & Eb)]; [lia|]. exists a, b.
    assert (a <= b) by (apply (Z.pow_le_mono_r_iff 2); lia). split; [lia|]. split; [exact Ea|]. split; [exact Eb|].
    unfold pool_construct. rewrite C, !log2_ri_up, Ea, Eb, !Z.log2_up_pow2 by lia. reflexivity.
  - intros Ha. apply F. destruct (check_valid o); [|reflexivity]. exfalso. apply Ha, AC. reflexivity.
Qed.

Lemma pool_best_fit o sl st w live bytes al p st' : opts_valid o -> pool_reach o sl st w live ->
  upstream_ok (ulog w) -> pool_legal bytes al -> 0 < bytes ->
  largest o < bytes \/ alignment o < al ->
  pool_allocate o sl st w bytes al = (Ret p, st', w) ->
  let need := Z.max bytes (smallest o) in
  exists d, In d (p_cached st) /\ od_ptr d = p /\ need <= od_size d /\ al <= od_align d /\
    (forall x, In x (p_cached st) -> need <= od_size x -> al <= od_align x -> od_size d <= od_size x) /\
    od_align d / al < align_cutoff o.
Proof.
  intros HO HR HU HL Hb HV E need.
  destruct (pool_cache_hit _ _ _ _ _ _ _ _ _ HO HR HU HL Hb HV E) as (d & A1 & A2 & A3 & A4 & A5 & A6 & _).
  exists d. auto 10.
Qed.

Lemma pool_construct_zero : exists o, opts_range o /\ check_valid o = false /\ pool_construct o = UB.
Proof.
  exists (mkOpts 16 1024 (2 ^ 20) (2 ^ 30) 0 (2 ^ 20) 16 true 16 16).
  split; [split; split; vm_compute; congruence|]. split; reflexivity.
Qed.

Lemma is_aligned_wrong : pow2 (2 ^ 62) /\ (2 ^ 62 | 2 ^ 62) /\ is_aligned (2 ^ 62) (2 ^ 62) = false.
Proof. split; [exists 62; split; [lia|reflexivity]|]. split; [exists 1; reflexivity|reflexivity]. Qed.

(** A suitable block within the size cutoff is found if no suitable block is beyond
    the alignment cutoff. *)
Lemma cache_lookup_found o cache bytes al d : cache_sorted cache -> 0 < bytes ->
  In d cache -> bytes <= od_size d -> al <= od_align d -> od_size d / bytes < size_cutoff o ->
  (forall x, In x cache -> bytes <= od_size x -> al <= od_align x -> od_align x / al < align_cutoff o) ->
  exists c cache', cache_lookup o cache bytes al = Some (c, cache').
Proof.
  intros S HB Hd D1 D2 D3 HA. unfold cache_lookup.
  destruct (lower_bound (mkO bytes al 0) cache) as [before after] eqn:EL.
  destruct (lower_bound_spec _ _ _ _ EL S) as (Ec & H1 & H2).
  assert (HIn : In d after).
  { rewrite Ec in Hd. apply in_app_or in Hd. destruct Hd as [Hd|Hd]; auto. exfalso.
    apply H1 in Hd. apply od_lt_spec in Hd. cbn [od_size od_align] in Hd. lia. }
  destruct after as [|it rest]; [destruct HIn|].
  assert (HSrt : cache_sorted (it :: rest)).
  { rewrite Ec in S. clear -S. induction before as [|x l IH]; cbn [app] in S; auto.
    inversion S; auto. }
  assert (Hit : In it cache) by (rewrite Ec; apply in_or_app; right; left; auto).
  assert (Hit1 : bytes <= od_size it).
  { pose proof (H2 it (or_introl eq_refl)) as Q. apply od_le_spec in Q. cbn [od_size od_align] in Q. lia. }
  assert (Hle : od_size it <= od_size d).
  { destruct HIn as [->|Hx]; [lia|]. inversion HSrt as [|i r HS' Q2]; subst.
    rewrite Forall_forall in Q2. apply Q2 in Hx. apply od_le_spec in Hx. lia. }
  pose proof (Z.div_le_mono _ _ bytes HB Hle).
  destruct (Z.leb_spec (size_cutoff o) (od_size it / bytes)); [lia|].
  destruct (Z.ltb_spec (od_align it) al) as [LT|GE].
  - destruct HIn as [->|HIn]; [lia|].
    destruct (find_align al rest) as [a b] eqn:EFA.
    destruct (find_align_spec _ _ _ _ EFA) as (Er & EF). pose proof (find_align_skip _ _ _ _ EFA) as SK.
    destruct b as [|c rest'].
    + exfalso. rewrite Er, app_nil_r in HIn. apply SK in HIn. lia.
    + assert (Hc : In c rest) by (rewrite Er; apply in_or_app; right; left; auto).
      assert (Hc' : In c cache) by (rewrite Ec; apply in_or_app; right; right; auto).
      assert (Hs : bytes <= od_size c).
      { pose proof (H2 c (or_intror Hc)) as Q. apply od_le_spec in Q. cbn [od_size od_align] in Q. lia. }
      assert (Ha : al <= od_align c) by (eapply EF; reflexivity).
      specialize (HA c Hc' Hs Ha).
      destruct (Z.leb_spec (align_cutoff o) (od_align c / al)); [lia|]. eauto.
  - specialize (HA it Hit Hit1 GE).
    destruct (Z.leb_spec (align_cutoff o) (od_align it / al)); [lia|]. eauto.
Qed.

Lemma pool_cache_found o sl st w live bytes al d : opts_valid o -> cache_oversized o = true ->
  pool_reach o sl st w live -> upstream_ok (ulog w) -> pool_legal bytes al -> 0 < bytes ->
  largest o < bytes \/ alignment o < al ->
  let need := Z.max bytes (smallest o) in
  In d (p_cached st) -> need <= od_size d -> al <= od_align d -> od_size d / need < size_cutoff o ->
  (forall x, In x (p_cached st) -> need <= od_size x -> al <= od_align x ->
   od_align x / al < align_cutoff o) ->
  exists p st', pool_allocate o sl st w bytes al = (Ret p, st', w).
Proof.
  intros HO HC HR HU (L1 & L2 & L3) Hb HV need D1 D2 D3 D4 HA.
  destruct (reach_pinv _ _ _ _ _ HO HR HU) as (_ & HI).
  unfold pool_allocate. rewrite (proj2 (Z.eqb_neq bytes 0)) by lia.
  rewrite pow2_is by (auto; pose proof (pow2_gt0 _ L2); lia). cbn [negb].
  assert (EO : is_oversized o (adjust o bytes) al = true).
  { unfold is_oversized, adjust. apply orb_true_iff. rewrite !Z.ltb_lt. lia. }
  rewrite EO. unfold pool_allocate_oversized. rewrite HC.
  destruct (cache_lookup_found o (p_cached st) (adjust o bytes) al d (i_sorted o _ _ _ HI))
    as (c & c' & ->); auto; [unfold adjust; lia|]. eauto.
Qed.
