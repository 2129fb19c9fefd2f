From Verif Require Import Base BaseLemmas IntMath IntMathProofs Align AlignProofs Pool PoolProofs.
From Coq Require Import Permutation Sorted.

Definition pool_legal (size al : Z) : Prop := 0 <= size < 2 ^ 64 /\ pow2 al /\ al <= 2 ^ 61.

(** A live oversized block and its descriptor. *)
Definition fits (o : options) (b : block) (d : odesc) : Prop :=
  od_ptr d = bptr b /\ bsize b <= od_size d /\ (balign b | od_align d).

Section Inv.
  Variable o : options.
  Hypothesis HO : opts_valid o.
  Let sl : Z := Z.log2_up (smallest o).
  Let ll : Z := Z.log2_up (largest o).
  Notation F := (opts_valid_facts o HO).

  Definition owned (st : pst) (live : list block) : list block :=
    pieces o sl (p_pools st) ++ map (full o) (filter (pooled o) live).

  Record pinv (st : pst) (w : world) (live : list block) : Prop := {
    i_len : length (p_pools st) = Z.to_nat (ll - sl + 1);
    i_up : Permutation (ulive (ulog w)) (map (cblk o) (p_chunks st) ++ map odb (p_over st));
    i_disj : pairwise_disjoint (owned st live);
    i_in : forall q, In q (owned st live) -> exists c, In c (p_chunks st) /\
        inside q (cblk o c) /\ (alignment o | bptr q) /\ 0 < bptr q;
    i_over : exists lo, Permutation (p_over st) (p_cached st ++ lo) /\
        Forall2 (fits o) (filter (over o) live) lo;
    i_cache : cache_oversized o = false -> p_cached st = [];
    i_sorted : cache_sorted (p_cached st);
    i_od : forall d, In d (p_over st) -> 0 < od_size d /\ pow2 (od_align d);
    i_live : forall b, In b live -> pool_legal (bsize b) (balign b) /\ 0 < bsize b;
    i_frees : frees_ok (ulog w) }.

  Lemma sl_pow : 2 ^ sl = smallest o.
  Proof. apply pow2_log2_up. apply (f_small o F). Qed.
  Lemma ll_pow : 2 ^ ll = largest o.
  Proof. apply pow2_log2_up. apply (f_large o F). Qed.
  Lemma sl_ll : 0 <= sl <= ll /\ ll < 64.
  Proof.
    pose proof (Z.log2_up_nonneg (smallest o)). fold sl in H. split; [split; auto|].
    - unfold sl, ll. apply Z.log2_up_le_mono. apply (f_sl o F).
    - pose proof (f_l64 o F) as L. rewrite <- ll_pow in L. apply Z.pow_lt_mono_r_iff in L; lia.
  Qed.

  (** Bucket of a pooled request. *)
  Lemma lg_bounds bytes : 0 < bytes -> adjust o bytes <= largest o ->
    sl <= lg_of o bytes <= ll /\ bytes <= 2 ^ lg_of o bytes /\ 2 ^ lg_of o bytes <= largest o /\
    smallest o <= 2 ^ lg_of o bytes.
  Proof.
    intros Hb HL. pose proof (pow2_gt0 _ (f_small o F)) as Hs. unfold lg_of.
    assert (HA : 0 < adjust o bytes) by (unfold adjust; lia).
    assert (L1 : sl <= Z.log2_up (adjust o bytes)) by (apply Z.log2_up_le_mono; unfold adjust; lia).
    assert (L2 : Z.log2_up (adjust o bytes) <= ll) by (apply Z.log2_up_le_mono; auto).
    pose proof (log2_up_ge _ HA). pose proof sl_ll.
    split; [auto|]. split; [unfold adjust in *; lia|]. split.
    - rewrite <- ll_pow. apply Z.pow_le_mono_r; lia.
    - rewrite <- sl_pow. apply Z.pow_le_mono_r; lia.
  Qed.

  Lemma adjust_pos bytes : 0 < bytes < 2 ^ 64 -> 0 < adjust o bytes < 2 ^ 64.
  Proof.
    intros H. pose proof (f_l64 o F). pose proof (f_sl o F). unfold adjust. lia.
  Qed.

  Lemma pooled_facts bytes al : 0 < bytes < 2 ^ 64 -> pow2 al ->
    is_oversized o (adjust o bytes) al = false ->
    adjust o bytes <= largest o /\ al <= alignment o /\ pow2 (alignment o) /\ (al | alignment o).
  Proof.
    intros Hb Ha H. unfold is_oversized in H. apply orb_false_iff in H. destruct H as [H1 H2].
    apply Z.ltb_ge in H1, H2. pose proof (pow2_gt0 _ Ha).
    destruct (f_align o F) as [P|P]; [|lia]. split; auto. split; auto. split; auto.
    apply pow2_le_divide; auto.
  Qed.

  Lemma bucket_exists st w live lg : pinv st w live -> sl <= lg <= ll ->
    exists b, nth_error (p_pools st) (Z.to_nat (lg - sl)) = Some b.
  Proof.
    intros HI HL. destruct (nth_error (p_pools st) (Z.to_nat (lg - sl))) eqn:E; eauto.
    apply nth_error_None in E. rewrite (i_len _ _ _ HI) in E. lia.
  Qed.

  (** Taking a block from a non-empty free list. *)
  Lemma take_inv st w live lg b p bytes al : pinv st w live ->
    pool_legal bytes al -> 0 < bytes -> is_oversized o (adjust o bytes) al = false ->
    lg = lg_of o bytes ->
    nth_error (p_pools st) (Z.to_nat (lg - sl)) = Some b -> fl b = p :: tl (fl b) ->
    pinv (mkPool (upd (p_pools st) (Z.to_nat (lg - sl)) (mkBucket (tl (fl b)) (prev b)))
            (p_chunks st) (p_cached st) (p_over st)) w (mkBlock p bytes al :: live).
  Proof.
    intros [H1 H2 H3 H4 H5 H6 H7 H8 H9 H10] HL Hb HNO -> HN HF.
    destruct HL as (L1 & L2 & L3).
    destruct (pooled_facts bytes al ltac:(lia) L2 HNO) as (A1 & A2 & A3 & A4).
    destruct (lg_bounds bytes Hb A1) as (B1 & B2 & B3 & B4).
    set (idx := Z.to_nat (lg_of o bytes - sl)) in *.
    assert (Eidx : sl + Z.of_nat idx = lg_of o bytes) by (unfold idx; lia).
    destruct (pieces_upd o (p_pools st) sl idx b HN) as (rest & P1 & P2). rewrite Eidx in *.
    assert (EF : filter (pooled o) (mkBlock p bytes al :: live) =
                 mkBlock p bytes al :: filter (pooled o) live).
    { cbn [filter]. unfold pooled at 1, over. cbn [bsize balign]. rewrite HNO. reflexivity. }
    assert (EV : filter (over o) (mkBlock p bytes al :: live) = filter (over o) live).
    { cbn [filter]. unfold over at 1. cbn [bsize balign]. rewrite HNO. reflexivity. }
    assert (HP : Permutation
      (pieces o sl (upd (p_pools st) idx (mkBucket (tl (fl b)) (prev b))) ++
       map (full o) (filter (pooled o) (mkBlock p bytes al :: live)))
      (owned st live)).
    { unfold owned. rewrite EF. cbn [map]. rewrite (P2 (mkBucket (tl (fl b)) (prev b))), P1, HF. cbn [fl tl map].
      unfold full at 1. cbn [bsize bptr].
      symmetry. rewrite <- !app_assoc. cbn [app]. rewrite !app_assoc. apply Permutation_middle. }
    split; cbn [p_pools p_chunks p_cached p_over]; auto.
    - rewrite upd_length. auto.
    - eapply pairwise_disjoint_perm; [symmetry; exact HP|exact H3].
    - intros q Hq. apply H4. eapply Permutation_in; [exact HP|exact Hq].
    - rewrite EV. exact H5.
    - intros c [<-|Hc]; cbn [bsize balign]; auto. split; auto. split; auto.
  Qed.

  (** Adding a chunk to a bucket whose free list is empty. *)
  Lemma refill_inv st w live lg b p n : pinv st w live ->
    sl <= lg <= ll -> nth_error (p_pools st) (Z.to_nat (lg - sl)) = Some b -> fl b = [] ->
    0 <= n <= max_blocks o -> pow2 (alignment o) ->
    let sz := wrap64 (Z.shiftl n lg) in
    upstream_ok (UAlloc sz (alignment o) (Some p) :: ulog w) ->
    pinv (mkPool (upd (p_pools st) (Z.to_nat (lg - sl)) (mkBucket (chunk_blocks p (2 ^ lg) (Z.to_nat n)) n))
            (p_chunks st ++ [(sz, p)]) (p_cached st) (p_over st))
         (mkWorld (UAlloc sz (alignment o) (Some p) :: ulog w) (uorc w)) live.
  Proof.
    intros [H1 H2 H3 H4 H5 H6 H7 H8 H9 H10] HL HN HF Hn HA sz HU.
    pose proof sl_ll as SL. assert (Hlg : 0 <= lg) by lia. pose proof (pow2_pos lg Hlg) as Hp.
    assert (Esz : sz = n * 2 ^ lg).
    { unfold sz. rewrite Z.shiftl_mul_pow2 by lia. unfold wrap64, two64. apply Z.mod_small.
      pose proof (f_no o F) as NO. assert (2 ^ lg <= largest o) by (rewrite <- ll_pow; apply Z.pow_le_mono_r; lia).
      split; [nia|]. assert (n * 2 ^ lg <= max_blocks o * largest o) by nia. lia. }
    destruct HU as (U1 & U2 & U3 & U4 & U5).
    set (idx := Z.to_nat (lg - sl)) in *.
    assert (Eidx : sl + Z.of_nat idx = lg) by (unfold idx; lia).
    set (nb := chunk_blocks p (2 ^ lg) (Z.to_nat n)).
    destruct (pieces_upd o (p_pools st) sl idx b HN) as (rest & P1 & P2). rewrite Eidx in *.
    rewrite HF in P1. cbn [map app] in P1.
    assert (HP : Permutation (pieces o sl (upd (p_pools st) idx (mkBucket nb n)) ++
                              map (full o) (filter (pooled o) live))
                 (map (piece o lg) nb ++ owned st live)).
    { unfold owned. rewrite (P2 (mkBucket nb n)), P1. cbn [fl]. rewrite app_assoc. reflexivity. }
    assert (HNew : forall q, In q (map (piece o lg) nb) ->
       inside q (cblk o (sz, p)) /\ (alignment o | bptr q) /\ 0 < bptr q).
    { intros q Hq. apply in_map_iff in Hq. destruct Hq as (a & <- & Ha).
      apply chunk_blocks_in in Ha. destruct Ha as (i & Hi & ->).
      assert (Hi2 : Z.of_nat i * 2 ^ lg + 2 ^ lg <= n * 2 ^ lg) by nia.
      assert (Hi3 : 0 <= Z.of_nat i * 2 ^ lg) by nia.
      split; [apply inside_iff; unfold piece, cblk; cbn [bptr bsize fst snd]; lia|].
      cbn [piece bptr]. split; [|lia]. apply Z.divide_add_r; auto. apply Z.divide_mul_r.
      apply pow2_le_divide; [auto|apply pow2_intro; auto|].
      pose proof (f_as o F). rewrite <- sl_pow in H.
      assert (2 ^ sl <= 2 ^ lg) by (apply Z.pow_le_mono_r; lia). lia. }
    split; cbn [p_pools p_chunks p_cached p_over ulog]; auto.
    - rewrite upd_length. auto.
    - cbn [ulive]. rewrite H2, map_app, <- app_assoc. cbn [map app cblk fst snd].
      apply Permutation_middle.
    - eapply pairwise_disjoint_perm; [symmetry; exact HP|]. apply pairwise_disjoint_app.
      split; [apply chunk_pieces; auto|]. split; [exact H3|].
      intros q c Hq Hc (y & Y1 & Y2). destruct (HNew q Hq) as (I1 & _).
      destruct (H4 c Hc) as (ch & Hch & I2 & _).
      apply (U4 (cblk o ch)).
      + eapply Permutation_in; [symmetry; exact H2|]. apply in_or_app. left. apply in_map. auto.
      + exists y. split; [apply I1; auto|apply I2; auto].
    - intros q Hq. assert (Hq' : In q (map (piece o lg) nb ++ owned st live))
        by (eapply Permutation_in; [exact HP|exact Hq]).
      apply in_app_or in Hq'. destruct Hq' as [Hq'|Hq'].
      + exists (sz, p). destruct (HNew q Hq') as (I1 & I2 & I3).
        split; [apply in_or_app; right; left; auto|auto].
      + destruct (H4 q Hq') as (c & Hc & G). exists c. split; [apply in_or_app; auto|auto].
  Qed.

  Lemma pool_alloc_pooled_inv st w live bytes al r st' w' : pinv st w live ->
    pool_legal bytes al -> 0 < bytes -> is_oversized o (adjust o bytes) al = false ->
    pool_allocate_pooled o sl st w (adjust o bytes) = (r, st', w') -> upstream_ok (ulog w') ->
    match r with
    | Ret p => pinv st' w' (mkBlock p bytes al :: live)
    | Throw _ => pinv st' w' live
    | UB => True
    end.
  Proof.
    intros HI HL Hb HNO E HU. pose proof HL as (L1 & L2 & L3).
    destruct (pooled_facts bytes al ltac:(lia) L2 HNO) as (A1 & A2 & A3 & A4).
    destruct (lg_bounds bytes Hb A1) as (B1 & B2 & B3 & B4).
    unfold pool_allocate_pooled in E.
    rewrite log2_ri_up in E by (apply adjust_pos; lia). fold (lg_of o bytes) in E.
    set (lg := lg_of o bytes) in *.
    destruct (nth_error (p_pools st) (Z.to_nat (lg - sl))) as [b|] eqn:EN; [|injection E as <- <- <-; exact I].
    destruct (fl b) as [|p fl'] eqn:EF.
    - destruct ((min_blocks o <=? next_count o (prev b) lg) && (next_count o (prev b) lg <=? max_blocks o) &&
         (min_bytes o <=? wrap64 (Z.shiftl (next_count o (prev b) lg) lg)) &&
         (wrap64 (Z.shiftl (next_count o (prev b) lg) lg) <=? max_bytes o)) eqn:EA;
        [|injection E as <- <- <-; exact I].
      rewrite !andb_true_iff, !Z.leb_le in EA. destruct EA as (((C1 & C2) & C3) & C4).
      set (n := next_count o (prev b) lg) in *. set (sz := wrap64 (Z.shiftl n lg)) in *.
      unfold up_alloc in E. destruct (uorc w (length (ulog w))) as [q|].
      + set (b' := mkBucket (chunk_blocks q (2 ^ lg) (Z.to_nat n)) n) in *.
        pose proof (f_min0 o F) as M0.
        assert (HW : upstream_ok (UAlloc sz (alignment o) (Some q) :: ulog w)).
        { unfold pool_take in E. destruct (fl b'); injection E as <- <- <-; exact HU. }
        pose proof (refill_inv st w live lg b q n HI B1 EN EF ltac:(lia) A3 HW) as HI'. fold sz b' in HI'.
        unfold pool_take in E. destruct (fl b') as [|p fl'] eqn:EB; injection E as <- <- <-; [exact I|].
        pose proof (take_inv _ _ live lg b' p bytes al HI' HL Hb HNO eq_refl) as HT.
        cbn [p_pools p_chunks p_cached p_over] in HT.
        rewrite EB in HT. cbn [tl] in HT. apply HT; [|reflexivity].
        apply nth_error_upd_eq. eapply nth_error_lt; eauto.
      + injection E as <- <- <-. destruct HI as [H1 H2 H3 H4 H5 H6 H7 H8 H9 H10]. split; auto.
    - unfold pool_take in E. rewrite EF in E. injection E as <- <- <-.
      pose proof (take_inv st w live lg b p bytes al HI HL Hb HNO eq_refl EN) as HT.
      rewrite EF in HT. cbn [tl] in HT. apply HT. reflexivity.
  Qed.

  Lemma pool_alloc_over_inv st w live bytes al r st' w' : pinv st w live ->
    pool_legal bytes al -> 0 < bytes -> is_oversized o (adjust o bytes) al = true ->
    pool_allocate_oversized o st w (adjust o bytes) al = (r, st', w') -> upstream_ok (ulog w') ->
    match r with
    | Ret p => pinv st' w' (mkBlock p bytes al :: live)
    | Throw _ => pinv st' w' live
    | UB => True
    end.
  Proof.
    intros HI HL Hb HNO E HU. pose proof HL as (L1 & L2 & L3).
    pose proof (adjust_pos bytes ltac:(lia)) as AP.
    assert (EF : forall p, filter (pooled o) (mkBlock p bytes al :: live) = filter (pooled o) live).
    { intros p. cbn [filter]. unfold pooled at 1, over. cbn [bsize balign]. rewrite HNO. reflexivity. }
    assert (EV : forall p, filter (over o) (mkBlock p bytes al :: live) =
       mkBlock p bytes al :: filter (over o) live).
    { intros p. cbn [filter]. unfold over at 1. cbn [bsize balign]. rewrite HNO. reflexivity. }
    assert (Hadj : bytes <= adjust o bytes) by (unfold adjust; lia).
    destruct HI as [H1 H2 H3 H4 H5 H6 H7 H8 H9 H10].
    unfold pool_allocate_oversized in E.
    destruct (if cache_oversized o then cache_lookup o (p_cached st) (adjust o bytes) al else None)
      as [[d cache']|] eqn:EC.
    - injection E as <- <- <-. destruct (cache_oversized o) eqn:ECO; [|discriminate].
      destruct (cache_lookup_spec _ _ _ _ _ _ H7 EC) as (P1 & P2 & P3 & P4).
      destruct H5 as (lo & G1 & G2).
      split; cbn [p_pools p_chunks p_cached p_over]; auto.
      + unfold owned. rewrite EF. exact H3.
      + unfold owned. rewrite EF. exact H4.
      + exists (d :: lo). split.
        * rewrite G1, P1. cbn [app]. apply Permutation_middle.
        * rewrite EV. constructor; auto.
          assert (Hd : In d (p_over st)).
          { eapply Permutation_in; [symmetry; exact G1|]. apply in_or_app. left.
            eapply Permutation_in; [symmetry; exact P1|]. left. auto. }
          split; [reflexivity|]. cbn [bsize balign]. split; [lia|].
          apply pow2_le_divide; auto. apply H8. auto.
      + intros N. congruence.
      + intros b [<-|Hc]; cbn [bsize balign]; auto.
    - unfold up_alloc in E. destruct (uorc w (length (ulog w))) as [p|]; injection E as <- <- <-.
      + destruct H5 as (lo & G1 & G2).
        split; cbn [p_pools p_chunks p_cached p_over ulog ulive]; auto.
        * rewrite H2, map_app, app_assoc. cbn [map odb od_ptr od_size od_align].
          apply Permutation_cons_append.
        * unfold owned. rewrite EF. exact H3.
        * unfold owned. rewrite EF. exact H4.
        * exists (mkO (adjust o bytes) al p :: lo). split.
          -- rewrite G1. rewrite <- Permutation_cons_append. apply Permutation_middle.
          -- rewrite EV. constructor; auto. split; [reflexivity|]. cbn [bsize balign od_size od_align].
             split; [auto|apply Z.divide_refl].
        * intros d Hd. apply in_app_or in Hd. destruct Hd as [Hd|[<-|[]]]; auto.
          cbn [od_size od_align]. split; auto. lia.
        * intros b [<-|Hc]; cbn [bsize balign]; auto.
      + split; auto.
  Qed.

  Lemma pool_alloc_inv st w live bytes al r st' w' : pinv st w live -> pool_legal bytes al ->
    pool_allocate o sl st w bytes al = (r, st', w') -> upstream_ok (ulog w') ->
    match r with
    | Ret p => pinv st' w' (if bytes =? 0 then live else mkBlock p bytes al :: live)
    | Throw _ => pinv st' w' live
    | UB => True
    end.
  Proof.
    intros HI HL E HU. unfold pool_allocate in E. destruct (Z.eqb_spec bytes 0) as [->|NZ].
    - injection E as <- <- <-. auto.
    - assert (Hb : 0 < bytes) by (destruct HL; lia).
      destruct (negb (is_power_of_2 al)); [injection E as <- <- <-; exact I|].
      destruct (is_oversized o (adjust o bytes) al) eqn:EO.
      + eapply pool_alloc_over_inv; eauto.
      + eapply pool_alloc_pooled_inv; eauto.
  Qed.

  (** Every live block lies in a live upstream block. *)
  Lemma live_backing st w live b : pinv st w live -> upstream_ok (ulog w) -> In b live ->
    (balign b | bptr b) /\ 0 < bptr b /\
    exists u, In u (ulive (ulog w)) /\ inside b u.
  Proof.
    intros HI HU Hb. destruct (i_live _ _ _ HI b Hb) as (HL & Hs). pose proof HL as (L1 & L2 & L3).
    destruct (over o b) eqn:EO.
    - destruct (i_over _ _ _ HI) as (lo & G1 & G2).
      assert (Hf : In b (filter (over o) live)) by (apply filter_In; auto).
      destruct (In_nth_error _ _ Hf) as (n & Hn).
      assert (exists d, In d lo /\ fits o b d) as (d & Hd & Hfit).
      { clear -G2 Hn. revert n Hn. induction G2 as [|x y l l' Hxy G2 IH]; intros [|n] Hn; try discriminate.
        - injection Hn as ->. exists y. split; [left; auto|auto].
        - destruct (IH n Hn) as (d & Hd & Hf). exists d. split; [right; auto|auto]. }
      assert (Hu : In (odb d) (ulive (ulog w))).
      { eapply Permutation_in; [symmetry; apply (i_up _ _ _ HI)|]. apply in_or_app. right. apply in_map.
        eapply Permutation_in; [symmetry; exact G1|]. apply in_or_app. auto. }
      destruct Hfit as (F1 & F2 & F3). destruct (ulive_props _ _ HU Hu) as (U1 & U2 & U3). cbn in U1, U2, U3.
      rewrite <- F1. split; [eapply Z.divide_trans; eauto|]. split; [auto|].
      exists (odb d). split; auto. apply inside_iff; auto. cbn [odb bptr bsize]. lia.
    - assert (Hq : In (full o b) (owned st live)).
      { unfold owned. apply in_or_app. right. apply in_map. apply filter_In. split; auto. unfold pooled. rewrite EO. auto. }
      destruct (i_in _ _ _ HI _ Hq) as (c & Hc & I1 & I2 & I3).
      destruct (pooled_facts (bsize b) (balign b) ltac:(lia) L2 EO) as (A1 & A2 & A3 & A4).
      destruct (lg_bounds (bsize b) Hs A1) as (B1 & B2 & B3 & B4).
      cbn [full piece bptr] in I2, I3.
      split; [eapply Z.divide_trans; eauto|]. split; auto. exists (cblk o c). split.
      + eapply Permutation_in; [symmetry; apply (i_up _ _ _ HI)|]. apply in_or_app. left. apply in_map. auto.
      + intros x Hx. apply I1. unfold in_block, full, piece in *. cbn [bptr bsize]. lia.
  Qed.

  Lemma over_ptr_unique st w live d d2 r : pinv st w live -> upstream_ok (ulog w) ->
    In d (p_over st) -> Permutation (p_over st) (d2 :: r) -> od_ptr d = od_ptr d2 -> d = d2.
  Proof.
    intros HI HU Hd HP E.
    assert (Hd' : In d (d2 :: r)) by (eapply Permutation_in; eauto).
    destruct Hd' as [->|Hd']; auto. exfalso.
    assert (HD : pairwise_disjoint (map (cblk o) (p_chunks st) ++ map odb (p_over st))).
    { eapply pairwise_disjoint_perm; [apply (i_up _ _ _ HI)|apply ulive_disjoint; auto]. }
    apply pairwise_disjoint_app in HD. destruct HD as (_ & HD & _).
    assert (HD2 : pairwise_disjoint (map odb (d2 :: r))).
    { eapply pairwise_disjoint_perm; [apply Permutation_map; exact HP|exact HD]. }
    destruct HD2 as (HD2 & _). apply (HD2 (odb d)); [apply in_map; auto|].
    destruct (i_od _ _ _ HI d) as (S1 & _).
    { eapply Permutation_in; [symmetry; exact HP|]. right; auto. }
    destruct (i_od _ _ _ HI d2) as (S2 & _).
    { eapply Permutation_in; [symmetry; exact HP|]. left; auto. }
    exists (od_ptr d). unfold in_block, odb. cbn [bptr bsize]. lia.
  Qed.

  Lemma filter_remove1 (f : block -> bool) b live : In b live ->
    Permutation (filter f live) (filter f (b :: remove1 b live)).
  Proof. intros H. apply Permutation_filter'. apply remove1_perm. auto. Qed.

  Lemma pool_dealloc_inv st w live b : pinv st w live -> upstream_ok (ulog w) -> In b live ->
    exists st' w', pool_deallocate o sl st w (bptr b) (bsize b) (balign b) = (Ret tt, st', w') /\
      pinv st' w' (remove1 b live).
  Proof.
    intros HI HU Hb. destruct (live_backing _ _ _ _ HI HU Hb) as (D1 & D2 & (u & Hu & Hin)).
    destruct (i_live _ _ _ HI b Hb) as (HL & Hs). pose proof HL as (L1 & L2 & L3).
    assert (Hp64 : bptr b < 2 ^ 64).
    { destruct (ulive_props _ _ HU Hu) as (_ & U2 & _). apply inside_iff in Hin; auto. lia. }
    assert (HLive : forall c, In c (remove1 b live) -> pool_legal (bsize c) (balign c) /\ 0 < bsize c).
    { intros c Hc. apply (i_live _ _ _ HI). eapply remove1_in; eauto. }
    unfold pool_deallocate. rewrite (proj2 (Z.eqb_neq _ 0)) by lia.
    rewrite pow2_is by (auto; pose proof (pow2_gt0 _ L2); lia).
    rewrite (proj2 (is_aligned_spec (bptr b) (balign b) L2 ltac:(lia) ltac:(lia)) D1). cbn [negb orb].
    fold (over o b). destruct (over o b) eqn:EO.
    - (* oversized *)
      destruct (i_over _ _ _ HI) as (lo & G1 & G2).
      assert (EV : Permutation (filter (over o) live) (b :: filter (over o) (remove1 b live))).
      { rewrite (filter_remove1 (over o) b live Hb). cbn [filter]. rewrite EO. reflexivity. }
      assert (EP : Permutation (filter (pooled o) live) (filter (pooled o) (remove1 b live))).
      { rewrite (filter_remove1 (pooled o) b live Hb). cbn [filter]. unfold pooled at 1. rewrite EO. reflexivity. }
      destruct (Permutation_Forall2 EV G2) as (lo2 & Q1 & Q2).
      inversion Q2 as [|b' d l' lo' Hfit Q3]; subst. 
      assert (Hd : In d (p_over st)).
      { eapply Permutation_in; [symmetry; exact G1|]. apply in_or_app. right.
        eapply Permutation_in; [symmetry; exact Q1|]. left. auto. }
      destruct Hfit as (F1 & F2 & F3).
      destruct (find_ptr (bptr b) (p_over st)) as [[d2 over']|] eqn:EFP;
        [|exfalso; eapply find_ptr_some; eauto].
      destruct (find_ptr_spec _ _ _ _ EFP) as (S1 & S2).
      assert (d = d2) by (eapply over_ptr_unique; eauto; congruence). subst d2.
      assert (HOwn : Permutation (owned st live) (owned st (remove1 b live))).
      { unfold owned. apply Permutation_app_head. apply Permutation_map. exact EP. }
      destruct HI as [H1 H2 H3 H4 H5 H6 H7 H8 H9 H10].
      destruct (cache_oversized o) eqn:ECO.
      + destruct (lower_bound d (p_cached st)) as [before after] eqn:ELB.
        destruct (sorted_insert _ _ _ _ ELB H7) as (T1 & T2).
        eexists. eexists. split; [reflexivity|].
        split; cbn [p_pools p_chunks p_cached p_over]; auto.
        * eapply pairwise_disjoint_perm; [exact HOwn|exact H3].
        * intros q Hq. apply H4. eapply Permutation_in; [symmetry; exact HOwn|exact Hq].
        * exists lo'. split; auto. rewrite T2, G1, Q1. cbn [app]. symmetry. apply Permutation_middle.
        * intros N; congruence.
      + specialize (H6 eq_refl). rewrite H6 in G1. cbn [app] in G1.
        assert (Hlive : In (mkBlock (bptr b) (od_size d) (od_align d)) (ulive (ulog w))).
        { eapply Permutation_in; [symmetry; exact H2|]. apply in_or_app. right.
          rewrite <- F1. apply (in_map odb) in Hd. exact Hd. }
        eexists. eexists. split; [reflexivity|].
        split; cbn [p_pools p_chunks p_cached p_over up_free ulog ulive frees_ok]; auto.
        * apply Permutation_cons_inv with (mkBlock (bptr b) (od_size d) (od_align d)).
          rewrite <- remove1_perm by auto. rewrite H2, S2. cbn [map]. unfold odb at 1. rewrite F1.
          symmetry. apply Permutation_middle.
        * eapply pairwise_disjoint_perm; [exact HOwn|exact H3].
        * intros q Hq. apply H4. eapply Permutation_in; [symmetry; exact HOwn|exact Hq].
        * exists lo'. split; auto. rewrite H6. cbn [app].
          apply Permutation_cons_inv with d. rewrite <- S2, G1. exact Q1.
        * intros e He. apply H8. eapply Permutation_in; [symmetry; exact S2|right; exact He].
    - (* pooled *)
      destruct (pooled_facts (bsize b) (balign b) ltac:(lia) L2 EO) as (A1 & A2 & A3 & A4).
      destruct (lg_bounds (bsize b) Hs A1) as (B1 & B2 & B3 & B4).
      rewrite log2_ri_up by (apply adjust_pos; lia). fold (lg_of o (bsize b)).
      destruct (bucket_exists st w live _ HI B1) as (bk & EN). rewrite EN.
      eexists. eexists. split; [reflexivity|].
      assert (EV : Permutation (filter (over o) live) (filter (over o) (remove1 b live))).
      { rewrite (filter_remove1 (over o) b live Hb). cbn [filter]. rewrite EO. reflexivity. }
      assert (EP : Permutation (filter (pooled o) live) (b :: filter (pooled o) (remove1 b live))).
      { rewrite (filter_remove1 (pooled o) b live Hb). cbn [filter]. unfold pooled at 1. rewrite EO. reflexivity. }
      set (idx := Z.to_nat (lg_of o (bsize b) - sl)) in *.
      assert (Eidx : sl + Z.of_nat idx = lg_of o (bsize b)) by (unfold idx; lia).
      destruct (pieces_upd o (p_pools st) sl idx bk EN) as (rest & P1 & P2). rewrite Eidx in *.
      destruct HI as [H1 H2 H3 H4 H5 H6 H7 H8 H9 H10].
      assert (HP : Permutation (pieces o sl (upd (p_pools st) idx (mkBucket (bptr b :: fl bk) (prev bk))) ++
          map (full o) (filter (pooled o) (remove1 b live))) (owned st live)).
      { unfold owned. rewrite (P2 (mkBucket (bptr b :: fl bk) (prev bk))), P1, EP. cbn [fl map app].
        unfold full at 2. apply Permutation_middle. }
      split; cbn [p_pools p_chunks p_cached p_over]; auto.
      + rewrite upd_length. auto.
      + eapply pairwise_disjoint_perm; [symmetry; exact HP|exact H3].
      + intros q Hq. apply H4. eapply Permutation_in; [exact HP|exact Hq].
      + destruct H5 as (lo & G1 & G2). destruct (Permutation_Forall2 EV G2) as (lo2 & Q1 & Q2).
        exists lo2. split; auto. rewrite G1, Q1. reflexivity.
  Qed.

  Definition st0 : pst := mkPool (repeat (mkBucket [] 0) (Z.to_nat (ll - sl + 1))) [] [] [].

  Lemma pieces_empty n : forall lg, pieces o lg (repeat (mkBucket [] 0) n) = [].
  Proof. induction n; intros; simpl; auto. Qed.

  Lemma pool_construct_eq : pool_construct o = Ret (sl, st0).
  Proof.
    pose proof (pow2_gt0 _ (f_small o F)). pose proof (pow2_gt0 _ (f_large o F)).
    pose proof (f_l64 o F). pose proof (f_sl o F).
    unfold pool_construct. rewrite !log2_ri_up by lia.
    destruct HO as (_ & -> & _). reflexivity.
  Qed.

  Lemma pool_init_inv w : fresh w -> pinv st0 w [].
  Proof.
    intros Hw. split; cbn [st0 p_pools p_chunks p_cached p_over]; auto.
    - apply repeat_length.
    - rewrite Hw. reflexivity.
    - unfold owned, st0. cbn [p_pools]. rewrite pieces_empty. exact I.
    - intros q Hq. unfold owned, st0 in Hq. cbn [p_pools] in Hq. rewrite pieces_empty in Hq. destruct Hq.
    - exists []. split; constructor.
    - constructor.
    - intros d [].
    - intros b [].
    - rewrite Hw. exact I.
  Qed.

  Lemma pool_allocate_log st w bytes al r st' w' :
    pool_allocate o sl st w bytes al = (r, st', w') ->
    ulog w' = ulog w \/ exists s a x, ulog w' = UAlloc s a x :: ulog w.
  Proof.
    unfold pool_allocate, pool_allocate_oversized, pool_allocate_pooled, pool_take, up_alloc. intros E.
    repeat match type of E with
    | context [match ?x with _ => _ end] => destruct x
    end; injection E as <- <- <-; cbn [ulog]; eauto 6.
  Qed.

  Lemma pool_reach_inv st w live :
    reach (pool_allocate o sl) (pool_deallocate o sl) pool_legal st0 fresh st w live ->
    upstream_ok (ulog w) -> pinv st w live.
  Proof.
    induction 1 as [w Hw|s w live size align p s' w' HR IH HL E|s w live size align e s' w' HR IH HL E
      |s w live b s' w' HR IH Hin E|s w live size align s' w' HR IH E]; intros HU.
    - apply pool_init_inv. auto.
    - assert (HU0 : upstream_ok (ulog w)).
      { destruct (pool_allocate_log _ _ _ _ _ _ _ E) as [Q|(a & b & c & Q)]; rewrite Q in HU; auto.
        apply upstream_ok_tail in HU. auto. }
      exact (pool_alloc_inv _ _ _ _ _ _ _ _ (IH HU0) HL E HU).
    - assert (HU0 : upstream_ok (ulog w)).
      { destruct (pool_allocate_log _ _ _ _ _ _ _ E) as [Q|(a & b & c & Q)]; rewrite Q in HU; auto.
        apply upstream_ok_tail in HU. auto. }
      exact (pool_alloc_inv _ _ _ _ _ _ _ _ (IH HU0) HL E HU).
    - assert (HU0 : upstream_ok (ulog w)).
      { revert E HU. unfold pool_deallocate. intros E.
        repeat match type of E with
        | context [match ?x with _ => _ end] => destruct x
        end; injection E; intros; subst; try discriminate; auto. }
      destruct (pool_dealloc_inv _ _ _ b (IH HU0) HU0 Hin) as (s2 & w2 & E2 & HI).
      rewrite E in E2. injection E2 as <- <-. exact HI.
    - unfold pool_deallocate in E. simpl in E. injection E as <- <-. auto.
  Qed.
End Inv.
