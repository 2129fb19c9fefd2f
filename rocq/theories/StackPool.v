(** The pool resource keeps to the rules of StackProofs.v. *)
From Verif Require Import Base BaseLemmas IntMath IntMathProofs Align AlignProofs Pool PoolProofs PoolHistory
  PoolTheorems Stack StackProofs.
From Coq Require Import Permutation Sorted.

(** Options for a pool in a stack: its chunks are legal requests too. *)
Definition pool_stack_ok (o : options) : Prop :=
  opts_safe o /\ pow2 (alignment o) /\ alignment o <= 16 /\ max_bytes o <= 2 ^ 63.

Lemma pow2_le63 a : pow2 a -> a < 2 ^ 64 -> a <= 2 ^ 63.
Proof.
  intros (k & Hk & ->) H. apply Z.pow_lt_mono_r_iff in H; [|lia|lia]. apply Z.pow_le_mono_r; lia.
Qed.

Lemma req_legal size al : req_ok size al -> pool_legal size al /\ 0 < size.
Proof. intros (H1 & H2 & H3). split; [split; [lia|split; [exact H2|lia]]|lia]. Qed.

Lemma pool_alog o sl st w bytes al r st' w' :
  pool_allocate o sl st w bytes al = (r, st', w') -> exists n, ulog w' = n ++ ulog w.
Proof.
  unfold pool_allocate, pool_allocate_oversized, pool_allocate_pooled, pool_take, up_alloc. intros E.
  repeat match type of E with
  | context [match ?x with _ => _ end] => destruct x
  end; injection E as <- <- <-; cbn [ulog]; first [exists []; reflexivity|eexists [_]; reflexivity].
Qed.

Lemma pool_flog o sl st w p bytes al r st' w' :
  pool_deallocate o sl st w p bytes al = (r, st', w') ->
  ulog w' = ulog w \/ exists q s a, ulog w' = UFree q s a :: ulog w.
Proof.
  unfold pool_deallocate, up_free. intros E.
  repeat match type of E with
  | context [match ?x with _ => _ end] => destruct x
  end; injection E as <- <- <-; cbn [ulog]; eauto 6.
Qed.

(** The upstream requests of a legal allocation. *)
Lemma pool_call o st w live bytes al r st' w' : pool_stack_ok o ->
  let sl := Z.log2_up (smallest o) in
  pinv o st w live -> prev_ok o sl (p_pools st) -> req_ok bytes al ->
  pool_allocate o sl st w bytes al = (r, st', w') -> one_call (ulog w) (ulog w').
Proof.
  intros (HS & A1 & A2 & A3) sl HI HP HR E. pose proof HS as (HO & HM & H3 & HK). pose proof HR as (R1 & R2 & R3).
  pose proof (opts_valid_facts o HO) as F.
  unfold pool_allocate in E. destruct (Z.eqb_spec bytes 0) as [->|NZ]; [lia|].
  destruct (negb (is_power_of_2 al)); [injection E as <- <- <-; left; reflexivity|].
  destruct (is_oversized o (adjust o bytes) al) eqn:EO.
  - unfold pool_allocate_oversized, up_alloc in E.
    assert (RQ : req_ok (adjust o bytes) al).
    { split; [|split; assumption]. unfold adjust.
      pose proof (pow2_le63 _ (f_small o F)). pose proof (f_l64 o F). pose proof (f_sl o F). lia. }
    destruct (if cache_oversized o then _ else None) as [[d c']|]; [injection E as <- <- <-; left; reflexivity|].
    destruct (uorc w (length (ulog w))); injection E as <- <- <-; cbn [ulog]; right; (eexists; split; [reflexivity|exact RQ]).
  - unfold pool_allocate_pooled in E.
    destruct (log2_ri (adjust o bytes)) as [lg|] eqn:EL; [|injection E as <- <- <-; left; reflexivity].
    destruct (nth_error (p_pools st) (Z.to_nat (lg - sl))) as [b|] eqn:EN; [|injection E as <- <- <-; left; reflexivity].
    destruct (fl b) as [|q fl'] eqn:EF.
    2:{ unfold pool_take in E. rewrite EF in E. injection E as <- <- <-. left. reflexivity. }
    destruct ((min_blocks o <=? next_count o (prev b) lg) && _ && _ && _) eqn:EA;
      [|injection E as <- <- <-; left; reflexivity].
    set (n := next_count o (prev b) lg) in *. set (sz := wrap64 (Z.shiftl n lg)) in *.
    rewrite !andb_true_iff, !Z.leb_le in EA. destruct EA as (((E1 & E2) & E3) & E4).
    assert (RQ : req_ok sz (alignment o)).
    { split; [|split; assumption]. split; [|lia].
      destruct (pooled_facts o HO bytes al ltac:(lia) R2 EO) as (B1 & _).
      destruct (lg_bounds o HO bytes ltac:(lia) B1) as (B2 & _ & B3 & _).
      rewrite log2_ri_up in EL by (apply adjust_pos; auto; lia). injection EL as EL.
      fold (lg_of o bytes) in EL. rewrite EL in B2, B3. pose proof (sl_ll o HO).
      pose proof (pow2_pos lg ltac:(lia)) as P. pose proof (f_no o F).
      unfold sz, wrap64, two64. rewrite Z.shiftl_mul_pow2, Z.mod_small by nia. nia. }
    unfold up_alloc in E. destruct (uorc w (length (ulog w))) as [q|].
    + unfold pool_take in E. cbn [fl] in E.
      destruct (chunk_blocks q (2 ^ lg) (Z.to_nat n)); injection E as <- <- <-; cbn [ulog]; right; (eexists; split; [reflexivity|exact RQ]).
    + injection E as <- <- <-. cbn [ulog]. right. eexists. split; [reflexivity|exact RQ].
Qed.

Lemma dealloc_prev_ok o sl st w p bytes al st' w' :
  pool_deallocate o sl st w p bytes al = (Ret tt, st', w') -> prev_ok o sl (p_pools st) -> prev_ok o sl (p_pools st').
Proof.
  intros E IH. unfold pool_deallocate in E.
  destruct (p =? 0); [injection E as <- <-; auto|].
  destruct (negb _ || negb _); [discriminate|]. destruct (is_oversized _ _ _).
  + destruct (find_ptr _ _) as [[d ov]|]; [|discriminate]. destruct (cache_oversized o).
    * destruct (lower_bound _ _). injection E as <- <-. auto.
    * injection E as <- <-. auto.
  + destruct (log2_ri _) as [lg|]; [|discriminate].
    destruct (nth_error (p_pools st) (Z.to_nat (lg - sl))) as [bk|] eqn:EN; [|discriminate].
    injection E as <- <-. cbn [p_pools]. apply prev_ok_upd; auto. cbn [prev]. apply IH. auto.
Qed.

Lemma free_all_log bs : forall w, exists n, ulog (fold_left free_block bs w) = n ++ ulog w.
Proof.
  induction bs as [|b bs IH]; intros w; cbn [fold_left]; [exists []; reflexivity|].
  destruct (IH (free_block w b)) as (n & ->). unfold free_block, up_free. cbn [ulog].
  exists (n ++ [UFree (bptr b) (bsize b) (balign b)]). rewrite <- app_assoc. reflexivity.
Qed.
Lemma free_all_calls bs : forall w, Permutation (ulive (ulog w)) bs -> calls_ok (ulog w) ->
  calls_ok (ulog (fold_left free_block bs w)).
Proof.
  induction bs as [|b bs IH]; intros w HP HF; cbn [fold_left] in *; auto.
  assert (Hin : In (mkBlock (bptr b) (bsize b) (balign b)) (ulive (ulog w))).
  { destruct b. eapply Permutation_in; [symmetry; exact HP|left; reflexivity]. }
  apply IH; cbn [free_block up_free ulog ulive calls_ok call_ok]; auto.
  apply Permutation_cons_inv with (mkBlock (bptr b) (bsize b) (balign b)).
  rewrite <- remove1_perm by auto. rewrite HP. destruct b. reflexivity.
Qed.

Definition pool_sinv (o : options) (s : Z * pst) (w : world) (live : list block) : Prop :=
  fst s = Z.log2_up (smallest o) /\ pinv o (snd s) w live /\ prev_ok o (fst s) (p_pools (snd s)).

Lemma pool_correct o : pool_stack_ok o -> correct (pool_res o).
Proof.
  intros HK. pose proof HK as (HS & A1 & A2 & A3). pose proof HS as (HO & _).
  exists (pool_sinv o). split; cbn [rstate r_init r_alloc r_free r_destroy pool_res].
  - intros s w size align r s' w'. destruct (pool_allocate o (fst s) (snd s) w size align) as [[r0 st] w0] eqn:E.
    intros [= <- <- <-]. eapply pool_alog; exact E.
  - intros s w p size align r s' w'. destruct (pool_deallocate o (fst s) (snd s) w p size align) as [[r0 st] w0] eqn:E.
    intros [= <- <- <-]. destruct (pool_flog _ _ _ _ _ _ _ _ _ _ E) as [->|(q & s1 & a & ->)]; [exists []|eexists [_]]; reflexivity.
  - intros s w. rewrite destroy_eq. apply free_all_log.
  - intros s w (E & F). rewrite (pool_construct_eq o HO) in E. injection E as <-. split; [left; exact F|].
    intros _. split; [reflexivity|]. cbn [fst snd]. split; [apply pool_init_inv; exact F|].
    intros i b Hi. left. cbn [st0 p_pools] in Hi. apply nth_error_In in Hi. apply repeat_spec in Hi. subst. reflexivity.
  - intros (sl & st) w live size align r s' w' (H1 & H2 & H3) _ HR. cbn [fst snd] in *. subst sl.
    destruct (pool_allocate o _ st w size align) as [[r0 st1] w0] eqn:E. intros [= <- <- <-].
    eapply pool_call; eauto.
  - intros (sl & st) w live size align r s' w' (H1 & H2 & H3) _ HR E HU. cbn [fst snd] in *. subst sl.
    destruct (pool_allocate o _ st w size align) as [[r0 st1] w0] eqn:EA. injection E as <- <- <-.
    destruct (req_legal _ _ HR) as (HL & HP).
    destruct (alloc_defined _ _ _ _ _ _ _ _ _ HS H2 H3 HL EA) as (D1 & D2).
    pose proof (pool_alloc_inv o HO _ _ _ _ _ _ _ _ H2 HL EA HU) as Q.
    destruct D2 as [(p & ->)|(-> & _)].
    + left. exists p. split; [reflexivity|]. rewrite (proj2 (Z.eqb_neq size 0)) in Q by lia.
      split; [reflexivity|]. split; assumption.
    + right. split; [reflexivity|]. split; [reflexivity|]. split; assumption.
  - intros (sl & st) w live b (H1 & H2 & H3) HU Hb. cbn [fst snd] in *. subst sl.
    destruct (pool_dealloc_inv o HO _ _ _ _ H2 HU Hb) as (st1 & w1 & E & HI). rewrite E.
    eexists _, _. split; [reflexivity|]. split.
    + destruct (pool_flog _ _ _ _ _ _ _ _ _ _ E) as [Q|(q & s1 & a & Q)]; [left; exact Q|right].
      eexists _, _, _. split; [exact Q|]. pose proof (i_frees _ _ _ _ HI) as FR. rewrite Q in FR. cbn [frees_ok] in FR. apply FR.
    + split; [reflexivity|]. split; [exact HI|]. cbn [fst snd]. eapply dealloc_prev_ok; eauto.
  - intros (sl & st) w live (H1 & H2 & H3) HU. cbn [fst snd] in *.
    destruct (pinv_disjoint _ _ _ _ HO H2 HU) as (D1 & D2). split; [exact D1|]. intros b Hb.
    destruct (live_backing o HO _ _ _ _ H2 HU Hb) as (L1 & L2 & L3). split; [exact L2|]. split; [exact L1|].
    split; [apply (i_live _ _ _ _ H2 b Hb)|exact L3].
  - intros (sl & st) w (H1 & H2 & H3) HU HC. cbn [fst snd] in *. rewrite destroy_eq.
    pose proof H2 as [_ U _ _ (lo & G1 & G2) _ _ _ _ _]. cbn [filter] in G2. inversion G2; subst lo.
    rewrite app_nil_r in G1.
    assert (P : Permutation (ulive (ulog w)) (map (cblk o) (p_chunks st) ++ map odb (p_cached st))).
    { rewrite U. apply Permutation_app_head. apply Permutation_map. exact G1. }
    split; [apply free_all_calls; assumption|].
    destruct (free_all (map (cblk o) (p_chunks st) ++ map odb (p_cached st)) w []) as (_ & Q);
      [rewrite app_nil_r; exact P|apply calls_frees; exact HC|].
    apply Permutation_nil. symmetry. exact Q.
Qed.

Lemma pool_asking o : asking (pool_res o).
Proof.
  split; cbn [rstate r_init r_alloc r_free pool_res].
  - unfold fresh. auto.
  - intros (sl & st) l size align. cbn [fst snd]. unfold pool_allocate.
    destruct (size =? 0); [left; eexists _, _; reflexivity|].
    destruct (negb _); [left; eexists _, _; reflexivity|]. destruct (is_oversized _ _ _).
    + unfold pool_allocate_oversized. destruct (if cache_oversized o then _ else None) as [[d c']|]; [left; eexists _, _; reflexivity|right].
      unfold up_alloc. cbn [ulog uorc].
      eexists _, _, (fun x => match x with
        | None => (Throw bad_alloc, (sl, st))
        | Some p => (Ret p, (sl, mkPool (p_pools st) (p_chunks st) (p_cached st) (p_over st ++ [mkO (adjust o size) align p]))) end).
      intros orc. destruct (orc (length l)); reflexivity.
    + unfold pool_allocate_pooled. destruct (log2_ri _) as [lg|]; [|left; eexists _, _; reflexivity].
      destruct (nth_error _ _) as [b|]; [|left; eexists _, _; reflexivity].
      destruct (fl b) as [|q fl'] eqn:EF.
      2:{ unfold pool_take. rewrite EF. left. eexists _, _. reflexivity. }
      destruct (_ && _); [right|left; eexists _, _; reflexivity].
      unfold up_alloc. cbn [ulog uorc].
      eexists _, _, (fun x => match x with
        | None => (Throw bad_alloc, (sl, st))
        | Some p =>
            let n := next_count o (prev b) lg in
            let b' := mkBucket (chunk_blocks p (2 ^ lg) (Z.to_nat n)) n in
            let st1 := mkPool (upd (p_pools st) (Z.to_nat (lg - sl)) b') (p_chunks st ++ [(wrap64 (Z.shiftl n lg), p)])
                         (p_cached st) (p_over st) in
            match fl b' with
            | [] => (UB, (sl, st1))
            | q :: fl' => (Ret q, (sl, mkPool (upd (p_pools st1) (Z.to_nat (lg - sl)) (mkBucket fl' (prev b')))
                                     (p_chunks st1) (p_cached st1) (p_over st1)))
            end end).
      intros orc. destruct (orc (length l)) as [p|]; [|reflexivity]. cbv zeta. unfold pool_take. cbn [fl].
      destruct (chunk_blocks p (2 ^ lg) (Z.to_nat (next_count o (prev b) lg))); reflexivity.
  - intros (sl & st) l p size align. cbn [fst snd]. unfold pool_deallocate, up_free. cbn [ulog uorc].
    destruct (p =? 0); [eexists _, _, []; reflexivity|].
    destruct (_ || _); [eexists _, _, []; reflexivity|]. destruct (is_oversized _ _ _).
    + destruct (find_ptr _ _) as [[d ov]|]; [|eexists _, _, []; reflexivity]. destruct (cache_oversized o).
      * destruct (lower_bound _ _). eexists _, _, []. reflexivity.
      * eexists _, _, [_]. reflexivity.
    + destruct (log2_ri _) as [lg|]; [|eexists _, _, []; reflexivity].
      destruct (nth_error _ _) as [b|]; eexists _, _, []; reflexivity.
Qed.
