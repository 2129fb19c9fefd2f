(** binary_page_memory_resource keeps to the rules of StackProofs.v. *)
From Verif Require Import Base BaseLemmas IntMath IntMathProofs Buddy BuddyTree BuddyPage BuddyProofs BuddyHistory Stack StackProofs.
From Coq Require Import Permutation.

(** What the resource asks of its upstream. *)
Lemma buddy_alloc_log st w size align r st' w' : 0 < size <= 2 ^ 63 ->
  do_allocate st w size align = (r, st', w') ->
  ulog w' = ulog w \/ exists x, ulog w' = UAlloc (2 ^ superpage_size_for (goal_of size)) max_align x :: ulog w.
Proof.
  intros HS. unfold do_allocate. destruct (size =? 0); [intros [= <- <- <-]; auto|].
  unfold allocate. unfold goal_of.
  destruct (round_up_checked size) as [ru|e|] eqn:ER; try (intros [= <- <- <-]; auto; fail).
  assert (ru = round_up size) as ->.
  { revert ER. unfold round_up_checked. destruct (size <=? 2 ^ 63); [congruence|discriminate]. }
  set (goal := Z.max min_page_size (round_up size)).
  destruct (find_free_page st goal) as [[[k p]|]|e|]; try (intros [= <- <- <-]; auto; fail).
  - destruct (take_page st k p goal) as [[a s1]|e|]; intros [= <- <- <-]; auto.
  - unfold allocate_upstream. destruct (_ <? min_page_size); [intros [= <- <- <-]; auto|].
    unfold up_alloc. destruct (uorc w (length (ulog w))) as [base|].
    + set (w1 := mkWorld _ _). set (st1 := st ++ _).
      destruct (find_free_page st1 goal) as [[[k p]|]|e|]; try (intros [= <- <- <-]; right; eexists; reflexivity).
      destruct (take_page st1 k p goal) as [[a s1]|e|]; intros [= <- <- <-]; right; eexists; reflexivity.
    + intros [= <- <- <-]. right. eexists. reflexivity.
Qed.

Lemma buddy_alog st w size align r st' w' :
  do_allocate st w size align = (r, st', w') -> exists n, ulog w' = n ++ ulog w.
Proof.
  unfold do_allocate. destruct (size =? 0); [intros [= <- <- <-]; exists []; auto|].
  unfold allocate.
  destruct (round_up_checked size) as [ru|e|]; try (intros [= <- <- <-]; exists []; auto; fail).
  destruct (find_free_page st _) as [[[k p]|]|e|]; try (intros [= <- <- <-]; exists []; auto; fail).
  - destruct (take_page st k p _) as [[a s1]|e|]; intros [= <- <- <-]; exists []; auto.
  - unfold allocate_upstream. destruct (_ <? min_page_size); [intros [= <- <- <-]; exists []; auto|].
    unfold up_alloc. destruct (uorc w (length (ulog w))) as [base|].
    + set (w1 := mkWorld _ _). set (st1 := st ++ _).
      destruct (find_free_page st1 _) as [[[k p]|]|e|]; try (intros [= <- <- <-]; eexists [_]; reflexivity).
      destruct (take_page st1 k p _) as [[a s1]|e|]; intros [= <- <- <-]; eexists [_]; reflexivity.
    + intros [= <- <- <-]. eexists [_]. reflexivity.
Qed.

Lemma superpage_req size : 0 < size <= 2 ^ 63 -> req_ok (2 ^ superpage_size_for (goal_of size)) max_align.
Proof.
  intros H. destruct (goal_bounds _ H) as (G & _). destruct (superpage_size_for_ok _ G) as (S1 & _).
  split; [|split; [exists 4; split; [lia|reflexivity]|unfold max_align; lia]].
  split; [apply Z.pow_pos_nonneg; lia|apply Z.pow_le_mono_r; lia].
Qed.

Lemma inv_align st w live b : inv st w live -> upstream_ok (ulog w) -> In b live -> (16 | bptr b) /\ 0 < bptr b.
Proof.
  intros HI Hok Hb. split; [|destruct (deallocate_spec _ _ _ _ HI Hok Hb) as (_ & _ & H & _); exact H].
  destruct (i_live _ _ _ HI b Hb) as (Sb & k & sp & i & N1 & O1 & A1 & G1).
  rewrite A1. pose proof (inv_good _ _ _ _ _ HI N1) as HG.
  apply get_addr_align; auto; [eapply good_page; eauto|].
  assert (In (sp_block sp) (ulive (ulog w))).
  { rewrite (i_up _ _ _ HI), <- in_rev. apply in_map. eapply nth_error_In; eauto. }
  pose proof (ulive_props _ _ Hok H) as (_ & _ & H3). exact H3.
Qed.

Lemma pow2_16 a : pow2 a -> a <= 16 -> (a | 16).
Proof.
  intros (k & Hk & ->) H. change 16 with (2 ^ 4) in *. apply Z.pow_le_mono_r_iff in H; [|lia|lia].
  exists (2 ^ (4 - k)). rewrite <- Z.pow_add_r by lia. f_equal. lia.
Qed.

Lemma destroy_calls st : forall w, Permutation (ulive (ulog w)) (map sp_block st) ->
  calls_ok (ulog w) -> calls_ok (ulog (destroy st w)).
Proof.
  induction st as [|sp st IH]; intros w HP HF; cbn [destroy map] in *; auto.
  assert (Hin : In (sp_block sp) (ulive (ulog w))).
  { eapply Permutation_in; [symmetry; exact HP|]. left; reflexivity. }
  apply IH; unfold up_free; cbn [ulog ulive calls_ok call_ok].
  + change (mkBlock (sp_base sp) (2 ^ sp_size sp) max_align) with (sp_block sp).
    apply Permutation_cons_inv with (a := sp_block sp).
    rewrite <- HP. symmetry. apply remove1_perm; auto.
  + split; auto.
Qed.

Lemma binary_page_correct : correct binary_page_res.
Proof.
  exists (fun st w live => inv st w live /\ Forall (fun b => pow2 (balign b) /\ balign b <= 16) live).
  split; cbn [rstate r_init r_alloc r_free r_destroy binary_page_res].
  - apply buddy_alog.
  - intros s w p size align r s' w' E. apply do_deallocate_world in E. subst. exists []. reflexivity.
  - intros s w. apply destroy_log.
  - intros s w (-> & F). unfold fresh in F. split; [left; exact F|]. intros _. split; [apply inv_init; exact F|constructor].
  - intros s w live size align r s' w' _ _ HR E. destruct HR as (HR1 & HR2).
    destruct (buddy_alloc_log _ _ _ _ _ _ _ HR1 E) as [Q|(x & Q)]; [left; exact Q|right].
    eexists. split; [exact Q|]. apply superpage_req. exact HR1.
  - intros s w live size align r s' w' (HI & HF) _ (HR1 & HR2) E HU.
    destruct (do_allocate_spec _ _ _ _ _ _ _ _ HI HR1 E HU) as [(a & -> & A1 & A2)|(-> & _ & A2 & _)].
    + left. exists a. split; [reflexivity|]. split; [exact A2|]. constructor; [exact HR2|exact HF].
    + right. auto.
  - intros s w live b (HI & HF) HU Hb. destruct (deallocate_spec _ _ _ _ HI HU Hb) as (s' & E & P & HI').
    exists s', w. unfold do_deallocate. destruct (Z.eqb_spec (bptr b) 0); [lia|]. rewrite E.
    split; [reflexivity|]. split; [left; reflexivity|]. split; [exact HI'|].
    rewrite Forall_forall in HF |- *. intros c Hc. apply HF. eapply remove1_in; exact Hc.
  - intros s w live (HI & HF) HU. split; [eapply inv_disjoint; eauto|]. intros b Hb.
    destruct (inv_align _ _ _ _ HI HU Hb) as (A1 & A2). split; [exact A2|].
    rewrite Forall_forall in HF. destruct (HF b Hb) as (F1 & F2).
    split; [eapply Z.divide_trans; [apply pow2_16; eassumption|exact A1]|].
    split; [apply (i_live _ _ _ HI b Hb)|]. eapply inv_inside; eauto.
  - intros s w (HI & _) HU HC.
    assert (P : Permutation (ulive (ulog w)) (map sp_block s)).
    { rewrite (i_up _ _ _ HI). symmetry. apply Permutation_rev. }
    split; [apply destroy_calls; auto|]. apply destroy_ok; [exact P|apply calls_frees; exact HC].
Qed.

Lemma binary_page_asking : asking binary_page_res.
Proof.
  split; cbn [rstate r_init r_alloc r_free binary_page_res].
  - unfold fresh. auto.
  - intros s l size align. unfold do_allocate. destruct (size =? 0); [left; eexists _, _; reflexivity|].
    unfold allocate. destruct (round_up_checked size) as [ru|e|]; try (left; eexists _, _; reflexivity).
    set (goal := Z.max min_page_size ru).
    destruct (find_free_page s goal) as [[[k p]|]|e|]; try (left; eexists _, _; reflexivity).
    + destruct (take_page s k p goal) as [[a s1]|e|]; left; eexists _, _; reflexivity.
    + unfold allocate_upstream. destruct (_ <? min_page_size); [left; eexists _, _; reflexivity|right].
      unfold up_alloc. cbn [ulog uorc].
      eexists _, _, (fun x => match x with
        | None => (Throw bad_alloc, s)
        | Some base =>
            let st1 := s ++ [new_superpage (superpage_size_for goal) base] in
            match find_free_page st1 goal with
            | Ret (Some (k, p)) => match take_page st1 k p goal with
                                   | Ret (a, s1) => (Ret a, s1) | Throw e => (Throw e, st1) | UB => (UB, st1) end
            | Ret None => (Throw bad_alloc, st1)
            | Throw e => (Throw e, st1)
            | UB => (UB, st1)
            end end).
      intros orc. destruct (orc (length l)) as [base|]; [|reflexivity]. cbv zeta.
      destruct (find_free_page (s ++ _) goal) as [[[k p]|]|e|]; try reflexivity.
      destruct (take_page _ k p goal) as [[a s1]|e|]; reflexivity.
  - intros s l p size align. unfold do_deallocate. destruct (p =? 0); [eexists _, _, []; reflexivity|].
    destruct (deallocate s p size); eexists _, _, []; reflexivity.
Qed.
