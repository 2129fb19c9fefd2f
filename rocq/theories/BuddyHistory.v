(** Whole-history theorems for the binary page resource (proofs for [Buddy]). *)
From Verif Require Import Base BaseLemmas History IntMath IntMathProofs Buddy BuddyTree BuddyPage BuddyProofs.
From Coq Require Import Permutation.

(** Legal requests: [std::size_t] sizes for which [round_up] is defined
    (integer_math.hpp:90), alignments that are powers of two. *)
Definition buddy_legal (size align : Z) : Prop := 0 <= size <= 2 ^ 63 /\ pow2 align.
Definition buddy_reach := reach do_allocate do_deallocate buddy_legal init fresh.

(** ** Upstream bookkeeping that holds without any assumption on upstream *)
Lemma change_state_shape sp p x y sp' : change_state sp p x y = Ret sp' -> set_shape sp sp'.
Proof.
  unfold change_state. destruct (get_state sp p); cbn [bind]; try discriminate.
  unfold assert. destruct (pstate_eqb a x); try discriminate. intros [= <-]. apply set_shape_set.
Qed.

Lemma bind_ret {A B} (o : outcome A) (f : A -> outcome B) b :
  bind o f = Ret b -> exists a, o = Ret a /\ f a = Ret b.
Proof. destruct o; cbn; try discriminate. eauto. Qed.

Lemma assert_ret {A} c (k : outcome A) b : assert c k = Ret b -> c = true /\ k = Ret b.
Proof. unfold assert. destruct c; try discriminate. auto. Qed.

Ltac inv_ret :=
  repeat match goal with
  | H : bind _ _ = Ret _ |- _ =>
      apply bind_ret in H; let a := fresh "a" in destruct H as (a & ? & H)
  | H : assert _ _ = Ret _ |- _ => apply assert_ret in H; destruct H as [? H]
  | H : change_state _ _ _ _ = Ret _ |- _ => apply change_state_shape in H
  end.

Lemma split_shape sp p sp' : split sp p = Ret sp' -> set_shape sp sp'.
Proof. unfold split. intros H. inv_ret. eauto using set_shape_trans. Qed.

Lemma split_to_shape goal : forall fuel sp p sp' p',
  split_to fuel sp p goal = Ret (sp', p') -> set_shape sp sp'.
Proof.
  induction fuel as [|f IH]; cbn [split_to]; intros sp p sp' p' H; [discriminate|].
  destruct (goal <? get_size sp p).
  - inv_ret. match goal with E : split _ _ = Ret _ |- _ => apply split_shape in E end.
    apply IH in H. eauto using set_shape_trans.
  - injection H as <- <-. apply set_shape_refl.
Qed.

Lemma unsplit_shape : forall fuel sp p sp', unsplit fuel sp p = Ret sp' -> set_shape sp sp'.
Proof.
  induction fuel as [|f IH]; cbn [unsplit]; intros sp p sp' H; [discriminate|].
  inv_ret.
  repeat match goal with
  | E : (if ?c then unsplit f ?x ?y else Ret ?x) = Ret ?z |- _ =>
      assert (set_shape x z) by
        (destruct c; [eauto|injection E as <-; apply set_shape_refl]); clear E
  end.
  eauto 10 using set_shape_trans.
Qed.

Lemma dealloc_page_shape sp p s sp' : dealloc_page sp p s = Ret sp' -> set_shape sp sp'.
Proof.
  unfold dealloc_page. intros H. inv_ret.
  destruct (Nat.eqb _ _).
  - injection H as <-. auto.
  - inv_ret. injection H as <-.
    match goal with E : unsplit _ _ _ = Ret _ |- _ => apply unsplit_shape in E end.
    eauto using set_shape_trans.
Qed.

Lemma upd_blocks st k sp sp' : nth_error st k = Some sp -> set_shape sp sp' ->
  map sp_block (upd st k sp') = map sp_block st.
Proof. intros. apply (map_upd_same _ _ _ sp); auto. apply set_shape_block; auto. Qed.

Lemma take_page_blocks st k p goal a st' : take_page st k p goal = Ret (a, st') ->
  map sp_block st' = map sp_block st.
Proof.
  unfold take_page. destruct (nth_error st k) as [sp|] eqn:E; [|discriminate].
  intros H. inv_ret. destruct a1 as [sp1 p1]. inv_ret. injection H as <- <-.
  match goal with E : split_to _ _ _ _ = Ret _ |- _ => apply split_to_shape in E end.
  eapply upd_blocks; eauto using set_shape_trans.
Qed.

Definition no_free (l : list uevent) : Prop :=
  forall p s a, ~ In (UFree p s a) l.
Definition up_inv (st : state) (w : world) : Prop :=
  ulive (ulog w) = rev (map sp_block st) /\ no_free (ulog w).

Lemma no_free_alloc s a r l : no_free l -> no_free (UAlloc s a r :: l).
Proof. intros H p s' a' [E|E]; [discriminate|]. eapply H; eauto. Qed.

Lemma do_allocate_up st w size align r st' w' : up_inv st w ->
  do_allocate st w size align = (r, st', w') -> up_inv st' w'.
Proof.
  intros [H1 H2]. unfold do_allocate. destruct (size =? 0).
  { intros [= <- <- <-]. split; auto. }
  unfold allocate. destruct (round_up_checked size) as [ru|e|]; try (intros [= <- <- <-]; split; auto; fail).
  set (goal := Z.max min_page_size ru).
  destruct (find_free_page st goal) as [[[k p]|]|e|]; try (intros [= <- <- <-]; split; auto; fail).
  - destruct (take_page st k p goal) as [[a s1]|e|] eqn:Et; try (intros [= <- <- <-]; split; auto; fail).
    intros [= <- <- <-]. split; auto. rewrite (take_page_blocks _ _ _ _ _ _ Et). auto.
  - unfold allocate_upstream. destruct (_ <? min_page_size).
    { intros [= <- <- <-]; split; auto. }
    unfold up_alloc. destruct (uorc w (length (ulog w))) as [base|].
    + set (w1 := mkWorld _ _). set (st1 := st ++ _).
      assert (HU : up_inv st1 w1).
      { split; [|apply no_free_alloc; auto]. unfold st1, w1. cbn [ulog ulive].
        rewrite H1, map_app, rev_app_distr. reflexivity. }
      destruct (find_free_page st1 goal) as [[[k p]|]|e|]; try (intros [= <- <- <-]; auto; fail).
      destruct (take_page st1 k p goal) as [[a s1]|e|] eqn:Et; try (intros [= <- <- <-]; auto; fail).
      intros [= <- <- <-]. destruct HU as [U1 U2]. split; auto.
      rewrite (take_page_blocks _ _ _ _ _ _ Et). auto.
    + intros [= <- <- <-]. split; [exact H1|]. apply no_free_alloc; auto.
Qed.

Lemma do_deallocate_up st w p size align r st' w' : up_inv st w ->
  do_deallocate st w p size align = (r, st', w') -> up_inv st' w'.
Proof.
  intros [H1 H2]. unfold do_deallocate. destruct (p =? 0).
  { intros [= <- <- <-]. split; auto. }
  destruct (deallocate st p size) as [s1|e|] eqn:E; intros [= <- <- <-]; split; auto.
  unfold deallocate in E. destruct (find_sp st 0 p) as [k|]; [|discriminate].
  destruct (nth_error st k) as [sp|] eqn:En; [|discriminate].
  apply bind_ret in E. destruct E as (sp' & Ed & E). injection E as <-.
  apply dealloc_page_shape in Ed. rewrite (upd_blocks _ _ _ _ En Ed). auto.
Qed.

Lemma reach_up st w live : buddy_reach st w live -> up_inv st w.
Proof.
  induction 1; eauto using do_allocate_up, do_deallocate_up.
  unfold fresh in H. split; rewrite H; [reflexivity|]. intros p s a [].
Qed.

Lemma frees_ok_no_free l : no_free l -> frees_ok l.
Proof.
  induction l as [|[s a r|p s a] l IH]; simpl; auto; intros H.
  - apply IH. intros p' s' a' Hin. eapply H. right. eauto.
  - exfalso. eapply H. left. reflexivity.
Qed.

Lemma destroy_ok st : forall w, Permutation (ulive (ulog w)) (map sp_block st) ->
  frees_ok (ulog w) ->
  frees_ok (ulog (destroy st w)) /\ ulive (ulog (destroy st w)) = [].
Proof.
  induction st as [|sp st IH]; intros w HP HF; cbn [destroy map] in *.
  - split; auto. apply Permutation_sym, Permutation_nil in HP. auto.
  - assert (Hin : In (sp_block sp) (ulive (ulog w))).
    { eapply Permutation_in; [symmetry; exact HP|]. left; reflexivity. }
    apply IH; unfold up_free; cbn [ulog ulive frees_ok].
    + change (mkBlock (sp_base sp) (2 ^ sp_size sp) max_align) with (sp_block sp).
      apply Permutation_cons_inv with (a := sp_block sp).
      rewrite <- HP. symmetry. apply remove1_perm; auto.
    + split; auto.
Qed.

Lemma destroy_log st : forall w, exists l, ulog (destroy st w) = l ++ ulog w.
Proof.
  induction st as [|sp st IH]; intros w; cbn [destroy].
  - exists []. reflexivity.
  - destruct (IH (up_free w (sp_base sp) (2 ^ sp_size sp) max_align)) as (l & ->).
    exists (l ++ [UFree (sp_base sp) (2 ^ sp_size sp) max_align]).
    rewrite <- app_assoc. reflexivity.
Qed.

Lemma buddy_life st w live : buddy_reach st w live ->
  no_free (ulog w) /\
  frees_ok (ulog (destroy st w)) /\ ulive (ulog (destroy st w)) = [].
Proof.
  intros H. apply reach_up in H. destruct H as [H1 H2]. split; auto.
  apply destroy_ok; [|apply frees_ok_no_free; auto].
  rewrite H1. symmetry. apply Permutation_rev.
Qed.

(** ** The invariant holds in every history *)
Lemma log_grows st w size align r st' w' :
  do_allocate st w size align = (r, st', w') -> upstream_ok (ulog w') -> upstream_ok (ulog w).
Proof.
  unfold do_allocate. destruct (size =? 0).
  { intros [= <- <- <-]. auto. }
  unfold allocate. destruct (round_up_checked size) as [ru|e|]; try (intros [= <- <- <-]; auto; fail).
  set (goal := Z.max min_page_size ru).
  destruct (find_free_page st goal) as [[[k p]|]|e|]; try (intros [= <- <- <-]; auto; fail).
  - destruct (take_page st k p goal) as [[a s1]|e|]; intros [= <- <- <-]; auto.
  - unfold allocate_upstream. destruct (_ <? min_page_size); [intros [= <- <- <-]; auto|].
    unfold up_alloc. destruct (uorc w (length (ulog w))) as [base|].
    + set (w1 := mkWorld _ _). set (st1 := st ++ _).
      assert (upstream_ok (ulog w1) -> upstream_ok (ulog w)) by apply upstream_ok_tail.
      destruct (find_free_page st1 goal) as [[[k p]|]|e|]; try (intros [= <- <- <-]; auto; fail).
      destruct (take_page st1 k p goal) as [[a s1]|e|]; intros [= <- <- <-]; auto.
    + intros [= <- <- <-]. apply upstream_ok_tail.
Qed.

Lemma do_deallocate_world st w p size align r st' w' :
  do_deallocate st w p size align = (r, st', w') -> w' = w.
Proof.
  unfold do_deallocate. destruct (p =? 0); [intros [= <- <- <-]; auto|].
  destruct (deallocate st p size); intros [= <- <- <-]; auto.
Qed.

Lemma do_allocate_spec st w live size align r st' w' :
  inv st w live -> 0 < size <= 2 ^ 63 -> do_allocate st w size align = (r, st', w') ->
  upstream_ok (ulog w') ->
  (exists a, r = Ret a /\ 0 < a /\ inv st' w' (mkBlock a size align :: live)) \/
  (r = Throw bad_alloc /\ st' = st /\ inv st' w' live /\
   exists s a, ulog w' = UAlloc s a None :: ulog w).
Proof.
  intros HI Hs E Hok. unfold do_allocate in E. destruct (Z.eqb_spec size 0); [lia|].
  destruct (allocate_spec st w live size align HI Hs) as
    [(a & s1 & k & p & g & E1 & Ha & Hf & Hle & Hm & Hsp & HI')
    |[(w1 & Hno & E1 & Hl & HI')
     |(a & s1 & w1 & base & Hno & E1 & Ha & Hl & HI')]];
    [rewrite E; exact Hok| | |]; rewrite E1 in E; injection E as <- <- <-.
  - left. eauto.
  - right. split; auto. split; auto. split; auto. eauto.
  - left. eauto.
Qed.

Lemma reach_inv st w live : buddy_reach st w live -> upstream_ok (ulog w) -> inv st w live.
Proof.
  induction 1 as [w Hf|s w live size align p s' w' HR IH HL E|s w live size align e s' w' HR IH HL E
                 |s w live b s' w' HR IH Hb E|s w live size align s' w' HR IH E]; intros Hok.
  - apply inv_init. exact Hf.
  - pose proof (log_grows _ _ _ _ _ _ _ E Hok) as Hok0. specialize (IH Hok0).
    destruct (Z.eqb_spec size 0) as [Z0|NZ].
    + unfold do_allocate in E. rewrite (proj2 (Z.eqb_eq size 0)) in E by auto.
      injection E as <- <- <-. auto.
    + destruct HL as [HL _].
      assert (Hs : 0 < size <= 2 ^ 63) by lia.
      destruct (do_allocate_spec _ _ _ _ _ _ _ _ IH Hs E Hok) as
        [(a & Ea & Ha & HI)|(Ea & _)]; [|discriminate].
      injection Ea as ->. exact HI.
  - pose proof (log_grows _ _ _ _ _ _ _ E Hok) as Hok0. specialize (IH Hok0).
    destruct (Z.eqb_spec size 0) as [Z0|NZ].
    + unfold do_allocate in E. rewrite (proj2 (Z.eqb_eq size 0)) in E by auto. discriminate.
    + destruct HL as [HL _].
      assert (Hs : 0 < size <= 2 ^ 63) by lia.
      destruct (do_allocate_spec _ _ _ _ _ _ _ _ IH Hs E Hok) as
        [(a & Ea & Ha & HI)|(Ea & Hst & HI & _)]; [discriminate|]. exact HI.
  - pose proof (do_deallocate_world _ _ _ _ _ _ _ _ E) as Ew. subst w'.
    specialize (IH Hok).
    destruct (deallocate_spec s w live b IH Hok Hb) as (st1 & E1 & Hp & HI).
    unfold do_deallocate in E. destruct (Z.eqb_spec (bptr b) 0); [lia|].
    rewrite E1 in E. injection E as <-. exact HI.
  - pose proof (do_deallocate_world _ _ _ _ _ _ _ _ E) as Ew. subst w'.
    specialize (IH Hok). unfold do_deallocate in E. simpl in E. injection E as <-. exact IH.
Qed.

(** ** C03 *)
Lemma buddy_disjoint st w live : buddy_reach st w live -> upstream_ok (ulog w) ->
  pairwise_disjoint live /\
  forall b, In b live -> exists u, In u (ulive (ulog w)) /\ inside b u.
Proof.
  intros HR Hok. pose proof (reach_inv _ _ _ HR Hok) as HI. split.
  - eapply inv_disjoint; eauto.
  - intros b Hb. eapply inv_inside; eauto.
Qed.

(** ** C04 *)
Lemma buddy_defined st w live : buddy_reach st w live ->
  (forall size align r st' w', buddy_legal size align ->
     do_allocate st w size align = (r, st', w') -> upstream_ok (ulog w') ->
     (exists p, r = Ret p) \/
     (r = Throw bad_alloc /\ exists s a, ulog w' = UAlloc s a None :: ulog w)) /\
  (forall b, upstream_ok (ulog w) -> In b live ->
     exists st', do_deallocate st w (bptr b) (bsize b) (balign b) = (Ret tt, st', w)).
Proof.
  intros HR. split.
  - intros size align r st' w' [HL _] E Hok.
    pose proof (log_grows _ _ _ _ _ _ _ E Hok) as Hok0.
    pose proof (reach_inv _ _ _ HR Hok0) as HI.
    destruct (Z.eqb_spec size 0) as [Z0|NZ].
    + unfold do_allocate in E. rewrite (proj2 (Z.eqb_eq size 0)) in E by auto.
      injection E as <- <- <-. eauto.
    + assert (Hs : 0 < size <= 2 ^ 63) by lia.
      destruct (do_allocate_spec _ _ _ _ _ _ _ _ HI Hs E Hok) as
        [(a & Ea & Ha & _)|(Ea & _ & _ & Hl)]; eauto.
  - intros b Hok Hb. pose proof (reach_inv _ _ _ HR Hok) as HI.
    destruct (deallocate_spec st w live b HI Hok Hb) as (st1 & E1 & Hp & _).
    exists st1. unfold do_deallocate. destruct (Z.eqb_spec (bptr b) 0); [lia|].
    rewrite E1. reflexivity.
Qed.

(** ** C05 *)
Lemma no_occ_vacant sp : sp_good sp -> (forall i, st_at sp i <> Some OCCUPIED) ->
  forall n i, (510 - i < n)%nat -> (i < 511)%nat -> st_at sp i <> Some NON_EXTANT ->
  st_at sp i = Some VACANT.
Proof.
  intros [Hwf Hc] Hno. induction n as [|n IH]; intros i Hn Hi Hne; [lia|].
  destruct (st_at_some sp i) as (s & Hs); [rewrite (wf_len _ Hwf); lia|].
  destruct s; auto; try congruence.
  - exfalso. pose proof (wf_leaf _ Hwf i Hs) as Hl.
    apply (Hc i Hs); apply IH; try lia.
    + rewrite (wf_ext _ Hwf) by lia. rewrite par_left. congruence.
    + rewrite (wf_ext _ Hwf) by lia. rewrite par_right. congruence.
Qed.

Lemma list_eq_nth {A} (l l' : list A) : (forall i, nth_error l i = nth_error l' i) -> l = l'.
Proof.
  revert l'. induction l as [|x l IH]; intros [|y l'] H; auto.
  - specialize (H 0%nat). discriminate.
  - specialize (H 0%nat). discriminate.
  - f_equal.
    + specialize (H 0%nat). cbn in H. congruence.
    + apply IH. intros i. exact (H (S i)).
Qed.

Lemma no_occ_root sp : sp_good sp -> (forall i, st_at sp i <> Some OCCUPIED) ->
  sp_pages sp = VACANT :: repeat NON_EXTANT 510.
Proof.
  intros HG Hno. pose proof (no_occ_vacant sp HG Hno) as Hv. destruct HG as [Hwf Hc].
  assert (H0 : st_at sp 0 = Some VACANT).
  { apply (Hv 511%nat); try lia. apply (wf_root _ Hwf). }
  assert (HN : forall i, (0 < i < 511)%nat -> st_at sp i = Some NON_EXTANT).
  { intros i. induction (Wf_nat.lt_wf i) as [i _ IHi]. intros Hi.
    apply (wf_ext _ Hwf); auto.
    destruct (Nat.eq_dec (par i) 0) as [->|NZ]; [congruence|].
    rewrite IHi; [discriminate|apply par_lt; lia|]. pose proof (par_lt i). lia. }
  apply list_eq_nth. intros i. change (nth_error (sp_pages sp) i) with (st_at sp i).
  destruct i as [|i]; [exact H0|]. cbn [nth_error].
  destruct (lt_dec i 510) as [Hl|Hl].
  - rewrite HN by lia. symmetry. apply nth_error_repeat. lia.
  - transitivity (@None pstate); [|symmetry]; apply nth_error_None.
    + rewrite (wf_len _ Hwf). lia.
    + rewrite repeat_length. lia.
Qed.

Lemma inv_empty st w sp : inv st w [] -> In sp st -> sp_pages sp = VACANT :: repeat NON_EXTANT 510.
Proof.
  intros HI Hin. apply In_nth_error in Hin. destruct Hin as (k & Hk).
  apply no_occ_root; [eapply inv_good; eauto|].
  intros i Ho. destruct (i_occ _ _ _ HI k sp i Hk Ho) as (b & [] & _).
Qed.

Lemma round_up_bound s k : 0 < s <= 2 ^ 63 -> 0 <= k -> s <= 2 ^ k -> round_up s <= k.
Proof.
  intros Hs Hk H. destruct (round_up_spec s) as (_ & _ & H3); [lia|].
  destruct (Z_le_gt_dec (round_up s) k); auto. specialize (H3 k). lia.
Qed.
Lemma round_up_lower s k : 0 < s <= 2 ^ 63 -> 2 ^ k < s -> k < round_up s.
Proof.
  intros Hs H. destruct (round_up_spec s) as (H1 & H2 & _); [lia|].
  destruct (Z_lt_ge_dec k (round_up s)); auto. exfalso.
  assert (2 ^ round_up s <= 2 ^ k) by (apply Z.pow_le_mono_r; lia). lia.
Qed.

Lemma buddy_coalesced st w : buddy_reach st w [] -> upstream_ok (ulog w) ->
  forall sp, In sp st ->
    sp_pages sp = VACANT :: repeat NON_EXTANT 510 /\
    forall size align,
      (2 ^ (sp_size sp - 9) < size \/ sp_size sp = 16 /\ 0 < size) -> size <= 2 ^ sp_size sp ->
      exists p st', do_allocate st w size align = (Ret p, st', w).
Proof.
  intros HR Hok sp Hin. pose proof (reach_inv _ _ _ HR Hok) as HI.
  pose proof (inv_empty _ _ _ HI Hin) as Hp. split; auto.
  intros size align H1 H2.
  pose proof Hin as Hin'. apply In_nth_error in Hin'. destruct Hin' as (k & Hk).
  destruct (inv_good _ _ _ _ _ HI Hk) as [Hwf Hc].
  pose proof (wf_size _ Hwf) as Hsz. pose proof (wf_min _ Hwf) as Hmin.
  assert (Hs0 : 0 < size).
  { destruct H1 as [H1|[_ H1]]; auto. pose proof (pow2_pos (sp_size sp - 9)). lia. }
  assert (Hs63 : 0 < size <= 2 ^ 63).
  { split; auto. etransitivity; [exact H2|]. apply Z.pow_le_mono_r; lia. }
  assert (Hg : sp_min sp <= goal_of size <= sp_size sp).
  { unfold goal_of, min_page_size.
    pose proof (round_up_bound size (sp_size sp) Hs63 ltac:(lia) H2).
    destruct H1 as [H1|[H1 _]].
    - pose proof (round_up_lower size _ Hs63 H1). lia.
    - lia. }
  assert (Hfit : fits st (goal_of size) k 0 (sp_size sp)).
  { exists sp. split; auto. split; [lia|]. split.
    - unfold st_at. rewrite Hp. reflexivity.
    - apply get_size_root. }
  unfold do_allocate. destruct (Z.eqb_spec size 0); [lia|].
  unfold allocate, round_up_checked. destruct (Z.leb_spec size (2 ^ 63)); [|lia].
  fold (goal_of size).
  destruct (find_free_page_ok st (goal_of size) (i_good _ _ _ HI)) as
    [[E Hno]|(k' & p & g & E & Hf & Hle & _)]; [pose proof (goal_bounds size Hs63); lia| |].
  - exfalso. specialize (Hno _ _ _ Hfit). lia.
  - rewrite E. destruct (inv_take st w [] size align k' p g HI Hok Hs63 Hf Hle) as (a & s1 & Et & _).
    rewrite Et. eauto.
Qed.

(** ** C06 *)

(** Specification: the page with index [i] of superpage [sp] has size
    [2^(page_log2 sp i)]. *)
Definition page_log2 (sp : superpage) (i : nat) : Z :=
  sp_size sp - Z.of_nat (Nat.log2 (S i)).
(** Page [i] of superpage number [k] is vacant and may serve a request of size
    [size]: it is at least as large, and the smallest page of its superpage
    ([2^sp_min] bytes) is not larger than [size] rounded up to a power of two of
    at least 256. *)
Definition serves (st : state) (size : Z) (k i : nat) (g : Z) : Prop :=
  exists sp, nth_error st k = Some sp /\ nth_error (sp_pages sp) i = Some VACANT /\
    g = page_log2 sp i /\ size <= 2 ^ g /\
    (sp_min sp <= 8 \/ 2 ^ (sp_min sp - 1) < size).

Lemma serves_fits st w live size k i g : inv st w live -> 0 < size <= 2 ^ 63 ->
  (serves st size k i g <-> fits st (goal_of size) k i g /\ goal_of size <= g).
Proof.
  intros HI Hs. unfold goal_of, min_page_size. split.
  - intros (sp & Hk & Hv & Hg & Hle & Hm).
    pose proof (inv_good _ _ _ _ _ HI Hk) as HG.
    pose proof (good_page _ _ _ HG Hv) as Hi. destruct HG as [Hwf Hc].
    pose proof (wf_size _ Hwf). pose proof (wf_min _ Hwf). pose proof (dp_le i Hi) as Hd.
    unfold page_log2 in Hg. fold (dp i) in Hg.
    split.
    + exists sp. split; auto. split; [|split; auto].
      * destruct Hm as [Hm|Hm]; [lia|]. pose proof (round_up_lower size _ Hs Hm). lia.
      * rewrite get_size_eq by auto. lia.
    + pose proof (round_up_bound size g Hs ltac:(lia) Hle). lia.
  - intros [(sp & Hk & Hm & Hv & Hg) Hle].
    pose proof (inv_good _ _ _ _ _ HI Hk) as HG.
    pose proof (good_page _ _ _ HG Hv) as Hi. destruct HG as [Hwf Hc].
    rewrite get_size_eq in Hg by auto.
    exists sp. split; auto. split; auto. split; [unfold page_log2; fold (dp i); lia|].
    destruct (round_up_spec size) as (R1 & R2 & R3); [lia|]. split.
    + etransitivity; [exact R2|]. apply Z.pow_le_mono_r; lia.
    + destruct (Z_le_gt_dec (sp_min sp) 8); auto. right. apply R3. lia.
Qed.

Lemma buddy_upstream st w live size align r st' w' :
  buddy_reach st w live -> 0 < size <= 2 ^ 63 ->
  do_allocate st w size align = (r, st', w') -> upstream_ok (ulog w') ->
  ((exists k i g, serves st size k i g) ->
     w' = w /\ exists k i g sp p, serves st size k i g /\
       (forall k' i' g', serves st size k' i' g' -> g <= g') /\
       nth_error st k = Some sp /\ r = Ret p /\
       p = sp_base sp + Z.of_nat (S i - 2 ^ Nat.log2 (S i)) * 2 ^ g) /\
  (~ (exists k i g, serves st size k i g) ->
     exists m a res, ulog w' = UAlloc (2 ^ m) a res :: ulog w /\
       size <= 2 ^ m /\ 2 ^ 16 <= 2 ^ m /\
       (res = None -> r = Throw bad_alloc) /\
       (forall q, res = Some q -> exists p, r = Ret p)).
Proof.
  intros HR Hs E Hok.
  pose proof (log_grows _ _ _ _ _ _ _ E Hok) as Hok0.
  pose proof (reach_inv _ _ _ HR Hok0) as HI.
  pose proof (goal_bounds size Hs) as [Hgb Hgs].
  unfold do_allocate in E. destruct (Z.eqb_spec size 0); [lia|].
  assert (Hm : forall P : Prop, P -> P) by auto.
  destruct (superpage_size_for_ok (goal_of size) Hgb) as [M1 M2].
  assert (Hsm : size <= 2 ^ superpage_size_for (goal_of size)).
  { etransitivity; [exact Hgs|]. apply Z.pow_le_mono_r; lia. }
  assert (H16 : 2 ^ 16 <= 2 ^ superpage_size_for (goal_of size)) by (apply Z.pow_le_mono_r; lia).
  assert (Hnone : no_fit st (goal_of size) -> ~ exists k i g, serves st size k i g).
  { intros Hno (k & i & g & Hsv). apply (serves_fits st w live) in Hsv; auto.
    destruct Hsv as [Hf Hle]. specialize (Hno _ _ _ Hf). lia. }
  destruct (allocate_spec st w live size align HI Hs) as
    [(a & s1 & k & p & g & E1 & Ha & Hf & Hle & Hmin & (sp & Hk & Hsp) & HI')
    |[(w1 & Hno & E1 & Hl & HI')
     |(a & s1 & w1 & base & Hno & E1 & Ha & Hl & HI')]];
    [rewrite E; exact Hok| | |]; rewrite E1 in E; injection E as <- <- <-.
  - assert (Hsv : serves st size k p g) by (apply (serves_fits st w live); auto).
    split.
    + intros _. split; auto. exists k, p, g, sp, a. split; auto. split.
      * intros k' i' g' Hsv'. apply (serves_fits st w live) in Hsv'; auto.
        destruct Hsv' as [Hf' Hle']. eauto.
      * split; auto. split; auto. rewrite Hsp.
        destruct Hf as (sp0 & Hk0 & _ & Hv & Hg). assert (sp0 = sp) by congruence. subst sp0.
        pose proof (good_page _ _ _ (inv_good _ _ _ _ _ HI Hk) Hv) as Hi.
        rewrite get_addr_eq by auto. rewrite get_size_eq in Hg by auto.
        unfold dp in *. rewrite <- Hg. reflexivity.
    + intros Hn. exfalso. apply Hn. eauto.
  - split; [intros Hex; exfalso; eapply Hnone; eauto|]. intros _.
    do 3 eexists. split; [exact Hl|]. repeat split; auto. discriminate.
  - split; [intros Hex; exfalso; eapply Hnone; eauto|]. intros _.
    do 3 eexists. split; [exact Hl|]. repeat split; auto; [discriminate|eauto].
Qed.

(** ** C08 *)
Lemma get_addr_align sp i : sp_good sp -> (i < 511)%nat -> (16 | sp_base sp) ->
  (16 | get_addr sp i).
Proof.
  intros [Hwf Hc] Hi Hb. rewrite get_addr_eq by auto.
  apply Z.divide_add_r; auto. apply Z.divide_mul_r.
  pose proof (dp_le i Hi). pose proof (wf_size _ Hwf).
  replace (sp_size sp - Z.of_nat (dp i)) with (4 + (sp_size sp - Z.of_nat (dp i) - 4)) by lia.
  rewrite Z.pow_add_r by lia. apply Z.divide_factor_l.
Qed.

Lemma buddy_align16 st w live b : buddy_reach st w live -> upstream_ok (ulog w) ->
  In b live -> (16 | bptr b).
Proof.
  intros HR Hok Hb. pose proof (reach_inv _ _ _ HR Hok) as HI.
  destruct (i_live _ _ _ HI b Hb) as (Sb & k & sp & i & N1 & O1 & A1 & G1).
  rewrite A1. pose proof (inv_good _ _ _ _ _ HI N1) as HG.
  apply get_addr_align; auto; [eapply good_page; eauto|].
  assert (In (sp_block sp) (ulive (ulog w))).
  { rewrite (i_up _ _ _ HI), <- in_rev. apply in_map. eapply nth_error_In; eauto. }
  pose proof (ulive_props _ _ Hok H) as (_ & _ & H3). exact H3.
Qed.
