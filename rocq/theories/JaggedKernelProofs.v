(** Proofs about JaggedKernel.v. *)
From Coq Require Import Permutation.
From Verif Require Import Base BaseLemmas Copy CopyProofs Kernel KernelProofs KernelSafe Views ViewsProofs JaggedKernel.

(** ** Threads of one row *)
Definition rclaimed (r : nat) (t : nat * kthr) : nat := if Nat.eqb (fst t) r then claimed (snd t) else 0.
Definition ncl (r : nat) (thr : list (nat * kthr)) : nat := fold_right (fun t n => rclaimed r t + n)%nat 0%nat thr.
Definition ncalls {A} (r : nat) (thr : list (nat * A)) : nat := length (filter (fun t => Nat.eqb (fst t) r) thr).

Lemma ncl_upd r thr : forall i t t', nth_error thr i = Some t -> (ncl r (upd thr i t') + rclaimed r t = ncl r thr + rclaimed r t')%nat.
Proof.
  induction thr as [|x thr IH]; intros [|i] t t'; cbn [nth_error]; try discriminate.
  - intros E. injection E as ->. cbn [upd ncl fold_right]. fold (ncl r thr). lia.
  - intros E. cbn [upd ncl fold_right]. fold (ncl r thr) (ncl r (upd thr i t')). specialize (IH i t t' E). lia.
Qed.
Lemma ncl_le r thr : (ncl r thr <= ncalls r thr)%nat.
Proof.
  induction thr as [|[r' t] thr IH]; [apply Nat.le_refl|]. unfold ncalls in *. cbn [ncl fold_right filter fst]. fold (ncl r thr). unfold rclaimed. cbn [fst snd].
  destruct (Nat.eqb r' r); cbn [length]; [|lia]. destruct t; cbn [claimed]; lia.
Qed.
Lemma ncalls_upd {A} r (thr : list (nat * A)) : forall i r' t t', nth_error thr i = Some (r', t) -> ncalls r (upd thr i (r', t')) = ncalls r thr.
Proof.
  unfold ncalls. induction thr as [|x thr IH]; intros [|i] r' t t'; cbn [nth_error]; try discriminate.
  - intros E. injection E as ->. cbn [upd filter fst]. destruct (Nat.eqb r' r); reflexivity.
  - intros E. cbn [upd filter]. specialize (IH i r' t t' E). destruct (Nat.eqb (fst x) r); cbn [length]; auto.
Qed.
Lemma ncl_lt r thr i bs : nth_error thr i = Some (r, KCall bs) -> (ncl r thr < ncalls r thr)%nat.
Proof.
  intros E. pose proof (ncl_upd r thr i _ (r, KDone 0 bs) E) as H. unfold rclaimed in H. cbn [fst snd claimed] in H. rewrite Nat.eqb_refl in H.
  pose proof (ncl_le r (upd thr i (r, KDone 0 bs))) as G. rewrite (ncalls_upd r thr i r (KCall bs)) in G by exact E. lia.
Qed.

Section Row.
  Variable sz : Z.
  Hypothesis Hsz : 0 < sz.
  Variable r : nat.
  Variable v : vview.
  Hypothesis Hv : v_sizep v <> 0.
  Hypothesis Hap : apart (v_sizep v) 4 (v_ptr v) (v_cap v * sz).
  Variable n0 : Z.
  Variable old : list Z.

  (** The memory of the row, and what calls may change. *)
  Definition region (x : Z) : Prop := within (v_sizep v) 4 x \/ within (v_ptr v) (v_cap v * sz) x.
  Definition free_region (k : nat) (x : Z) : Prop := within (v_sizep v) 4 x \/ within (v_ptr v + n0 * sz) (Z.of_nat k * sz) x.

  Record rowinv (m : cmem) (thr : list (nat * kthr)) : Prop := mkRI {
    ri_n0 : 0 <= n0;
    ri_size : view_size m v (n0 + Z.of_nat (ncl r thr));
    ri_idx : forall i t x, nth_error thr i = Some (r, t) -> k_idx t = Some x -> n0 <= x < n0 + Z.of_nat (ncl r thr);
    ri_diff : forall i j ti tj x, nth_error thr i = Some (r, ti) -> nth_error thr j = Some (r, tj) -> k_idx ti = Some x -> k_idx tj = Some x -> i = j;
    ri_bytes : forall i t x, nth_error thr i = Some (r, t) -> k_written t -> k_idx t = Some x ->
      get_bytes m (v_ptr v + x * sz) (Z.to_nat sz) = Some (k_val t);
    ri_old : get_bytes m (v_ptr v) (Z.to_nat (n0 * sz)) = Some old }.

  (** Steps of other rows. *)
  Lemma row_frame Q m m' thr i r' t t' : rowinv m thr -> changes Q m m' -> (forall x, region x -> Q x -> False) ->
    nth_error thr i = Some (r', t) -> r' <> r -> rowinv m' (upd thr i (r', t')).
  Proof.
    intros I C D E N. pose proof (ri_size _ _ I) as (S1 & S2 & S3). pose proof (ri_n0 _ _ I) as N0.
    assert (Lt : (i < length thr)%nat) by (apply nth_error_Some; congruence).
    assert (NC : ncl r (upd thr i (r', t')) = ncl r thr).
    { pose proof (ncl_upd r thr i _ (r', t') E) as G. unfold rclaimed in G. cbn [fst snd] in G. apply Nat.eqb_neq in N. rewrite N in G. lia. }
    assert (B : forall j u, nth_error (upd thr i (r', t')) j = Some (r, u) -> nth_error thr j = Some (r, u)).
    { intros j u H. destruct (Nat.eq_dec j i) as [->|Hij]; [|rewrite nth_error_upd_ne in H by auto; exact H].
      rewrite nth_error_upd_eq in H by exact Lt. injection H as H _. congruence. }
    constructor.
    - exact N0.
    - rewrite NC. split; [exact S1|]. split; [exact S2|]. replace (v_sizep v =? 0) with false in * by lia.
      rewrite (changes_get _ _ _ _ _ C); [exact S3|]. intros x Hx Qx. apply (D x); [left; exact Hx|exact Qx].
    - intros j u x H. rewrite NC. apply (ri_idx _ _ I j u x (B j u H)).
    - intros j k u w x H1 H2. apply (ri_diff _ _ I j k u w x (B j u H1) (B k w H2)).
    - intros j u x H W X. rewrite (changes_get _ _ _ _ _ C); [apply (ri_bytes _ _ I j u x (B j u H) W X)|].
      pose proof (ri_idx _ _ I j u x (B j u H) X). intros y Hy Qy. apply (D y); [right; unfold within in *; nia|exact Qy].
    - rewrite (changes_get _ _ _ _ _ C); [exact (ri_old _ _ I)|]. intros y Hy Qy. apply (D y); [right; unfold within in *; nia|exact Qy].
  Qed.

  (** Steps of the row itself. *)
  Lemma row_own m thr i t m' t' : rowinv m thr -> nth_error thr i = Some (r, t) -> Z.of_nat (length (k_val t)) = sz ->
    k_step sz v (m, [t]) 0 = Ret (m', [t']) ->
    rowinv m' (upd thr i (r, t')) /\ changes (free_region (ncl r thr)) m m' /\ same_acc m m' /\ k_val t' = k_val t.
  Proof.
    intros I E Lb. unfold k_step. cbn [nth_error]. pose proof (ri_size _ _ I) as (S1 & S2 & S3). pose proof (ri_n0 _ _ I) as N0.
    replace (v_sizep v =? 0) with false in S3 by lia.
    assert (Lt : (i < length thr)%nat) by (apply nth_error_Some; congruence).
    destruct t as [bs|idx bs|idx bs|idx bs]; cbn [upd].
    - unfold assert. replace (v_sizep v =? 0) with false by lia. cbn [negb]. rewrite S3, unle32_le32 by lia.
      set (c := n0 + Z.of_nat (ncl r thr)) in *. destruct (c <? v_cap v) eqn:Ec; [|discriminate]. intros H. injection H as <- <-.
      assert (Ea : add32 c 1 = c + 1) by (unfold add32; rewrite Z.mod_small; lia). rewrite Ea.
      assert (NC : ncl r (upd thr i (r, KWrite c bs)) = S (ncl r thr)).
      { pose proof (ncl_upd r thr i _ (r, KWrite c bs) E) as Q. unfold rclaimed in Q. cbn [fst snd claimed] in Q. rewrite Nat.eqb_refl in Q. lia. }
      assert (Ch : changes (within (v_sizep v) 4) m (put_bytes m (v_sizep v) (le32 (c + 1)))) by (apply (put_bytes_changes m (v_sizep v) (le32 (c + 1)))).
      assert (A4 : acc m (v_sizep v) 4) by (apply (get_bytes_acc 4); eauto).
      split; [|split; [|split; [|reflexivity]]].
      + constructor.
        * exact N0.
        * rewrite NC. split; [lia|]. split; [lia|]. replace (v_sizep v =? 0) with false by lia.
          replace (n0 + Z.of_nat (S (ncl r thr))) with (c + 1) by (unfold c; lia). exact (get_bytes_put m (v_sizep v) (le32 (c + 1))).
        * intros j t x Hj Hx. rewrite NC. destruct (Nat.eq_dec j i) as [->|Hij].
          -- rewrite nth_error_upd_eq in Hj by exact Lt. injection Hj as <-. injection Hx as <-. unfold c. lia.
          -- rewrite nth_error_upd_ne in Hj by auto. pose proof (ri_idx _ _ I j t x Hj Hx). lia.
        * intros j k tj tk x Hj Hk Hx Hy. destruct (Nat.eq_dec j i) as [->|Hij].
          -- rewrite nth_error_upd_eq in Hj by exact Lt. injection Hj as <-. injection Hx as <-. destruct (Nat.eq_dec k i) as [->|Hik]; [reflexivity|].
             rewrite nth_error_upd_ne in Hk by auto. pose proof (ri_idx _ _ I k tk c Hk Hy). unfold c in *. lia.
          -- rewrite nth_error_upd_ne in Hj by auto. destruct (Nat.eq_dec k i) as [->|Hik].
             ++ rewrite nth_error_upd_eq in Hk by exact Lt. injection Hk as <-. injection Hy as <-. pose proof (ri_idx _ _ I j tj c Hj Hx). unfold c in *. lia.
             ++ rewrite nth_error_upd_ne in Hk by auto. exact (ri_diff _ _ I j k tj tk x Hj Hk Hx Hy).
        * intros j t x Hj W Hx. destruct (Nat.eq_dec j i) as [->|Hij].
          -- rewrite nth_error_upd_eq in Hj by exact Lt. injection Hj as <-. destruct W.
          -- rewrite nth_error_upd_ne in Hj by auto. pose proof (ri_idx _ _ I j t x Hj Hx) as R.
             rewrite (changes_get _ _ _ _ _ Ch); [exact (ri_bytes _ _ I j t x Hj W Hx)|].
             intros y Hy Hy'. unfold within in Hy, Hy'. apply (Hap y). split; [lia|]. nia.
        * rewrite (changes_get _ _ _ _ _ Ch); [exact (ri_old _ _ I)|]. intros y Hy Hy'. unfold within in Hy, Hy'. apply (Hap y). split; [lia|]. nia.
      + eapply changes_weaken; [exact Ch|]. intros x Hx. left. exact Hx.
      + apply put_bytes_acc. exact A4.
    - unfold assert. destruct (idx <? v_cap v) eqn:Ei; [|discriminate].
      destruct (get_bytes m (v_ptr v + idx * sz) (Z.to_nat sz)) as [ob|] eqn:Eg; [|discriminate]. intros H. injection H as <- <-. cbn [k_val] in Lb.
      assert (NC : ncl r (upd thr i (r, KReturn idx bs)) = ncl r thr).
      { pose proof (ncl_upd r thr i _ (r, KReturn idx bs) E) as Q. unfold rclaimed in Q. cbn [fst snd claimed] in Q. lia. }
      pose proof (ri_idx _ _ I i _ idx E eq_refl) as R.
      assert (Ch : changes (within (v_ptr v + idx * sz) sz) m (put_bytes m (v_ptr v + idx * sz) bs)) by (pose proof (put_bytes_changes m (v_ptr v + idx * sz) bs) as Q; rewrite Lb in Q; exact Q).
      assert (Other : forall j t x, j <> i -> nth_error thr j = Some (r, t) -> k_idx t = Some x -> x <> idx).
      { intros j t x Hj Et Ex ->. exact (Hj (ri_diff _ _ I j i t (KWrite idx bs) idx Et E Ex eq_refl)). }
      split; [|split; [|split; [|reflexivity]]].
      + constructor.
        * exact N0.
        * rewrite NC. split; [exact S1|]. split; [lia|]. replace (v_sizep v =? 0) with false by lia.
          rewrite (changes_get _ _ _ _ _ Ch); [exact S3|]. intros y Hy Hy'. unfold within in Hy, Hy'. apply (Hap y). split; [exact Hy|]. nia.
        * intros j t x Hj Hx. rewrite NC. destruct (Nat.eq_dec j i) as [->|Hij].
          -- rewrite nth_error_upd_eq in Hj by exact Lt. injection Hj as <-. injection Hx as <-. exact R.
          -- rewrite nth_error_upd_ne in Hj by auto. exact (ri_idx _ _ I j t x Hj Hx).
        * intros j k tj tk x Hj Hk Hx Hy. destruct (Nat.eq_dec j i) as [->|Hij].
          -- rewrite nth_error_upd_eq in Hj by exact Lt. injection Hj as <-. injection Hx as <-. destruct (Nat.eq_dec k i) as [->|Hik]; [reflexivity|].
             rewrite nth_error_upd_ne in Hk by auto. destruct (Other k tk idx Hik Hk Hy eq_refl).
          -- rewrite nth_error_upd_ne in Hj by auto. destruct (Nat.eq_dec k i) as [->|Hik].
             ++ rewrite nth_error_upd_eq in Hk by exact Lt. injection Hk as <-. injection Hy as <-. destruct (Other j tj idx Hij Hj Hx eq_refl).
             ++ rewrite nth_error_upd_ne in Hk by auto. exact (ri_diff _ _ I j k tj tk x Hj Hk Hx Hy).
        * intros j t x Hj W Hx. destruct (Nat.eq_dec j i) as [->|Hij].
          -- rewrite nth_error_upd_eq in Hj by exact Lt. injection Hj as <-. injection Hx as <-. cbn [k_val].
             replace (Z.to_nat sz) with (length bs) by lia. apply get_bytes_put.
          -- rewrite nth_error_upd_ne in Hj by auto. pose proof (Other j t x Hij Hj Hx) as D.
             rewrite (changes_get _ _ _ _ _ Ch); [exact (ri_bytes _ _ I j t x Hj W Hx)|].
             intros y Hy Hy'. unfold within in Hy, Hy'. apply D. nia.
        * rewrite (changes_get _ _ _ _ _ Ch); [exact (ri_old _ _ I)|]. intros y Hy Hy'. unfold within in Hy, Hy'. nia.
      + eapply changes_weaken; [exact Ch|]. intros x Hx. right. unfold within in *. nia.
      + apply put_bytes_acc. rewrite Lb.
        assert (Q : acc m (v_ptr v + idx * sz) (Z.of_nat (Z.to_nat sz))) by (apply get_bytes_acc; eauto).
        replace (Z.of_nat (Z.to_nat sz)) with sz in Q by lia. exact Q.
    - intros H. injection H as <- <-.
      assert (NC : ncl r (upd thr i (r, KDone idx bs)) = ncl r thr).
      { pose proof (ncl_upd r thr i _ (r, KDone idx bs) E) as Q. unfold rclaimed in Q. cbn [fst snd claimed] in Q. lia. }
      assert (Back : forall j t, nth_error (upd thr i (r, KDone idx bs)) j = Some (r, t) -> exists t', nth_error thr j = Some (r, t') /\ k_idx t' = k_idx t /\ (k_written t -> k_written t') /\ k_val t' = k_val t).
      { intros j t Hj. destruct (Nat.eq_dec j i) as [->|Hij].
        - rewrite nth_error_upd_eq in Hj by exact Lt. injection Hj as <-. exists (KReturn idx bs). auto.
        - rewrite nth_error_upd_ne in Hj by auto. exists t. auto. }
      split; [|split; [apply changes_refl|split; [apply same_acc_refl|reflexivity]]]. constructor.
      + exact N0.
      + rewrite NC. exact (ri_size _ _ I).
      + intros j t x Hj Hx. rewrite NC. destruct (Back j t Hj) as (t' & T1 & T2 & _). apply (ri_idx _ _ I j t' x T1). congruence.
      + intros j k tj tk x Hj Hk Hx Hy. destruct (Back j tj Hj) as (t' & T1 & T2 & _). destruct (Back k tk Hk) as (t2 & U1 & U2 & _).
        apply (ri_diff _ _ I j k t' t2 x T1 U1); congruence.
      + intros j t x Hj W Hx. destruct (Back j t Hj) as (t' & T1 & T2 & T3 & T4). rewrite <- T4. apply (ri_bytes _ _ I j t' x T1 (T3 W)). congruence.
      + exact (ri_old _ _ I).
    - intros H. injection H as <- <-. rewrite upd_nth_same by exact E.
      split; [exact I|]. split; [apply changes_refl|]. split; [apply same_acc_refl|reflexivity].
  Qed.

  (** No assertion fails while there is room. *)
  Lemma row_progress m thr i t : rowinv m thr -> nth_error thr i = Some (r, t) -> acc m (v_ptr v) (v_cap v * sz) ->
    (exists m' t', k_step sz v (m, [t]) 0 = Ret (m', [t'])) \/
    (k_step sz v (m, [t]) 0 = UB /\ (exists bs, t = KCall bs) /\ n0 + Z.of_nat (ncl r thr) = v_cap v).
  Proof.
    intros I E A. pose proof (ri_size _ _ I) as (S1 & S2 & S3). replace (v_sizep v =? 0) with false in S3 by lia.
    unfold k_step. cbn [nth_error]. destruct t as [bs|idx bs|idx bs|idx bs]; cbn [upd]; try (left; eauto; fail).
    - unfold assert. replace (v_sizep v =? 0) with false by lia. cbn [negb]. rewrite S3, unle32_le32 by lia.
      destruct (n0 + Z.of_nat (ncl r thr) <? v_cap v) eqn:Ec; [left; eauto|]. right. split; [reflexivity|]. split; [eauto|lia].
    - left. pose proof (ri_idx _ _ I i _ idx E eq_refl) as R. pose proof (ri_n0 _ _ I). unfold assert. replace (idx <? v_cap v) with true by lia.
      destruct (acc_get m (v_ptr v + idx * sz) sz ltac:(lia)) as (bs' & ->); [|eauto].
      eapply acc_sub; [exact A|nia|nia].
  Qed.

  (** All calls of the row have returned. *)
  Definition pairs (thr : list (nat * kthr)) : list (Z * list Z) :=
    flat_map (fun t => if Nat.eqb (fst t) r then match k_idx (snd t) with Some x => [(x, k_val (snd t))] | None => [] end else []) thr.
  Lemma in_pairs thr x bs : In (x, bs) (pairs thr) -> exists i t, nth_error thr i = Some (r, t) /\ k_idx t = Some x /\ k_val t = bs.
  Proof.
    unfold pairs. rewrite in_flat_map. intros ([r' t] & Hin & H). cbn [fst snd] in H. apply In_nth_error in Hin. destruct Hin as (i & Hi).
    destruct (Nat.eqb r' r) eqn:Er; [|destruct H]. apply Nat.eqb_eq in Er. subst r'. destruct (k_idx t) as [y|] eqn:Ek; [|destruct H].
    destruct H as [H|[]]. injection H as <- <-. eauto.
  Qed.
  Lemma pairs_nodup thr : (forall i j ti tj x, nth_error thr i = Some (r, ti) -> nth_error thr j = Some (r, tj) -> k_idx ti = Some x -> k_idx tj = Some x -> i = j) ->
    NoDup (map fst (pairs thr)).
  Proof.
    induction thr as [|[r' t] thr IH]; intros H; [constructor|]. unfold pairs in *. cbn [flat_map fst snd].
    assert (Ht : NoDup (map fst (pairs thr))).
    { apply IH. intros i j ti tj x H1 H2 H3 H4. assert (E := H (S i) (S j) ti tj x H1 H2 H3 H4). lia. }
    destruct (Nat.eqb r' r) eqn:Er; [|exact Ht]. apply Nat.eqb_eq in Er. subst r'. destruct (k_idx t) as [y|] eqn:Ek; [|exact Ht].
    cbn [app map fst]. constructor; [|exact Ht]. intros C. apply in_map_iff in C. destruct C as ([x bs] & Ex & Hin). cbn [fst] in Ex. subst x.
    apply in_pairs in Hin. destruct Hin as (j & tj & Hj & Hk & _). assert (E := H 0%nat (S j) t tj y eq_refl Hj Ek Hk). lia.
  Qed.
  Lemma pairs_len thr : length (pairs thr) = ncl r thr.
  Proof.
    induction thr as [|[r' t] thr IH]; [reflexivity|]. unfold pairs in *. cbn [flat_map ncl fold_right fst snd]. fold (ncl r thr). rewrite app_length, IH.
    unfold rclaimed. cbn [fst snd]. destruct (Nat.eqb r' r); [|reflexivity]. destruct t; reflexivity.
  Qed.
  Lemma pairs_vals thr : Forall (fun t => k_done (snd t)) thr -> map snd (pairs thr) = map (fun t => k_val (snd t)) (filter (fun t => Nat.eqb (fst t) r) thr).
  Proof.
    induction thr as [|[r' t] thr IH]; intros F; [reflexivity|]. pose proof (Forall_inv F) as F1. cbn in F1. apply Forall_inv_tail in F.
    unfold pairs in *. cbn [flat_map filter fst snd]. destruct (Nat.eqb r' r); [|exact (IH F)].
    destruct t; try destruct F1. cbn [k_idx app map snd k_val]. f_equal. exact (IH F).
  Qed.
  Lemma ncl_done thr : Forall (fun t => k_done (snd t)) thr -> ncl r thr = ncalls r thr.
  Proof.
    induction thr as [|[r' t] thr IH]; intros F; [reflexivity|]. pose proof (Forall_inv F) as F1. cbn in F1. apply Forall_inv_tail in F.
    unfold ncalls in *. cbn [ncl fold_right filter fst]. fold (ncl r thr). rewrite (IH F). unfold rclaimed. cbn [fst snd].
    destruct (Nat.eqb r' r); [|reflexivity]. destruct t; try destruct F1. reflexivity.
  Qed.

  Lemma row_end m thr olds : rowinv m thr -> n0 = Z.of_nat (length olds) -> old = concat olds -> Forall (fun b => Z.of_nat (length b) = sz) olds ->
    Forall (fun t => k_done (snd t)) thr ->
    view_size m v (n0 + Z.of_nat (ncalls r thr)) /\
    exists new, Permutation new (map (fun t => k_val (snd t)) (filter (fun t => Nat.eqb (fst t) r) thr)) /\
      get_bytes m (v_ptr v) (Z.to_nat ((n0 + Z.of_nat (ncalls r thr)) * sz)) = Some (concat (olds ++ new)).
  Proof.
    intros I En Eo Fo Fd. pose proof (ri_size _ _ I) as Sz. rewrite (ncl_done thr Fd) in Sz. split; [exact Sz|].
    set (k := ncalls r thr) in *.
    assert (P : Permutation (map fst (pairs thr)) (map (fun p => n0 + Z.of_nat p) (seq 0 k))).
    { apply NoDup_Permutation_bis; [apply pairs_nodup; exact (ri_diff _ _ I)|rewrite !map_length, seq_length, pairs_len, (ncl_done thr Fd); unfold k; lia|].
      intros x Hx. apply in_map_iff in Hx. destruct Hx as ([y bs] & Ey & Hin). cbn [fst] in Ey. subst y.
      apply in_pairs in Hin. destruct Hin as (i & t & Hi & Hk & _). pose proof (ri_idx _ _ I i t x Hi Hk) as R. rewrite (ncl_done thr Fd) in R. fold k in R.
      apply in_map_iff. exists (Z.to_nat (x - n0)). split; [lia|]. apply in_seq. lia. }
    apply Permutation_sym in P. apply Permutation_map_inv in P. destruct P as (L3 & E3 & P3).
    exists (map snd L3). split.
    { rewrite <- (pairs_vals thr Fd). apply Permutation_map. apply Permutation_sym. exact P3. }
    assert (Len : length L3 = k). { rewrite <- (map_length fst L3), <- E3, map_length, seq_length. reflexivity. }
    replace (n0 + Z.of_nat k) with (Z.of_nat (length (olds ++ map snd L3))) by (rewrite app_length, map_length, Len; lia).
    apply get_bytes_elements; [exact Hsz|]. intros p bs Hp.
    destruct (Nat.lt_ge_cases p (length olds)) as [Hl|Hl].
    - rewrite nth_error_app1 in Hp by exact Hl. pose proof (ri_old _ _ I) as O. rewrite Eo, En in O. exact (elements_get_bytes sz m Hsz olds (v_ptr v) Fo O p bs Hp).
    - rewrite nth_error_app2 in Hp by exact Hl. rewrite nth_error_map in Hp. destruct (nth_error L3 (p - length olds)) as [[x b]|] eqn:E; [|discriminate].
      cbn in Hp. injection Hp as ->.
      assert (Ex : x = n0 + Z.of_nat (p - length olds)).
      { assert (Q : nth_error (map fst L3) (p - length olds) = Some x) by (rewrite nth_error_map, E; reflexivity). rewrite <- E3 in Q.
        assert (Lk : (p - length olds < k)%nat) by (rewrite <- Len; apply nth_error_Some; congruence).
        rewrite nth_error_map in Q. rewrite (nth_error_nth' _ 0%nat) in Q by (rewrite seq_length; exact Lk). rewrite seq_nth in Q by exact Lk.
        cbn [option_map] in Q. injection Q as <-. lia. }
      assert (Hin : In (x, bs) (pairs thr)). { eapply Permutation_in; [apply Permutation_sym; exact P3|]. eapply nth_error_In; exact E. }
      apply in_pairs in Hin. destruct Hin as (i & t & Hi & Hk & Hb). replace (Z.of_nat p) with x by lia. rewrite <- Hb.
      apply (ri_bytes _ _ I i t x Hi); [|exact Hk]. rewrite Forall_forall in Fd. specialize (Fd (r, t) ltac:(eapply nth_error_In; eauto)). cbn in Fd.
      destruct t; try destruct Fd. exact Logic.I.
  Qed.
End Row.

(** ** The whole run *)
Definition jabs (t : jthr) : nat * kthr := match t with JAt r bs => (r, KCall bs) | JIn r _ t => (r, t) end.
(** The call has returned. *)
Definition j_done (t : jthr) : Prop := match t with JIn _ _ (KDone _ _) => True | _ => False end.
(** The values that are appended to row [r]. *)
Definition row_vals (r : nat) (vals : list (nat * list Z)) : list (list Z) := map snd (filter (fun c => Nat.eqb (fst c) r) vals).

Definition jrem (t : jthr) : nat := match t with JAt _ _ => 4 | JIn _ _ (KCall _) => 3 | JIn _ _ (KWrite _ _) => 2 | JIn _ _ (KReturn _ _) => 1 | JIn _ _ (KDone _ _) => 0 end.

Lemma map_upd {A B} (f : A -> B) l : forall i x, map f (upd l i x) = upd (map f l) i (f x).
Proof. induction l as [|y l IH]; intros [|i] x; cbn [upd map]; [reflexivity..|]. rewrite IH. reflexivity. Qed.

Lemma ncalls_map {A B} (f : A -> B) r (l : list (nat * A)) : ncalls r (map (fun t => (fst t, f (snd t))) l) = ncalls r l.
Proof. unfold ncalls. induction l as [|[q t] l IH]; [reflexivity|]. cbn [map filter fst]. destruct (Nat.eqb q r); cbn [length]; auto. Qed.

Lemma k_step1 sz v m t m' l : k_step sz v (m, [t]) 0 = Ret (m', l) -> exists t', l = [t'].
Proof.
  unfold k_step. cbn [nth_error]. destruct t; cbn [upd]; unfold assert.
  - destruct (negb (v_sizep v =? 0)); [|discriminate]. destruct (get_bytes m (v_sizep v) 4); [|discriminate].
    destruct (unle32 l0 <? v_cap v); [|discriminate]. intros H. injection H as _ <-. eauto.
  - destruct (idx <? v_cap v); [|discriminate]. destruct (get_bytes m (v_ptr v + idx * sz) (Z.to_nat sz)); [|discriminate]. intros H. injection H as _ <-. eauto.
  - intros H. injection H as _ <-. eauto.
  - intros H. injection H as _ <-. eauto.
Qed.
Lemma k_step_rem sz v m t m' t' r : k_step sz v (m, [t]) 0 = Ret (m', [t']) -> (jrem (JIn r v t') = pred (jrem (JIn r v t)))%nat.
Proof.
  unfold k_step. cbn [nth_error]. destruct t; cbn [upd]; unfold assert.
  - destruct (negb (v_sizep v =? 0)); [|discriminate]. destruct (get_bytes m (v_sizep v) 4); [|discriminate].
    destruct (unle32 l <? v_cap v); [|discriminate]. intros H. injection H as _ <-. reflexivity.
  - destruct (idx <? v_cap v); [|discriminate]. destruct (get_bytes m (v_ptr v + idx * sz) (Z.to_nat sz)); [|discriminate]. intros H. injection H as _ <-. reflexivity.
  - intros H. injection H as _ <-. reflexivity.
  - intros H. injection H as _ <-. reflexivity.
Qed.

Lemma jk_step_rem sz jv m thr i m' thr' : jk_step sz jv (m, thr) i = Ret (m', thr') ->
  length thr' = length thr /\ forall j t', nth_error thr' j = Some t' -> exists t, nth_error thr j = Some t /\ jrem t' = (if Nat.eq_dec i j then pred (jrem t) else jrem t).
Proof.
  unfold jk_step. destruct (nth_error thr i) as [x|] eqn:E.
  2: { intros H. injection H as <- <-. split; [reflexivity|]. intros j t' Hj. exists t'. split; [exact Hj|]. destruct (Nat.eq_dec i j) as [->|]; [congruence|reflexivity]. }
  assert (Lt : (i < length thr)%nat) by (apply nth_error_Some; congruence).
  assert (G : forall y, jrem y = pred (jrem x) -> Ret (m', upd thr i y) = Ret (m', thr') -> length thr' = length thr /\
     forall j t', nth_error thr' j = Some t' -> exists t, nth_error thr j = Some t /\ jrem t' = (if Nat.eq_dec i j then pred (jrem t) else jrem t)).
  { intros y Hy H. injection H as <-. split; [apply upd_length|]. intros j t' Hj. destruct (Nat.eq_dec i j) as [<-|N].
    - rewrite nth_error_upd_eq in Hj by exact Lt. injection Hj as <-. eauto.
    - rewrite nth_error_upd_ne in Hj by auto. eauto. }
  destruct x as [r bs|r v t].
  - destruct (jdv_at jv (Z.of_nat r) m) as [v| |]; cbn [bind]; try discriminate. intros H. apply (G (JIn r v (KCall bs))); [reflexivity|]. injection H as <- <-. reflexivity.
  - destruct (k_step sz v (m, [t]) 0) as [[m1 l]| |] eqn:Ek; cbn [bind]; try discriminate. destruct (k_step1 _ _ _ _ _ _ Ek) as (t' & ->).
    intros H. apply (G (JIn r v t')); [exact (k_step_rem _ _ _ _ _ _ r Ek)|]. injection H as <- <-. reflexivity.
Qed.
Lemma jk_run_rem sz jv sched : forall m thr m' thr', jk_run sz jv (m, thr) sched = Ret (m', thr') ->
  length thr' = length thr /\ forall j t', nth_error thr' j = Some t' -> exists t, nth_error thr j = Some t /\ (jrem t' = jrem t - count_occ Nat.eq_dec sched j)%nat.
Proof.
  induction sched as [|i sched IH]; intros m thr m' thr'; cbn [jk_run].
  - intros H. injection H as <- <-. split; [reflexivity|]. intros j t' Hj. exists t'. split; [exact Hj|]. cbn [count_occ]. lia.
  - destruct (jk_step sz jv (m, thr) i) as [[m1 thr1]| |] eqn:E; cbn [bind]; try discriminate. intros H.
    destruct (IH _ _ _ _ H) as (L1 & R1). destruct (jk_step_rem _ _ _ _ _ _ _ E) as (L2 & R2). split; [congruence|].
    intros j t' Hj. destruct (R1 j t' Hj) as (t1 & H1 & Q1). destruct (R2 j t1 H1) as (t & H2 & Q2). exists t. split; [exact H2|].
    cbn [count_occ]. destruct (Nat.eq_dec i j); lia.
Qed.

Section Jagged.
  Variable sz : Z.
  Hypothesis Hsz : 0 < sz.
  Variable jv : jview.
  Variable views : list vview.
  Variable olds : list (list (list Z)).
  Variable vals : list (nat * list Z).
  Variable m0 : cmem.

  Definition jrow (r : nat) (v : vview) (old : list (list Z)) : Prop := nth_error views r = Some v /\ nth_error olds r = Some old.
  Hypothesis Hlen : length olds = length views.
  Hypothesis Hjs : j_size jv = Z.of_nat (length views).
  Hypothesis Hdesc : get_bytes m0 (j_ptr jv) (24 * length views) = Some (flat_map view_bytes_of views).
  Hypothesis Hvals : forall r bs, In (r, bs) vals -> (r < length views)%nat /\ Z.of_nat (length bs) = sz.
  Hypothesis Hrow : forall r v old, jrow r v old -> v_sizep v <> 0 /\ 0 <= v_sizep v < 2 ^ 64 /\ 0 <= v_ptr v < 2 ^ 64 /\
    view_size m0 v (Z.of_nat (length old)) /\ apart (v_sizep v) 4 (v_ptr v) (v_cap v * sz) /\ acc m0 (v_ptr v) (v_cap v * sz) /\
    Forall (fun b => Z.of_nat (length b) = sz) old /\ get_bytes m0 (v_ptr v) (Z.to_nat (Z.of_nat (length old) * sz)) = Some (concat old).
  Hypothesis Hdapart : forall v x, In v views -> region sz v x -> within (j_ptr jv) (24 * Z.of_nat (length views)) x -> False.
  Hypothesis Hrapart : forall r1 r2 v1 v2 x, r1 <> r2 -> nth_error views r1 = Some v1 -> nth_error views r2 = Some v2 -> region sz v1 x -> region sz v2 x -> False.

  (** The slots that may be used. *)
  Let slots (r : nat) (v : vview) (old : list (list Z)) : nat := Nat.min (length (row_vals r vals)) (Z.to_nat (v_cap v) - length old).
  Let P (x : Z) : Prop := exists r v old, jrow r v old /\ free_region sz v (Z.of_nat (length old)) (slots r v old) x.

  Record jinv (m : cmem) (thr : list jthr) : Prop := mkJI {
    ji_vals : map (fun t => (fst (jabs t), k_val (snd (jabs t)))) thr = vals;
    ji_view : forall i r v t, nth_error thr i = Some (JIn r v t) -> nth_error views r = Some v;
    ji_row : forall r v old, jrow r v old -> rowinv sz r v (Z.of_nat (length old)) (concat old) m (map jabs thr);
    ji_changes : changes P m0 m;
    ji_acc : same_acc m0 m }.

  Lemma jinv_ncalls m thr r : jinv m thr -> ncalls r (map jabs thr) = length (row_vals r vals).
  Proof.
    intros I. unfold row_vals. rewrite map_length, <- (ji_vals _ _ I). clear. unfold ncalls. induction thr as [|t thr IH]; [reflexivity|].
    cbn [map filter fst]. destruct (Nat.eqb (fst (jabs t)) r); cbn [length]; auto.
  Qed.
  Lemma jinv_row_of m thr i t : jinv m thr -> nth_error thr i = Some t -> exists v old, jrow (fst (jabs t)) v old /\ Z.of_nat (length (k_val (snd (jabs t)))) = sz.
  Proof.
    intros I E. assert (Hin : In (fst (jabs t), k_val (snd (jabs t))) vals).
    { rewrite <- (ji_vals _ _ I). apply in_map_iff. exists t. split; [reflexivity|]. eapply nth_error_In; eauto. }
    apply Hvals in Hin. destruct Hin as (Hr & Hl). destruct (nth_error views (fst (jabs t))) as [v|] eqn:Ev; [|apply nth_error_None in Ev; lia].
    destruct (nth_error olds (fst (jabs t))) as [old|] eqn:Eo; [|apply nth_error_None in Eo; lia]. exists v, old. split; [split; assumption|exact Hl].
  Qed.
  Lemma P_region x : P x -> exists r v, nth_error views r = Some v /\ region sz v x.
  Proof.
    intros (r & v & old & (Ev & Eo) & H). exists r, v. split; [exact Ev|].
    destruct (Hrow r v old (conj Ev Eo)) as (_ & _ & _ & (Room & _) & _). destruct H as [H|H]; [left; exact H|right].
    assert (Z.of_nat (length old) + Z.of_nat (slots r v old) <= v_cap v) by (unfold slots; lia). unfold within in *. nia.
  Qed.

  Lemma jinv_step m thr i : jinv m thr -> (exists m' thr', jk_step sz jv (m, thr) i = Ret (m', thr') /\ jinv m' thr') \/
    (jk_step sz jv (m, thr) i = UB /\ exists r v old bs, nth_error thr i = Some (JIn r v (KCall bs)) /\ jrow r v old /\
       Z.of_nat (length old) + Z.of_nat (ncl r (map jabs thr)) = v_cap v).
  Proof.
    intros I. unfold jk_step. destruct (nth_error thr i) as [x|] eqn:E; [|left; eauto].
    assert (Lt : (i < length thr)%nat) by (apply nth_error_Some; congruence).
    destruct (jinv_row_of m thr i x I E) as (v & old & J & Hl). pose proof (Hrow _ _ _ J) as (V1 & V2 & V3 & V4 & V5 & V6 & V7 & V8).
    destruct x as [r bs|r v1 t]; cbn [jabs fst snd k_val] in *.
    - destruct J as (Jv & Jo). assert (Er : Z.of_nat r < Z.of_nat (length views)) by (assert (r < length views)%nat by (apply nth_error_Some; congruence); lia).
      unfold jdv_at, assert. rewrite Hjs. replace (Z.of_nat r <? Z.of_nat (length views)) with true by lia.
      assert (D : get_bytes m (j_ptr jv) (24 * length views) = Some (flat_map view_bytes_of views)).
      { rewrite (changes_get _ _ _ _ _ (ji_changes _ _ I)); [exact Hdesc|]. intros y Hy HP. destruct (P_region y HP) as (r' & v' & Ev' & Hy').
        apply (Hdapart v' y); [eapply nth_error_In; exact Ev'|exact Hy'|]. unfold within in *. lia. }
      rewrite flat_map_concat_map in D.
      assert (D' : get_bytes m (j_ptr jv + Z.of_nat r * 24) (Z.to_nat 24) = Some (view_bytes_of v)).
      { apply (elements_get_bytes 24 m ltac:(lia) (map view_bytes_of views)).
        - apply Forall_forall. intros b Hb. apply in_map_iff in Hb. destruct Hb as (u & <- & _). reflexivity.
        - rewrite map_length. replace (Z.to_nat (Z.of_nat (length views) * 24)) with (24 * length views)%nat by lia. exact D.
        - rewrite nth_error_map, Jv. reflexivity. }
      change (Z.to_nat 24) with 24%nat in D'. rewrite D'. cbn [bind]. rewrite view_of_view_bytes; [|destruct V4 as (S1 & S2 & _); lia|exact V2|exact V3].
      left. exists m, (upd thr i (JIn r v (KCall bs))). split; [reflexivity|].
      assert (Ab : map jabs (upd thr i (JIn r v (KCall bs))) = map jabs thr).
      { rewrite map_upd. cbn [jabs]. apply upd_nth_same. rewrite nth_error_map, E. reflexivity. }
      constructor; [|..|exact (ji_changes _ _ I)|exact (ji_acc _ _ I)].
      + rewrite <- (ji_vals _ _ I). rewrite <- (map_map jabs (fun t => (fst t, k_val (snd t)))), Ab, map_map. reflexivity.
      + intros j r' v' t' Hj. destruct (Nat.eq_dec j i) as [->|N].
        * rewrite nth_error_upd_eq in Hj by exact Lt. injection Hj as <- <- <-. exact Jv.
        * rewrite nth_error_upd_ne in Hj by auto. exact (ji_view _ _ I j r' v' t' Hj).
      + intros r' v' old' J'. rewrite Ab. exact (ji_row _ _ I r' v' old' J').
    - pose proof J as (Jv & Jo). assert (v1 = v) as -> by (pose proof (ji_view _ _ I i r v1 t E); congruence).
      assert (Ea : nth_error (map jabs thr) i = Some (r, t)) by (rewrite nth_error_map, E; reflexivity).
      pose proof (ji_row _ _ I r v old J) as RI.
      assert (A : acc m (v_ptr v) (v_cap v * sz)) by (eapply acc_same; [exact (ji_acc _ _ I)|exact V6]).
      destruct (row_progress sz Hsz r v V1 (Z.of_nat (length old)) (concat old) m (map jabs thr) i t RI Ea A) as [(m' & t' & Ek)|(Ek & (bs & ->) & Fu)].
      2:{ right. rewrite Ek. split; [reflexivity|]. exists r, v, old, bs. auto. }
      left.
      rewrite Ek. cbn [bind]. destruct (row_own sz Hsz r v V1 V5 _ _ m (map jabs thr) i t m' t' RI Ea Hl Ek) as (RI' & Ch & Sa & Kv).
      exists m', (upd thr i (JIn r v t')). split; [reflexivity|].
      assert (Ab : map jabs (upd thr i (JIn r v t')) = upd (map jabs thr) i (r, t')) by (rewrite map_upd; reflexivity).
      assert (Sl : (ncl r (map jabs thr) <= slots r v old)%nat).
      { pose proof (ncl_le r (map jabs thr)) as Q. rewrite (jinv_ncalls m thr r I) in Q. destruct (ri_size _ _ _ _ _ _ _ RI') as (Q2 & _). pose proof (ri_size _ _ _ _ _ _ _ RI) as (Q3 & _). unfold slots. lia. }
      assert (Sl2 : Z.of_nat (length old) + Z.of_nat (slots r v old) <= v_cap v) by (destruct V4 as (Q & _); unfold slots; lia).
      assert (Ch' : changes (free_region sz v (Z.of_nat (length old)) (slots r v old)) m m').
      { eapply changes_weaken; [exact Ch|]. intros y [Hy|Hy]; [left; exact Hy|right]. unfold within in *. nia. }
      constructor.
      + rewrite <- (map_map jabs (fun t => (fst t, k_val (snd t)))), Ab, map_upd. cbn [fst snd]. rewrite Kv.
        rewrite upd_nth_same; [rewrite map_map; exact (ji_vals _ _ I)|]. rewrite nth_error_map, Ea. reflexivity.
      + intros j r' v' u Hj. destruct (Nat.eq_dec j i) as [->|N].
        * rewrite nth_error_upd_eq in Hj by exact Lt. injection Hj as <- <- <-. exact Jv.
        * rewrite nth_error_upd_ne in Hj by auto. exact (ji_view _ _ I j r' v' u Hj).
      + intros r' v' old' J'. rewrite Ab. destruct (Nat.eq_dec r r') as [<-|N].
        * destruct J' as (J1 & J2). assert (v' = v) as -> by congruence. assert (old' = old) as -> by congruence. exact RI'.
        * eapply (row_frame sz Hsz r' v'); [|exact (ji_row _ _ I r' v' old' J')|exact Ch'| |exact Ea|exact N].
          -- destruct (Hrow _ _ _ J') as (Q & _). exact Q.
          -- intros y Hy Hy'. apply (Hrapart r' r v' v y (not_eq_sym N) (proj1 J') Jv Hy). destruct Hy' as [Hy'|Hy']; [left; exact Hy'|right; unfold within in *; nia].
      + eapply changes_weaken; [eapply changes_trans; [exact (ji_changes _ _ I)|exact Ch']|]. intros y [Hy|Hy]; [exact Hy|]. exists r, v, old. split; [exact J|exact Hy].
      + eapply same_acc_trans; [exact (ji_acc _ _ I)|exact Sa].
  Qed.

  Lemma jinv_run sched : forall m thr, jinv m thr -> (exists m' thr', jk_run sz jv (m, thr) sched = Ret (m', thr') /\ jinv m' thr') \/
    (jk_run sz jv (m, thr) sched = UB /\ exists before i after m' thr' r v old bs, sched = before ++ i :: after /\
       jk_run sz jv (m, thr) before = Ret (m', thr') /\ jinv m' thr' /\ nth_error thr' i = Some (JIn r v (KCall bs)) /\ jrow r v old /\
       Z.of_nat (length old) + Z.of_nat (ncl r (map jabs thr')) = v_cap v).
  Proof.
    induction sched as [|i sched IH]; intros m thr I; cbn [jk_run]; [left; eauto|].
    destruct (jinv_step m thr i I) as [(m1 & thr1 & E & I1)|(E & r & v & old & bs & H)]; rewrite E; cbn [bind].
    - destruct (IH m1 thr1 I1) as [H|(E2 & before & j & after & m' & thr' & r & v & old & bs & -> & E3 & H)]; [left; exact H|]. right. split; [exact E2|].
      exists (i :: before), j, after, m', thr', r, v, old, bs. split; [reflexivity|]. split; [|exact H]. cbn [jk_run]. rewrite E. cbn [bind]. exact E3.
    - right. split; [reflexivity|]. exists [], i, sched, m, thr, r, v, old, bs. auto.
  Qed.

  Lemma jinv_init : jinv m0 (map (fun c => JAt (fst c) (snd c)) vals).
  Proof.
    assert (K : forall i r t, nth_error (map jabs (map (fun c => JAt (fst c) (snd c)) vals)) i = Some (r, t) -> exists bs, t = KCall bs).
    { intros i r t H. rewrite map_map, nth_error_map in H. destruct (nth_error vals i) as [[q bs]|]; [|discriminate]. cbn in H. injection H as _ <-. eauto. }
    constructor.
    - rewrite map_map. cbn [jabs fst snd k_val]. rewrite <- (map_id vals) at 2. apply map_ext. intros [? ?]; reflexivity.
    - intros i r v t H. rewrite nth_error_map in H. destruct (nth_error vals i); discriminate.
    - intros r v old J. destruct (Hrow _ _ _ J) as (V1 & V2 & V3 & V4 & V5 & V6 & V7 & V8).
      assert (NC : ncl r (map jabs (map (fun c => JAt (fst c) (snd c)) vals)) = 0%nat).
      { clear. induction vals as [|[q bs] l IH]; [reflexivity|]. cbn [map jabs ncl fold_right fst snd]. fold (ncl r (map jabs (map (fun c => JAt (fst c) (snd c)) l))). rewrite IH.
        unfold rclaimed. cbn [fst snd claimed]. destruct (Nat.eqb q r); reflexivity. }
      constructor.
      + lia.
      + rewrite NC, Z.add_0_r. exact V4.
      + intros i t x H Hx. destruct (K i r t H) as (bs & ->). discriminate.
      + intros i j ti tj x H _ Hx. destruct (K i r ti H) as (bs & ->). discriminate.
      + intros i t x H _ Hx. destruct (K i r t H) as (bs & ->). discriminate.
      + exact V8.
    - apply changes_refl.
    - apply same_acc_refl.
  Qed.

  Lemma jagged_kernel_thm0 sched : (forall r v old, jrow r v old -> Z.of_nat (length old) + Z.of_nat (length (row_vals r vals)) <= v_cap v) -> exists m' thr,
    jk_run sz jv (m0, map (fun c => JAt (fst c) (snd c)) vals) sched = Ret (m', thr) /\ length thr = length vals /\
    changes (fun x => exists r v old, jrow r v old /\ free_region sz v (Z.of_nat (length old)) (length (row_vals r vals)) x) m0 m' /\ same_acc m0 m' /\
    ((forall i, (i < length vals)%nat -> (4 <= count_occ Nat.eq_dec sched i)%nat) -> Forall j_done thr) /\
    (Forall j_done thr ->
      (forall i t, nth_error thr i = Some t -> exists r v idx bs old, t = JIn r v (KDone idx bs) /\ nth_error vals i = Some (r, bs) /\ jrow r v old /\
         Z.of_nat (length old) <= idx < Z.of_nat (length old) + Z.of_nat (length (row_vals r vals)) /\
         get_bytes m' (v_ptr v + idx * sz) (Z.to_nat sz) = Some bs) /\
      forall r v old, jrow r v old ->
        let n := Z.of_nat (length old) + Z.of_nat (length (row_vals r vals)) in
        view_size m' v n /\
        exists new, Permutation new (row_vals r vals) /\ get_bytes m' (v_ptr v) (Z.to_nat (n * sz)) = Some (concat (old ++ new))).
  Proof.
    intros Room. destruct (jinv_run sched m0 _ jinv_init) as [(m' & thr & E & I)|(_ & before & i & after & m' & thr & r & v & old & bs & _ & _ & I & N & J & F)].
    2:{ exfalso. specialize (Room r v old J). assert (Ea : nth_error (map jabs thr) i = Some (r, KCall bs)) by (rewrite nth_error_map, N; reflexivity).
        pose proof (ncl_lt r (map jabs thr) i bs Ea) as Q. rewrite (jinv_ncalls m' thr r I) in Q. lia. }
    exists m', thr. split; [exact E|].
    destruct (jk_run_rem _ _ _ _ _ _ _ E) as (L & R). rewrite map_length in L. split; [exact L|].
    split. { apply (changes_weaken _ _ _ _ (ji_changes _ _ I)). intros x (r & v & old & J & H). exists r, v, old. split; [exact J|]. specialize (Room r v old J).
      destruct H as [H|H]; [left; exact H|right]. assert (slots r v old <= length (row_vals r vals))%nat by (unfold slots; lia). unfold within in *. nia. }
    split; [exact (ji_acc _ _ I)|].
    split.
    - intros Hs. apply Forall_forall. intros t Ht. apply In_nth_error in Ht. destruct Ht as (j & Hj). destruct (R j t Hj) as (t0 & H0 & Hr).
      assert (Lj : (j < length vals)%nat) by (rewrite <- L; apply nth_error_Some; congruence). specialize (Hs j Lj).
      assert (jrem t0 <= 4)%nat by (destruct t0 as [|? ? []]; cbn; lia). assert (jrem t = 0%nat) by lia.
      destruct t as [|? ? []]; cbn in *; try lia; exact Logic.I.
    - intros Fd.
      assert (Fd' : Forall (fun t => k_done (snd t)) (map jabs thr)).
      { apply Forall_forall. intros t Ht. apply in_map_iff in Ht. destruct Ht as (u & <- & Hu). rewrite Forall_forall in Fd. specialize (Fd u Hu).
        destruct u as [|? ? []]; cbn in *; try destruct Fd; exact Logic.I. }
      split.
      + intros i t Ht. pose proof (jinv_row_of m' thr i t I Ht) as (v & old & J & Hl).
        rewrite Forall_forall in Fd. specialize (Fd t ltac:(eapply nth_error_In; exact Ht)). destruct t as [|r v' []]; try destruct Fd. cbn [jabs fst snd k_val] in *.
        pose proof (ji_view _ _ I i r v' _ Ht) as Hv'. assert (v' = v) as -> by (destruct J; congruence).
        exists r, v, idx, bs, old. split; [reflexivity|].
        assert (Ea : nth_error (map jabs thr) i = Some (r, KDone idx bs)) by (rewrite nth_error_map, Ht; reflexivity).
        split; [rewrite <- (ji_vals _ _ I), nth_error_map, Ht; reflexivity|]. split; [exact J|].
        pose proof (ji_row _ _ I r v old J) as RI. split.
        * pose proof (ri_idx _ _ _ _ _ _ _ RI i _ idx Ea eq_refl) as Q. pose proof (ncl_le r (map jabs thr)) as Q2. rewrite (jinv_ncalls m' thr r I) in Q2. lia.
        * exact (ri_bytes _ _ _ _ _ _ _ RI i _ idx Ea Logic.I eq_refl).
      + intros r v old J. cbv zeta. destruct (Hrow _ _ _ J) as (V1 & V2 & V3 & V4 & V5 & V6 & V7 & V8).
        destruct (row_end sz Hsz r v (Z.of_nat (length old)) (concat old) m' (map jabs thr) old (ji_row _ _ I r v old J) eq_refl eq_refl V7 Fd') as (S & new & Pn & B).
        rewrite (jinv_ncalls m' thr r I) in S, B. split; [exact S|]. exists new. split; [|exact B].
        rewrite <- (ji_vals _ _ I). unfold row_vals. clear -Pn. replace (map snd (filter (fun c => Nat.eqb (fst c) r) (map (fun t => (fst (jabs t), k_val (snd (jabs t)))) thr))) with
          (map (fun t => k_val (snd t)) (filter (fun t => Nat.eqb (fst t) r) (map jabs thr))); [exact Pn|].
        clear. induction thr as [|t thr IH]; [reflexivity|]. cbn [map filter fst]. destruct (Nat.eqb (fst (jabs t)) r); cbn [map snd]; [f_equal|]; exact IH.
  Qed.

  (** Inner vectors may be too small. *)
  Definition jgood (m' : cmem) (thr : list jthr) : Prop := length thr = length vals /\ same_acc m0 m' /\ changes P m0 m' /\
    (forall i j r v idx bs bs', nth_error thr i = Some (JIn r v (KDone idx bs)) -> nth_error thr j = Some (JIn r v (KDone idx bs')) -> i = j) /\
    forall r v old, jrow r v old -> exists n, view_size m' v n /\ Z.of_nat (length old) <= n /\
      get_bytes m' (v_ptr v) (Z.to_nat (Z.of_nat (length old) * sz)) = Some (concat old) /\
      forall i v' idx bs, nth_error thr i = Some (JIn r v' (KDone idx bs)) -> v' = v /\ nth_error vals i = Some (r, bs) /\ Z.of_nat (length old) <= idx < n /\
        get_bytes m' (v_ptr v + idx * sz) (Z.to_nat sz) = Some bs.
  Lemma jinv_good m thr : jinv m thr -> jgood m thr.
  Proof.
    intros I. split; [rewrite <- (ji_vals _ _ I), map_length; reflexivity|]. split; [apply I|]. split; [apply I|]. split.
    - intros i j r v idx bs bs' Ni Nj. pose proof (ji_view _ _ I i r v _ Ni) as Hv.
      destruct (jinv_row_of m thr i _ I Ni) as (v1 & old & J & _). cbn [jabs fst] in J.
      apply (ri_diff _ _ _ _ _ _ _ (ji_row _ _ I r v1 old J) i j (KDone idx bs) (KDone idx bs') idx); try reflexivity; rewrite nth_error_map; [rewrite Ni|rewrite Nj]; reflexivity.
    - intros r v old J. pose proof (ji_row _ _ I r v old J) as RI. exists (Z.of_nat (length old) + Z.of_nat (ncl r (map jabs thr))).
      split; [apply RI|]. split; [lia|]. split; [apply RI|]. intros i v' idx bs N. pose proof (ji_view _ _ I i r v' _ N) as Hv.
      assert (Ea : nth_error (map jabs thr) i = Some (r, KDone idx bs)) by (rewrite nth_error_map, N; reflexivity).
      split; [destruct J; congruence|]. split; [rewrite <- (ji_vals _ _ I), nth_error_map, N; reflexivity|].
      split; [exact (ri_idx _ _ _ _ _ _ _ RI i _ idx Ea eq_refl)|exact (ri_bytes _ _ _ _ _ _ _ RI i _ idx Ea Logic.I eq_refl)].
  Qed.
  Lemma jagged_kernel_bounded sched : let start := (m0, map (fun c => JAt (fst c) (snd c)) vals) in
    (exists m' thr, jk_run sz jv start sched = Ret (m', thr) /\ jgood m' thr) \/
    (jk_run sz jv start sched = UB /\ exists before i after m' thr r v bs, sched = before ++ i :: after /\ jk_run sz jv start before = Ret (m', thr) /\ jgood m' thr /\
       nth_error thr i = Some (JIn r v (KCall bs)) /\ nth_error views r = Some v /\ view_size m' v (v_cap v)).
  Proof.
    intros start. destruct (jinv_run sched m0 _ jinv_init) as [(m' & thr & E & I)|(E & before & i & after & m' & thr & r & v & old & bs & Es & E' & I & N & J & F)].
    - left. exists m', thr. split; [exact E|]. apply jinv_good, I.
    - right. split; [exact E|]. exists before, i, after, m', thr, r, v, bs. split; [exact Es|]. split; [exact E'|]. split; [apply jinv_good, I|]. split; [exact N|].
      split; [apply J|]. rewrite <- F. exact (ri_size _ _ _ _ _ _ _ (ji_row _ _ I r v old J)).
  Qed.
End Jagged.

Theorem jagged_kernel_thm sz (Hsz : 0 < sz) jv views olds vals m0 (Hlen : length olds = length views) (Hjv : j_size jv = Z.of_nat (length views))
  (Hdesc : get_bytes m0 (j_ptr jv) (24 * length views) = Some (flat_map view_bytes_of views))
  (Hvals : forall r bs, In (r, bs) vals -> (r < length views)%nat /\ Z.of_nat (length bs) = sz)
  (Hrow : forall r v old, jrow views olds r v old -> v_sizep v <> 0 /\ 0 <= v_sizep v < 2 ^ 64 /\ 0 <= v_ptr v < 2 ^ 64 /\
    view_size m0 v (Z.of_nat (length old)) /\ apart (v_sizep v) 4 (v_ptr v) (v_cap v * sz) /\ acc m0 (v_ptr v) (v_cap v * sz) /\
    Forall (fun b => Z.of_nat (length b) = sz) old /\ get_bytes m0 (v_ptr v) (Z.to_nat (Z.of_nat (length old) * sz)) = Some (concat old) /\
    Z.of_nat (length old) + Z.of_nat (length (row_vals r vals)) <= v_cap v)
  (Hd1 : forall v x, In v views -> region sz v x -> within (j_ptr jv) (24 * Z.of_nat (length views)) x -> False)
  (Hd2 : forall r1 r2 v1 v2 x, r1 <> r2 -> nth_error views r1 = Some v1 -> nth_error views r2 = Some v2 -> region sz v1 x -> region sz v2 x -> False)
  sched : exists m' thr,
    jk_run sz jv (m0, map (fun c => JAt (fst c) (snd c)) vals) sched = Ret (m', thr) /\ length thr = length vals /\
    changes (fun x => exists r v old, jrow views olds r v old /\ free_region sz v (Z.of_nat (length old)) (length (row_vals r vals)) x) m0 m' /\ same_acc m0 m' /\
    ((forall i, (i < length vals)%nat -> (4 <= count_occ Nat.eq_dec sched i)%nat) -> Forall j_done thr) /\
    (Forall j_done thr ->
      (forall i t, nth_error thr i = Some t -> exists r v idx bs old, t = JIn r v (KDone idx bs) /\ nth_error vals i = Some (r, bs) /\ jrow views olds r v old /\
         Z.of_nat (length old) <= idx < Z.of_nat (length old) + Z.of_nat (length (row_vals r vals)) /\
         get_bytes m' (v_ptr v + idx * sz) (Z.to_nat sz) = Some bs) /\
      forall r v old, jrow views olds r v old ->
        let n := Z.of_nat (length old) + Z.of_nat (length (row_vals r vals)) in
        view_size m' v n /\
        exists new, Permutation new (row_vals r vals) /\ get_bytes m' (v_ptr v) (Z.to_nat (n * sz)) = Some (concat (old ++ new))).
Proof.
  apply jagged_kernel_thm0; try assumption.
  - intros r v old J. destruct (Hrow r v old J) as (A1 & A2 & A3 & A4 & A5 & A6 & A7 & A8 & _). repeat (split; [assumption|]). assumption.
  - intros r v old J. apply (Hrow r v old J).
Qed.
