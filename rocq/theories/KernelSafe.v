(** Threads that append to a vector which may be too small for all of them (Kernel.v). *)
From Verif Require Import Base BaseLemmas Copy CopyProofs Kernel KernelProofs.

Definition k_idx (t : kthr) : option Z := match t with KCall _ => None | KWrite i _ | KReturn i _ | KDone i _ => Some i end.
(** The element has been written. *)
Definition k_written (t : kthr) : Prop := match t with KReturn _ _ | KDone _ _ => True | _ => False end.

Lemma nclaimed_le' thr : (nclaimed thr <= length thr)%nat.
Proof. induction thr as [|t thr IH]; [apply Nat.le_refl|]. cbn [nclaimed fold_right length]. fold (nclaimed thr). destruct t; cbn [claimed]; lia. Qed.
Lemma nclaimed_upd' thr : forall i t t', nth_error thr i = Some t ->
  (nclaimed (upd thr i t') + claimed t = nclaimed thr + claimed t')%nat.
Proof.
  induction thr as [|x thr IH]; intros [|i] t t'; cbn [nth_error]; try discriminate.
  - intros E. injection E as ->. cbn [upd nclaimed fold_right]. fold (nclaimed thr). lia.
  - intros E. cbn [upd nclaimed fold_right]. fold (nclaimed thr) (nclaimed (upd thr i t')). specialize (IH i t t' E). lia.
Qed.

Section Safe.
  Variable sz : Z.
  Hypothesis Hsz : 0 < sz.
  Variable v : vview.
  Hypothesis Hv : v_sizep v <> 0.
  Hypothesis Hap : apart (v_sizep v) 4 (v_ptr v) (v_cap v * sz).
  Variable m0 : cmem.
  Variable n0 : Z.
  Hypothesis Hn0 : view_size m0 v n0.
  Hypothesis Ha2 : acc m0 (v_ptr v) (v_cap v * sz).
  Variable vals : list (list Z).
  Hypothesis Hvals : Forall (fun b => Z.of_nat (length b) = sz) vals.
  Let P x := within (v_sizep v) 4 x \/ within (v_ptr v + n0 * sz) ((v_cap v - n0) * sz) x.

  Record inv (m : cmem) (thr : list kthr) : Prop := mkInv {
    i_size : view_size m v (n0 + Z.of_nat (nclaimed thr));
    i_vals : map k_val thr = vals;
    i_idx : forall i t x, nth_error thr i = Some t -> k_idx t = Some x -> n0 <= x < n0 + Z.of_nat (nclaimed thr);
    i_diff : forall i j ti tj x, i <> j -> nth_error thr i = Some ti -> nth_error thr j = Some tj -> k_idx ti = Some x -> k_idx tj = Some x -> False;
    i_bytes : forall i t x, nth_error thr i = Some t -> k_written t -> k_idx t = Some x ->
      get_bytes m (v_ptr v + x * sz) (Z.to_nat sz) = Some (k_val t);
    i_changes : changes P m0 m;
    i_acc : same_acc m0 m }.

  Lemma inv_step m thr i m' thr' : inv m thr -> k_step sz v (m, thr) i = Ret (m', thr') -> inv m' thr'.
  Proof.
    intros I. unfold k_step. destruct Hn0 as (N1 & N2 & N3). pose proof (i_size _ _ I) as (S1 & _ & S3).
    replace (v_sizep v =? 0) with false in N3, S3 by lia.
    destruct (nth_error thr i) as [[bs|idx bs|idx bs|idx bs]|] eqn:E; try (intros H; injection H as <- <-; exact I).
    - unfold assert. replace (v_sizep v =? 0) with false by lia. cbn [negb]. rewrite S3, unle32_le32 by lia.
      set (c := n0 + Z.of_nat (nclaimed thr)) in *. destruct (c <? v_cap v) eqn:Ec; [|discriminate]. intros H. injection H as <- <-.
      assert (Ea : add32 c 1 = c + 1) by (unfold add32; rewrite Z.mod_small; lia). rewrite Ea.
      assert (Lt : (i < length thr)%nat) by (apply nth_error_Some; congruence).
      assert (NC : nclaimed (upd thr i (KWrite c bs)) = S (nclaimed thr)).
      { pose proof (nclaimed_upd' thr i _ (KWrite c bs) E) as Q. cbn [claimed] in Q. lia. }
      assert (Ch : changes (within (v_sizep v) 4) m (put_bytes m (v_sizep v) (le32 (c + 1)))) by (apply (put_bytes_changes m (v_sizep v) (le32 (c + 1)))).
      assert (A4 : acc m (v_sizep v) 4) by (apply (get_bytes_acc 4); eauto).
      constructor.
      + rewrite NC. split; [lia|]. split; [lia|]. replace (v_sizep v =? 0) with false by lia.
        replace (n0 + Z.of_nat (S (nclaimed thr))) with (c + 1) by (unfold c; lia). exact (get_bytes_put m (v_sizep v) (le32 (c + 1))).
      + apply (vals_upd vals thr i (KCall bs)); [exact (i_vals _ _ I)|exact E|reflexivity].
      + intros j t x Hj Hx. rewrite NC. destruct (Nat.eq_dec j i) as [->|Hij].
        * rewrite nth_error_upd_eq in Hj by exact Lt. injection Hj as <-. injection Hx as <-. unfold c. lia.
        * rewrite nth_error_upd_ne in Hj by auto. pose proof (i_idx _ _ I j t x Hj Hx). lia.
      + intros j k tj tk x Hjk Hj Hk Hx Hy. destruct (Nat.eq_dec j i) as [->|Hij].
        * rewrite nth_error_upd_eq in Hj by exact Lt. injection Hj as <-. injection Hx as <-. rewrite nth_error_upd_ne in Hk by auto.
          pose proof (i_idx _ _ I k tk c Hk Hy). unfold c in *. lia.
        * rewrite nth_error_upd_ne in Hj by auto. destruct (Nat.eq_dec k i) as [->|Hik].
          -- rewrite nth_error_upd_eq in Hk by exact Lt. injection Hk as <-. injection Hy as <-. pose proof (i_idx _ _ I j tj c Hj Hx). unfold c in *. lia.
          -- rewrite nth_error_upd_ne in Hk by auto. exact (i_diff _ _ I j k tj tk x Hjk Hj Hk Hx Hy).
      + intros j t x Hj W Hx. destruct (Nat.eq_dec j i) as [->|Hij].
        * rewrite nth_error_upd_eq in Hj by exact Lt. injection Hj as <-. destruct W.
        * rewrite nth_error_upd_ne in Hj by auto. pose proof (i_idx _ _ I j t x Hj Hx) as R.
          rewrite (changes_get _ _ _ _ _ Ch); [exact (i_bytes _ _ I j t x Hj W Hx)|].
          intros y Hy Hy'. unfold within in Hy, Hy'. apply (Hap y). split; [lia|]. nia.
      + eapply changes_weaken; [eapply changes_trans; [exact (i_changes _ _ I)|exact Ch]|]. intros x [Hx|Hx]; [exact Hx|left; exact Hx].
      + eapply same_acc_trans; [exact (i_acc _ _ I)|]. apply put_bytes_acc. exact A4.
    - unfold assert. destruct (idx <? v_cap v) eqn:Ei; [|discriminate].
      destruct (get_bytes m (v_ptr v + idx * sz) (Z.to_nat sz)) as [ob|] eqn:Eg; [|discriminate]. intros H. injection H as <- <-.
      assert (Lt : (i < length thr)%nat) by (apply nth_error_Some; congruence).
      assert (NC : nclaimed (upd thr i (KReturn idx bs)) = nclaimed thr).
      { pose proof (nclaimed_upd' thr i _ (KReturn idx bs) E) as Q. cbn [claimed] in Q. lia. }
      pose proof (i_idx _ _ I i _ idx E eq_refl) as R.
      assert (Lb : Z.of_nat (length bs) = sz).
      { rewrite Forall_forall in Hvals. apply Hvals. rewrite <- (i_vals _ _ I). apply in_map_iff. exists (KWrite idx bs). split; [reflexivity|].
        eapply nth_error_In; eauto. }
      assert (Ch : changes (within (v_ptr v + idx * sz) sz) m (put_bytes m (v_ptr v + idx * sz) bs)) by (pose proof (put_bytes_changes m (v_ptr v + idx * sz) bs) as Q; rewrite Lb in Q; exact Q).
      assert (Other : forall j t x, j <> i -> nth_error thr j = Some t -> k_idx t = Some x -> x <> idx).
      { intros j t x Hj Et Ex ->. exact (i_diff _ _ I j i t (KWrite idx bs) idx Hj Et E Ex eq_refl). }
      constructor.
      + rewrite NC. split; [exact S1|]. split; [lia|]. replace (v_sizep v =? 0) with false by lia.
        rewrite (changes_get _ _ _ _ _ Ch); [exact S3|]. intros y Hy Hy'. unfold within in Hy, Hy'. apply (Hap y). split; [exact Hy|]. nia.
      + apply (vals_upd vals thr i (KWrite idx bs)); [exact (i_vals _ _ I)|exact E|reflexivity].
      + intros j t x Hj Hx. rewrite NC. destruct (Nat.eq_dec j i) as [->|Hij].
        * rewrite nth_error_upd_eq in Hj by exact Lt. injection Hj as <-. injection Hx as <-. exact R.
        * rewrite nth_error_upd_ne in Hj by auto. exact (i_idx _ _ I j t x Hj Hx).
      + intros j k tj tk x Hjk Hj Hk Hx Hy. destruct (Nat.eq_dec j i) as [->|Hij].
        * rewrite nth_error_upd_eq in Hj by exact Lt. injection Hj as <-. injection Hx as <-. rewrite nth_error_upd_ne in Hk by auto.
          exact (Other k tk idx (fun e => Hjk (eq_sym e)) Hk Hy eq_refl).
        * rewrite nth_error_upd_ne in Hj by auto. destruct (Nat.eq_dec k i) as [->|Hik].
          -- rewrite nth_error_upd_eq in Hk by exact Lt. injection Hk as <-. injection Hy as <-. exact (Other j tj idx Hjk Hj Hx eq_refl).
          -- rewrite nth_error_upd_ne in Hk by auto. exact (i_diff _ _ I j k tj tk x Hjk Hj Hk Hx Hy).
      + intros j t x Hj W Hx. destruct (Nat.eq_dec j i) as [->|Hij].
        * rewrite nth_error_upd_eq in Hj by exact Lt. injection Hj as <-. injection Hx as <-. cbn [k_val].
          replace (Z.to_nat sz) with (length bs) by lia. apply get_bytes_put.
        * rewrite nth_error_upd_ne in Hj by auto. pose proof (Other j t x Hij Hj Hx) as D.
          rewrite (changes_get _ _ _ _ _ Ch); [exact (i_bytes _ _ I j t x Hj W Hx)|].
          intros y Hy Hy'. unfold within in Hy, Hy'. apply D. nia.
      + eapply changes_weaken; [eapply changes_trans; [exact (i_changes _ _ I)|exact Ch]|]. intros x [Hx|Hx]; [exact Hx|right].
        unfold within in *. nia.
      + eapply same_acc_trans; [exact (i_acc _ _ I)|]. apply put_bytes_acc. rewrite Lb.
        assert (Q : acc m (v_ptr v + idx * sz) (Z.of_nat (Z.to_nat sz))) by (apply get_bytes_acc; eauto).
        replace (Z.of_nat (Z.to_nat sz)) with sz in Q by lia. exact Q.
    - intros H. injection H as <- <-.
      assert (Lt : (i < length thr)%nat) by (apply nth_error_Some; congruence).
      assert (NC : nclaimed (upd thr i (KDone idx bs)) = nclaimed thr).
      { pose proof (nclaimed_upd' thr i _ (KDone idx bs) E) as Q. cbn [claimed] in Q. lia. }
      assert (Back : forall j t, nth_error (upd thr i (KDone idx bs)) j = Some t -> exists t', nth_error thr j = Some t' /\ k_idx t' = k_idx t /\ (k_written t -> k_written t') /\ k_val t' = k_val t).
      { intros j t Hj. destruct (Nat.eq_dec j i) as [->|Hij].
        - rewrite nth_error_upd_eq in Hj by exact Lt. injection Hj as <-. exists (KReturn idx bs). auto.
        - rewrite nth_error_upd_ne in Hj by auto. exists t. auto. }
      constructor; try (first [exact (i_changes _ _ I)|exact (i_acc _ _ I)]).
      + rewrite NC. exact (i_size _ _ I).
      + apply (vals_upd vals thr i (KReturn idx bs)); [exact (i_vals _ _ I)|exact E|reflexivity].
      + intros j t x Hj Hx. rewrite NC. destruct (Back j t Hj) as (t' & T1 & T2 & _). apply (i_idx _ _ I j t' x T1). congruence.
      + intros j k tj tk x Hjk Hj Hk Hx Hy. destruct (Back j tj Hj) as (t' & T1 & T2 & _). destruct (Back k tk Hk) as (t2 & U1 & U2 & _).
        apply (i_diff _ _ I j k t' t2 x Hjk T1 U1); congruence.
      + intros j t x Hj W Hx. destruct (Back j t Hj) as (t' & T1 & T2 & T3 & T4). rewrite <- T4. apply (i_bytes _ _ I j t' x T1 (T3 W)). congruence.
  Qed.

  Lemma inv_run sched : forall m thr m' thr', inv m thr -> k_run sz v (m, thr) sched = Ret (m', thr') -> inv m' thr'.
  Proof.
    induction sched as [|i sched IH]; intros m thr m' thr' I; cbn [k_run].
    - intros H. injection H as <- <-. exact I.
    - destruct (k_step sz v (m, thr) i) as [[m1 thr1]|e|] eqn:E; cbn [bind]; try discriminate. apply IH. eapply inv_step; eauto.
  Qed.

  Lemma inv_init : inv m0 (map KCall vals).
  Proof.
    assert (NC : forall l, nclaimed (map KCall l) = 0%nat) by (induction l as [|x l IH]; [reflexivity|cbn; exact IH]).
    assert (NI : forall i t, nth_error (map KCall vals) i = Some t -> exists bs, t = KCall bs).
    { intros i t H. rewrite nth_error_map in H. destruct (nth_error vals i); [|discriminate]. injection H as <-. eauto. }
    constructor.
    - rewrite NC, Z.add_0_r. exact Hn0.
    - rewrite map_map. cbn. apply map_id.
    - intros i t x H. destruct (NI i t H) as (bs & ->). discriminate.
    - intros i j ti tj x _ H _. destruct (NI i ti H) as (bs & ->). discriminate.
    - intros i t x H. destruct (NI i t H) as (bs & ->). intros [].
    - apply changes_refl.
    - apply same_acc_refl.
  Qed.
End Safe.

Lemma kernel_safe sz v m n0 vals sched m' thr : 0 < sz -> v_sizep v <> 0 -> view_size m v n0 ->
  Forall (fun b => Z.of_nat (length b) = sz) vals -> apart (v_sizep v) 4 (v_ptr v) (v_cap v * sz) ->
  k_run sz v (m, map KCall vals) sched = Ret (m', thr) ->
  exists claimed, (claimed <= length vals)%nat /\ view_size m' v (n0 + Z.of_nat claimed) /\
    (forall i x, (exists t, nth_error thr i = Some t /\ k_idx t = Some x) -> n0 <= x < n0 + Z.of_nat claimed) /\
    (forall i j ti tj x, nth_error thr i = Some ti -> nth_error thr j = Some tj -> k_idx ti = Some x -> k_idx tj = Some x -> i = j) /\
    (forall i x bs, nth_error thr i = Some (KDone x bs) -> nth_error vals i = Some bs /\ get_bytes m' (v_ptr v + x * sz) (Z.to_nat sz) = Some bs) /\
    changes (fun y => within (v_sizep v) 4 y \/ within (v_ptr v + n0 * sz) ((v_cap v - n0) * sz) y) m m' /\
    (Forall k_done thr -> claimed = length vals).
Proof.
  intros Hs Hv Hn Hf Hap E.
  pose proof (inv_run sz Hs v Hv Hap m n0 Hn vals Hf sched m _ m' thr (inv_init sz v m n0 Hn vals) E) as I.
  assert (L : length thr = length vals) by (rewrite <- (i_vals _ _ _ _ _ _ _ I), map_length; reflexivity).
  exists (nclaimed thr). split; [rewrite <- L; apply nclaimed_le'|]. split; [exact (i_size _ _ _ _ _ _ _ I)|].
  split. { intros i x (t & Ht & Hx). exact (i_idx _ _ _ _ _ _ _ I i t x Ht Hx). }
  split. { intros i j ti tj x Hi Hj Hx Hy. destruct (Nat.eq_dec i j) as [|D]; [auto|]. destruct (i_diff _ _ _ _ _ _ _ I i j ti tj x D Hi Hj Hx Hy). }
  split. { intros i x bs Hi. split.
           - rewrite <- (i_vals _ _ _ _ _ _ _ I), nth_error_map, Hi. reflexivity.
           - exact (i_bytes _ _ _ _ _ _ _ I i (KDone x bs) x Hi Logic.I eq_refl). }
  split; [exact (i_changes _ _ _ _ _ _ _ I)|].
  intros F. rewrite <- L. clear - F. induction F as [|t l Ft F IH]; [reflexivity|]. cbn [nclaimed fold_right length]. fold (nclaimed l). rewrite IH.
  destruct t; try destruct Ft. reflexivity.
Qed.
