(** Proofs about Kernel.v, by simulation of the steps of AppendConc.v. *)
From Coq Require Import Permutation.
From Verif Require Import Base BaseLemmas Slots DeviceVector DeviceVectorProofs AppendConc AppendConcProofs Copy CopyProofs Kernel.

Definition k_val (t : kthr) : list Z := match t with KCall bs | KWrite _ bs | KReturn _ bs | KDone _ bs => bs end.
Definition k_done (t : kthr) : Prop := match t with KDone _ _ => True | _ => False end.

Lemma map_upd {A B} (f : A -> B) l i x : map f (upd l i x) = upd (map f l) i (f x).
Proof. revert i. induction l as [|a l IH]; intros [|i]; cbn [upd map]; auto. f_equal. apply IH. Qed.

(** ** Bytes of arrays *)
Lemma get_bytes_app n : forall k m a x y, get_bytes m a n = Some x -> get_bytes m (a + Z.of_nat n) k = Some y ->
  get_bytes m a (n + k) = Some (x ++ y).
Proof.
  induction n as [|n IH]; intros k m a x y; cbn [get_bytes Nat.add].
  - intros E. injection E as <-. rewrite Z.add_0_r. auto.
  - destruct (m_byte m a) as [b|]; [|discriminate]. destruct (get_bytes m (a + 1) n) as [l|] eqn:E; [|discriminate].
    intros H. injection H as <-. intros H. rewrite (IH k m (a + 1) l y E); [reflexivity|].
    rewrite <- H. f_equal. lia.
Qed.
Lemma get_bytes_elements sz m : 0 < sz -> forall l a,
  (forall p bs, nth_error l p = Some bs -> get_bytes m (a + Z.of_nat p * sz) (Z.to_nat sz) = Some bs) ->
  get_bytes m a (Z.to_nat (Z.of_nat (length l) * sz)) = Some (concat l).
Proof.
  intros Hs. induction l as [|b l IH]; intros a H; [reflexivity|]. cbn [length concat].
  replace (Z.to_nat (Z.of_nat (S (length l)) * sz)) with (Z.to_nat sz + Z.to_nat (Z.of_nat (length l) * sz))%nat by lia.
  apply get_bytes_app.
  - rewrite <- (H 0%nat b eq_refl). f_equal. lia.
  - apply IH. intros p bs E. rewrite <- (H (S p) bs E). f_equal. lia.
Qed.
Lemma get_bytes_prefix n : forall k m a x, get_bytes m a (n + k) = Some x ->
  get_bytes m a n = Some (firstn n x) /\ get_bytes m (a + Z.of_nat n) k = Some (skipn n x).
Proof.
  induction n as [|n IH]; intros k m a x; cbn [get_bytes Nat.add].
  - intros E. rewrite Z.add_0_r. auto.
  - destruct (m_byte m a) as [b|]; [|discriminate]. destruct (get_bytes m (a + 1) (n + k)) as [l|] eqn:E; [|discriminate].
    intros H. injection H as <-. destruct (IH k m (a + 1) l E) as (E1 & E2). cbn [firstn skipn]. rewrite E1. split; [reflexivity|].
    rewrite <- E2. f_equal. lia.
Qed.
Lemma elements_get_bytes sz m : 0 < sz -> forall l a, Forall (fun b => Z.of_nat (length b) = sz) l ->
  get_bytes m a (Z.to_nat (Z.of_nat (length l) * sz)) = Some (concat l) ->
  forall p bs, nth_error l p = Some bs -> get_bytes m (a + Z.of_nat p * sz) (Z.to_nat sz) = Some bs.
Proof.
  intros Hs. induction l as [|b l IH]; intros a F; [intros _ [|p]; discriminate|]. cbn [length concat].
  pose proof (Forall_inv F) as F1. cbn beta in F1. apply Forall_inv_tail in F.
  replace (Z.to_nat (Z.of_nat (S (length l)) * sz)) with (Z.to_nat sz + Z.to_nat (Z.of_nat (length l) * sz))%nat by lia.
  intros E. apply get_bytes_prefix in E. destruct E as (E1 & E2).
  assert (Eb : Z.to_nat sz = length b) by lia. rewrite Eb in E1, E2.
  rewrite firstn_app, firstn_all2, Nat.sub_diag, firstn_O, app_nil_r in E1 by lia.
  rewrite skipn_app, skipn_all, Nat.sub_diag, skipn_O in E2. cbn [app] in E2. rewrite F1 in E2.
  intros [|p] bs; cbn [nth_error].
  - intros E. injection E as <-. rewrite <- E1. rewrite Eb. f_equal. lia.
  - intros E. rewrite <- (IH (a + sz) F E2 p bs E). f_equal. lia.
Qed.

Section Sim.
  Variable sz : Z.
  Hypothesis Hsz : 0 < sz.
  Variable v : vview.
  Hypothesis Hv : v_sizep v <> 0.
  Hypothesis Hcap : 0 <= v_cap v < 2 ^ 32.
  Hypothesis Hap : apart (v_sizep v) 4 (v_ptr v) (v_cap v * sz).
  Variable m0 : cmem.
  Hypothesis Ha1 : acc m0 (v_sizep v) 4.
  Hypothesis Ha2 : acc m0 (v_ptr v) (v_cap v * sz).
  Variable P : Z -> Prop.
  Hypothesis HP1 : forall x, within (v_sizep v) 4 x -> P x.
  Variable vals : list (list Z).
  Variable n0 : Z.
  Hypothesis HP2 : forall x, within (v_ptr v + n0 * sz) (Z.of_nat (length vals) * sz) x -> P x.
  Hypothesis Hvals : Forall (fun b => Z.of_nat (length b) = sz) vals.

  Definition conv (t : kthr) : thread (list Z) :=
    match t with
    | KCall bs => TIdle (op_push_back bs)
    | KWrite idx bs => TWrite idx (op_push_back bs) [(0%nat, 0, bs)]
    | KReturn idx bs => TWrite idx (op_push_back bs) []
    | KDone idx bs => TDone idx (op_push_back bs)
    end.

  Definition k_idx_ok (t : kthr) : Prop :=
    match t with KCall _ => True | KWrite i _ | KReturn i _ | KDone i _ => n0 <= i < n0 + Z.of_nat (length vals) end.

  (** [k]: number of calls that have claimed their element. *)
  Definition claimed (t : kthr) : nat := match t with KCall _ => 0 | _ => 1 end.
  Definition nclaimed (thr : list kthr) : nat := fold_right (fun t n => claimed t + n)%nat 0%nat thr.

  Record rel (s : cstate (list Z)) (m : cmem) (thr : list kthr) : Prop := mkRel {
    r_cap : c_cap s = v_cap v;
    r_size : get_bytes m (v_sizep v) 4 = Some (le32 (c_size s));
    r_range : c_size s = n0 + Z.of_nat (nclaimed thr);
    r_cells : exists cells, c_mem s = [cells] /\ Z.of_nat (length cells) = v_cap v /\
      forall p bs, nth_error cells p = Some (Val bs) -> get_bytes m (v_ptr v + Z.of_nat p * sz) (Z.to_nat sz) = Some bs;
    r_thr : c_thr s = map conv thr;
    r_vals : map k_val thr = vals;
    r_idx : Forall k_idx_ok thr;
    r_changes : changes P m0 m;
    r_acc : same_acc m0 m }.

  Lemma nclaimed_le thr : (nclaimed thr <= length thr)%nat.
  Proof. induction thr as [|t thr IH]; [apply Nat.le_refl|]. cbn [nclaimed fold_right length]. fold (nclaimed thr). destruct t; cbn [claimed]; lia. Qed.
  Lemma nclaimed_upd thr : forall i t t', nth_error thr i = Some t ->
    (nclaimed (upd thr i t') + claimed t = nclaimed thr + claimed t')%nat.
  Proof.
    induction thr as [|x thr IH]; intros [|i] t t'; cbn [nth_error]; try discriminate.
    - intros E. injection E as ->. cbn [upd nclaimed fold_right]. fold (nclaimed thr). lia.
    - intros E. cbn [upd nclaimed fold_right]. fold (nclaimed thr) (nclaimed (upd thr i t')). specialize (IH i t t' E). lia.
  Qed.
  Lemma nclaimed_lt thr i bs : nth_error thr i = Some (KCall bs) -> (nclaimed thr < length thr)%nat.
  Proof.
    intros E. pose proof (nclaimed_upd thr i _ (KDone 0 bs) E) as H. cbn [claimed] in H.
    pose proof (nclaimed_le (upd thr i (KDone 0 bs))) as G. rewrite upd_length in G. lia.
  Qed.

  Lemma vals_upd thr i t t' : map k_val thr = vals -> nth_error thr i = Some t -> k_val t' = k_val t -> map k_val (upd thr i t') = vals.
  Proof.
    intros E N H. rewrite map_upd, H, <- E. apply upd_nth_same. rewrite nth_error_map, N. reflexivity.
  Qed.
  Lemma val_len thr i t : map k_val thr = vals -> nth_error thr i = Some t -> Z.of_nat (length (k_val t)) = sz.
  Proof.
    intros E N. rewrite Forall_forall in Hvals. apply Hvals. rewrite <- E. apply in_map. eapply nth_error_In, N.
  Qed.

  Hypothesis Hroom : 0 <= n0 /\ n0 + Z.of_nat (length vals) <= v_cap v.

  Lemma step_sim s m thr i s' : rel s m thr -> c_step s i = Ret s' ->
    exists m' thr', k_step sz v (m, thr) i = Ret (m', thr') /\ rel s' m' thr'.
  Proof.
    intros [R1 R2 R3 (cells & R4 & R5 & R6) R7 R8 R9 R10 R11] E. unfold k_step. unfold c_step in E. rewrite R7, nth_error_map in E.
    assert (Hlen : length thr = length vals) by (rewrite <- R8, map_length; reflexivity).
    pose proof (nclaimed_le thr) as Hle.
    destruct (nth_error thr i) as [[bs|idx bs|idx bs|idx bs]|] eqn:N; cbn [option_map conv] in E.
    - (* claim *)
      unfold assert in *. cbn [o_bulk op_push_back o_n o_writes] in E. destruct (c_size s <? c_cap s) eqn:L; [|discriminate].
      injection E as <-. pose proof (nclaimed_lt _ _ _ N) as Hlt. replace (v_sizep v =? 0) with false by lia. cbn [negb]. rewrite R2.
      rewrite unle32_le32 by lia. rewrite R1 in L. rewrite L. do 2 eexists. split; [reflexivity|].
      assert (E32 : add32 (c_size s) 1 = c_size s + 1) by (unfold add32; apply Z.mod_small; lia). rewrite E32.
      assert (Hch : changes (within (v_sizep v) 4) m (put_bytes m (v_sizep v) (le32 (c_size s + 1)))) by apply (put_bytes_changes m (v_sizep v) (le32 (c_size s + 1))).
      split; cbn [c_cap c_size c_mem c_thr].
      + exact R1.
      + exact (get_bytes_put m (v_sizep v) (le32 (c_size s + 1))).
      + pose proof (nclaimed_upd thr i _ (KWrite (c_size s) bs) N) as Hn. cbn [claimed] in Hn. lia.
      + exists cells. split; [exact R4|]. split; [exact R5|]. intros p b Hp. rewrite <- (R6 p b Hp).
        assert (Hpl : (p < length cells)%nat) by (apply nth_error_Some; congruence).
        apply (changes_get _ _ _ _ _ Hch). intros x Hx Hy. apply (Hap x). unfold within in *. nia.
      + rewrite map_upd. reflexivity.
      + eapply vals_upd; eauto.
      + apply Forall_forall. intros t Ht. apply In_nth_error in Ht. destruct Ht as (j & Hj).
        destruct (Nat.eq_dec i j) as [<-|D].
        * rewrite nth_error_upd_eq in Hj by (apply nth_error_Some; congruence). injection Hj as <-. cbn [k_idx_ok]. lia.
        * rewrite nth_error_upd_ne in Hj by auto. rewrite Forall_forall in R9. eapply R9, nth_error_In, Hj.
      + apply (changes_weaken (fun x => P x \/ within (v_sizep v) 4 x)); [eapply changes_trans; eauto|]. intros x [Hx|Hx]; auto.
      + eapply same_acc_trans; [exact R11|]. apply put_bytes_acc. cbn [length le32]. apply (acc_same m0); auto.
    - (* construct *)
      cbn [c_write] in E. rewrite R4 in E. cbn [nth_error] in E. unfold d_construct in E. rewrite R1 in E.
      assert (Hi : k_idx_ok (KWrite idx bs)) by (rewrite Forall_forall in R9; eapply R9, nth_error_In, N). cbn [k_idx_ok] in Hi.
      assert (E32 : add32 idx 0 = idx) by (unfold add32; rewrite Z.add_0_r; apply Z.mod_small; lia). rewrite E32 in E.
      unfold assert in *. destruct (idx <? v_cap v) eqn:L; [|discriminate]. cbn [arg_read bind] in E. unfold slot_new in E.
      replace ((idx <? 0) || (Z.of_nat (length cells) <=? idx)) with false in E by lia. cbn [bind upd] in E. injection E as <-.
      pose proof (val_len _ _ _ R8 N) as Hb. cbn [k_val] in Hb.
      assert (Hacc : acc m (v_ptr v + idx * sz) sz) by (apply (acc_sub m (v_ptr v) (v_cap v * sz)); [apply (acc_same m0); auto|nia|nia]).
      destruct (acc_get m (v_ptr v + idx * sz) sz ltac:(lia) Hacc) as (old & Eold). rewrite Eold. do 2 eexists. split; [reflexivity|].
      assert (Hch : changes (within (v_ptr v + idx * sz) sz) m (put_bytes m (v_ptr v + idx * sz) bs)) by (rewrite <- Hb; apply put_bytes_changes).
      split; cbn [c_cap c_size c_mem c_thr].
      + reflexivity.
      + rewrite <- R2. apply (changes_get _ _ _ _ _ Hch). intros x Hx Hy. apply (Hap x). unfold within in *. nia.
      + pose proof (nclaimed_upd thr i _ (KReturn idx bs) N) as Hn. cbn [claimed] in Hn. lia.
      + exists (upd cells (Z.to_nat idx) (Val bs)). split; [reflexivity|]. split; [rewrite upd_length; exact R5|]. intros p b Hp.
        destruct (Nat.eq_dec (Z.to_nat idx) p) as [<-|D].
        * rewrite nth_error_upd_eq in Hp by lia. injection Hp as <-. rewrite Z2Nat.id by lia.
          replace (Z.to_nat sz) with (length bs) by lia. apply get_bytes_put.
        * rewrite nth_error_upd_ne in Hp by auto. rewrite <- (R6 p b Hp). apply (changes_get _ _ _ _ _ Hch).
          intros x Hx Hy. unfold within in *. assert (Z.of_nat p <> idx) by lia. nia.
      + rewrite map_upd. reflexivity.
      + eapply vals_upd; eauto.
      + apply Forall_forall. intros t Ht. apply In_nth_error in Ht. destruct Ht as (j & Hj).
        destruct (Nat.eq_dec i j) as [<-|D].
        * rewrite nth_error_upd_eq in Hj by (apply nth_error_Some; congruence). injection Hj as <-. cbn [k_idx_ok]. lia.
        * rewrite nth_error_upd_ne in Hj by auto. rewrite Forall_forall in R9. eapply R9, nth_error_In, Hj.
      + apply (changes_weaken (fun x => P x \/ within (v_ptr v + idx * sz) sz x)); [eapply changes_trans; eauto|].
        intros x [Hx|Hx]; auto. apply HP2. unfold within in *. nia.
      + eapply same_acc_trans; [exact R11|]. apply put_bytes_acc. rewrite Hb. exact Hacc.
    - (* return *)
      injection E as <-. do 2 eexists. split; [reflexivity|]. split; cbn [c_cap c_size c_mem c_thr]; auto.
      + pose proof (nclaimed_upd thr i _ (KDone idx bs) N) as Hn. cbn [claimed] in Hn. lia.
      + exists cells. auto.
      + rewrite map_upd. reflexivity.
      + eapply vals_upd; eauto.
      + apply Forall_forall. intros t Ht. apply In_nth_error in Ht. destruct Ht as (j & Hj).
        destruct (Nat.eq_dec i j) as [<-|D].
        * rewrite nth_error_upd_eq in Hj by (apply nth_error_Some; congruence). injection Hj as <-.
          rewrite Forall_forall in R9. exact (R9 _ (nth_error_In _ _ N)).
        * rewrite nth_error_upd_ne in Hj by auto. rewrite Forall_forall in R9. eapply R9, nth_error_In, Hj.
    - injection E as <-. do 2 eexists. split; [reflexivity|]. split; eauto.
    - injection E as <-. do 2 eexists. split; [reflexivity|]. split; eauto.
  Qed.

  Lemma run_sim sched : forall s m thr s', rel s m thr -> c_run s sched = Ret s' ->
    exists m' thr', k_run sz v (m, thr) sched = Ret (m', thr') /\ rel s' m' thr'.
  Proof.
    induction sched as [|i sched IH]; intros s m thr s' R; cbn [c_run k_run].
    - intros E. injection E as <-. eauto.
    - destruct (c_step s i) as [s1| |] eqn:E1; cbn [bind]; try discriminate. intros E.
      destruct (step_sim _ _ _ _ _ R E1) as (m1 & thr1 & K & R'). rewrite K. cbn [bind]. eauto.
  Qed.
End Sim.

(** ** Progress *)
Definition rank (t : kthr) : nat := match t with KCall _ => 3 | KWrite _ _ => 2 | KReturn _ _ => 1 | KDone _ _ => 0 end.
Lemma step_rank sz v m thr i m' thr' : k_step sz v (m, thr) i = Ret (m', thr') ->
  length thr' = length thr /\ forall j t, nth_error thr j = Some t ->
    exists t', nth_error thr' j = Some t' /\ (rank t' <= rank t - (if Nat.eq_dec i j then 1 else 0))%nat.
Proof.
  unfold k_step, assert. intros E.
  assert (G : forall t t', nth_error thr i = Some t -> rank t = S (rank t') -> thr' = upd thr i t' ->
    length thr' = length thr /\ forall j t, nth_error thr j = Some t ->
    exists t', nth_error thr' j = Some t' /\ (rank t' <= rank t - (if Nat.eq_dec i j then 1 else 0))%nat).
  { intros t t' N R ->. split; [apply upd_length|]. intros j u Hu. destruct (Nat.eq_dec i j) as [<-|D].
    - exists t'. rewrite nth_error_upd_eq by (apply nth_error_Some; congruence). split; [reflexivity|].
      assert (u = t) by congruence. subst u. lia.
    - exists u. rewrite nth_error_upd_ne by auto. split; [exact Hu|]. lia. }
  destruct (nth_error thr i) as [[bs|idx bs|idx bs|idx bs]|] eqn:N.
  - destruct (negb (v_sizep v =? 0)); [|discriminate]. destruct (get_bytes m (v_sizep v) 4); [|discriminate].
    destruct (_ <? v_cap v); [|discriminate]. injection E as _ <-. exact (G (KCall bs) (KWrite _ bs) eq_refl eq_refl eq_refl).
  - destruct (idx <? v_cap v); [|discriminate]. destruct (get_bytes _ _ _); [|discriminate]. injection E as _ <-.
    exact (G (KWrite idx bs) (KReturn idx bs) eq_refl eq_refl eq_refl).
  - injection E as _ <-. exact (G (KReturn idx bs) (KDone idx bs) eq_refl eq_refl eq_refl).
  - injection E as _ <-. split; [reflexivity|]. intros j t Hj. exists t. split; [exact Hj|].
    destruct (Nat.eq_dec i j) as [<-|D]; [|lia]. assert (t = KDone idx bs) by congruence. subst t. cbn. lia.
  - injection E as _ <-. split; [reflexivity|]. intros j t Hj. exists t. split; [exact Hj|].
    destruct (Nat.eq_dec i j) as [<-|D]; [congruence|lia].
Qed.
Lemma run_rank sz v sched : forall m thr m' thr', k_run sz v (m, thr) sched = Ret (m', thr') ->
  forall j t, nth_error thr j = Some t ->
    exists t', nth_error thr' j = Some t' /\ (rank t' <= rank t - count_occ Nat.eq_dec sched j)%nat.
Proof.
  induction sched as [|i sched IH]; intros m thr m' thr'; cbn [k_run].
  - intros E. injection E as _ <-. intros j t Hj. exists t. cbn [count_occ]. split; [exact Hj|lia].
  - destruct (k_step sz v (m, thr) i) as [[m1 thr1]| |] eqn:E1; cbn [bind]; try discriminate. intros E j t Hj.
    destruct (step_rank _ _ _ _ _ _ _ E1) as (_ & H). destruct (H j t Hj) as (t1 & H1 & H2).
    destruct (IH _ _ _ _ E j t1 H1) as (t' & H3 & H4). exists t'. split; [exact H3|]. cbn [count_occ].
    destruct (Nat.eq_dec i j); lia.
Qed.
Lemma run_length sz v sched : forall m thr m' thr', k_run sz v (m, thr) sched = Ret (m', thr') -> length thr' = length thr.
Proof.
  induction sched as [|i sched IH]; intros m thr m' thr'; cbn [k_run].
  - intros E. injection E as _ <-. reflexivity.
  - destruct (k_step sz v (m, thr) i) as [[m1 thr1]| |] eqn:E1; cbn [bind]; try discriminate. intros E.
    destruct (step_rank _ _ _ _ _ _ _ E1) as (L & _). rewrite (IH _ _ _ _ E). exact L.
Qed.

(** ** The theorem *)
Lemma done_conv thr : Forall k_done thr -> map conv thr = map push_returned (combine (map (fun t => match t with KDone i _ => i | _ => 0 end) thr) (map k_val thr)).
Proof. induction 1 as [|t thr Ht _ IH]; [reflexivity|]. cbn [map combine]. f_equal; [|exact IH]. destruct t; try contradiction. reflexivity. Qed.

Theorem kernel_thm sz v m old vals sched : 0 < sz -> v_sizep v <> 0 -> v_cap v < 2 ^ 32 ->
  view_size m v (Z.of_nat (length old)) ->
  Forall (fun b => Z.of_nat (length b) = sz) (old ++ vals) ->
  Z.of_nat (length old) + Z.of_nat (length vals) <= v_cap v ->
  acc m (v_ptr v) (v_cap v * sz) -> apart (v_sizep v) 4 (v_ptr v) (v_cap v * sz) ->
  get_bytes m (v_ptr v) (Z.to_nat (Z.of_nat (length old) * sz)) = Some (concat old) ->
  exists m' thr, k_run sz v (m, map KCall vals) sched = Ret (m', thr) /\ length thr = length vals /\
    changes (fun x => within (v_sizep v) 4 x \/ within (v_ptr v + Z.of_nat (length old) * sz) (Z.of_nat (length vals) * sz) x) m m' /\
    same_acc m m' /\
    ((forall i, (i < length vals)%nat -> (3 <= count_occ Nat.eq_dec sched i)%nat) -> Forall k_done thr) /\
    (Forall k_done thr ->
      view_size m' v (Z.of_nat (length old) + Z.of_nat (length vals)) /\
      (forall i t, nth_error thr i = Some t -> exists idx bs, t = KDone idx bs /\ nth_error vals i = Some bs /\
         Z.of_nat (length old) <= idx < Z.of_nat (length old) + Z.of_nat (length vals) /\
         get_bytes m' (v_ptr v + idx * sz) (Z.to_nat sz) = Some bs) /\
      exists new, Permutation new vals /\
        get_bytes m' (v_ptr v) (Z.to_nat ((Z.of_nat (length old) + Z.of_nat (length vals)) * sz)) = Some (concat (old ++ new))).
Proof.
  intros Hsz Hv Hcap (Hs1 & _ & Hs3) HF Hroom Ha2 Hap Hold. replace (v_sizep v =? 0) with false in Hs3 by lia.
  apply Forall_app in HF. destruct HF as (HF1 & HF2).
  set (n0 := Z.of_nat (length old)) in *.
  set (cells := map Val old ++ repeat Raw (Z.to_nat (v_cap v - n0))).
  assert (Hcells : Z.of_nat (length cells) = v_cap v) by (unfold cells; rewrite app_length, map_length, repeat_length; lia).
  set (s := mkD (v_cap v) (Some n0) cells).
  assert (Hh : holds s (map Some old)).
  { split; [exact Hcap|]. split; [cbn; f_equal; unfold len, n0; rewrite map_length; reflexivity|]. split; [exact Hcells|].
    cbn [d_mem s]. unfold cells. rewrite map_length. rewrite firstn_app, map_length, Nat.sub_diag, firstn_O, app_nil_r.
    rewrite firstn_all2 by (rewrite map_length; lia). rewrite map_map. reflexivity. }
  destruct (push_back_thm s (map Some old) vals sched Hh) as (s' & E & Hfin).
  { unfold len. rewrite map_length. exact Hroom. }
  set (P := fun x => within (v_sizep v) 4 x \/ within (v_ptr v + n0 * sz) (Z.of_nat (length vals) * sz) x).
  assert (Ha1 : acc m (v_sizep v) 4) by (apply (get_bytes_acc 4); eauto).
  assert (R0 : rel sz v m P vals n0 (mkC (d_cap s) (len (map Some old)) [d_mem s] (map push_thread vals)) m (map KCall vals)).
  { split; cbn [c_cap c_size c_mem c_thr d_cap d_mem s].
    - reflexivity.
    - unfold len. rewrite map_length. exact Hs3.
    - unfold len. rewrite map_length. fold n0. replace (nclaimed (map KCall vals)) with 0%nat; [lia|].
      clear. induction vals as [|b l IH]; [reflexivity|]. cbn. exact IH.
    - exists cells. split; [reflexivity|]. split; [exact Hcells|]. intros p bs Hp. apply (elements_get_bytes sz m Hsz old); auto.
      unfold cells in Hp. destruct (Nat.lt_ge_cases p (length old)) as [L|L].
      + rewrite nth_error_app1 in Hp by (rewrite map_length; exact L). rewrite nth_error_map in Hp.
        destruct (nth_error old p); cbn in Hp; congruence.
      + rewrite nth_error_app2 in Hp by (rewrite map_length; exact L). apply nth_error_In, repeat_spec in Hp. discriminate.
    - rewrite map_map. reflexivity.
    - rewrite map_map. cbn [k_val]. apply map_id.
    - apply Forall_forall. intros t Ht. apply in_map_iff in Ht. destruct Ht as (b & <- & _). exact I.
    - apply changes_refl.
    - apply same_acc_refl. }
  assert (HR : 0 <= n0 /\ n0 + Z.of_nat (length vals) <= v_cap v) by lia.
  assert (HC : 0 <= v_cap v < 2 ^ 32) by lia.
  destruct (run_sim sz Hsz v Hv HC Hap m Ha1 Ha2 P ltac:(unfold P; tauto) vals n0 ltac:(unfold P; tauto) HF2 HR sched _ _ _ _ R0 E) as (m' & thr & K & R).
  exists m', thr. split; [exact K|]. assert (Hl : length thr = length vals) by (rewrite (run_length _ _ _ _ _ _ _ K), map_length; reflexivity).
  split; [exact Hl|]. destruct R as [R1 R2 R3 (cells' & R4 & R5 & R6) R7 R8 R9 R10 R11].
  split; [exact R10|]. split; [exact R11|]. split.
  - intros Hc. apply Forall_forall. intros t Ht. apply In_nth_error in Ht. destruct Ht as (i & Hi).
    assert (Li : (i < length vals)%nat) by (rewrite <- Hl; apply nth_error_Some; congruence).
    destruct (nth_error vals i) as [b|] eqn:Eb; [|apply nth_error_None in Eb; lia].
    destruct (run_rank sz v sched _ _ _ _ K i (KCall b)) as (t' & H1 & H2); [rewrite nth_error_map, Eb; reflexivity|].
    assert (t' = t) by congruence. subst t'. specialize (Hc i Li). cbn [rank] in H2. destruct t; cbn [rank] in H2; try lia. exact I.
  - intros HD. set (idxs := map (fun t => match t with KDone i _ => i | _ => 0 end) thr).
    destruct (Hfin idxs) as (F1 & F2 & mm & F3 & F4 & F5 & new & F6 & F7).
    { unfold idxs. rewrite map_length. exact Hl. }
    { rewrite R7, (done_conv thr HD), R8. reflexivity. }
    rewrite R4 in F3. injection F3 as F3. subst mm. unfold len in F2. rewrite map_length in F2. fold n0 in F2.
    assert (Hnew : length new = length vals) by (apply Permutation_length; exact F6).
    split; [|split].
    + split; [lia|]. split; [lia|]. replace (v_sizep v =? 0) with false by lia. rewrite R2, F2. reflexivity.
    + intros i t Hi. assert (Ht : k_done t) by (rewrite Forall_forall in HD; eapply HD, nth_error_In, Hi). destruct t as [| | |idx bs]; try contradiction.
      exists idx, bs. split; [reflexivity|]. assert (Hb : nth_error vals i = Some bs) by (rewrite <- R8, nth_error_map, Hi; reflexivity).
      split; [exact Hb|]. assert (Hk : k_idx_ok vals n0 (KDone idx bs)) by (rewrite Forall_forall in R9; eapply R9, nth_error_In, Hi). split; [exact Hk|].
      cbn in Hk. specialize (F4 i bs idx Hb). rewrite <- (R6 (Z.to_nat idx) bs); [rewrite Z2Nat.id by lia; reflexivity|].
      apply F4. unfold idxs. rewrite nth_error_map, Hi. reflexivity.
    + exists new. split; [exact F6|]. replace (n0 + Z.of_nat (length vals)) with (Z.of_nat (length (old ++ new))) by (rewrite app_length; lia).
      apply get_bytes_elements; [exact Hsz|]. intros p bs Hp. apply R6. destruct F7 as (_ & _ & _ & F7). cbn [d_mem] in F7.
      rewrite <- map_app, map_length, map_map in F7. cbn in F7.
      assert (Lp : (p < length (old ++ new))%nat) by (apply nth_error_Some; congruence).
      assert (G : nth_error (firstn (length (old ++ new)) cells') p = Some (Val bs)) by (rewrite F7, nth_error_map, Hp; reflexivity).
      rewrite <- (firstn_skipn (length (old ++ new)) cells'). rewrite nth_error_app1; [exact G|]. apply nth_error_Some. congruence.
Qed.
