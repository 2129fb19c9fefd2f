(** A resizable buffer is created, set up, filled by concurrent threads and copied to the
    host: the models of Placement.v, Copy.v and Kernel.v put together. *)
From Coq Require Import Permutation.
From Verif Require Import Base BaseLemmas IntMath Align Placement PlacementProofs Copy CopyProofs Kernel KernelProofs.
From Verif Require DeviceVectorProofs.

Lemma view_size_change m m' v n (P : Z -> Prop) : changes P m m' -> (forall x, within (v_sizep v) 4 x -> ~ P x) -> view_size m v n -> view_size m' v n.
Proof.
  intros C H (A & B & D). split; [exact A|]. split; [exact B|]. destruct (v_sizep v =? 0); [exact D|].
  rewrite <- D. apply (changes_get _ _ _ _ _ C). exact H.
Qed.

Theorem pipeline_thm sz eal cap w vb b w' vals m q k sched :
  0 < sz -> pow2 eal -> 0 < cap < 2 ^ 32 -> 4 + cap * sz + 2 * Z.max 4 eal < 2 ^ 64 ->
  Forall (fun x => Z.of_nat (length x) = sz) vals -> Z.of_nat (length vals) <= cap ->
  vector_buffer sz eal cap true w = (Ret (vb, Some b), w') -> upstream_ok (ulog w') ->
  acc m (bptr b) (bsize b) ->
  let n := Z.of_nat (length vals) * sz in
  (vals <> [] -> q <> 0 /\ kind_check m k (m_dev m (Placement.v_ptr vb)) (m_dev m q) = true) ->
  acc m q n -> apart (bptr b) (bsize b) q n ->
  (forall i, (i < length vals)%nat -> (3 <= count_occ Nat.eq_dec sched i)%nat) ->
  let v := mkV (Placement.v_cap vb) (Placement.v_size vb) (Placement.v_ptr vb) in
  exists m1 m2 thr m3 new,
    setup_vector v m = (Ret tt, m1) /\
    k_run sz v (m1, map KCall vals) sched = Ret (m2, thr) /\
    copy_to_vec sz k v q m2 = (Ret (Z.of_nat (length vals)), m3) /\
    Permutation new vals /\ get_bytes m3 q (Z.to_nat n) = Some (concat new) /\
    changes (fun x => within (bptr b) (bsize b) x \/ within q n x) m m3.
Proof.
  intros Hsz Hal Hcap Hbig HF Hfit Eb Hup Hacc n Hq Hqa Hqp Hsched v.
  destruct (vector_buffer_thm sz eal cap true w _ w' Hsz Hal ltac:(lia) Hbig Eb Hup) as [(C & _)|H]; [discriminate|].
  destruct H as (v' & b' & E & _ & B1 & B2 & _ & B3 & _ & B4). injection E as <- <-.
  destruct (B4 eq_refl) as (B5 & _ & B6 & B7). clear B4. unfold inside, overlap, in_block in *. cbn [bptr bsize] in *.
  assert (V1 : v_sizep v <> 0) by (unfold v; cbn [v_sizep]; lia).
  assert (Vc : v_cap v = cap) by exact B1.
  assert (HS : forall x, within (v_sizep v) 4 x -> within (bptr b) (bsize b) x) by (unfold v, within; cbn [v_sizep]; intros; nia).
  assert (HP : forall x, within (v_ptr v) (cap * sz) x -> within (bptr b) (bsize b) x) by (unfold v, within; cbn [v_ptr]; intros; nia).
  assert (Ha1 : acc m (v_sizep v) 4) by (intros x Hx; apply Hacc; apply HS; exact Hx).
  assert (Ha2 : acc m (v_ptr v) (cap * sz)) by (intros x Hx; apply Hacc; apply HP; exact Hx).
  assert (Hap : apart (v_sizep v) 4 (v_ptr v) (cap * sz)).
  { intros x (X1 & X2). apply B7. unfold v in X1, X2. cbn [v_sizep v_ptr] in X1, X2. first [exists x; lia | nia]. }
  destruct (setup_vector_thm v m) as (m1 & S1 & S2 & S3 & _); [lia|auto|].
  specialize (S3 V1 ltac:(lia)).
  assert (SA : same_acc m m1).
  { destruct S2 as (S2 & _). intros x. destruct (Z_lt_dec x (v_sizep v)) as [L|L]; [|destruct (Z_lt_dec x (v_sizep v + 4)) as [L'|L']].
    - rewrite S2; [tauto|]. unfold within. lia.
    - destruct S3 as (_ & _ & S3). replace (v_sizep v =? 0) with false in S3 by lia.
      assert (A : acc m1 (v_sizep v) 4) by (apply (get_bytes_acc 4); eauto).
      specialize (A x ltac:(lia)). specialize (Ha1 x ltac:(lia)). tauto.
    - rewrite S2; [tauto|]. unfold within. lia. }
  destruct (kernel_thm sz v m1 [] vals sched) as (m2 & thr & K1 & _ & K2 & K3 & K4 & K5); cbn [length Z.of_nat app]; auto; try lia.
  { rewrite Vc. apply (acc_same m m1); assumption. }
  { rewrite Vc. exact Hap. }
  specialize (K5 (K4 Hsched)). destruct K5 as (K5 & _ & new & K6 & K7). cbn [length Z.of_nat app] in K2, K5, K7.
  rewrite Z.add_0_l in K5, K7. fold n in K7. rewrite Z.mul_0_l, Z.add_0_r in K2. fold n in K2.
  assert (Hn : 0 <= n <= cap * sz) by (unfold n; nia).
  assert (C12 : changes (fun x => within (bptr b) (bsize b) x) m m2).
  { eapply changes_weaken; [eapply changes_trans; [exact S2|exact K2]|]. cbn beta. intros x [(_ & X)|[X|X]]; auto. apply HP. unfold within in *. lia. }
  destruct (do_copy_ok k n (v_ptr v) q m2) as (m3 & D1 & D2 & D3 & D4).
  - lia.
  - intros Hp. split; [unfold v; cbn [v_ptr]; lia|]. destruct Hq as (Q1 & Q2); [intros ->; unfold n in Hp; cbn in Hp; lia|].
    split; [exact Q1|]. destruct C12 as (_ & C1 & C2). unfold kind_check in *. rewrite C1, C2. exact Q2.
  - apply (acc_same m m2); [eapply same_acc_trans; eauto|]. intros x Hx. apply Ha2. lia.
  - apply (acc_same m m2); [eapply same_acc_trans; eauto|exact Hqa].
  - intros x (X1 & X2). apply (Hqp x). split; [|exact X2]. apply HP. unfold within. lia.
  - exists m1, m2, thr, m3, new. split; [exact S1|]. split; [exact K1|]. split.
    { unfold copy_to_vec. rewrite (get_size_ok _ _ _ K5). cbn [cbind]. fold n. rewrite D1. reflexivity. }
    split; [exact K6|]. split.
    { rewrite <- K7. apply get_bytes_ext. intros i Hi. apply D4. lia. }
    eapply changes_trans; eauto.
Qed.
