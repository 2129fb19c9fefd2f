(** Proofs about vecmem::copy for vectors and jagged vectors. *)
From Verif Require Import Base BaseLemmas Copy.

(** ** Vocabulary of the statements *)
(** All bytes of [a .. a+n) are accessible. *)
Definition acc (m : cmem) (a n : Z) : Prop := forall x, a <= x < a + n -> m_byte m x <> None.
(** Two ranges of bytes have no byte in common. *)
Definition apart (a n b k : Z) : Prop := forall x, ~ (a <= x < a + n /\ b <= x < b + k).
(** [m'] differs from [m] at most on the addresses in [P]. *)
Definition changes (P : Z -> Prop) (m m' : cmem) : Prop :=
  (forall x, ~ P x -> m_byte m' x = m_byte m x) /\ m_dev m' = m_dev m /\ m_strict m' = m_strict m.
Definition within (a n x : Z) : Prop := a <= x < a + n.

(** The size that a view has in a memory. *)
Definition view_size (m : cmem) (v : vview) (n : Z) : Prop :=
  0 <= n <= v_cap v /\ v_cap v < 2 ^ 32 /\
  if v_sizep v =? 0 then n = v_cap v else get_bytes m (v_sizep v) 4 = Some (le32 n).

(** ** Bytes *)
Lemma get_bytes_len n : forall m a bs, get_bytes m a n = Some bs -> length bs = n.
Proof.
  induction n as [|n IH]; intros m a bs; cbn [get_bytes]; [intros E; injection E as <-; reflexivity|].
  destruct (m_byte m a); [|discriminate]. destruct (get_bytes m (a + 1) n) eqn:E; [|discriminate].
  intros E'. injection E' as <-. cbn. f_equal. exact (IH _ _ _ E).
Qed.
Lemma get_bytes_ext n : forall m m' a a', (forall i, 0 <= i < Z.of_nat n -> m_byte m' (a' + i) = m_byte m (a + i)) ->
  get_bytes m' a' n = get_bytes m a n.
Proof.
  induction n as [|n IH]; intros m m' a a' H; cbn [get_bytes]; [reflexivity|].
  pose proof (H 0 ltac:(lia)) as H0. rewrite !Z.add_0_r in H0. rewrite H0.
  rewrite (IH m m' (a + 1) (a' + 1)); [reflexivity|]. intros i Hi. replace (a' + 1 + i) with (a' + (1 + i)) by lia.
  replace (a + 1 + i) with (a + (1 + i)) by lia. apply H. lia.
Qed.
Lemma get_bytes_acc n m a : (exists bs, get_bytes m a n = Some bs) <-> acc m a (Z.of_nat n).
Proof.
  revert a. induction n as [|n IH]; intros a; cbn [get_bytes].
  - split; [|eexists; reflexivity]. intros _ x Hx. lia.
  - split.
    + intros (bs & E). destruct (m_byte m a) as [b|] eqn:Eb; [|discriminate]. destruct (get_bytes m (a + 1) n) as [l|] eqn:El; [|discriminate].
      intros x Hx. destruct (Z.eq_dec x a) as [->|Hn]; [congruence|]. apply (proj1 (IH (a + 1)) (ex_intro _ l El)). lia.
    + intros H. destruct (m_byte m a) as [b|] eqn:Eb; [|exfalso; apply (H a); [lia|auto]].
      assert (A : acc m (a + 1) (Z.of_nat n)) by (intros x Hx; apply H; lia). apply IH in A. destruct A as (l & ->). eexists. reflexivity.
Qed.
Lemma get_bytes_nth n m a bs i : get_bytes m a n = Some bs -> 0 <= i < Z.of_nat n -> m_byte m (a + i) = nth_error bs (Z.to_nat i).
Proof.
  revert a bs i. induction n as [|n IH]; intros a bs i; [lia|]. cbn [get_bytes].
  destruct (m_byte m a) as [b|] eqn:Eb; [|discriminate]. destruct (get_bytes m (a + 1) n) as [l|] eqn:El; [|discriminate].
  intros E Hi. injection E as <-. destruct (Z.eq_dec i 0) as [->|Hn]; [rewrite Z.add_0_r; exact Eb|].
  replace (Z.to_nat i) with (S (Z.to_nat (i - 1))) by lia. cbn [nth_error]. rewrite <- (IH (a + 1) l (i - 1) El) by lia. f_equal. lia.
Qed.
Lemma get_bytes_put m a bs : get_bytes (put_bytes m a bs) a (length bs) = Some bs.
Proof.
  assert (G : forall pre suf, get_bytes (put_bytes m a (pre ++ suf)) (a + Z.of_nat (length pre)) (length suf) = Some suf).
  { intros pre suf. revert pre. induction suf as [|b suf IH]; intros pre; [reflexivity|]. cbn [length get_bytes].
    unfold put_bytes at 1. cbn [m_byte]. rewrite app_length. cbn [length].
    match goal with |- context [if ?c then _ else _] => replace c with true by lia end.
    replace (Z.to_nat (a + Z.of_nat (length pre) - a)) with (length pre) by lia. rewrite nth_error_app2, Nat.sub_diag by lia. cbn [nth_error].
    specialize (IH (pre ++ [b])). rewrite <- app_assoc in IH. cbn [app] in IH. rewrite app_length in IH. cbn [length] in IH.
    replace (a + Z.of_nat (length pre) + 1) with (a + Z.of_nat (length pre + 1)) by lia. rewrite IH. reflexivity. }
  specialize (G [] bs). cbn [length app] in G. change (Z.of_nat 0) with 0 in G. rewrite Z.add_0_r in G. exact G.
Qed.
Lemma put_bytes_changes m a bs : changes (within a (Z.of_nat (length bs))) m (put_bytes m a bs).
Proof.
  split; [|split; reflexivity]. intros x Hx. unfold put_bytes. cbn [m_byte]. unfold within in Hx.
  replace ((a <=? x) && (x <? a + Z.of_nat (length bs))) with false by lia. reflexivity.
Qed.
Lemma changes_refl P m : changes P m m.
Proof. split; [reflexivity|split; reflexivity]. Qed.
Lemma changes_trans (P Q : Z -> Prop) m1 m2 m3 : changes P m1 m2 -> changes Q m2 m3 -> changes (fun x => P x \/ Q x) m1 m3.
Proof.
  intros (A1 & A2 & A3) (B1 & B2 & B3). split; [|split; congruence]. intros x Hx. rewrite B1 by tauto. apply A1. tauto.
Qed.
Lemma changes_weaken (P Q : Z -> Prop) m m' : changes P m m' -> (forall x, P x -> Q x) -> changes Q m m'.
Proof. intros (A1 & A2 & A3) H. split; [|auto]. intros x Hx. apply A1. intros C. apply Hx, H, C. Qed.
Lemma changes_get (P : Z -> Prop) m m' a n : changes P m m' -> (forall x, within a (Z.of_nat n) x -> ~ P x) -> get_bytes m' a n = get_bytes m a n.
Proof. intros (A1 & _) H. apply get_bytes_ext. intros i Hi. apply A1, H. unfold within. lia. Qed.
(** Accessibility is never changed by a write to accessible bytes. *)
Definition same_acc (m m' : cmem) : Prop := forall x, m_byte m' x = None <-> m_byte m x = None.
Lemma put_bytes_acc m a bs : acc m a (Z.of_nat (length bs)) -> same_acc m (put_bytes m a bs).
Proof.
  intros H x. unfold put_bytes. cbn [m_byte]. destruct ((a <=? x) && (x <? a + Z.of_nat (length bs))) eqn:E; [|tauto].
  split; intros C; exfalso.
  - apply nth_error_None in C. lia.
  - apply (H x); [lia|auto].
Qed.
Lemma acc_same m m' a n : same_acc m m' -> acc m a n -> acc m' a n.
Proof. intros S H x Hx C. apply S in C. exact (H x Hx C). Qed.
Lemma same_acc_trans m1 m2 m3 : same_acc m1 m2 -> same_acc m2 m3 -> same_acc m1 m3.
Proof. intros A B x. rewrite (B x). apply A. Qed.
Lemma same_acc_refl m : same_acc m m.
Proof. intros x. tauto. Qed.
Lemma acc_sub m a n b k : acc m a n -> a <= b -> b + k <= a + n -> acc m b k.
Proof. intros H H1 H2 x Hx. apply H. lia. Qed.
Lemma acc_get m a n : 0 <= n -> acc m a n -> exists bs, get_bytes m a (Z.to_nat n) = Some bs.
Proof. intros Hn H. apply get_bytes_acc. rewrite Z2Nat.id by lia. exact H. Qed.

(** ** The primitive operations *)
Lemma do_copy_ok k n src dst m : 0 <= n -> (0 < n -> src <> 0 /\ dst <> 0 /\ kind_check m k (m_dev m src) (m_dev m dst) = true) ->
  acc m src n -> acc m dst n -> apart src n dst n ->
  exists m', do_copy k n src dst m = (Ret tt, m') /\ changes (within dst n) m m' /\ same_acc m m' /\
             forall i, 0 <= i < n -> m_byte m' (dst + i) = m_byte m (src + i).
Proof.
  intros Hn H0 Hs Hd Ha. unfold do_copy. destruct (n =? 0) eqn:En.
  - exists m. split; [reflexivity|]. split; [apply changes_refl|]. split; [apply same_acc_refl|]. intros i Hi. lia.
  - destruct (H0 ltac:(lia)) as (H1 & H2 & H3). replace ((src =? 0) || (dst =? 0)) with false by lia.
    destruct (acc_get m src n Hn Hs) as (bs & Eb). destruct (acc_get m dst n Hn Hd) as (od & Eo). rewrite Eb, Eo.
    assert (Ov : (src <? dst + n) && (dst <? src + n) = false).
    { destruct ((src <? dst + n) && (dst <? src + n)) eqn:E; [|reflexivity]. exfalso. apply (Ha (Z.max src dst)). lia. }
    rewrite Ov, H3. exists (put_bytes m dst bs). split; [reflexivity|].
    pose proof (get_bytes_len _ _ _ _ Eb) as Lb. assert (Ln : Z.of_nat (length bs) = n) by lia.
    split; [rewrite <- Ln; apply put_bytes_changes|]. split; [apply put_bytes_acc; rewrite Ln; auto|].
    intros i Hi. rewrite (get_bytes_nth _ _ _ _ i Eb) by lia.
    pose proof (get_bytes_put m dst bs) as G. rewrite (get_bytes_nth _ _ _ _ i G) by lia. reflexivity.
Qed.
Lemma do_copy_in_ok k bs dst m : bs <> [] -> dst <> 0 -> kind_check m k false (m_dev m dst) = true -> acc m dst (Z.of_nat (length bs)) ->
  exists m', do_copy_in k bs dst m = (Ret tt, m') /\ changes (within dst (Z.of_nat (length bs))) m m' /\ same_acc m m' /\
             get_bytes m' dst (length bs) = Some bs.
Proof.
  intros Hb Hd Hk Ha. unfold do_copy_in. destruct bs as [|b bs]; [congruence|]. replace (dst =? 0) with false by lia.
  apply get_bytes_acc in Ha. destruct Ha as (od & Eo). rewrite Eo, Hk. eexists. split; [reflexivity|].
  split; [apply put_bytes_changes|]. split; [apply put_bytes_acc, get_bytes_acc; eauto|]. apply get_bytes_put.
Qed.
Lemma do_copy_out_ok n src m bs : src <> 0 -> get_bytes m src (Z.to_nat n) = Some bs -> do_copy_out type_unknown n src m = (Ret bs, m).
Proof.
  intros Hs Hb. unfold do_copy_out. replace (src =? 0) with false by lia. rewrite Hb. unfold kind_check. cbn [kind_ok].
  rewrite Bool.orb_true_r. reflexivity.
Qed.
Lemma do_memset_ok n dst value m : 0 <= n -> (0 < n -> dst <> 0) -> acc m dst n ->
  exists m', do_memset n dst value m = (Ret tt, m') /\ changes (within dst n) m m' /\ same_acc m m' /\
             forall x, within dst n x -> m_byte m' x = Some (value mod 256).
Proof.
  intros Hn H0 Ha. unfold do_memset. destruct (n =? 0) eqn:En.
  - exists m. split; [reflexivity|]. split; [apply changes_refl|]. split; [apply same_acc_refl|]. intros x Hx. unfold within in Hx. lia.
  - specialize (H0 ltac:(lia)). replace (dst =? 0) with false by lia. destruct (acc_get m dst n Hn Ha) as (od & Eo). rewrite Eo.
    assert (L : Z.of_nat (length (repeat (value mod 256) (Z.to_nat n))) = n) by (rewrite repeat_length; lia).
    eexists. split; [reflexivity|]. split; [rewrite <- L at 1; apply put_bytes_changes|]. split; [apply put_bytes_acc; rewrite L; auto|].
    intros x Hx. unfold within in Hx. unfold put_bytes. cbn [m_byte]. rewrite L.
    replace ((dst <=? x) && (x <? dst + n)) with true by lia. rewrite nth_error_repeat by lia. reflexivity.
Qed.

Lemma le32_len n : length (le32 n) = 4%nat. Proof. reflexivity. Qed.
Lemma unle32_le32 n : 0 <= n < 2 ^ 32 -> unle32 (le32 n) = n.
Proof.
  intros H. unfold le32, unle32.
  pose proof (Z.div_mod n 256 ltac:(lia)) as E1. pose proof (Z.div_mod (n / 256) 256 ltac:(lia)) as E2.
  pose proof (Z.div_mod (n / 65536) 256 ltac:(lia)) as E3.
  replace (n / 256 / 256) with (n / 65536) in E2 by (rewrite Z.div_div by lia; reflexivity).
  replace (n / 65536 / 256) with (n / 16777216) in E3 by (rewrite Z.div_div by lia; reflexivity).
  assert (E4 : (n / 16777216) mod 256 = n / 16777216).
  { apply Z.mod_small. split; [apply Z.div_pos; lia|]. apply Z.div_lt_upper_bound; lia. }
  rewrite E4. lia.
Qed.

(** ** Vectors *)
Lemma get_size_ok m v n : view_size m v n -> get_size v m = (Ret n, m).
Proof.
  intros (H1 & H2 & H3). unfold get_size. destruct (v_sizep v =? 0) eqn:E; [congruence|].
  rewrite (do_copy_out_ok 4 (v_sizep v) m (le32 n)) by (auto; lia). cbn [cbind]. rewrite unle32_le32 by lia. reflexivity.
Qed.
Lemma size_kind m k (sd td : bool) : kind_check m k sd td = true -> kind_check m (size_cptype k) false td = true.
Proof. unfold kind_check. destruct (m_strict m), k, sd, td; cbn; auto. Qed.

Theorem copy_vector_thm sz k from to m n data : 0 < sz -> view_size m from n -> 0 < n <= v_cap to -> v_cap to < 2 ^ 32 ->
  v_ptr from <> 0 -> v_ptr to <> 0 ->
  get_bytes m (v_ptr from) (Z.to_nat (n * sz)) = Some data -> acc m (v_ptr to) (n * sz) ->
  apart (v_ptr from) (n * sz) (v_ptr to) (n * sz) ->
  kind_check m k (m_dev m (v_ptr from)) (m_dev m (v_ptr to)) = true ->
  (v_sizep to <> 0 -> acc m (v_sizep to) 4 /\ m_dev m (v_sizep to) = m_dev m (v_ptr to) /\
     apart (v_sizep to) 4 (v_ptr from) (n * sz) /\ apart (v_sizep to) 4 (v_ptr to) (n * sz)) ->
  exists m', copy_vector sz k from to m = (Ret true, m') /\
    get_bytes m' (v_ptr to) (Z.to_nat (n * sz)) = Some data /\
    (v_sizep to <> 0 -> view_size m' to n) /\
    changes (fun x => within (v_ptr to) (n * sz) x \/ (v_sizep to <> 0 /\ within (v_sizep to) 4 x)) m m'.
Proof.
  intros Hz Hs Hn Hc Hf Ht Hd Ha Hap Hk Hsz. assert (Hnz : 0 < n * sz) by (apply Z.mul_pos_pos; lia).
  unfold copy_vector. rewrite (get_size_ok _ _ _ Hs). cbn [cbind]. replace (n =? 0) with false by lia. replace (v_cap to <? n) with false by lia.
  set (step1 := if v_sizep to =? 0 then _ else _).
  assert (S1 : exists m1, step1 = (Ret tt, m1) /\
     changes (fun x => v_sizep to <> 0 /\ within (v_sizep to) 4 x) m m1 /\ same_acc m m1 /\
     (v_sizep to <> 0 -> get_bytes m1 (v_sizep to) 4 = Some (le32 n))).
  { unfold step1. destruct (v_sizep to =? 0) eqn:E.
    - exists m. split; [reflexivity|]. split; [apply changes_refl|]. split; [apply same_acc_refl|]. lia.
    - destruct (Hsz ltac:(lia)) as (A1 & A2 & A3 & A4).
      destruct (do_copy_in_ok (size_cptype k) (le32 n) (v_sizep to) m) as (m1 & G & C & S & B).
      + discriminate.
      + lia.
      + rewrite A2. apply (size_kind m k (m_dev m (v_ptr from))). auto.
      + rewrite le32_len. auto.
      + exists m1. split; [exact G|]. rewrite le32_len in C, B. split; [|split; [auto|auto]]. apply (changes_weaken _ _ _ _ C). intros x Hx. split; [lia|auto]. }
  destruct S1 as (m1 & G1 & C1 & S1 & B1). rewrite G1. cbn [cbind].
  pose proof C1 as (C1a & C1b & C1c).
  assert (Hacc : acc m (v_ptr from) (n * sz)).
  { replace (n * sz) with (Z.of_nat (Z.to_nat (n * sz))) by lia. apply get_bytes_acc. eauto. }
  destruct (do_copy_ok k (n * sz) (v_ptr from) (v_ptr to) m1) as (m2 & G2 & C2 & S2 & B2).
  - lia.
  - intros _. split; [auto|]. split; [auto|]. unfold kind_check in *. rewrite C1b, C1c. auto.
  - apply (acc_same m); auto.
  - apply (acc_same m); auto.
  - auto.
  - rewrite G2. cbn [cbind]. exists m2. split; [reflexivity|].
    assert (U : forall x, within (v_ptr from) (n * sz) x -> ~ (v_sizep to <> 0 /\ within (v_sizep to) 4 x)).
    { intros x Hx (E & Hx'). destruct (Hsz E) as (_ & _ & A3 & _). apply (A3 x). auto. }
    split; [|split].
    + rewrite <- Hd. apply get_bytes_ext. intros i Hi. rewrite B2 by lia. apply C1a, U. unfold within. lia.
    + intros E. split; [lia|]. split; [auto|]. replace (v_sizep to =? 0) with false by lia. rewrite <- (B1 E).
      apply (changes_get _ _ _ _ _ C2). intros x Hx Hx'. destruct (Hsz E) as (_ & _ & _ & A4). apply (A4 x). auto.
    + apply (changes_weaken _ _ _ _ (changes_trans _ _ _ _ _ C1 C2)). tauto.
Qed.

(** A source that is too large is reported before anything is written. *)
Theorem copy_vector_too_large sz k from to m n : view_size m from n -> v_cap to < n -> 0 <= v_cap to ->
  copy_vector sz k from to m = (Throw length_error, m).
Proof.
  intros Hs Hn Hc. unfold copy_vector. rewrite (get_size_ok _ _ _ Hs). cbn [cbind]. replace (n =? 0) with false by lia.
  replace (v_cap to <? n) with true by lia. reflexivity.
Qed.
(** An empty source changes nothing. *)
Theorem copy_vector_empty sz k from to m : view_size m from 0 -> copy_vector sz k from to m = (Ret false, m).
Proof. intros Hs. unfold copy_vector. rewrite (get_size_ok _ _ _ Hs). reflexivity. Qed.

(** Round trip: vector to buffer and back.  [p] and [q] are the addresses of the new
    buffer and of the target vector. *)
Theorem round_trip_thm sz k1 k2 v m data p q : 0 < sz -> v_sizep v = 0 -> 0 <= v_cap v < 2 ^ 32 ->
  let n := v_cap v * sz in
  get_bytes m (v_ptr v) (Z.to_nat n) = Some data -> (0 < n -> v_ptr v <> 0 /\ p <> 0 /\ q <> 0) ->
  acc m p n -> acc m q n -> apart (v_ptr v) n p n -> apart p n q n -> 
  kind_check m k1 (m_dev m (v_ptr v)) (m_dev m p) = true -> kind_check m k2 (m_dev m p) (m_dev m q) = true ->
  exists b m1 m2, to_buffer sz k1 v p m = (Ret b, m1) /\ v_cap b = v_cap v /\ v_sizep b = 0 /\ v_ptr b = p /\
    copy_to_vec sz k2 b q m1 = (Ret (v_cap v), m2) /\ get_bytes m2 q (Z.to_nat n) = Some data /\
    changes (fun x => within p n x \/ within q n x) m m2.
Proof.
  intros Hz Hp Hc n Hd H0 Ap Aq A1 A2 K1 K2.
  assert (Hs : view_size m v (v_cap v)) by (split; [lia|]; split; [lia|]; rewrite Hp; reflexivity).
  unfold to_buffer. rewrite (get_size_ok _ _ _ Hs). cbn [cbind]. unfold setup_vector. cbn [v_sizep v_cap Z.eqb orb cbind].
  set (b := mkV (v_cap v) 0 p).
  assert (S : exists m1, cbind (copy_vector sz k1 v b m) (fun _ m => (Ret b, m)) = (Ret b, m1) /\
     get_bytes m1 p (Z.to_nat n) = Some data /\ changes (within p n) m m1 /\ (0 < n -> acc m1 q n)).
  { destruct (Z.eq_dec (v_cap v) 0) as [E|E].
    - assert (En : n = 0) by (unfold n; rewrite E; reflexivity).
      rewrite E in Hs. rewrite (copy_vector_empty sz k1 v b m Hs). cbn [cbind]. exists m. split; [reflexivity|].
      rewrite En in *. cbn in Hd. injection Hd as <-. split; [reflexivity|]. split; [apply changes_refl|lia].
    - assert (Hn : 0 < n) by (apply Z.mul_pos_pos; lia). destruct (H0 Hn) as (P1 & P2 & P3).
      destruct (copy_vector_thm sz k1 v b m (v_cap v) data) as (m1 & G & D & _ & C); auto; try lia.
      + cbn [v_cap b]. lia.
      + cbn [v_cap b]. lia.
      + cbn [v_sizep b]. lia.
      + rewrite G. cbn [cbind]. exists m1. split; [reflexivity|]. split; [exact D|]. split.
        * apply (changes_weaken _ _ _ _ C). intros x [Hx|(Hx & _)]; [exact Hx|]. cbn in Hx. lia.
        * intros _ x Hx. destruct C as (C & _). rewrite C; [apply Aq; auto|]. intros [Hx'|(Hx' & _)]; [|cbn in Hx'; lia].
          cbn [v_ptr b] in Hx'. apply (A2 x). fold n in Hx'. auto. }
  destruct S as (m1 & G1 & D1 & C1 & Aq1). exists b, m1.
  assert (Hsb : view_size m1 b (v_cap v)) by (split; [cbn; lia|]; split; [cbn; lia|]; reflexivity).
  destruct C1 as (C1a & C1b & C1c).
  destruct (do_copy_ok k2 n p q m1) as (m2 & G2 & C2 & _ & B2).
  - unfold n. apply Z.mul_nonneg_nonneg; lia.
  - intros Hn. destruct (H0 Hn) as (P1 & P2 & P3). split; [auto|]. split; [auto|]. unfold kind_check in *. rewrite C1b, C1c. auto.
  - assert (0 <= n) by (unfold n; apply Z.mul_nonneg_nonneg; lia). replace n with (Z.of_nat (Z.to_nat n)) by lia. apply get_bytes_acc. eauto.
  - destruct (Z.le_gt_cases n 0) as [E|E]; [intros x Hx; lia|auto].
  - auto.
  - exists m2. split; [exact G1|]. split; [reflexivity|]. split; [reflexivity|]. split; [reflexivity|]. unfold copy_to_vec.
    rewrite (get_size_ok _ _ _ Hsb). cbn [cbind v_ptr b]. fold n. rewrite G2. cbn [cbind]. split; [reflexivity|]. split.
    + rewrite <- D1. assert (0 <= n) by (unfold n; apply Z.mul_nonneg_nonneg; lia). apply get_bytes_ext. intros i Hi. apply B2. lia.
    + apply changes_trans with (m2 := m1); auto. split; auto.
Qed.

(** memset and setup of a vector. *)
Theorem memset_vector_thm sz v value m : 0 < sz -> 0 <= v_cap v -> (0 < v_cap v -> v_ptr v <> 0) -> acc m (v_ptr v) (v_cap v * sz) ->
  exists m', memset_vector sz v value m = (Ret tt, m') /\ changes (within (v_ptr v) (v_cap v * sz)) m m' /\
    forall x, within (v_ptr v) (v_cap v * sz) x -> m_byte m' x = Some (value mod 256).
Proof.
  intros Hz Hc H0 Ha. unfold memset_vector. destruct (v_cap v =? 0) eqn:E.
  - exists m. split; [reflexivity|]. split; [apply changes_refl|]. intros x Hx. unfold within in Hx. replace (v_cap v) with 0 in Hx by lia. lia.
  - destruct (do_memset_ok (v_cap v * sz) (v_ptr v) value m) as (m' & G & C & _ & B).
    + apply Z.mul_nonneg_nonneg; lia.
    + intros _. apply H0. lia.
    + auto.
    + exists m'. auto.
Qed.
Theorem setup_vector_thm v m : 0 <= v_cap v < 2 ^ 32 -> (v_sizep v <> 0 -> acc m (v_sizep v) 4) ->
  exists m', setup_vector v m = (Ret tt, m') /\ changes (fun x => v_sizep v <> 0 /\ within (v_sizep v) 4 x) m m' /\
    (v_sizep v <> 0 -> 0 < v_cap v -> view_size m' v 0) /\ (v_sizep v = 0 -> m' = m).
Proof.
  intros Hc Ha. unfold setup_vector. destruct ((v_sizep v =? 0) || (v_cap v =? 0)) eqn:E.
  - exists m. split; [reflexivity|]. split; [apply changes_refl|]. split; [lia|auto].
  - destruct (do_memset_ok 4 (v_sizep v) 0 m) as (m' & G & C & _ & B); [lia|lia|apply Ha; lia|].
    exists m'. split; [exact G|]. split; [apply (changes_weaken _ _ _ _ C); intros x Hx; split; [lia|auto]|]. split; [|lia].
    intros _ Hp. split; [lia|]. split; [lia|]. replace (v_sizep v =? 0) with false by lia.
    cbn [get_bytes]. rewrite !B by (unfold within; lia). reflexivity.
Qed.
