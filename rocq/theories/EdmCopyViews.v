(** Copies of SoA containers variable by variable: between host containers and buffers, or
    between buffers of different layouts. *)
From Verif Require Import Base BaseLemmas Placement EdmBuffer Copy CopyProofs CopyJaggedProofs CopyJaggedTheorems EdmCopy.

(** ** Copies do not change what is accessible *)
Lemma do_copy_same k n s d m r m' : do_copy k n s d m = (r, m') -> same_acc m m'.
Proof.
  unfold do_copy. intros E. destruct (n =? 0); [injection E as <- <-; apply same_acc_refl|].
  destruct ((s =? 0) || (d =? 0)); [injection E as <- <-; apply same_acc_refl|].
  destruct (get_bytes m s (Z.to_nat n)) as [bs|] eqn:E1; [|injection E as <- <-; apply same_acc_refl].
  destruct (get_bytes m d (Z.to_nat n)) as [bd|] eqn:E2; [|injection E as <- <-; apply same_acc_refl].
  destruct (_ && _); [injection E as <- <-; apply same_acc_refl|].
  destruct (kind_check _ _ _ _); injection E as <- <-; [|apply same_acc_refl].
  apply put_bytes_acc. rewrite (get_bytes_len _ _ _ _ E1). apply get_bytes_acc. eauto.
Qed.
Lemma do_copy_in_same k bs d m r m' : do_copy_in k bs d m = (r, m') -> same_acc m m'.
Proof.
  unfold do_copy_in. intros E. destruct bs as [|b0 bs]; [injection E as <- <-; apply same_acc_refl|].
  destruct (d =? 0); [injection E as <- <-; apply same_acc_refl|].
  destruct (get_bytes m d (length (b0 :: bs))) as [bd|] eqn:E2; [|injection E as <- <-; apply same_acc_refl].
  destruct (kind_check _ _ _ _); injection E as <- <-; [|apply same_acc_refl].
  apply put_bytes_acc, get_bytes_acc. eauto.
Qed.
Lemma do_copy_out_same k n s m r m' : do_copy_out k n s m = (r, m') -> m' = m.
Proof.
  unfold do_copy_out. intros E. destruct (s =? 0); [congruence|]. destruct (get_bytes m s (Z.to_nat n)); [|congruence].
  destruct (kind_check _ _ _ _); congruence.
Qed.
Lemma cbind_same {A B} (a : cm A) (f : A -> cmem -> cm B) m r m' : (forall x m1, a = (x, m1) -> same_acc m m1) ->
  (forall x m1 r m2, f x m1 = (r, m2) -> same_acc m1 m2) -> cbind a f = (r, m') -> same_acc m m'.
Proof.
  intros H1 H2 E. destruct a as [[x| |] m1]; cbn [cbind] in E.
  - apply (same_acc_trans _ m1); [apply (H1 _ _ eq_refl)|apply (H2 _ _ _ _ E)].
  - injection E as <- <-. apply (H1 _ _ eq_refl).
  - injection E as <- <-. apply (H1 _ _ eq_refl).
Qed.
Lemma ret_same {A} (x : outcome A) m r m' : (x, m) = (r, m') -> same_acc m m'.
Proof. intros E. injection E as <- <-. apply same_acc_refl. Qed.
Lemma get_size_same v m r m' : get_size v m = (r, m') -> same_acc m m'.
Proof.
  unfold get_size. destruct (v_sizep v =? 0); [apply ret_same|]. apply cbind_same; [|intros; eapply ret_same; eauto].
  intros x m1 E. rewrite (do_copy_out_same _ _ _ _ _ _ E). apply same_acc_refl.
Qed.
Lemma copy_vector_same sz k f t m r m' : copy_vector sz k f t m = (r, m') -> same_acc m m'.
Proof.
  unfold copy_vector. apply cbind_same; [intros; eapply get_size_same; eauto|]. intros n m1 r1 m2.
  destruct (n =? 0); [apply ret_same|]. destruct (v_cap t <? n); [apply ret_same|].
  apply cbind_same; [destruct (v_sizep t =? 0); intros x m3 E; [eapply ret_same; eauto|eapply do_copy_in_same; eauto]|].
  intros x m3 r2 m4. apply cbind_same; [intros; eapply do_copy_same; eauto|intros; eapply ret_same; eauto].
Qed.
Lemma get_sizes_from_same l : forall m r m', get_sizes_from l m = (r, m') -> same_acc m m'.
Proof.
  induction l as [|v l IH]; intros m r m'; cbn [get_sizes_from]; [apply ret_same|]. destruct (negb _ && negb _).
  - apply cbind_same; [|intros; eapply ret_same; eauto]. intros x m1 E. rewrite (do_copy_out_same _ _ _ _ _ _ E). apply same_acc_refl.
  - apply cbind_same; [intros; eapply IH; eauto|intros; eapply ret_same; eauto].
Qed.
Lemma set_sizes_same s l m r m' : set_sizes s l m = (r, m') -> same_acc m m'.
Proof.
  unfold set_sizes. intros E. destruct s as [|n s], l as [|v l]; [eapply ret_same; eauto| | |];
    (destruct (negb _); [eapply ret_same; eauto|]; destruct (check_sizes _ _ _) as [[|]| |]; first [eapply ret_same; exact E|eapply do_copy_in_same; exact E]).
Qed.
Lemma copy_views_same sz k : forall s f t m r m', copy_views sz k s f t m = (r, m') -> same_acc m m'.
Proof.
  induction s as [|n s IH]; intros f t m r m' E; [eapply ret_same; exact E|]. destruct f as [|f0 f]; [eapply ret_same; exact E|].
  destruct t as [|t0 t]; [eapply ret_same; exact E|]. cbn [copy_views] in E. destruct (n =? 0); [eapply IH; eauto|]. destruct (_ && _); [|eapply ret_same; exact E].
  revert E. apply cbind_same; [intros; eapply do_copy_same; eauto|intros; eapply IH; eauto].
Qed.
Lemma copy_first_same k total : forall s f t m r m', copy_first k total s f t m = (r, m') -> same_acc m m'.
Proof.
  induction s as [|n s IH]; intros f t m r m' E; [eapply ret_same; exact E|]. destruct f as [|f0 f]; [eapply ret_same; exact E|].
  destruct t as [|t0 t]; [eapply ret_same; exact E|]. cbn [copy_first] in E. destruct (n =? 0); [eapply IH; eauto|].
  destruct (_ && _); [eapply do_copy_same; exact E|eapply ret_same; exact E].
Qed.
Lemma copy_jagged_same sz k f t m r m' : copy_jagged sz k f t m = (r, m') -> same_acc m m'.
Proof.
  unfold copy_jagged. destruct (Nat.ltb _ _); [apply ret_same|]. destruct f as [|f0 f]; [apply ret_same|].
  destruct (is_contiguous _ _) as [fc| |]; [|apply ret_same|apply ret_same].
  destruct (is_contiguous _ _) as [tc| |]; [|apply ret_same|apply ret_same].
  apply cbind_same.
  { unfold get_sizes. intros x m1. apply cbind_same; [intros; eapply get_sizes_from_same; eauto|]. intros [y|] m3 r3 m4 E; eapply ret_same; exact E. }
  intros s m1 r1 m2. apply cbind_same; [intros; eapply set_sizes_same; eauto|]. intros ? m3 r3 m4.
  apply cbind_same; [|intros; eapply ret_same; eauto]. intros y5 m5 E. destruct (_ && _); [eapply copy_first_same; exact E|eapply copy_views_same; exact E].
Qed.

(** ** Jobs: what is to be copied for one variable *)
Inductive job :=
| JScalar (v : var) (p q : Z) (data : list Z)
| JVector (v : var) (x y : Placement.vview) (n : Z) (data : list Z)
| JJagged (v : var) (x y : list Placement.vview) (fl fh tl th : Z) (rows : list jrow).

Definition job_var (j : job) : var := match j with JScalar v _ _ _ => v | JVector v _ _ _ _ => v | JJagged v _ _ _ _ _ _ _ => v end.
Definition job_from (j : job) : eview :=
  match j with
  | JScalar _ p _ _ => EScalar p | JVector _ x _ _ _ => EVector x
  | JJagged _ x _ fl fh _ _ _ => EJagged (Z.of_nat (length x)) fl fh x
  end.
Definition job_to (j : job) : eview :=
  match j with
  | JScalar _ _ q _ => EScalar q | JVector _ _ y _ _ => EVector y
  | JJagged _ _ y _ _ tl th _ => EJagged (Z.of_nat (length y)) tl th y
  end.
(** The source has the contents given by the job, and the target has room for them. *)
Definition job_ok (k : cptype) (m : cmem) (j : job) : Prop :=
  0 < ve_sz (job_var j) /\
  match j with
  | JScalar v p q data =>
      p <> 0 /\ q <> 0 /\ get_bytes m p (Z.to_nat (ve_sz v)) = Some data /\ acc m q (ve_sz v) /\ apart p (ve_sz v) q (ve_sz v) /\
      kind_check m k (m_dev m p) (m_dev m q) = true
  | JVector v x y n data =>
      let f := cv x in let t := cv y in let len := n * ve_sz v in
      view_size m f n /\ n <= v_cap t /\ v_cap t < 2 ^ 32 /\ get_bytes m (v_ptr f) (Z.to_nat len) = Some data /\
      (0 < n -> v_ptr f <> 0 /\ v_ptr t <> 0 /\ acc m (v_ptr t) len /\ apart (v_ptr f) len (v_ptr t) len /\
        kind_check m k (m_dev m (v_ptr f)) (m_dev m (v_ptr t)) = true /\
        (v_sizep t <> 0 -> acc m (v_sizep t) 4 /\ m_dev m (v_sizep t) = m_dev m (v_ptr t) /\
           apart (v_sizep t) 4 (v_ptr f) len /\ apart (v_sizep t) 4 (v_ptr t) len))
  | JJagged v x y _ _ _ _ rows =>
      map cv x = map r_from rows /\ map cv y = map r_to rows /\ Forall (row_ok (ve_sz v) k m) rows /\ rows_apart (ve_sz v) rows /\
      jagged_sizes m (map r_from rows) (map r_n rows) /\ target_sizes (ve_sz v) m rows
  end.
(** The bytes that are read; the bytes of elements and of sizes that are written. *)
Definition job_reads (j : job) (a : Z) : Prop :=
  match j with
  | JScalar v p _ _ => within p (ve_sz v) a
  | JVector v x _ n _ => within (v_ptr (cv x)) (n * ve_sz v) a \/ (v_sizep (cv x) <> 0 /\ within (v_sizep (cv x)) 4 a)
  | JJagged v _ _ _ _ _ _ rows => (exists r, In r rows /\ payload (ve_sz v) (r_from r) a) \/ sizes_range (map r_from rows) a
  end.
Definition job_data (j : job) (a : Z) : Prop :=
  match j with
  | JScalar v _ q _ => within q (ve_sz v) a
  | JVector v _ y n _ => within (v_ptr (cv y)) (n * ve_sz v) a
  | JJagged v _ _ _ _ _ _ rows => exists r, In r rows /\ payload (ve_sz v) (r_to r) a
  end.
Definition job_sizes (j : job) (a : Z) : Prop :=
  match j with
  | JScalar _ _ _ _ => False
  | JVector _ _ y n _ => 0 < n /\ v_sizep (cv y) <> 0 /\ within (v_sizep (cv y)) 4 a
  | JJagged _ _ _ _ _ _ _ rows => sizes_range (map r_to rows) a
  end.
Definition job_writes (j : job) (a : Z) : Prop := job_data j a \/ job_sizes j a.
(** The contents have arrived. *)
Definition job_done (m : cmem) (j : job) : Prop :=
  match j with
  | JScalar v _ q data => get_bytes m q (Z.to_nat (ve_sz v)) = Some data
  | JVector v _ y n data =>
      get_bytes m (v_ptr (cv y)) (Z.to_nat (n * ve_sz v)) = Some data /\ (0 < n -> v_sizep (cv y) <> 0 -> view_size m (cv y) n)
  | JJagged v _ _ _ _ _ _ rows =>
      (forall r, In r rows -> get_bytes m (v_ptr (r_to r)) (Z.to_nat (r_n r * ve_sz v)) = Some (r_data r)) /\
      (fixed_sizes (map r_to rows) \/ jagged_sizes m (map r_to rows) (map r_n rows))
  end.
(** Two vectors with the same variable for their (same) size. *)
Definition same_size (i j : job) : Prop :=
  match i, j with
  | JVector _ _ y n _, JVector _ _ y' n' _ => v_sizep (cv y) = v_sizep (cv y') /\ n = n'
  | _, _ => False
  end.
(** [j] may be done after [i]. *)
Definition keeps (i j : job) : Prop :=
  (forall a, job_data i a -> ~ job_writes j a) /\ ((forall a, job_sizes i a -> ~ job_writes j a) \/ (same_size i j /\ forall a, job_sizes i a -> ~ job_data j a)).
Definition in_order (i j : job) : Prop := keeps i j /\ (forall a, job_reads j a -> ~ job_writes i a).

Lemma job_step k m j : job_ok k m j ->
  exists m', (match job_from j, job_to j with
             | EScalar p, EScalar q => do_copy k (ve_sz (job_var j)) p q m
             | EVector x, EVector y => cbind (copy_vector (ve_sz (job_var j)) k (cv x) (cv y) m) (fun _ m => (Ret tt, m))
             | EJagged _ _ _ x, EJagged _ _ _ y => cbind (copy_jagged (ve_sz (job_var j)) k (map cv x) (map cv y) m) (fun _ m => (Ret tt, m))
             | _, _ => (UB, m)
             end) = (Ret tt, m') /\ same_acc m m' /\ changes (job_writes j) m m' /\ job_done m' j.
Proof.
  intros (Hz & H). destruct j as [v p q data|v x y n data|v x y fl fh tl th rows]; cbn [job_from job_to job_var] in *.
  - destruct H as (H1 & H2 & H3 & H4 & H5 & H6).
    destruct (do_copy_ok k (ve_sz v) p q m) as (m' & G & C & S & B); auto; try lia.
    { intros a Ha. assert (A : acc m p (Z.of_nat (Z.to_nat (ve_sz v)))) by (apply get_bytes_acc; eauto). apply A. lia. }
    exists m'. split; [exact G|]. split; [exact S|]. split; [apply (changes_weaken _ _ _ _ C); intros a Ha; left; exact Ha|].
    cbn [job_done]. rewrite <- H3. apply get_bytes_ext. intros i Hi. apply B. lia.
  - destruct H as (H1 & H2 & H3 & H4 & H5). destruct (Z.eq_dec n 0) as [->|Hn].
    + rewrite (copy_vector_empty _ _ _ _ _ H1). cbn [cbind]. exists m. split; [reflexivity|]. split; [apply same_acc_refl|]. split; [apply changes_refl|].
      cbn [job_done]. split; [|lia]. cbn in H4 |- *. exact H4.
    + assert (Hp : 0 < n) by (destruct H1; lia). destruct (H5 Hp) as (K1 & K2 & K3 & K4 & K5 & K6).
      destruct (copy_vector_thm (ve_sz v) k (cv x) (cv y) m n data Hz H1 ltac:(lia) H3 K1 K2 H4 K3 K4 K5 K6) as (m' & G & B & V & C).
      assert (S := copy_vector_same _ _ _ _ _ _ _ G).
      rewrite G. cbn [cbind]. exists m'. split; [reflexivity|]. split; [exact S|]. split; [|split; [exact B|auto]].
      apply (changes_weaken _ _ _ _ C). intros a [Ha|(Ha & Hb)]; [left; exact Ha|right; cbn [job_sizes]; auto].
  - destruct H as (H1 & H2 & H3 & H4 & H5 & H6). rewrite H1, H2. destruct rows as [|r rows0] eqn:Er.
    + cbn [map]. rewrite copy_jagged_empty. cbn [cbind]. exists m. split; [reflexivity|]. split; [apply same_acc_refl|]. split; [apply changes_refl|].
      split; [intros r []|left; constructor].
    + rewrite <- Er in *. destruct (copy_jagged_thm (ve_sz v) Hz k rows m ltac:(congruence) H3 H4 H5 H6) as (m' & G & B & V & C).
      assert (S := copy_jagged_same _ _ _ _ _ _ _ G).
      rewrite G. cbn [cbind]. exists m'. split; [reflexivity|]. split; [exact S|]. split; [exact C|]. split; [exact B|exact V].
Qed.

Lemma job_ok_keep k m m' P j : job_ok k m j -> changes P m m' -> same_acc m m' -> (forall a, job_reads j a -> ~ P a) -> job_ok k m' j.
Proof.
  intros (Hz & H) C S HP. pose proof C as (_ & C2 & C3). split; [exact Hz|].
  assert (KC : forall a b, kind_check m k (m_dev m a) (m_dev m b) = true -> kind_check m' k (m_dev m' a) (m_dev m' b) = true) by (unfold kind_check; rewrite C2, C3; auto).
  destruct j as [v p q data|v x y n data|v x y fl fh tl th rows]; cbn [job_var job_reads] in *.
  - destruct H as (H1 & H2 & H3 & H4 & H5 & H6). split; [auto|]. split; [auto|]. split; [|split; [apply (acc_same m); auto|auto]].
    rewrite <- H3. apply (changes_get P _ _ _ _ C). intros a Ha. apply HP. unfold within in *. lia.
  - destruct H as (H1 & H2 & H3 & H4 & H5). assert (Hn : 0 <= n * ve_sz v) by (destruct H1; apply Z.mul_nonneg_nonneg; lia).
    split; [|split; [auto|split; [auto|split]]].
    + destruct H1 as (V1 & V2 & V3). split; [auto|]. split; [auto|]. destruct (v_sizep (cv x) =? 0) eqn:E0; [exact V3|]. rewrite <- V3.
      apply (changes_get P _ _ _ _ C). intros a Ha. apply HP. right. split; [lia|exact Ha].
    + rewrite <- H4. apply (changes_get P _ _ _ _ C). intros a Ha. apply HP. left. unfold within in *. lia.
    + intros Hp. destruct (H5 Hp) as (K1 & K2 & K3 & K4 & K5 & K6). split; [auto|]. split; [auto|]. split; [apply (acc_same m); auto|]. split; [auto|]. split; [auto|].
      intros Hs. destruct (K6 Hs) as (L1 & L2 & L3). split; [apply (acc_same m); auto|]. rewrite C2. auto.
  - destruct H as (H1 & H2 & H3 & H4 & H5 & H6). split; [auto|]. split; [auto|]. split; [|split; [auto|split]].
    + rewrite Forall_forall in H3 |- *. intros r Hr. apply (row_ok_step (ve_sz v) Hz k m m' P r); auto. intros a Ha. apply HP. left. eauto.
    + destruct H5 as (F & [J|(p & J1 & J2 & J3)]); (split; [exact F|]); [left; exact J|]. right. exists p. split; [auto|]. split; [auto|].
      rewrite <- J3. apply (changes_get P _ _ _ _ C). intros a Ha. apply HP. right. destruct rows as [|r rows]; [unfold within in Ha; cbn in Ha; lia|].
      unfold sizes_range. cbn [map]. destruct J1 as (J0 & J1). assert (J4 := J1 0%nat _ eq_refl). cbn [map] in Ha, J4. rewrite J4. unfold within in *.
      rewrite !Nat2Z.inj_mul in Ha. cbn [length] in *. rewrite map_length in *. lia.
    + destruct H6 as [H6|(q & Q1 & Q2 & Q3 & Q4)]; [left; exact H6|]. right. exists q. split; [auto|]. split; [auto|]. split; [apply (acc_same m); auto|auto].
Qed.

Lemma job_done_keep k m0 m m' i j : job_ok k m0 i -> job_done m i -> changes (job_writes j) m m' -> job_done m' j -> keeps i j -> job_done m' i.
Proof.
  intros (Hz & HI) D C DJ (K1 & K2). destruct i as [v p q data|v x y n data|v x y fl fh tl th rows]; cbn [job_done job_data job_sizes job_var] in *.
  - rewrite <- D. apply (changes_get _ _ _ _ _ C). intros a Ha. apply K1. unfold within in *. lia.
  - destruct D as (D1 & D2). destruct HI as ((V1 & _) & _). assert (Hn : 0 <= n * ve_sz v) by (apply Z.mul_nonneg_nonneg; lia). split.
    + rewrite <- D1. apply (changes_get _ _ _ _ _ C). intros a Ha. apply K1. unfold within in *. lia.
    + intros Hp Hs. destruct K2 as [K2|(K2 & K3)].
      * destruct (D2 Hp Hs) as (W1 & W2 & W3). split; [auto|]. split; [auto|]. replace (v_sizep (cv y) =? 0) with false in * by lia. rewrite <- W3.
        apply (changes_get _ _ _ _ _ C). intros a Ha. apply K2. auto.
      * destruct j as [?|v' x' y' n' data'|?]; try contradiction. cbn [same_size] in K2. destruct K2 as (K4 & ->). cbn [job_done] in DJ. destruct DJ as (_ & DJ).
        destruct (D2 Hp Hs) as (W1 & W2 & W3). destruct (DJ Hp ltac:(lia)) as (U1 & U2 & U3). split; [auto|]. split; [auto|].
        replace (v_sizep (cv y) =? 0) with false by lia. replace (v_sizep (cv y') =? 0) with false in U3 by lia. rewrite K4. exact U3.
  - destruct D as (D1 & D2). destruct HI as (_ & _ & F & _). split.
    + intros r Hr. rewrite <- (D1 r Hr). apply (changes_get _ _ _ _ _ C). intros a Ha. apply K1. exists r. split; [auto|].
      rewrite Forall_forall in F. destruct (n_le (ve_sz v) Hz k r m0 (F r Hr)) as (N1 & N2 & N3). unfold payload, within in *. lia.
    + destruct D2 as [D2|(F2 & [J|(p & J1 & J2 & J3)])]; [left; exact D2|left; apply J|].
      right. split; [exact F2|]. right. exists p. split; [auto|]. split; [auto|]. rewrite <- J3. apply (changes_get _ _ _ _ _ C). intros a Ha.
      destruct K2 as [K2|(K2 & _)]; [|destruct j; contradiction]. apply K2. destruct rows as [|r rows]; [unfold within in Ha; cbn in Ha; lia|].
      unfold sizes_range. cbn [map]. destruct J1 as (J0 & J1). assert (J4 := J1 0%nat _ eq_refl). cbn [map] in Ha, J4. rewrite J4. unfold within in *.
      rewrite !Nat2Z.inj_mul in Ha. cbn [length] in *. rewrite map_length in *. lia.
Qed.

Theorem copy_vars_thm k : forall jobs m, Forall (job_ok k m) jobs -> ForallOrdPairs in_order jobs ->
  exists m', copy_vars k (map job_var jobs) (map job_from jobs) (map job_to jobs) m = (Ret tt, m') /\ same_acc m m' /\
    changes (fun a => exists j, In j jobs /\ job_writes j a) m m' /\ Forall (job_done m') jobs /\
    forall m0 i, job_ok k m0 i -> job_done m i -> Forall (keeps i) jobs -> job_done m' i.
Proof.
  induction jobs as [|j jobs IH]; intros m F O.
  - exists m. cbn [map copy_vars]. split; [reflexivity|]. split; [apply same_acc_refl|]. split; [apply changes_refl|]. split; [constructor|auto].
  - inversion F as [|? ? Fj F']; subst. inversion O as [|? ? Oj O']; subst.
    destruct (job_step k m j Fj) as (m1 & G & S & C & D). cbn [map copy_vars]. rewrite G. cbn [cbind].
    destruct (IH m1) as (m2 & G2 & S2 & C2 & D2 & K2); auto.
    { rewrite Forall_forall in F', Oj |- *. intros i Hi. apply (job_ok_keep k m m1 (job_writes j)); auto. apply (proj2 (Oj i Hi)). }
    assert (D1 : job_done m2 j).
    { apply (K2 m j Fj D). rewrite Forall_forall in Oj |- *. intros i Hi. apply (Oj i Hi). }
    exists m2. split; [exact G2|]. split; [apply (same_acc_trans _ m1); auto|]. split; [|split].
    + apply (changes_weaken _ _ _ _ (changes_trans _ _ _ _ _ C C2)). intros a [Ha|(i & Hi & Ha)]; [exists j; split; [left; auto|auto]|exists i; split; [right; auto|auto]].
    + constructor; auto.
    + intros m0 i Hi Di Ki. inversion Ki as [|? ? Kj Ki']; subst. apply (K2 m0 i Hi); auto. apply (job_done_keep k m0 m m1 i j); auto.
Qed.

(** The whole copy: between views whose payloads are not both one piece of memory of the
    same length. *)
Definition one_by_one (from to : edm_view) : Prop :=
  m_ptr (ev_payload from) = 0 \/ m_ptr (ev_payload to) = 0 \/ m_len (ev_payload from) <> m_len (ev_payload to).
Theorem edm_copy_views k from to m jobs : one_by_one from to ->
  ev_vars from = map job_from jobs -> ev_vars to = map job_to jobs -> Forall (job_ok k m) jobs -> ForallOrdPairs in_order jobs ->
  exists m', edm_copy (map job_var jobs) k from to m = (Ret tt, m') /\
    changes (fun a => exists j, In j jobs /\ job_writes j a) m m' /\ Forall (job_done m') jobs.
Proof.
  intros HO E1 E2 F O. unfold edm_copy. rewrite E1, E2.
  assert (E : negb (m_ptr (ev_payload from) =? 0) && negb (m_ptr (ev_payload to) =? 0) && (m_len (ev_payload from) =? m_len (ev_payload to)) = false).
  { destruct HO as [H|[H|H]]; [rewrite H; reflexivity|rewrite H; rewrite Bool.andb_false_r; reflexivity|apply Bool.andb_false_iff; right; apply Z.eqb_neq; exact H]. }
  rewrite E. destruct (copy_vars_thm k jobs m F O) as (m' & G & _ & C & D & _). exists m'. auto.
Qed.
