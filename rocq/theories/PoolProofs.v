From Verif Require Import Base BaseLemmas IntMath IntMathProofs Align AlignProofs Pool.
From Coq Require Import Permutation Sorted.

(** ** Preliminaries *)
Lemma Permutation_filter' {A} (f : A -> bool) l l' : Permutation l l' ->
  Permutation (filter f l) (filter f l').
Proof.
  induction 1 as [|x l l' H IH|x y l|l1 l2 l3 H1 IH1 H2 IH2]; simpl; auto.
  - destruct (f x); auto.
  - destruct (f x), (f y); auto. apply perm_swap.
  - etransitivity; eauto.
Qed.

Lemma log2_ri_up x : 0 < x < 2 ^ 64 -> log2_ri x = Some (Z.log2_up x).
Proof.
  intros H. destruct (log2_ri_spec x H) as (r & -> & Hr & H1 & H2). f_equal.
  destruct (Z.eq_dec x 1) as [->|N1].
  - destruct (Z.eq_dec r 0) as [->|]; [reflexivity|]. pose proof (H2 0 ltac:(lia)). lia.
  - destruct (Z.log2_up_spec x ltac:(lia)) as [L U].
    pose proof (Z.log2_up_nonneg x).
    assert (A1 : r <= Z.log2_up x).
    { destruct (Z_le_gt_dec r (Z.log2_up x)); auto. pose proof (H2 (Z.log2_up x) ltac:(lia)). lia. }
    assert (A2 : Z.log2_up x <= r).
    { destruct (Z_le_gt_dec (Z.log2_up x) r); auto.
      assert (2 ^ r <= 2 ^ Z.pred (Z.log2_up x)) by (apply Z.pow_le_mono_r; lia). lia. }
    lia.
Qed.

Lemma log2_up_ge x : 0 < x -> x <= 2 ^ Z.log2_up x.
Proof.
  intros H. destruct (Z.eq_dec x 1) as [->|N]; [reflexivity|]. apply Z.log2_up_spec. lia.
Qed.

Lemma pow2_is x : 0 <= x < 2 ^ 64 -> pow2 x -> is_power_of_2 x = true.
Proof. intros H (k & Hk & E). apply is_power_of_2_spec; auto. right. exists k. auto. Qed.

Lemma pow2_log2_up x : pow2 x -> 2 ^ Z.log2_up x = x.
Proof. intros (k & Hk & ->). rewrite Z.log2_up_pow2 by lia. reflexivity. Qed.

Lemma pow2_le_divide a b : pow2 a -> pow2 b -> a <= b -> (a | b).
Proof.
  intros (j & Hj & ->) (k & Hk & ->) H.
  assert (j <= k).
  { destruct (Z_le_gt_dec j k); auto. assert (2 ^ k < 2 ^ j) by (apply Z.pow_lt_mono_r; lia). lia. }
  exists (2 ^ (k - j)). rewrite <- Z.pow_add_r by lia. f_equal. lia.
Qed.

Lemma pow2_gt0 a : pow2 a -> 0 < a.
Proof. intros (k & Hk & ->). apply pow2_pos. auto. Qed.

(** ** Options *)
Record opts_range (o : options) : Prop := {
  r1 : 0 <= min_blocks o < 2 ^ 64; r2 : 0 <= min_bytes o < 2 ^ 64;
  r3 : 0 <= max_blocks o < 2 ^ 64; r4 : 0 <= max_bytes o < 2 ^ 64;
  r5 : 0 <= smallest o < 2 ^ 64; r6 : 0 <= largest o < 2 ^ 64; r7 : 0 <= alignment o < 2 ^ 64 }.

(** Options that are accepted and whose products are not affected by wrap-around. *)
Definition opts_valid (o : options) : Prop :=
  opts_range o /\ check_valid o = true /\ max_blocks o * largest o < 2 ^ 64.

Record opts_facts (o : options) : Prop := {
  f_small : pow2 (smallest o); f_large : pow2 (largest o);
  f_align : pow2 (alignment o) \/ alignment o = 0;
  f_sl : smallest o <= largest o; f_as : alignment o <= smallest o;
  f_l64 : largest o < 2 ^ 64;
  f_minmax : min_blocks o <= max_blocks o; f_minmaxb : min_bytes o <= max_bytes o;
  f_mb : 0 < max_blocks o; f_mby : 0 < max_bytes o < 2 ^ 64;
  f_min0 : 0 <= min_blocks o; f_minb0 : 0 <= min_bytes o;
  f_c1 : min_blocks o * largest o <= max_bytes o;
  f_c2 : min_bytes o <= max_blocks o * smallest o;
  f_no : max_blocks o * largest o < 2 ^ 64 }.

Lemma opts_valid_facts o : opts_valid o -> opts_facts o.
Proof.
  intros ([R1 R2 R3 R4 R5 R6 R7] & HC & HN). unfold check_valid in HC.
  rewrite !andb_true_iff, !negb_true_iff, !orb_false_iff, !Z.ltb_ge, !Z.eqb_neq in HC.
  destruct HC as ((((((((((((C1 & C2) & C3) & C4) & C5) & C6) & C7) & C8) & C9) & C10) & C11) & C12) & C13).
  apply is_power_of_2_spec in C1; [|lia]. apply is_power_of_2_spec in C2; [|lia].
  assert (C3' : pow2 (alignment o) \/ alignment o = 0).
  { apply is_power_of_2_spec in C3; [|lia]. destruct C3; auto. }
  destruct C1 as [C1|C1]; [lia|]. destruct C2 as [C2|C2]; [lia|].
  assert (M1 : 0 <= min_blocks o * largest o < 2 ^ 64).
  { split; [nia|]. assert (min_blocks o * largest o <= max_blocks o * largest o) by nia. lia. }
  assert (M2 : 0 <= max_blocks o * smallest o < 2 ^ 64).
  { split; [nia|]. assert (max_blocks o * smallest o <= max_blocks o * largest o) by nia. lia. }
  unfold wrap64, two64 in *. rewrite (Z.mod_small (min_blocks o * largest o)) in C10 by lia.
  rewrite (Z.mod_small (max_blocks o * smallest o)) in C12 by lia.
  split; auto; lia.
Qed.

(** ** The oversized cache *)
Definition od_le (a b : odesc) : Prop := od_lt b a = false.
Definition cache_sorted (l : list odesc) : Prop := StronglySorted od_le l.

Lemma od_lt_spec a b : od_lt a b = true <->
  od_size a < od_size b \/ (od_size a = od_size b /\ od_align a < od_align b).
Proof. unfold od_lt. rewrite orb_true_iff, andb_true_iff, !Z.ltb_lt, Z.eqb_eq. tauto. Qed.
Lemma od_le_spec a b : od_le a b <->
  od_size a < od_size b \/ (od_size a = od_size b /\ od_align a <= od_align b).
Proof.
  unfold od_le. destruct (od_lt b a) eqn:E.
  - apply od_lt_spec in E. split; [discriminate|lia].
  - split; auto. intros _. assert (~ (od_lt b a = true)) by congruence.
    rewrite od_lt_spec in H. lia.
Qed.

Lemma lower_bound_spec d l : forall a b, lower_bound d l = (a, b) -> cache_sorted l ->
  l = a ++ b /\ (forall x, In x a -> od_lt x d = true) /\ (forall x, In x b -> od_le d x).
Proof.
  induction l as [|x l IH]; intros a b E S; cbn [lower_bound] in E.
  - injection E as <- <-. split; auto. split; intros x [].
  - inversion S as [|x' l' S' F]; subst. destruct (od_lt x d) eqn:EX.
    + destruct (lower_bound d l) as [a' b'] eqn:EL. injection E as <- <-.
      destruct (IH _ _ eq_refl S') as (-> & H1 & H2). split; auto. split; auto.
      intros y [<-|Hy]; auto.
    + injection E as <- <-. split; auto. split; [intros y []|].
      intros y [<-|Hy]; auto. rewrite Forall_forall in F. specialize (F y Hy).
      rewrite od_le_spec in *. assert (od_le d x) by exact EX. rewrite od_le_spec in H. lia.
Qed.

Lemma sorted_insert d l a b : lower_bound d l = (a, b) -> cache_sorted l ->
  cache_sorted (a ++ d :: b) /\ Permutation (a ++ d :: b) (d :: l).
Proof.
  intros E S. destruct (lower_bound_spec _ _ _ _ E S) as (-> & H1 & H2). split.
  - clear E. revert S H1 H2. induction a as [|x a IH]; cbn [app]; intros S H1 H2.
    + constructor; auto. apply Forall_forall. auto.
    + inversion S as [|x' l' S' F]; subst. constructor; [apply IH; auto; intros; apply H1; right; auto|].
      rewrite Forall_forall in *. intros y Hy. apply in_app_or in Hy. destruct Hy as [Hy|[<-|Hy]].
      * apply F. apply in_or_app. auto.
      * pose proof (H1 x (or_introl eq_refl)) as L. rewrite od_lt_spec in L. rewrite od_le_spec. lia.
      * apply F. apply in_or_app. auto.
  - symmetry. apply Permutation_middle.
Qed.

Lemma find_align_spec al l : forall a b, find_align al l = (a, b) ->
  l = a ++ b /\ (forall c r, b = c :: r -> al <= od_align c).
Proof.
  induction l as [|x l IH]; intros a b E; cbn [find_align] in E.
  - injection E as <- <-. split; auto. discriminate.
  - destruct (Z.leb_spec al (od_align x)).
    + injection E as <- <-. split; auto. intros c r Ec. injection Ec as <- <-. auto.
    + destruct (find_align al l) as [a' b']. injection E as <- <-.
      destruct (IH _ _ eq_refl) as (-> & H2). split; auto.
Qed.

Lemma sorted_remove a c b : cache_sorted (a ++ c :: b) -> cache_sorted (a ++ b).
Proof.
  induction a as [|x a IH]; cbn [app]; intros S; inversion S as [|x' l' S' F]; subst; auto.
  constructor; [apply IH; auto|]. rewrite Forall_forall in *. intros y Hy. apply F.
  apply in_app_or in Hy. apply in_or_app. destruct Hy; [auto|right; right; auto].
Qed.

Lemma cache_lookup_spec o cache bytes al d cache' : cache_sorted cache ->
  cache_lookup o cache bytes al = Some (d, cache') ->
  Permutation cache (d :: cache') /\ cache_sorted cache' /\ bytes <= od_size d /\ al <= od_align d.
Proof.
  intros S E. unfold cache_lookup in E.
  destruct (lower_bound (mkO bytes al 0) cache) as [before after] eqn:EL.
  destruct (lower_bound_spec _ _ _ _ EL S) as (Ec & H1 & H2).
  destruct after as [|it rest]; [discriminate|]. destruct (size_cutoff o <=? _); [discriminate|].
  assert (HS : forall sk c rest', it :: rest = sk ++ c :: rest' ->
     Permutation cache (c :: before ++ sk ++ rest') /\ cache_sorted (before ++ sk ++ rest') /\
     bytes <= od_size c).
  { intros sk c rest' Es. rewrite Es in Ec. subst cache. split; [|split].
    - rewrite app_assoc, (app_assoc before sk rest'). symmetry. apply Permutation_middle.
    - rewrite app_assoc in S |- *. eapply sorted_remove; eauto.
    - assert (In c (it :: rest)) by (rewrite Es; apply in_or_app; right; left; auto).
      specialize (H2 c H). rewrite od_le_spec in H2. cbn [od_size] in H2. lia. }
  destruct (Z.ltb_spec (od_align it) al) as [L|L].
  - destruct (find_align al rest) as [a b] eqn:EF. destruct b as [|c rest']; [discriminate|].
    destruct (align_cutoff o <=? _); [discriminate|]. injection E as <- <-.
    destruct (find_align_spec _ _ _ _ EF) as (Er & HA).
    destruct (HS (it :: a) c rest') as (P1 & P2 & P3); [rewrite Er; reflexivity|].
    split; [exact P1|]. split; [exact P2|]. split; auto. eapply HA; eauto.
  - destruct (align_cutoff o <=? _); [discriminate|]. injection E as <- <-.
    destruct (HS [] it rest) as (P1 & P2 & P3); auto.
Qed.

Lemma find_ptr_spec p l d r : find_ptr p l = Some (d, r) -> od_ptr d = p /\ Permutation l (d :: r).
Proof.
  revert d r. induction l as [|x l IH]; intros d r E; cbn [find_ptr] in E; [discriminate|].
  destruct (Z.eqb_spec (od_ptr x) p).
  - injection E as <- <-. auto.
  - destruct (find_ptr p l) as [[d' r']|]; [|discriminate]. injection E as <- <-.
    destruct (IH _ _ eq_refl) as (H1 & H2). split; auto. rewrite H2. apply perm_swap.
Qed.
Lemma find_ptr_some p l d : In d l -> od_ptr d = p -> find_ptr p l <> None.
Proof.
  induction l as [|x l IH]; cbn [find_ptr In]; [tauto|]. intros [->|H] E.
  - rewrite E, Z.eqb_refl. discriminate.
  - destruct (od_ptr x =? p); [discriminate|]. destruct (find_ptr p l) as [[? ?]|]; [discriminate|].
    exfalso. apply IH; auto.
Qed.

(** ** Pieces of memory owned by the pools *)
Section Pieces.
  Variable o : options.
  Definition cblk (c : Z * Z) : block := mkBlock (snd c) (fst c) (alignment o).
  Definition odb (d : odesc) : block := mkBlock (od_ptr d) (od_size d) (od_align d).
  Definition piece (lg p : Z) : block := mkBlock p (2 ^ lg) (alignment o).
  Fixpoint pieces (lg : Z) (pools : list bucket) : list block :=
    match pools with [] => [] | b :: l => map (piece lg) (fl b) ++ pieces (lg + 1) l end.
  Definition lg_of (bytes : Z) : Z := Z.log2_up (adjust o bytes).
  (** The whole piece behind a pooled block. *)
  Definition full (b : block) : block := piece (lg_of (bsize b)) (bptr b).
  Definition over (b : block) : bool := is_oversized o (adjust o (bsize b)) (balign b).
  Definition pooled (b : block) : bool := negb (over b).

  Lemma pieces_upd pools : forall lg idx b, nth_error pools idx = Some b ->
    exists rest, Permutation (pieces lg pools) (map (piece (lg + Z.of_nat idx)) (fl b) ++ rest) /\
    forall b', Permutation (pieces lg (upd pools idx b')) (map (piece (lg + Z.of_nat idx)) (fl b') ++ rest).
  Proof.
    induction pools as [|x pools IH]; intros lg idx b E; [destruct idx; discriminate|].
    destruct idx as [|idx]; cbn [nth_error] in E.
    - injection E as ->. exists (pieces (lg + 1) pools). cbn [pieces upd Z.of_nat].
      rewrite Z.add_0_r. split; [reflexivity|intros; reflexivity].
    - destruct (IH (lg + 1) idx b E) as (rest & H1 & H2).
      exists (map (piece lg) (fl x) ++ rest). cbn [pieces upd].
      replace (lg + Z.of_nat (S idx)) with (lg + 1 + Z.of_nat idx) by lia. split.
      + rewrite H1, !app_assoc. apply Permutation_app_tail. apply Permutation_app_comm.
      + intros b'. rewrite (H2 b'), !app_assoc. apply Permutation_app_tail. apply Permutation_app_comm.
  Qed.

  Lemma chunk_blocks_in p bs n a : In a (chunk_blocks p bs n) ->
    exists i, (i < n)%nat /\ a = p + Z.of_nat i * bs.
  Proof.
    induction n as [|n IH]; [intros []|]. intros [<-|H]; [exists n; split; auto|].
    destruct (IH H) as (i & Hi & ->). exists i. split; auto.
  Qed.
  Lemma chunk_pieces p lg n : 0 <= lg -> pairwise_disjoint (map (piece lg) (chunk_blocks p (2 ^ lg) n)).
  Proof.
    intros Hlg. pose proof (pow2_pos lg Hlg). induction n as [|n IH]; cbn [chunk_blocks map pairwise_disjoint]; auto.
    split; auto. intros c Hc. apply in_map_iff in Hc. destruct Hc as (a & <- & Ha).
    apply chunk_blocks_in in Ha. destruct Ha as (i & Hi & ->).
    apply not_overlap_iff. unfold piece. cbn [bptr bsize]. right. right. right.
    assert (Z.of_nat i * 2 ^ lg + 2 ^ lg <= Z.of_nat n * 2 ^ lg) by nia. lia.
  Qed.
End Pieces.
