(** Allocation and deallocation inside one superpage (proofs for [Buddy]). *)
From Verif Require Import Base BaseLemmas IntMath IntMathProofs Buddy BuddyTree.

(** ** Changing the state of a leaf *)
Lemma set_leaf_wf sp p s : sp_wf sp -> is_leaf (st_at sp p) ->
  (s = OCCUPIED \/ s = VACANT) -> sp_wf (set sp p s).
Proof.
  intros Hwf Hl Hs. pose proof (wf_len _ Hwf) as Hlen.
  assert (Hlt : (p < length (sp_pages sp))%nat)
    by (destruct Hl as [H|H]; eapply st_at_lt; eauto).
  constructor; simpl; rewrite ?upd_length; try apply Hwf.
  - st_simpl. destruct (Nat.eq_dec p 0); [destruct Hs; congruence|apply Hwf].
  - intros q Hq. st_simpl. pose proof (wf_ext _ Hwf q Hq) as Hext.
    destruct (Nat.eq_dec p q) as [Eq|Nq]; destruct (Nat.eq_dec p (par q)) as [E|N].
    + exfalso. unfold par in E. lia.
    + subst q. rewrite <- Hext. destruct Hl, Hs; split; congruence.
    + rewrite Hext, <- E. destruct Hl, Hs; split; congruence.
    + exact Hext.
  - intros q. st_simpl. destruct (Nat.eq_dec p q); [destruct Hs; congruence|apply Hwf].
Qed.

Lemma occupy_coal sp p : (p < length (sp_pages sp))%nat ->
  st_at sp p = Some VACANT -> coal_but sp p -> coalesced (set sp p OCCUPIED).
Proof.
  intros Hlt Hv Hc q. st_simpl.
  destruct (Nat.eq_dec p q); [congruence|].
  destruct (Nat.eq_dec p (2 * q + 1)); [congruence|].
  destruct (Nat.eq_dec p (2 * q + 2)); [congruence|].
  intros H1 H2 H3. destruct (Hc q H1 H2 H3); congruence.
Qed.

Lemma vacate_coal sp p : (p < length (sp_pages sp))%nat ->
  coalesced sp -> coal_but (set sp p VACANT) p.
Proof.
  intros Hlt Hc q. st_simpl.
  destruct (Nat.eq_dec p q); [congruence|].
  destruct (Nat.eq_dec p (2 * q + 1)); auto.
  destruct (Nat.eq_dec p (2 * q + 2)); auto.
  intros H1 H2 H3. destruct (Hc q H1 H2 H3).
Qed.

(** ** Splitting down to the goal size *)
Lemma split_to_ok goal : forall fuel sp p,
  sp_wf sp -> st_at sp p = Some VACANT -> coal_but sp p ->
  sp_min sp <= goal <= get_size sp p ->
  get_size sp p - goal < Z.of_nat fuel ->
  exists sp' p', split_to fuel sp p goal = Ret (sp', p') /\
    sp_wf sp' /\ set_shape sp sp' /\ coal_but sp' p' /\
    st_at sp' p' = Some VACANT /\ get_size sp' p' = goal /\
    get_addr sp' p' = get_addr sp p /\
    (forall x, st_at sp' x = Some OCCUPIED <-> st_at sp x = Some OCCUPIED).
Proof.
  induction fuel as [|f IH]; intros sp p Hwf Hv Hc Hg Hf; [lia|].
  cbn [split_to]. pose proof (wf_len _ Hwf) as Hlen.
  assert (Hlt : (p < 511)%nat) by (rewrite <- Hlen; eapply st_at_lt; eauto).
  destruct (Z.ltb_spec goal (get_size sp p)) as [Hgt|Hle].
  - pose proof (get_size_eq sp p Hlt) as Hgs.
    pose proof (wf_min _ Hwf) as Hmin. pose proof (wf_size _ Hwf) as Hsz.
    assert (Hd : (dp p < 8)%nat) by lia.
    pose proof (dp_lt_children p Hd) as Hch.
    destruct (split_ok sp p Hwf Hv Hc Hch) as (E & Hwf' & Hsh & Hv' & Hc' & Hocc).
    rewrite E. cbn [bind]. unfold left_child.
    assert (Hgs' : get_size (split3 sp p) (2 * p + 1) = get_size sp p - 1).
    { rewrite get_size_eq by lia. rewrite dp_left. destruct Hsh as (-> & _). lia. }
    destruct Hsh as (S1 & S2 & S3 & S4).
    destruct (IH (split3 sp p) (2 * p + 1)%nat Hwf' Hv' Hc') as
      (sp' & p' & E' & W & Sh & C & V & G & A & O); [lia|lia|].
    exists sp', p'. rewrite E'. split; [reflexivity|].
    split; auto. split; [eapply set_shape_trans; [|exact Sh]; unfold set_shape; auto|].
    split; auto. split; auto. split; auto. split.
    + rewrite A. rewrite !get_addr_eq by lia. rewrite S1, S3, dp_left.
      f_equal.
      replace (S (2 * p + 1) - 2 ^ S (dp p))%nat with (2 * (S p - 2 ^ dp p))%nat
        by (cbn [Nat.pow]; lia).
      replace (sp_size sp - Z.of_nat (dp p)) with
        ((sp_size sp - Z.of_nat (S (dp p))) + 1) by lia.
      rewrite pow2_succ by lia. lia.
    + intros x. rewrite O, Hocc. tauto.
  - exists sp, p. split; auto. split; auto. split; [apply set_shape_refl|].
    repeat split; auto; lia.
Qed.

(** ** Climbing and merging *)
Fixpoint anc (k : nat) (p : nat) : nat :=
  match k with O => p | S k' => par (anc k' p) end.

Lemma anc_shift k p : anc k (par p) = par (anc k p).
Proof. induction k; simpl; congruence. Qed.

Lemma par_lt p : (0 < p)%nat -> (par p < p)%nat.
Proof. unfold par. lia. Qed.
Lemma anc_le k p : (anc k p <= p)%nat.
Proof. induction k; simpl; [lia|]. unfold par. lia. Qed.

Lemma sib_lt p : (p < 511)%nat -> (0 < p)%nat -> (sib p < 511)%nat.
Proof.
  intros H H0. unfold sib. destruct (Nat.eqb_spec (p mod 2) 0); lia.
Qed.

Lemma dp_par p : (0 < p)%nat -> dp p = S (dp (par p)).
Proof.
  intros H. destruct (par_cases p H) as [(E & _)|(E & _)]; rewrite E at 1.
  - apply dp_left.
  - apply dp_right.
Qed.

(** The result of climbing: [k] levels up, with vacant siblings all the way. *)
Lemma climb_ok : forall fuel sp p,
  sp_wf sp -> (p < 511)%nat -> (dp p < fuel)%nat ->
  exists k, climb fuel sp p = Ret (anc k p) /\ (k <= dp p)%nat /\
    (forall j, (j < k)%nat -> (0 < anc j p)%nat /\ st_at sp (sib (anc j p)) = Some VACANT) /\
    (anc k p = 0%nat \/ st_at sp (sib (anc k p)) <> Some VACANT).
Proof.
  induction fuel as [|f IH]; intros sp p Hwf Hlt Hf; [lia|].
  cbn [climb]. destruct (Nat.eq_dec p 0) as [->|NZ].
  { exists 0%nat. simpl. repeat split; auto; lia. }
  rewrite sibling_eq, parent_eq by lia.
  destruct (st_at_some sp (sib p)) as (s & Hs).
  { rewrite (wf_len _ Hwf). apply sib_lt; lia. }
  rewrite (get_state_ok _ _ _ Hs). cbn [bind].
  destruct (pstate_eqb s VACANT) eqn:E.
  - apply pstate_eqb_eq in E. subst s.
    pose proof (dp_par p ltac:(lia)) as Hdp.
    destruct (IH sp (par p)) as (k & E1 & E2 & E3 & E4); auto.
    { pose proof (par_lt p). lia. } { lia. }
    exists (S k). cbn [anc]. rewrite <- anc_shift. split; auto. split; [lia|]. split; auto.
    intros j Hj. destruct j as [|j]; [split; [simpl; lia|exact Hs]|].
    cbn [anc]. rewrite <- anc_shift. apply E3. lia.
  - exists 0%nat. simpl. split; auto. split; [lia|]. split; [lia|].
    right. rewrite Hs. intros [= ->]. discriminate.
Qed.

(** [unsplit] of the [k]-th ancestor merges the whole path. *)
Lemma unsplit_ok sp p : sp_wf sp -> st_at sp p = Some VACANT -> coal_but sp p ->
  forall k fuel, (0 < k <= fuel)%nat ->
  (forall j, (j < k)%nat -> (0 < anc j p)%nat /\ st_at sp (sib (anc j p)) = Some VACANT) ->
  exists sp', unsplit fuel sp (anc k p) = Ret sp' /\
    sp_wf sp' /\ set_shape sp sp' /\ coal_but sp' (anc k p) /\
    st_at sp' (anc k p) = Some VACANT /\ st_at sp' p = Some NON_EXTANT /\
    (forall x, st_at sp' x = Some OCCUPIED <-> st_at sp x = Some OCCUPIED) /\
    (forall x, x <> anc k p -> (x < 2 * anc k p + 1)%nat -> st_at sp' x = st_at sp x).
Proof.
  intros Hwf Hv Hc. induction k as [|k IH]; intros fuel Hk Hpath; [lia|].
  destruct fuel as [|f]; [lia|].
  set (c := anc k p) in *. set (r := anc (S k) p).
  assert (Er : r = par c) by reflexivity.
  assert (Hc0 : (0 < c)%nat) by (apply (Hpath k); lia).
  assert (Hsibc : st_at sp (sib c) = Some VACANT) by (apply (Hpath k); lia).
  assert (Hcp : (c <= p)%nat) by apply anc_le.
  assert (Hp511 : (p < 511)%nat) by (rewrite <- (wf_len _ Hwf); eapply st_at_lt; eauto).
  assert (Hcst : (k = 0%nat /\ st_at sp c = Some VACANT) \/ (0 < k)%nat /\ st_at sp c = Some SPLIT).
  { destruct k as [|k']; [left; split; auto|right; split; [lia|]].
    change c with (par (anc k' p)).
    assert (H0 : (0 < anc k' p)%nat) by (apply (Hpath k'); lia).
    assert (Hsk : st_at sp (sib (anc k' p)) = Some VACANT) by (apply (Hpath k'); lia).
    pose proof (anc_le k' p).
    replace (par (anc k' p)) with (par (sib (anc k' p))).
    - apply extant_parent; auto; [|congruence].
      destruct (par_cases (anc k' p) H0) as [(Ea & Eb)|(Ea & Eb)]; [|lia].
      pose proof (sib_lt (anc k' p)). lia.
    - destruct (par_cases (anc k' p) H0) as [(Ea & Eb)|(Ea & Eb)]; rewrite Eb.
      + apply par_right. + apply par_left. }
  assert (Hrst : st_at sp r = Some SPLIT).
  { rewrite Er. apply extant_parent; auto; [lia|]. destruct Hcst as [[_ H]|[_ H]]; congruence. }
  (* state before the final merge *)
  assert (Hmid : exists sp1,
    (let* sl := get_state sp (left_child r) in
       assert (split_or_vacant sl)
       (let* sr := get_state sp (right_child r) in
        assert (split_or_vacant sr)
        (let* sp := if pstate_eqb sl SPLIT then unsplit f sp (left_child r) else Ret sp in
         let* sr := get_state sp (right_child r) in
         if pstate_eqb sr SPLIT then unsplit f sp (right_child r) else Ret sp))) = Ret sp1 /\
    sp_wf sp1 /\ set_shape sp sp1 /\ coal_but sp1 c /\
    st_at sp1 c = Some VACANT /\ st_at sp1 (sib c) = Some VACANT /\
    st_at sp1 r = Some SPLIT /\ ((0 < k)%nat -> st_at sp1 p = Some NON_EXTANT) /\
    (forall x, st_at sp1 x = Some OCCUPIED <-> st_at sp x = Some OCCUPIED) /\
    (forall x, (x < c)%nat -> (x <> sib c) -> st_at sp1 x = st_at sp x)).
  { destruct Hcst as [[Hk0 Hcv]|[Hkp Hcs]].
    - exists sp.
      split.
      + unfold left_child, right_child.
        destruct (par_cases c Hc0) as [(Ea & Eb)|(Ea & Eb)]; rewrite Er, <- Ea, <- Eb;
        rewrite (get_state_ok _ _ _ Hcv), (get_state_ok _ _ _ Hsibc); cbn [bind split_or_vacant pstate_eqb orb assert];
        rewrite ?(get_state_ok _ _ _ Hcv), ?(get_state_ok _ _ _ Hsibc); reflexivity.
      + split; auto. split; [apply set_shape_refl|]. split.
        * subst k. exact Hc.
        * repeat split; auto; try tauto. lia.
    - destruct (IH f) as (sp1 & E1 & W1 & Sh1 & C1 & V1 & N1 & O1 & F1); [lia|intros; apply Hpath; lia|].
      fold c in E1, C1, V1, F1.
      assert (Hs1 : st_at sp1 (sib c) = Some VACANT).
      { rewrite F1; auto; destruct (par_cases c Hc0) as [(Ea & Eb)|(Ea & Eb)]; lia. }
      exists sp1. split.
      + unfold left_child, right_child.
        destruct (par_cases c Hc0) as [(Ea & Eb)|(Ea & Eb)]; rewrite Er, <- Ea, <- Eb.
        * rewrite (get_state_ok _ _ _ Hcs), (get_state_ok _ _ _ Hsibc).
          cbn [bind split_or_vacant pstate_eqb orb assert]. rewrite E1. cbn [bind].
          rewrite (get_state_ok _ _ _ Hs1). reflexivity.
        * rewrite (get_state_ok _ _ _ Hcs), (get_state_ok _ _ _ Hsibc).
          cbn [bind split_or_vacant pstate_eqb orb assert].
          rewrite (get_state_ok _ _ _ Hcs). cbn [bind pstate_eqb]. exact E1.
      + split; auto. split; auto. split; auto. split; auto. split; auto. split.
        * rewrite F1; auto; pose proof (par_lt c Hc0); lia.
        * split; auto. split; auto. intros x Hx Hxs. apply F1; lia. }
  destruct Hmid as (sp1 & E1 & W1 & Sh1 & C1 & V1 & S1 & R1 & N1 & O1 & F1).
  assert (Hm : st_at sp1 (2 * r + 1) = Some VACANT /\ st_at sp1 (2 * r + 2) = Some VACANT).
  { rewrite Er. destruct (par_cases c Hc0) as [(Ea & Eb)|(Ea & Eb)]; rewrite <- Ea, <- Eb; auto. }
  destruct Hm as [Hm1 Hm2].
  destruct (merge_ok sp1 r W1 R1 Hm1 Hm2) as (E2 & W2 & Sh2 & C2 & S2).
  { intros q Hq Hqs Hq1 Hq2. destruct (C1 q Hqs Hq1 Hq2) as [H|H]; apply Hq; rewrite Er, H.
    - symmetry; apply par_left. - symmetry; apply par_right. }
  exists (merge3 sp1 r).
  assert (Hrc : (r < c)%nat) by (rewrite Er; apply par_lt; auto).
  split.
  - cbn [unsplit]. rewrite (get_state_ok _ _ _ Hrst). cbn [bind pstate_eqb assert].
    revert E1. destruct (get_state sp (left_child r)) as [sl|e|]; cbn [bind]; try discriminate.
    destruct (split_or_vacant sl); cbn [assert]; try discriminate.
    destruct (get_state sp (right_child r)) as [sr|e|]; cbn [bind]; try discriminate.
    destruct (split_or_vacant sr); cbn [assert]; try discriminate.
    destruct (if pstate_eqb sl SPLIT then unsplit f sp (left_child r) else Ret sp) as [spa|e|];
      cbn [bind]; try discriminate.
    destruct (get_state spa (right_child r)) as [sr2|e|]; cbn [bind]; try discriminate.
    intros ->. cbn [bind]. exact E2.
  - split; auto. split; [eapply set_shape_trans; eauto|]. split; auto. split.
    + rewrite S2. destruct (Nat.eq_dec (2 * r + 2) r); [lia|].
      destruct (Nat.eq_dec (2 * r + 1) r); [lia|].
      destruct (Nat.eq_dec r r); [auto|lia].
    + split; [|split].
      * rewrite S2. destruct (Nat.eq_dec (2 * r + 2) p); auto.
        destruct (Nat.eq_dec (2 * r + 1) p); auto.
        destruct (Nat.eq_dec r p); [lia|].
        destruct k as [|k']; [|apply N1; lia].
        exfalso. change c with p in *.
        destruct (par_cases p Hc0) as [(Ea & Eb)|(Ea & Eb)]; lia.
      * intros x. rewrite S2, <- O1.
        destruct (Nat.eq_dec (2 * r + 2) x) as [<-|]; [split; congruence|].
        destruct (Nat.eq_dec (2 * r + 1) x) as [<-|]; [split; congruence|].
        destruct (Nat.eq_dec r x) as [<-|]; [split; congruence|]. tauto.
      * intros x Hx1 Hx2. rewrite S2.
        destruct (Nat.eq_dec (2 * r + 2) x); [lia|].
        destruct (Nat.eq_dec (2 * r + 1) x); [lia|].
        destruct (Nat.eq_dec r x); [congruence|].
        apply F1; destruct (par_cases c Hc0) as [(Ea & Eb)|(Ea & Eb)]; lia.
Qed.

(** ** Locating the pages of one size *)
Lemma pow2_nat_pos k : (0 < 2 ^ k)%nat.
Proof. apply Nat.neq_0_lt_0, Nat.pow_nonzero. lia. Qed.

Lemma dp_level d p : (2 ^ d - 1 <= p < 2 * (2 ^ d - 1) + 1)%nat <-> dp p = d.
Proof.
  pose proof (pow2_nat_pos d). unfold dp. split.
  - intros Hp. apply Nat.log2_unique; [lia|]. cbn [Nat.pow]. lia.
  - intros <-. pose proof (Nat.log2_spec (S p) ltac:(lia)) as [H1 H2].
    cbn [Nat.pow] in H2. lia.
Qed.

Lemma first_of_size_ok sp d : sp_wf sp -> (d <= 8)%nat ->
  first_of_size 64 sp 0 (sp_size sp - Z.of_nat d) = Ret (2 ^ d - 1)%nat.
Proof.
  intros Hwf Hd.
  assert (G : forall fuel j, (j <= d)%nat -> (d - j < fuel)%nat ->
     first_of_size fuel sp (2 ^ j - 1) (sp_size sp - Z.of_nat d) = Ret (2 ^ d - 1)%nat).
  { induction fuel as [|f IH]; intros j Hj Hf; [lia|].
    cbn [first_of_size].
    assert (Hlt : (2 ^ j - 1 < 511)%nat).
    { assert (2 ^ j <= 2 ^ 8)%nat by (apply Nat.pow_le_mono_r; lia).
      change (2 ^ 8)%nat with 256%nat in *. lia. }
    rewrite (wf_len _ Hwf). rewrite (proj2 (Nat.ltb_lt _ _) Hlt). cbn [assert].
    rewrite get_size_eq by auto.
    assert (Hdp : dp (2 ^ j - 1) = j) by (apply dp_level; pose proof (pow2_nat_pos j); lia).
    rewrite Hdp.
    destruct (Z.ltb_spec (sp_size sp - Z.of_nat d) (sp_size sp - Z.of_nat j)) as [Hl|Hl].
    - replace (2 * (2 ^ j - 1) + 1)%nat with (2 ^ S j - 1)%nat
        by (pose proof (pow2_nat_pos j); cbn [Nat.pow]; lia).
      apply IH; lia.
    - assert (j = d) by lia. subst. reflexivity. }
  apply (G 64%nat 0%nat); lia.
Qed.

Lemma scan_ok sp : forall n p, (p + n <= length (sp_pages sp))%nat ->
  (scan sp p n = Ret None /\ forall q, (p <= q < p + n)%nat -> st_at sp q <> Some VACANT) \/
  (exists q, scan sp p n = Ret (Some q) /\ (p <= q < p + n)%nat /\ st_at sp q = Some VACANT).
Proof.
  induction n as [|n IH]; intros p Hp; cbn [scan].
  - left. split; auto. lia.
  - destruct (st_at_some sp p) as (s & Hs); [lia|].
    rewrite (get_state_ok _ _ _ Hs). cbn [bind].
    destruct (pstate_eqb s VACANT) eqn:E.
    + apply pstate_eqb_eq in E. subst. right. exists p. repeat split; auto; lia.
    + destruct (IH (S p)) as [[E1 H1]|(q & E1 & H1 & H2)]; [lia| |].
      * left. split; auto. intros q Hq. destruct (Nat.eq_dec q p) as [->|].
        -- rewrite Hs. intros [= ->]. discriminate.
        -- apply H1. lia.
      * right. exists q. repeat split; auto; lia.
Qed.

Lemma sib_facts l : (0 < l)%nat -> sib l <> l /\ (sib l < 2 * l + 1)%nat.
Proof. intros H. destruct (par_cases l H) as [(Ea & Eb)|(Ea & Eb)]; lia. Qed.

Lemma coal_but_coal sp l : coal_but sp l ->
  l = 0%nat \/ st_at sp (sib l) <> Some VACANT -> coalesced sp.
Proof.
  intros C Hend q Hq H1 H2.
  destruct (C q Hq H1 H2) as [E|E]; (destruct Hend as [H0|Hn]; [lia|]); apply Hn;
  destruct (par_cases l ltac:(lia)) as [(Ea & Eb)|(Ea & Eb)]; rewrite Eb.
  - replace (par l) with q by lia. auto.
  - lia.
  - lia.
  - replace (par l) with q by lia. auto.
Qed.

(** ** Deallocation inside a superpage *)
Lemma dealloc_page_ok sp i s :
  sp_wf sp -> coalesced sp -> st_at sp i = Some OCCUPIED ->
  0 <= s <= 2 ^ 63 -> get_size sp i = Z.max min_page_size (round_up s) ->
  exists sp', dealloc_page sp (get_addr sp i) s = Ret sp' /\
    sp_wf sp' /\ coalesced sp' /\ set_shape sp sp' /\
    (forall x, st_at sp' x = Some OCCUPIED <-> st_at sp x = Some OCCUPIED /\ x <> i).
Proof.
  intros Hwf Hc Ho Hs Hgs.
  assert (Hlt : (i < 511)%nat) by (rewrite <- (wf_len _ Hwf); eapply st_at_lt; eauto).
  pose proof (wf_size _ Hwf) as Hsz. pose proof (wf_min _ Hwf) as Hmin.
  pose proof (dp_le i Hlt) as Hd8.
  pose proof (get_size_eq sp i Hlt) as Hg.
  unfold dealloc_page, round_up_checked. destruct (Z.leb_spec s (2 ^ 63)); [|lia].
  cbn [bind].
  assert (Hgoal : Z.max (sp_min sp) (round_up s) = sp_size sp - Z.of_nat (dp i)).
  { unfold min_page_size in *. lia. }
  rewrite Hgoal, first_of_size_ok by auto. cbn [bind].
  assert (Hquot : Z.to_nat (Z.of_nat (2 ^ dp i - 1) +
     (get_addr sp i - sp_base sp) ÷ to_signed (2 ^ (sp_size sp - Z.of_nat (dp i)))) = i).
  { rewrite get_addr_eq by auto.
    replace (sp_base sp + Z.of_nat (S i - 2 ^ dp i) * 2 ^ (sp_size sp - Z.of_nat (dp i)) - sp_base sp)
      with (Z.of_nat (S i - 2 ^ dp i) * 2 ^ (sp_size sp - Z.of_nat (dp i))) by lia.
    pose proof (proj2 (dp_level (dp i) i) eq_refl) as Hlev. pose proof (pow2_nat_pos (dp i)).
    unfold to_signed.
    destruct (Z.ltb_spec (2 ^ (sp_size sp - Z.of_nat (dp i))) (2 ^ 63)) as [Hl|Hl].
    - rewrite Z.quot_mul by (pose proof (pow2_pos (sp_size sp - Z.of_nat (dp i))); lia).
      lia.
    - assert (sp_size sp - Z.of_nat (dp i) >= 63).
      { destruct (Z_lt_ge_dec (sp_size sp - Z.of_nat (dp i)) 63); auto. exfalso.
        assert (2 ^ (sp_size sp - Z.of_nat (dp i)) < 2 ^ 63) by (apply Z.pow_lt_mono_r; lia). lia. }
      assert (Hd0 : dp i = 0%nat) by lia. rewrite Hd0 in Hlev |- *.
      change (2 ^ 0)%nat with 1%nat in *. assert (i = 0%nat) by lia. subst i.
      reflexivity. }
  rewrite Hquot. clear Hquot Hgoal. rewrite (wf_len _ Hwf), (proj2 (Nat.ltb_lt _ _) Hlt). cbn [assert].
  rewrite (change_state_ok _ _ _ _ Ho). cbn [bind].
  set (sp1 := set sp i VACANT).
  assert (Hlen : (i < length (sp_pages sp))%nat) by (rewrite (wf_len _ Hwf); lia).
  assert (W1 : sp_wf sp1) by (apply set_leaf_wf; auto; left; auto).
  assert (V1 : st_at sp1 i = Some VACANT)
    by (unfold sp1; st_simpl; destruct (Nat.eq_dec i i); auto; lia).
  assert (C1 : coal_but sp1 i) by (apply vacate_coal; auto).
  assert (O1 : forall x, st_at sp1 x = Some OCCUPIED <-> st_at sp x = Some OCCUPIED /\ x <> i).
  { intros x. unfold sp1. st_simpl. destruct (Nat.eq_dec i x) as [->|].
    - split; [congruence|tauto]. - split; [split; auto|tauto]. }
  destruct (climb_ok 64 sp1 i W1 Hlt) as (k & E1 & Hk & Hpath & Hend); [lia|].
  rewrite E1. cbn [bind].
  destruct (Nat.eqb_spec (anc k i) i) as [Eq|Ne].
  - exists sp1. split; auto. split; auto. split; [|split; [apply set_shape_set|auto]].
    rewrite Eq in Hend. apply (coal_but_coal sp1 i); auto.
  - destruct k as [|k]; [simpl in Ne; congruence|].
    destruct (unsplit_ok sp1 i W1 V1 C1 (S k) 64) as (sp2 & E2 & W2 & Sh2 & C2 & V2 & N2 & O2 & F2);
      [lia|auto|].
    rewrite E2. cbn [bind]. rewrite (get_state_ok _ _ _ N2). cbn [bind pstate_eqb assert].
    exists sp2. split; auto. split; auto. split; [|split].
    + apply (coal_but_coal sp2 (anc (S k) i)); auto.
      destruct Hend as [|Hn]; auto. destruct (Nat.eq_dec (anc (S k) i) 0) as [|NZ]; auto. right.
      destruct (sib_facts (anc (S k) i)) as [Hs1 Hs2]; [apply Nat.neq_0_lt_0; auto|].
      rewrite F2; auto.
    + eapply set_shape_trans; [|exact Sh2]. apply set_shape_set.
    + intros x. rewrite O2. apply O1.
Qed.
