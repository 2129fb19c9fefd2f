(** Facts about the page tree of one superpage (proofs for [Buddy]). *)
From Verif Require Import Base BaseLemmas IntMath IntMathProofs Buddy.

Definition st_at (sp : superpage) (p : nat) : option pstate := nth_error (sp_pages sp) p.
Definition dp (p : nat) : nat := Nat.log2 (S p).
Definition par (p : nat) : nat := ((p - 1) / 2)%nat.
Definition sib (p : nat) : nat := if Nat.eqb (Nat.modulo p 2) 0 then (p - 1)%nat else (p + 1)%nat.
Definition set (sp : superpage) (p : nat) (s : pstate) : superpage :=
  mkSP (sp_size sp) (sp_min sp) (upd (sp_pages sp) p s) (sp_base sp).
Definition set_shape (sp sp' : superpage) : Prop :=
  sp_size sp' = sp_size sp /\ sp_min sp' = sp_min sp /\ sp_base sp' = sp_base sp /\
  length (sp_pages sp') = length (sp_pages sp).

Lemma pstate_eqb_eq a b : pstate_eqb a b = true <-> a = b.
Proof. destruct a, b; simpl; split; congruence. Qed.
Lemma pstate_eqb_refl a : pstate_eqb a a = true.
Proof. destruct a; reflexivity. Qed.

Lemma Zlog2_nat n : (0 < n)%nat -> Z.log2 (Z.of_nat n) = Z.of_nat (Nat.log2 n).
Proof.
  intros H. pose proof (Nat.log2_spec n H) as [H1 H2].
  apply Z.log2_unique; [lia|].
  assert (E : forall k, 2 ^ Z.of_nat k = Z.of_nat (2 ^ k)).
  { intros k. rewrite Nat2Z.inj_pow. reflexivity. }
  rewrite <- Nat2Z.inj_succ. rewrite !E. lia.
Qed.

Lemma get_size_eq sp p : (p < 511)%nat -> get_size sp p = sp_size sp - Z.of_nat (dp p).
Proof.
  intros H. unfold get_size, dp. rewrite clzl_spec by lia.
  replace (Z.of_nat p + 1) with (Z.of_nat (S p)) by lia.
  rewrite Zlog2_nat by lia. lia.
Qed.

Lemma dp_le p : (p < 511)%nat -> (dp p <= 8)%nat.
Proof.
  intros H. unfold dp.
  assert (Nat.log2 (S p) <= Nat.log2 511)%nat by (apply Nat.log2_le_mono; lia).
  change (Nat.log2 511) with 8%nat in *. lia.
Qed.

Lemma dp_lt_children p : (dp p < 8)%nat -> (2 * p + 2 < 511)%nat.
Proof.
  unfold dp. intros H.
  assert (S p < 256)%nat; [|lia].
  change 256%nat with (2 ^ 8)%nat. apply Nat.log2_lt_pow2; lia.
Qed.

Lemma dp_left p : dp (2 * p + 1) = S (dp p).
Proof.
  unfold dp. replace (S (2 * p + 1)) with (2 * S p)%nat by lia.
  apply Nat.log2_double. lia.
Qed.
Lemma dp_right p : dp (2 * p + 2) = S (dp p).
Proof.
  unfold dp. replace (S (2 * p + 2)) with (2 * S p + 1)%nat by lia.
  apply Nat.log2_succ_double. lia.
Qed.

Lemma par_cases p : (0 < p)%nat ->
  (p = 2 * par p + 1 /\ sib p = 2 * par p + 2)%nat \/
  (p = 2 * par p + 2 /\ sib p = 2 * par p + 1)%nat.
Proof.
  intros H. unfold par, sib.
  destruct (Nat.eqb_spec (p mod 2) 0) as [E|E]; [right|left]; lia.
Qed.
Lemma par_left p : par (2 * p + 1) = p.
Proof. unfold par. lia. Qed.
Lemma par_right p : par (2 * p + 2) = p.
Proof. unfold par. lia. Qed.

Lemma parent_eq p : (0 < p)%nat -> parent p = Some (par p).
Proof.
  intros H. unfold parent, par. destruct (Nat.eqb_spec p 0); [lia|].
  destruct (Nat.eqb_spec (p mod 2) 0); f_equal; lia.
Qed.
Lemma sibling_eq p : (0 < p)%nat -> sibling p = Some (sib p).
Proof.
  intros H. unfold sibling, sib. destruct (Nat.eqb_spec p 0); [lia|].
  destruct (Nat.eqb_spec (p mod 2) 0); f_equal; lia.
Qed.

(** ** State updates *)
Lemma st_at_set sp p s q : (p < length (sp_pages sp))%nat ->
  st_at (set sp p s) q = if Nat.eq_dec p q then Some s else st_at sp q.
Proof.
  intros H. unfold st_at, set. simpl. rewrite nth_error_upd.
  destruct (Nat.eq_dec p q); auto. destruct (lt_dec p (length (sp_pages sp))); auto. lia.
Qed.

Lemma set_shape_set sp p s : set_shape sp (set sp p s).
Proof. unfold set_shape, set. simpl. rewrite upd_length. auto. Qed.
Lemma set_shape_refl sp : set_shape sp sp.
Proof. unfold set_shape. auto. Qed.
Lemma set_shape_trans a b c : set_shape a b -> set_shape b c -> set_shape a c.
Proof. unfold set_shape. intuition congruence. Qed.

Lemma change_state_ok sp p x y :
  st_at sp p = Some x -> change_state sp p x y = Ret (set sp p y).
Proof.
  unfold change_state, get_state, st_at. intros ->. simpl.
  rewrite pstate_eqb_refl. reflexivity.
Qed.
Lemma get_state_ok sp p x : st_at sp p = Some x -> get_state sp p = Ret x.
Proof. unfold get_state, st_at. intros ->. reflexivity. Qed.
Lemma st_at_lt sp p x : st_at sp p = Some x -> (p < length (sp_pages sp))%nat.
Proof. apply nth_error_lt. Qed.
Lemma st_at_some sp p : (p < length (sp_pages sp))%nat -> exists x, st_at sp p = Some x.
Proof.
  intros H. destruct (st_at sp p) as [x|] eqn:E; [eauto|].
  apply nth_error_None in E. lia.
Qed.

Lemma set_shape_get_size sp sp' p : set_shape sp sp' -> get_size sp' p = get_size sp p.
Proof. intros (H & _). unfold get_size. rewrite H. reflexivity. Qed.
Lemma set_shape_get_addr sp sp' p : set_shape sp sp' -> get_addr sp' p = get_addr sp p.
Proof.
  intros H. unfold get_addr. rewrite (set_shape_get_size _ _ _ H).
  destruct H as (-> & _ & -> & _). reflexivity.
Qed.

(** ** Well-formed superpages *)
Record sp_wf (sp : superpage) : Prop := {
  wf_size : 16 <= sp_size sp <= 63;
  wf_min : sp_min sp = sp_size sp - 8;
  wf_len : length (sp_pages sp) = 511%nat;
  wf_root : st_at sp 0 <> Some NON_EXTANT;
  wf_ext : forall p, (0 < p < 511)%nat ->
      (st_at sp p = Some NON_EXTANT <-> st_at sp (par p) <> Some SPLIT);
  wf_leaf : forall p, st_at sp p = Some SPLIT -> (2 * p + 2 < 511)%nat }.

(** No split page with two vacant children, except possibly the parent of [q]. *)
Definition coal_but (sp : superpage) (q : nat) : Prop :=
  forall p, st_at sp p = Some SPLIT ->
    st_at sp (2 * p + 1) = Some VACANT -> st_at sp (2 * p + 2) = Some VACANT ->
    q = (2 * p + 1)%nat \/ q = (2 * p + 2)%nat.
Definition coalesced (sp : superpage) : Prop :=
  forall p, st_at sp p = Some SPLIT ->
    st_at sp (2 * p + 1) = Some VACANT -> st_at sp (2 * p + 2) = Some VACANT -> False.

Lemma coal_coal_but sp q : coalesced sp -> coal_but sp q.
Proof. intros H p H1 H2 H3. destruct (H p H1 H2 H3). Qed.

Lemma extant_parent sp p : sp_wf sp -> (0 < p < 511)%nat ->
  st_at sp p <> Some NON_EXTANT -> st_at sp (par p) = Some SPLIT.
Proof.
  intros Hwf Hp Hne. destruct (st_at sp (par p)) as [[| | |]|] eqn:E; auto;
  exfalso; apply Hne; apply (wf_ext _ Hwf); auto; congruence.
Qed.

(** Proper ancestors of an existing page are split. *)
Lemma extant_ancestor sp p : sp_wf sp -> (p < 511)%nat ->
  st_at sp p <> Some NON_EXTANT ->
  forall k, (0 < k)%nat -> (2 ^ k <= S p)%nat ->
  st_at sp (S p / 2 ^ k - 1) = Some SPLIT.
Proof.
  intros Hwf Hp Hne. induction k as [|k IH]; intros Hk Hle; [lia|].
  destruct k as [|k].
  - replace (S p / 2 ^ 1 - 1)%nat with (par p).
    + apply extant_parent; auto. change (2 ^ 1)%nat with 2%nat in Hle. lia.
    + unfold par. change (2 ^ 1)%nat with 2%nat. lia.
  - set (q := (S p / 2 ^ S k - 1)%nat) in *.
    assert (Hpow : (2 ^ S (S k) = 2 * 2 ^ S k)%nat) by (cbn [Nat.pow]; lia).
    assert (Hpos : (0 < 2 ^ S k)%nat) by (apply Nat.neq_0_lt_0, Nat.pow_nonzero; lia).
    assert (Hq : st_at sp q = Some SPLIT) by (apply IH; lia).
    assert (Hq2 : (2 <= S p / 2 ^ S k)%nat).
    { apply Nat.div_le_lower_bound; lia. }
    replace (S p / 2 ^ S (S k) - 1)%nat with (par q).
    + apply extant_parent; auto; [|congruence].
      split; [unfold q; lia|].
      assert (S p / 2 ^ S k <= S p)%nat; [|unfold q; lia].
      apply Nat.div_le_upper_bound; try lia. nia.
    + unfold par. rewrite Hpow. rewrite (Nat.mul_comm 2), <- Nat.div_div by lia.
      unfold q. lia.
Qed.

(** ** Address ranges of pages *)
Definition pblock (sp : superpage) (p : nat) : block :=
  mkBlock (get_addr sp p) (2 ^ get_size sp p) 0.
Definition sp_block (sp : superpage) : block :=
  mkBlock (sp_base sp) (2 ^ sp_size sp) max_align.

Lemma get_addr_eq sp p : (p < 511)%nat ->
  get_addr sp p =
  sp_base sp + Z.of_nat (S p - 2 ^ dp p) * 2 ^ (sp_size sp - Z.of_nat (dp p)).
Proof.
  intros H. unfold get_addr. rewrite get_size_eq by auto.
  replace (sp_size sp - (sp_size sp - Z.of_nat (dp p))) with (Z.of_nat (dp p)) by lia.
  f_equal. f_equal.
  pose proof (Nat.log2_spec (S p)). unfold dp.
  rewrite Nat2Z.inj_sub by lia. rewrite Nat2Z.inj_pow. lia.
Qed.

Lemma page_in_sp sp p : 16 <= sp_size sp <= 63 -> (p < 511)%nat ->
  inside (pblock sp p) (sp_block sp).
Proof.
  intros Hs Hp. pose proof (dp_le p Hp) as Hd.
  apply inside_iff; simpl.
  - apply pow2_pos. rewrite get_size_eq by auto. lia.
  - rewrite get_addr_eq, get_size_eq by auto.
    pose proof (Nat.log2_spec (S p) ltac:(lia)) as [H1 H2]. fold (dp p) in *.
    cbn [Nat.pow] in H2.
    set (u := 2 ^ (sp_size sp - Z.of_nat (dp p))).
    assert (Hu : 0 < u) by (apply pow2_pos; lia).
    assert (E : 2 ^ sp_size sp = Z.of_nat (2 ^ dp p) * u).
    { rewrite Nat2Z.inj_pow. unfold u. rewrite <- Z.pow_add_r by lia. f_equal. lia. }
    rewrite E. nia.
Qed.

(** Two page ranges meet only if one page is an ancestor of the other. *)
Lemma dyadic sp p q x : 16 <= sp_size sp <= 63 -> (p < 511)%nat -> (q < 511)%nat ->
  (dp p <= dp q)%nat ->
  in_block x (pblock sp p) -> in_block x (pblock sp q) ->
  (S q / 2 ^ (dp q - dp p) = S p)%nat.
Proof.
  intros Hs Hp Hq Hd. unfold in_block, pblock. simpl.
  rewrite !get_addr_eq, !get_size_eq by auto.
  pose proof (dp_le q Hq) as Hd8.
  pose proof (Nat.log2_spec (S p) ltac:(lia)) as [H1 H2]. fold (dp p) in *.
  pose proof (Nat.log2_spec (S q) ltac:(lia)) as [H3 H4]. fold (dp q) in *.
  set (k := (dp q - dp p)%nat).
  set (u := 2 ^ (sp_size sp - Z.of_nat (dp q))).
  assert (Hu : 0 < u) by (apply pow2_pos; lia).
  assert (E : 2 ^ (sp_size sp - Z.of_nat (dp p)) = Z.of_nat (2 ^ k) * u).
  { rewrite Nat2Z.inj_pow. unfold u, k. rewrite <- Z.pow_add_r by lia. f_equal. lia. }
  assert (E2 : (2 ^ dp q = 2 ^ dp p * 2 ^ k)%nat).
  { unfold k. rewrite <- Nat.pow_add_r. f_equal. lia. }
  rewrite E. set (a := (S p - 2 ^ dp p)%nat). set (c := (S q - 2 ^ dp q)%nat).
  set (K := (2 ^ k)%nat) in *.
  assert (HK : (0 < K)%nat) by (apply Nat.neq_0_lt_0, Nat.pow_nonzero; lia).
  intros Hx1 Hx2.
  assert (Ha : (a * K <= c)%nat).
  { assert (Z.of_nat a * Z.of_nat K < Z.of_nat c + 1); [|lia]. nia. }
  assert (Hb : (c < (a + 1) * K)%nat).
  { assert (Z.of_nat c < (Z.of_nat a + 1) * Z.of_nat K); [|lia]. nia. }
  assert (Eq : S q = (c + 2 ^ dp p * K)%nat) by (unfold c; lia).
  rewrite Eq, Nat.div_add by lia.
  assert (c / K = a)%nat.
  { symmetry. apply (Nat.div_unique c K a (c - a * K)); nia. }
  unfold a in *. lia.
Qed.

Definition is_leaf (s : option pstate) : Prop := s = Some OCCUPIED \/ s = Some VACANT.

Lemma leaf_disjoint sp p q : sp_wf sp -> is_leaf (st_at sp p) -> is_leaf (st_at sp q) ->
  p <> q -> ~ overlap (pblock sp p) (pblock sp q).
Proof.
  intros Hwf.
  assert (W : forall p q, (dp p <= dp q)%nat -> is_leaf (st_at sp p) -> is_leaf (st_at sp q) ->
              p <> q -> ~ overlap (pblock sp p) (pblock sp q)).
  { clear p q. intros p q Hd Hp Hq Hne (x & Hx1 & Hx2).
    assert (Lp : (p < 511)%nat).
    { rewrite <- (wf_len _ Hwf). destruct Hp as [H|H]; eapply st_at_lt; eauto. }
    assert (Lq : (q < 511)%nat).
    { rewrite <- (wf_len _ Hwf). destruct Hq as [H|H]; eapply st_at_lt; eauto. }
    pose proof (dyadic sp p q x (wf_size _ Hwf) Lp Lq Hd Hx1 Hx2) as E.
    destruct (Nat.eq_dec (dp q - dp p) 0) as [Z0|NZ].
    - rewrite Z0 in E. change (2 ^ 0)%nat with 1%nat in E. rewrite Nat.div_1_r in E. lia.
    - assert (st_at sp p = Some SPLIT).
      { replace p with (S q / 2 ^ (dp q - dp p) - 1)%nat by lia.
        apply extant_ancestor; [auto|auto|destruct Hq; congruence|lia|].
        - pose proof (Nat.log2_spec (S q) ltac:(lia)) as [H3 H4]. fold (dp q) in *.
          etransitivity; [|exact H3]. apply Nat.pow_le_mono_r; lia. }
      destruct Hp; congruence. }
  intros Hp Hq Hne. destruct (le_ge_dec (dp p) (dp q)) as [H|H].
  - apply W; auto.
  - intros Ho. apply overlap_sym in Ho. revert Ho. apply W; auto.
Qed.

Lemma leaf_addr_inj sp p q : sp_wf sp -> is_leaf (st_at sp p) -> is_leaf (st_at sp q) ->
  get_addr sp p = get_addr sp q -> p = q.
Proof.
  intros Hwf Hp Hq E. destruct (Nat.eq_dec p q) as [|Hne]; auto. exfalso.
  apply (leaf_disjoint sp p q Hwf Hp Hq Hne).
  assert (forall r, is_leaf (st_at sp r) -> 0 < 2 ^ get_size sp r) as Hpos.
  { intros r Hr. assert (r < 511)%nat.
    { rewrite <- (wf_len _ Hwf). destruct Hr as [H|H]; eapply st_at_lt; eauto. }
    apply pow2_pos. rewrite get_size_eq by auto.
    pose proof (dp_le r). pose proof (wf_size _ Hwf). lia. }
  pose proof (Hpos p Hp). pose proof (Hpos q Hq).
  exists (get_addr sp p). unfold in_block, pblock. simpl. lia.
Qed.

(** ** Splitting *)
Ltac st_simpl :=
  repeat match goal with
  | |- context [st_at (set ?s ?p ?x) ?q] => rewrite (st_at_set s p x q) by (simpl; rewrite ?upd_length; lia)
  | H : context [st_at (set ?s ?p ?x) ?q] |- _ => rewrite (st_at_set s p x q) in H by (simpl; rewrite ?upd_length; lia)
  end.

Definition split3 sp p := set (set (set sp p SPLIT) (2 * p + 1) VACANT) (2 * p + 2) VACANT.

Lemma split_ok sp p : sp_wf sp -> st_at sp p = Some VACANT -> coal_but sp p ->
  (2 * p + 2 < 511)%nat ->
  split sp p = Ret (split3 sp p) /\ sp_wf (split3 sp p) /\ set_shape sp (split3 sp p) /\
  st_at (split3 sp p) (2 * p + 1) = Some VACANT /\
  coal_but (split3 sp p) (2 * p + 1) /\
  (forall x, st_at (split3 sp p) x = Some OCCUPIED <-> st_at sp x = Some OCCUPIED).
Proof.
  intros Hwf Hv Hcoal Hlt. pose proof (wf_len _ Hwf) as Hlen.
  assert (HL : st_at sp (2 * p + 1) = Some NON_EXTANT).
  { apply (wf_ext _ Hwf); [lia|]. rewrite par_left. congruence. }
  assert (HR : st_at sp (2 * p + 2) = Some NON_EXTANT).
  { apply (wf_ext _ Hwf); [lia|]. rewrite par_right. congruence. }
  assert (Hsh : set_shape sp (split3 sp p)).
  { unfold split3. eapply set_shape_trans; [|apply set_shape_set].
    eapply set_shape_trans; [|apply set_shape_set]. apply set_shape_set. }
  assert (HS : forall x, st_at (split3 sp p) x =
     if Nat.eq_dec (2 * p + 2) x then Some VACANT
     else if Nat.eq_dec (2 * p + 1) x then Some VACANT
     else if Nat.eq_dec p x then Some SPLIT else st_at sp x).
  { intros x. unfold split3. st_simpl. reflexivity. }
  split; [|split; [|split; [|split; [|split]]]]; auto.
  - unfold split, left_child, right_child.
    rewrite (change_state_ok _ _ _ _ Hv). cbn [bind].
    rewrite (change_state_ok _ _ NON_EXTANT) by (st_simpl; destruct (Nat.eq_dec p (2 * p + 1)); [lia|auto]).
    cbn [bind].
    rewrite (change_state_ok _ _ NON_EXTANT); [reflexivity|].
    st_simpl. destruct (Nat.eq_dec (2 * p + 1) (2 * p + 2)); [lia|].
    destruct (Nat.eq_dec p (2 * p + 2)); [lia|auto].
  - destruct Hsh as (E1 & E2 & E3 & E4).
    constructor; rewrite ?E1, ?E2, ?E4; try apply Hwf.
    + rewrite HS. destruct (Nat.eq_dec (2 * p + 2) 0); [lia|].
      destruct (Nat.eq_dec (2 * p + 1) 0); [lia|].
      destruct (Nat.eq_dec p 0); [congruence|]. apply Hwf.
    + intros q Hq. rewrite !HS.
      destruct (par_cases q) as [(Ea & Eb)|(Ea & Eb)]; [lia| |];
      pose proof (wf_ext _ Hwf q Hq) as Hext;
      destruct (Nat.eq_dec (2 * p + 2) q), (Nat.eq_dec (2 * p + 1) q),
        (Nat.eq_dec p q), (Nat.eq_dec (2 * p + 2) (par q)), (Nat.eq_dec (2 * p + 1) (par q)),
        (Nat.eq_dec p (par q)); subst; try lia; try (split; congruence);
        try (rewrite Hext; split; congruence).
      all: try (replace (par q) with (2 * p + 2)%nat in * by lia; split; [congruence|]; intros _; rewrite Hext; congruence).
      all: try (replace (par q) with (2 * p + 1)%nat in * by lia; split; [congruence|]; intros _; rewrite Hext; congruence).
      all: try (rewrite <- Hext; split; congruence).
    + intros q. rewrite HS.
      destruct (Nat.eq_dec (2 * p + 2) q); [congruence|].
      destruct (Nat.eq_dec (2 * p + 1) q); [congruence|].
      destruct (Nat.eq_dec p q); [subst; lia|]. apply Hwf.
  - rewrite HS. destruct (Nat.eq_dec (2 * p + 2) (2 * p + 1)); [lia|].
    destruct (Nat.eq_dec (2 * p + 1) (2 * p + 1)); [auto|lia].
  - intros q. rewrite !HS.
    destruct (Nat.eq_dec (2 * p + 2) q); [congruence|].
    destruct (Nat.eq_dec (2 * p + 1) q); [congruence|].
    destruct (Nat.eq_dec p q); [subst; lia|].
    intros Hq.
    destruct (Nat.eq_dec (2 * p + 2) (2 * q + 1)); [lia|].
    destruct (Nat.eq_dec (2 * p + 1) (2 * q + 1)); [lia|].
    destruct (Nat.eq_dec p (2 * q + 1)); [congruence|].
    destruct (Nat.eq_dec (2 * p + 2) (2 * q + 2)); [lia|].
    destruct (Nat.eq_dec (2 * p + 1) (2 * q + 2)); [lia|].
    destruct (Nat.eq_dec p (2 * q + 2)); [congruence|].
    intros H1 H2. destruct (Hcoal q Hq H1 H2); lia.
  - intros x. rewrite HS.
    destruct (Nat.eq_dec (2 * p + 2) x); [subst; split; congruence|].
    destruct (Nat.eq_dec (2 * p + 1) x); [subst; split; congruence|].
    destruct (Nat.eq_dec p x); [subst; split; congruence|]. tauto.
Qed.

(** ** Merging *)
Definition merge3 sp p := set (set (set sp p VACANT) (2 * p + 1) NON_EXTANT) (2 * p + 2) NON_EXTANT.

Lemma merge_ok sp p : sp_wf sp -> st_at sp p = Some SPLIT ->
  st_at sp (2 * p + 1) = Some VACANT -> st_at sp (2 * p + 2) = Some VACANT ->
  (forall q, q <> p -> st_at sp q = Some SPLIT -> st_at sp (2 * q + 1) = Some VACANT ->
             st_at sp (2 * q + 2) = Some VACANT -> False) ->
  (let* sp := change_state sp p SPLIT VACANT in
   let* sp := change_state sp (left_child p) VACANT NON_EXTANT in
   change_state sp (right_child p) VACANT NON_EXTANT) = Ret (merge3 sp p) /\
  sp_wf (merge3 sp p) /\ set_shape sp (merge3 sp p) /\
  coal_but (merge3 sp p) p /\
  (forall x, st_at (merge3 sp p) x =
     if Nat.eq_dec (2 * p + 2) x then Some NON_EXTANT
     else if Nat.eq_dec (2 * p + 1) x then Some NON_EXTANT
     else if Nat.eq_dec p x then Some VACANT else st_at sp x).
Proof.
  intros Hwf Hs HL HR Hcoal. pose proof (wf_len _ Hwf) as Hlen.
  pose proof (wf_leaf _ Hwf p Hs) as Hlt.
  assert (Hsh : set_shape sp (merge3 sp p)).
  { unfold merge3. eapply set_shape_trans; [|apply set_shape_set].
    eapply set_shape_trans; [|apply set_shape_set]. apply set_shape_set. }
  assert (HS : forall x, st_at (merge3 sp p) x =
     if Nat.eq_dec (2 * p + 2) x then Some NON_EXTANT
     else if Nat.eq_dec (2 * p + 1) x then Some NON_EXTANT
     else if Nat.eq_dec p x then Some VACANT else st_at sp x).
  { intros x. unfold merge3. st_simpl. reflexivity. }
  split; [|split; [|split; [|split]]]; auto.
  - unfold left_child, right_child.
    rewrite (change_state_ok _ _ _ _ Hs). cbn [bind].
    rewrite (change_state_ok _ _ VACANT) by (st_simpl; destruct (Nat.eq_dec p (2 * p + 1)); [lia|auto]).
    cbn [bind].
    rewrite (change_state_ok _ _ VACANT); [reflexivity|].
    st_simpl. destruct (Nat.eq_dec (2 * p + 1) (2 * p + 2)); [lia|].
    destruct (Nat.eq_dec p (2 * p + 2)); [lia|auto].
  - destruct Hsh as (E1 & E2 & E3 & E4).
    constructor; rewrite ?E1, ?E2, ?E4; try apply Hwf.
    + rewrite HS. destruct (Nat.eq_dec (2 * p + 2) 0); [lia|].
      destruct (Nat.eq_dec (2 * p + 1) 0); [lia|].
      destruct (Nat.eq_dec p 0); [congruence|]. apply Hwf.
    + intros q Hq. rewrite !HS.
      destruct (par_cases q) as [(Ea & Eb)|(Ea & Eb)]; [lia| |];
      pose proof (wf_ext _ Hwf q Hq) as Hext;
      destruct (Nat.eq_dec (2 * p + 2) q), (Nat.eq_dec (2 * p + 1) q),
        (Nat.eq_dec p q), (Nat.eq_dec (2 * p + 2) (par q)), (Nat.eq_dec (2 * p + 1) (par q)),
        (Nat.eq_dec p (par q)); subst; try lia; try (split; congruence);
        try (rewrite Hext; split; congruence).
      all: try (replace (par q) with (2 * p + 2)%nat in * by lia; split; [congruence|]; intros _; rewrite Hext; congruence).
      all: try (replace (par q) with (2 * p + 1)%nat in * by lia; split; [congruence|]; intros _; rewrite Hext; congruence).
      all: try (rewrite <- Hext; split; congruence).
    + intros q. rewrite HS.
      destruct (Nat.eq_dec (2 * p + 2) q); [congruence|].
      destruct (Nat.eq_dec (2 * p + 1) q); [congruence|].
      destruct (Nat.eq_dec p q); [congruence|]. apply Hwf.
  - intros q. rewrite !HS.
    destruct (Nat.eq_dec (2 * p + 2) q); [congruence|].
    destruct (Nat.eq_dec (2 * p + 1) q); [congruence|].
    destruct (Nat.eq_dec p q); [congruence|].
    intros Hq.
    destruct (Nat.eq_dec (2 * p + 2) (2 * q + 1)); [lia|].
    destruct (Nat.eq_dec (2 * p + 1) (2 * q + 1)); [lia|].
    destruct (Nat.eq_dec p (2 * q + 1)); [auto|].
    destruct (Nat.eq_dec (2 * p + 2) (2 * q + 2)); [lia|].
    destruct (Nat.eq_dec (2 * p + 1) (2 * q + 2)); [lia|].
    destruct (Nat.eq_dec p (2 * q + 2)); [auto|].
    intros H1 H2. destruct (Hcoal q); auto.
Qed.
