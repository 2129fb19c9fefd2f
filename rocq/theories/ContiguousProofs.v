From Verif Require Import Base BaseLemmas IntMath IntMathProofs Align AlignProofs Contiguous.
From Coq Require Import Sorted.

Definition c_inv (st : cstate) : Prop :=
  0 < c_begin st /\ 0 <= c_size st /\ c_begin st + c_size st < 2 ^ 64 /\
  c_begin st <= c_next st <= c_begin st + c_size st.

Definition req_legal (size align : Z) : Prop := 0 <= size /\ pow2 align /\ align < 2 ^ 64.
Fixpoint cops_legal (ops : list cop) : Prop :=
  match ops with
  | [] => True
  | CAlloc s a :: ops' => req_legal s a /\ cops_legal ops'
  | CDealloc _ _ _ :: ops' => cops_legal ops'
  end.

Lemma c_allocate_spec st size align : c_inv st -> req_legal size align -> 0 < size ->
  let p := c_next st + pad align (c_next st) in
  c_allocate st size align =
  if c_begin st + c_size st <? p + size then (Throw bad_alloc, st)
  else (Ret p, mkC (c_size st) (c_begin st) (p + size)).
Proof.
  intros (H1 & H2 & H3 & H4) (L1 & L2 & L3) Hs p. unfold c_allocate.
  destruct (Z.eqb_spec size 0); [lia|]. destruct (Z.ltb_spec (c_next st) (c_begin st)); [lia|].
  replace (wrap64 (c_size st - (c_next st - c_begin st)))
    with (c_begin st + c_size st - c_next st)
    by (unfold wrap64, two64; rewrite Z.mod_small; lia).
  rewrite std_align_ok by (auto; lia). fold p.
  destruct (Z.ltb_spec (c_begin st + c_size st - c_next st) (size + pad align (c_next st)));
    destruct (Z.ltb_spec (c_begin st + c_size st) (p + size)); auto; unfold p in *; lia.
Qed.

Lemma c_allocate_inv st size align r st' : c_inv st -> req_legal size align ->
  c_allocate st size align = (r, st') -> c_inv st' /\ c_begin st' = c_begin st /\
  c_size st' = c_size st /\ c_next st <= c_next st' /\
  (size = 0 -> r = Ret 0 /\ st' = st) /\
  (0 < size -> (r = Throw bad_alloc /\ st' = st) \/
     exists p, r = Ret p /\ c_next st <= p /\ c_next st' = p + size /\ (align | p)).
Proof.
  intros HI HL E. pose proof HL as (L1 & (k & Hk & ->) & L3).
  destruct (Z.eq_dec size 0) as [->|NZ].
  { unfold c_allocate in E. simpl in E. injection E as <- <-. split; auto.
    repeat split; auto; try lia. }
  rewrite (c_allocate_spec st size _ HI HL) in E by lia. cbv zeta in E.
  pose proof (pad_bounds (2 ^ k) (c_next st) (pow2_pos k Hk)) as Hpad.
  pose proof (pad_divide (2 ^ k) (c_next st) (pow2_pos k Hk)) as Hdiv.
  destruct HI as (H1 & H2 & H3 & H4).
  destruct (Z.ltb_spec (c_begin st + c_size st) (c_next st + pad (2 ^ k) (c_next st) + size));
    injection E as <- <-; cbn [c_begin c_size c_next] in *.
  - repeat split; auto; try lia.
  - unfold c_inv. cbn [c_begin c_size c_next]. repeat split; auto; try lia.
    intros _. right. eexists. repeat split; [lia|auto].
Qed.

Definition before (b c : block) : Prop := bptr b + bsize b <= bptr c.

Lemma c_run_ok ops : forall st, c_inv st -> cops_legal ops ->
  exists l st', c_run ops st = Ret (l, st') /\ c_inv st' /\
    c_begin st' = c_begin st /\ c_size st' = c_size st /\ c_next st <= c_next st' /\
    StronglySorted before l /\
    (forall b, In b l -> 0 < bsize b /\ (balign b | bptr b) /\
       c_next st <= bptr b /\ bptr b + bsize b <= c_next st').
Proof.
  induction ops as [|[size align|p size align] ops IH]; intros st HI HL; cbn [c_run].
  - exists [], st. split; auto. split; auto. split; auto. split; auto. split; [lia|].
    split; [constructor|]. intros b [].
  - destruct HL as [HL1 HL2].
    destruct (c_allocate st size align) as [r st1] eqn:E.
    destruct (c_allocate_inv _ _ _ _ _ HI HL1 E) as (I1 & B1 & S1 & N1 & Z1 & P1).
    destruct (IH st1 I1 HL2) as (l & st' & R & I2 & B2 & S2 & N2 & SS & HB).
    destruct HL1 as (L1 & _ & _).
    destruct (Z.eq_dec size 0) as [Z0|NZ].
    + destruct (Z1 Z0) as [-> ->]. rewrite R. cbn [bind]. rewrite (proj2 (Z.eqb_eq size 0) Z0).
      exists l, st'. do 6 (split; [first [assumption|reflexivity|congruence|lia]|]); exact HB.
    + destruct (P1 ltac:(lia)) as [[-> ->]|(p & -> & Hp & Hn & Hd)].
      * exists l, st'. do 6 (split; [first [assumption|reflexivity|congruence|lia]|]); exact HB.
      * rewrite R. cbn [bind]. rewrite (proj2 (Z.eqb_neq size 0) NZ).
        exists (mkBlock p size align :: l), st'.
        split; [reflexivity|]. split; [assumption|]. split; [congruence|].
        split; [congruence|]. split; [lia|]. split.
        -- constructor; auto. apply Forall_forall. intros c Hc.
           destruct (HB c Hc) as (_ & _ & Hc1 & _). unfold before. simpl. lia.
        -- intros b [<-|Hb]; simpl.
           ++ repeat split; auto; lia.
           ++ destruct (HB b Hb) as (C1 & C2 & C3 & C4). repeat split; auto; lia.
  - apply IH; auto.
Qed.

Lemma sorted_disjoint l : StronglySorted before l -> (forall b, In b l -> 0 < bsize b) ->
  pairwise_disjoint l.
Proof.
  induction 1 as [|b l HS IH HF]; simpl; auto. intros Hpos. split.
  - intros c Hc. apply not_overlap_iff. rewrite Forall_forall in HF. specialize (HF c Hc).
    unfold before in HF. lia.
  - apply IH. auto.
Qed.

Lemma c_construct_inv w size st w' : 0 <= size ->
  c_construct w size = (Ret st, w') -> upstream_ok (ulog w') ->
  c_inv st /\ c_size st = size /\ c_next st = c_begin st /\
  ulog w' = UAlloc size max_align (Some (c_begin st)) :: ulog w.
Proof.
  intros Hs. unfold c_construct, up_alloc. destruct (uorc w (length (ulog w))) as [p|]; [|discriminate].
  intros [= <- <-] (H1 & H2 & _). unfold c_inv. simpl. repeat split; lia.
Qed.

Lemma contiguous_blocks w size st w' ops : 0 <= size ->
  c_construct w size = (Ret st, w') -> upstream_ok (ulog w') -> cops_legal ops ->
  exists l st', c_run ops st = Ret (l, st') /\
    StronglySorted before l /\ pairwise_disjoint l /\
    forall b, In b l -> 0 < bsize b /\ (balign b | bptr b) /\
      inside b (mkBlock (c_begin st) size max_align) /\
      In (mkBlock (c_begin st) size max_align) (ulive (ulog w')).
Proof.
  intros Hs E Hok HL. destruct (c_construct_inv _ _ _ _ Hs E Hok) as (HI & Es & En & Ew).
  destruct (c_run_ok ops st HI HL) as (l & st' & R & I2 & B2 & S2 & N2 & SS & HB).
  exists l, st'. split; auto. split; auto. split.
  - apply sorted_disjoint; auto. intros b Hb. apply HB; auto.
  - intros b Hb. destruct (HB b Hb) as (H1 & H2 & H3 & H4). split; auto. split; auto. split.
    + apply inside_iff; auto. simpl. destruct I2 as (_ & _ & _ & I2). lia.
    + rewrite Ew. simpl. auto.
Qed.

Lemma contiguous_fit w size st w' ops l st' sz al : 0 <= size ->
  c_construct w size = (Ret st, w') -> upstream_ok (ulog w') -> cops_legal ops ->
  c_run ops st = Ret (l, st') -> req_legal sz al -> 0 < sz ->
  let fits p := c_next st' <= p /\ (al | p) /\ p + sz <= c_begin st + size in
  ((~ exists p, fits p) -> c_allocate st' sz al = (Throw bad_alloc, st')) /\
  ((exists p, fits p) -> exists p st'', c_allocate st' sz al = (Ret p, st'') /\ fits p /\
     (forall q, fits q -> p <= q) /\ c_next st'' = p + sz) /\
  (forall p' s' a', c_deallocate st' p' s' a' = st').
Proof.
  intros Hs E Hok HL R HL' Hsz fits.
  destruct (c_construct_inv _ _ _ _ Hs E Hok) as (HI & Es & En & Ew).
  destruct (c_run_ok ops st HI HL) as (l2 & st2 & R2 & I2 & B2 & S2 & N2 & SS & HB).
  rewrite R in R2. injection R2 as <- <-.
  pose proof HL' as (L1 & (k & Hk & Ek) & L3). pose proof (pow2_pos k Hk) as Hkp. rewrite <- Ek in Hkp.
  pose proof (pad_bounds al (c_next st') Hkp) as Hpad.
  pose proof (pad_divide al (c_next st') Hkp) as Hdiv.
  rewrite (c_allocate_spec st' sz al I2 HL' Hsz). cbv zeta.
  set (p := c_next st' + pad al (c_next st')) in *.
  assert (Hleast : forall q, c_next st' <= q -> (al | q) -> p <= q)
    by (intros; apply pad_least; auto).
  split; [|split; [|reflexivity]].
  - intros Hno. destruct (Z.ltb_spec (c_begin st' + c_size st') (p + sz)); auto.
    exfalso. apply Hno. exists p. unfold fits. repeat split; auto; unfold p in *; lia.
  - intros (q & Q1 & Q2 & Q3). pose proof (Hleast q Q1 Q2).
    destruct (Z.ltb_spec (c_begin st' + c_size st') (p + sz)); [lia|].
    eexists. eexists. split; [reflexivity|]. split; [|split].
    + unfold fits. repeat split; auto; unfold p in *; lia.
    + intros q' (Q1' & Q2' & _). auto.
    + reflexivity.
Qed.

Lemma contiguous_life w size st w' ops l st' :
  c_construct w size = (Ret st, w') -> c_run ops st = Ret (l, st') ->
  ulog (c_destroy st' w') = UFree (c_begin st) size max_align ::
     UAlloc size max_align (Some (c_begin st)) :: ulog w.
Proof.
  unfold c_construct, up_alloc. destruct (uorc w (length (ulog w))) as [p|]; [|discriminate].
  intros [= <- <-] R. unfold c_destroy, up_free. cbn [ulog c_begin].
  assert (G : forall ops st l st', c_run ops st = Ret (l, st') ->
     c_begin st' = c_begin st /\ c_size st' = c_size st).
  { clear. induction ops as [|[s a|p s a] ops IH]; cbn [c_run]; intros st l st' H.
    - injection H as <- <-. auto.
    - destruct (c_allocate st s a) as [r st1] eqn:E.
      assert (c_begin st1 = c_begin st /\ c_size st1 = c_size st).
      { unfold c_allocate in E. destruct (s =? 0); [injection E as <- <-; auto|].
        destruct (c_next st <? c_begin st); [injection E as <- <-; auto|].
        destruct (std_align _ _ _ _) as [[q ?]|]; injection E as <- <-; auto. }
      destruct r as [q|e|]; [|apply IH in H; intuition congruence|discriminate].
      destruct (c_run ops st1) as [[l1 st2]|e|] eqn:E2; cbn [bind] in H; try discriminate.
      injection H as <- <-. apply IH in E2. intuition congruence.
    - apply IH in H. auto. }
  destruct (G _ _ _ _ R) as [-> ->]. reflexivity.
Qed.
