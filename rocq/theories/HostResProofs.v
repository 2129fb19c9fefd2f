From Verif Require Import Base BaseLemmas IntMath IntMathProofs Align AlignProofs HostRes.

(** ** Default resource *)

(** The value a [get] must see after the operations [done] (oldest first). *)
Fixpoint last_set (nd cur : Z) (done : list dr_op) : Z :=
  match done with
  | [] => cur
  | DRGet :: l => last_set nd cur l
  | DRSet r :: l => last_set nd (if r =? 0 then nd else r) l
  end.

Lemma dr_run_spec nd ops : forall cur,
  fst (dr_run nd cur ops) = last_set nd cur ops /\
  (forall i o, nth_error ops i = Some o ->
     nth_error (snd (dr_run nd cur ops)) i = Some (last_set nd cur (firstn i ops))).
Proof.
  induction ops as [|o ops IH]; intros cur; cbn [dr_run].
  - split; auto. intros [|i] o H; discriminate.
  - destruct (dr_step nd cur o) as [cur' r] eqn:E.
    specialize (IH cur'). destruct (dr_run nd cur' ops) as [c l]. destruct IH as [IH1 IH2].
    assert (HC : last_set nd cur' ops = last_set nd cur (o :: ops) /\ r = cur /\
       forall l, last_set nd cur' l = last_set nd cur (o :: l)).
    { destruct o; simpl in E; injection E as <- <-; auto. }
    destruct HC as (H1 & H2 & H3). split.
    + cbn [fst] in *. congruence.
    + intros [|i] o' Ho; cbn [snd nth_error firstn] in *; [rewrite H2; reflexivity|].
      rewrite (IH2 i o' Ho). f_equal. apply H3.
Qed.

(** ** aligned_alloc path *)

Lemma ha_align_pow2 a : pow2 a -> pow2 (ha_align a).
Proof.
  intros Ha. unfold ha_align. destruct (Z.max_spec a max_align) as [[_ ->]|[_ ->]]; auto.
  exists 4. split; [lia|reflexivity].
Qed.

Lemma ha_args bytes alignment : 0 < bytes < 2 ^ 63 -> pow2 alignment -> alignment <= 2 ^ 62 ->
  let size := ha_size bytes alignment in
  let align := ha_align alignment in
  (align | size) /\ bytes <= size <= bytes + align /\ alignment <= align /\ pow2 align /\ 16 <= align.
Proof.
  intros Hb Ha Hal size align.
  pose proof (ha_align_pow2 _ Ha) as Hp. fold align in Hp.
  assert (HA : 16 <= align <= 2 ^ 62 /\ alignment <= align).
  { unfold align, ha_align, max_align. destruct Ha as (k & Hk & ->). lia. }
  pose proof (Z.div_mod bytes align ltac:(lia)) as D.
  pose proof (Z.mod_pos_bound bytes align ltac:(lia)) as M.
  assert (Hs : size = bytes + (align - bytes mod align)).
  { unfold size, ha_size, wrap64, two64. fold align. apply Z.mod_small. lia. }
  split; [|split; [rewrite Hs; lia|split; [tauto|split; [auto|tauto]]]].
  exists (bytes / align + 1). rewrite Hs. rewrite Z.mul_add_distr_r. lia.
Qed.

Definition host_legal (bytes alignment : Z) : Prop :=
  0 <= bytes < 2 ^ 63 /\ pow2 alignment /\ alignment <= 2 ^ 62.

Definition ha_alloc' (s : unit) (w : world) (b a : Z) : outcome Z * unit * world :=
  let '(r, w') := ha_allocate w b a in (r, s, w').
Definition ha_free' (s : unit) (w : world) (p b a : Z) : outcome unit * unit * world :=
  let '(r, w') := ha_deallocate w p b a in (r, s, w').

(** The memory obtained from the C library for a live block. *)
Definition ha_backing (b : block) : block :=
  mkBlock (bptr b) (ha_size (bsize b) (balign b)) (ha_align (balign b)).

Lemma map_remove1 (f : block -> block) b l :
  (forall c d, In c l -> In d l -> f c = f d -> c = d) -> In b l ->
  map f (remove1 b l) = remove1 (f b) (map f l).
Proof.
  induction l as [|c l IH]; simpl; intros HI Hb; auto.
  destruct (block_eq_dec b c) as [->|NE].
  - destruct (block_eq_dec (f c) (f c)); congruence.
  - destruct (block_eq_dec (f b) (f c)) as [E|_].
    + exfalso. apply NE. apply HI; auto.
    + simpl. f_equal. destruct Hb as [<-|Hb]; [congruence|]. apply IH; auto.
Qed.

Lemma pd_map_in (f : block -> block) l b c : pairwise_disjoint (map f l) -> In b l -> In c l ->
  b = c \/ ~ overlap (f b) (f c).
Proof.
  induction l as [|x l IH]; simpl; [tauto|]. intros [H1 H2] [<-|Hb] [<-|Hc]; auto.
  - right. apply H1. apply in_map. auto.
  - right. intros O. apply (H1 (f b)); [apply in_map; auto|]. apply overlap_sym. auto.
Qed.

Lemma pd_map_inside (f : block -> block) l : (forall b, In b l -> inside b (f b)) ->
  pairwise_disjoint (map f l) -> pairwise_disjoint l.
Proof.
  induction l as [|x l IH]; simpl; auto. intros HI [H1 H2].
  split; [|apply IH; auto]. intros c Hc (y & Y1 & Y2).
  apply (H1 (f c)); [apply in_map; auto|]. exists y.
  split; [apply (HI x (or_introl eq_refl)); auto|apply (HI c (or_intror Hc)); auto].
Qed.

Lemma pd_map_inj (f : block -> block) l : (forall b, In b l -> 0 < bsize (f b)) ->
  pairwise_disjoint (map f l) ->
  forall c d, In c l -> In d l -> f c = f d -> c = d.
Proof.
  intros HS HD c d Hc Hd E. destruct (pd_map_in f l c d HD Hc Hd) as [|N]; auto.
  exfalso. apply N. rewrite E. exists (bptr (f d)). pose proof (HS d Hd). unfold in_block. lia.
Qed.

Lemma ha_reach_inv s w live :
  reach ha_alloc' ha_free' host_legal tt fresh s w live -> upstream_ok (ulog w) ->
  ulive (ulog w) = map ha_backing live /\ frees_ok (ulog w) /\
  (forall b, In b live -> host_legal (bsize b) (balign b) /\ 0 < bsize b).
Proof.
  induction 1 as [w Hw|s w live size align p s' w' HR IH HL E|s w live size align e s' w' HR IH HL E
    |s w live b s' w' HR IH Hin E|s w live size align s' w' HR IH E]; intros HU.
  - rewrite Hw. simpl. split; auto. split; auto. intros b [].
  - unfold ha_alloc', ha_allocate in E. destruct (Z.eqb_spec size 0) as [->|NZ].
    + injection E as <- <- <-. auto.
    + unfold up_alloc in E. destruct (uorc w (length (ulog w))) as [q|]; [|discriminate].
      destruct (q =? 0); [discriminate|]. injection E as <- <- <-.
      cbn [ulog upstream_ok ulive frees_ok] in *. destruct HU as (_ & _ & _ & _ & HU).
      destruct (IH HU) as (A & B & C). split; [|split; auto].
      * rewrite A. reflexivity.
      * intros b [<-|Hb]; auto. simpl. split; auto. destruct HL. lia.
  - unfold ha_alloc', ha_allocate in E. destruct (Z.eqb_spec size 0) as [->|NZ]; [discriminate|].
    unfold up_alloc in E. destruct (uorc w (length (ulog w))) as [q|] eqn:EO.
    + destruct (Z.eqb_spec q 0) as [->|]; [|discriminate]. injection E as <- <- <-.
      cbn [ulog upstream_ok] in HU. lia.
    + injection E as <- <- <-. cbn [ulog upstream_ok ulive frees_ok] in *. auto.
  - unfold ha_free', ha_deallocate in E. destruct (Z.eqb_spec (bptr b) 0) as [Z0|NZ].
    + injection E as <- <-. exfalso. destruct (IH HU) as (A & _).
      assert (Hb : In (ha_backing b) (ulive (ulog w))) by (rewrite A; apply in_map; auto).
      destruct (ulive_props _ _ HU Hb) as (H & _). simpl in H. lia.
    + injection E as <- <-. cbn [up_free ulog upstream_ok ulive frees_ok] in *.
      destruct (IH HU) as (A & B & C).
      assert (HI : forall c d, In c live -> In d live -> ha_backing c = ha_backing d -> c = d).
      { apply pd_map_inj; [|rewrite <- A; apply ulive_disjoint; auto].
        intros y Hy. destruct (C y Hy) as ((Hl1 & Hl2 & Hl3) & Hs).
        destruct (ha_args (bsize y) (balign y)) as (_ & G & _); auto; [lia|]. simpl. lia. }
      split; [|split].
      * rewrite A. symmetry. apply map_remove1; auto.
      * split; auto. rewrite A. apply in_map_iff. exists b. auto.
      * intros c Hc. apply C. eapply remove1_in; eauto.
  - unfold ha_free', ha_deallocate in E. simpl in E. injection E as <- <-. auto.
Qed.

Lemma ha_blocks s w live :
  reach ha_alloc' ha_free' host_legal tt fresh s w live -> upstream_ok (ulog w) ->
  pairwise_disjoint live /\ frees_ok (ulog w) /\
  forall b, In b live -> (balign b | bptr b) /\
    exists u, In u (ulive (ulog w)) /\ inside b u /\ bptr u = bptr b.
Proof.
  intros HR HU. destruct (ha_reach_inv _ _ _ HR HU) as (A & B & C).
  assert (HIn : forall b, In b live -> inside b (ha_backing b)).
  { intros b Hb. destruct (C b Hb) as ((L1 & L2 & L3) & Hs).
    destruct (ha_args (bsize b) (balign b)) as (_ & G & _); auto; [lia|].
    apply inside_iff; [lia|]. unfold ha_backing. simpl. lia. }
  split; [|split; auto].
  - apply (pd_map_inside ha_backing); auto. rewrite <- A. apply ulive_disjoint; auto.
  - intros b Hb. assert (Hu : In (ha_backing b) (ulive (ulog w))) by (rewrite A; apply in_map; auto).
    split; [|exists (ha_backing b); auto].
    destruct (ulive_props _ _ HU Hu) as (_ & _ & HD). simpl in HD.
    destruct (C b Hb) as ((L1 & (k & Hk & Ek) & L3) & Hs).
    apply Z.divide_trans with (2 := HD). unfold ha_align, max_align.
    destruct (Z.max_spec (balign b) 16) as [[Hm ->]|[_ ->]]; [|apply Z.divide_refl].
    rewrite Ek in *. assert (k <= 4).
    { destruct (Z_le_gt_dec k 4); auto. assert (2 ^ 5 <= 2 ^ k) by (apply Z.pow_le_mono_r; lia). lia. }
    exists (2 ^ (4 - k)). rewrite <- Z.pow_add_r by lia. replace (4 - k + k) with 4 by lia. reflexivity.
Qed.

(** ** malloc path *)

(** State of a live block [b]: the C library block behind it starts at [u]. *)
Definition hf_ok (m : hmem) (b : block) : Prop :=
  let u := m (bptr b - ptr_size) in
  bptr b = u + ptr_size + pad (balign b) (u + ptr_size).
Definition hf_backing (m : hmem) (b : block) : block :=
  mkBlock (m (bptr b - ptr_size)) (hf_size (bsize b) (balign b)) max_align.

Lemma hf_size_eq bytes alignment : host_legal bytes alignment ->
  hf_size bytes alignment = bytes + alignment + ptr_size - 1.
Proof.
  intros (H1 & (k & Hk & Ek) & H3). unfold hf_size, ptr_size, wrap64, two64. pose proof (pow2_pos k Hk).
  apply Z.mod_small. lia.
Qed.

Lemma hf_layout bytes alignment u : host_legal bytes alignment -> 0 < bytes ->
  let p := u + ptr_size + pad alignment (u + ptr_size) in
  u + ptr_size <= p /\ p + bytes <= u + hf_size bytes alignment /\ (alignment | p).
Proof.
  intros HL Hb p. rewrite (hf_size_eq _ _ HL). destruct HL as (H1 & (k & Hk & Ek) & H3).
  pose proof (pow2_pos k Hk) as Hp. rewrite <- Ek in Hp.
  pose proof (pad_bounds alignment (u + ptr_size) Hp). 
  pose proof (pad_divide alignment (u + ptr_size) Hp). unfold p. split; [lia|]. split; [lia|auto].
Qed.

Lemma hf_allocate_spec m w bytes alignment : host_legal bytes alignment -> 0 < bytes ->
  upstream_ok (ulog (snd (hf_allocate m w bytes alignment))) ->
  match uorc w (length (ulog w)) with
  | None => hf_allocate m w bytes alignment =
      (Throw bad_alloc, m, mkWorld (UAlloc (hf_size bytes alignment) max_align None :: ulog w) (uorc w))
  | Some u =>
      let p := u + ptr_size + pad alignment (u + ptr_size) in
      hf_allocate m w bytes alignment =
      (Ret p, (fun a => if a =? p - ptr_size then u else m a),
       mkWorld (UAlloc (hf_size bytes alignment) max_align (Some u) :: ulog w) (uorc w))
  end.
Proof.
  intros HL Hb HU. unfold hf_allocate in *. rewrite (proj2 (Z.eqb_neq bytes 0)) in * by lia.
  unfold up_alloc in *. destruct (uorc w (length (ulog w))) as [u|]; auto.
  assert (HU' : 0 < u /\ u + hf_size bytes alignment < 2 ^ 64).
  { destruct (std_align _ _ _ _) as [[? ?]|] in HU; cbn [snd ulog upstream_ok] in HU; tauto. }
  clear HU. destruct HU' as [Hu Hu2]. rewrite (hf_size_eq _ _ HL) in *.
  pose proof HL as (H1 & (k & Hk & Ek) & H3). pose proof (pow2_pos k Hk) as Hp. rewrite <- Ek in Hp.
  pose proof (pad_bounds alignment (u + ptr_size) Hp) as Hpad.
  unfold ptr_size in *.
  assert (EW : wrap64 (bytes + alignment + 8 - 1 - 8) = bytes + alignment - 1).
  { unfold wrap64, two64. rewrite Z.mod_small; lia. }
  rewrite EW. rewrite std_align_ok; [|exists k; auto|lia|lia|lia|lia|lia|lia|lia].
  destruct (Z.ltb_spec (bytes + alignment - 1) (bytes + pad alignment (u + 8))); [lia|].
  reflexivity.
Qed.

(** Consequences of the bookkeeping of the live blocks. *)
Lemma hf_geometry m l live : upstream_ok l -> ulive l = map (hf_backing m) live ->
  (forall b, In b live -> host_legal (bsize b) (balign b) /\ 0 < bsize b /\ hf_ok m b) ->
  (forall b, In b live -> inside b (hf_backing m b) /\
    inside (mkBlock (bptr b - ptr_size) ptr_size 1) (hf_backing m b) /\
    (balign b | bptr b) /\ bptr b <> 0) /\
  (forall b c, In b live -> In c live -> ~ overlap b (mkBlock (bptr c - ptr_size) ptr_size 1)).
Proof.
  intros HU A C.
  assert (HIn : forall b, In b live -> inside b (hf_backing m b) /\
    inside (mkBlock (bptr b - ptr_size) ptr_size 1) (hf_backing m b) /\ (balign b | bptr b) /\ bptr b <> 0).
  { intros b Hb. destruct (C b Hb) as (Cl & Cs & Co).
    pose proof (hf_layout (bsize b) (balign b) (m (bptr b - ptr_size)) Cl Cs) as (M1 & M2 & M3).
    unfold hf_ok in Co. rewrite <- Co in M1, M2, M3.
    assert (Hu : In (hf_backing m b) (ulive l)) by (rewrite A; apply in_map; auto).
    destruct (ulive_props _ _ HU Hu) as (P1 & _). cbn [hf_backing bptr] in P1.
    split; [apply inside_iff; auto; unfold hf_backing; cbn [bptr bsize]; unfold ptr_size in *; lia|].
    split; [apply inside_iff; unfold hf_backing, ptr_size in *; cbn [bptr bsize]; lia|].
    split; auto. unfold ptr_size in *. lia. }
  split; auto.
  assert (HD : pairwise_disjoint (map (hf_backing m) live)) by (rewrite <- A; apply ulive_disjoint; auto).
  intros b c Hb Hc (y & Y1 & Y2). destruct (pd_map_in (hf_backing m) live b c HD Hb Hc) as [->|N].
  - unfold in_block, ptr_size in *. cbn [bptr bsize] in *. lia.
  - apply N. exists y. destruct (HIn b Hb) as (I1 & _). destruct (HIn c Hc) as (_ & I2 & _).
    split; [apply I1; auto|apply I2; auto].
Qed.

Lemma hf_reach_inv m w live : hf_reach host_legal m w live -> upstream_ok (ulog w) ->
  ulive (ulog w) = map (hf_backing m) live /\ frees_ok (ulog w) /\
  (forall b, In b live -> host_legal (bsize b) (balign b) /\ 0 < bsize b /\ hf_ok m b).
Proof.
  induction 1 as [m w Hw|m w live size align p m' w' HR IH HL E|m w live size align e m' w' HR IH HL E
    |m w live b m' w' HR IH Hin E|m w live size align m' w' HR IH E|m w live b m' HR IH Hin HW]; intros HU.
  - rewrite Hw. simpl. split; auto. split; auto. intros b [].
  - destruct (Z.eqb_spec size 0) as [->|NZ].
    + unfold hf_allocate in E. simpl in E. injection E as <- <- <-. auto.
    + assert (Hs : 0 < size) by (destruct HL; lia).
      pose proof (hf_allocate_spec m w size align HL Hs) as SP. rewrite E in SP. specialize (SP HU).
      destruct (uorc w (length (ulog w))) as [u|]; [|discriminate]. injection SP as -> -> ->.
      set (p := u + ptr_size + pad align (u + ptr_size)) in *.
      cbn [ulog upstream_ok ulive frees_ok] in *. destruct HU as (U1 & U2 & U3 & U4 & HU).
      destruct (IH HU) as (A & B & C).
      (* the new header lies in the new block, old headers in old ones *)
      pose proof (hf_layout size align u HL Hs) as (L1 & L2 & L3). fold p in L1, L2, L3.
      assert (Hkeep : forall b, In b live ->
        (if bptr b - ptr_size =? p - ptr_size then u else m (bptr b - ptr_size)) = m (bptr b - ptr_size)).
      { intros b Hb. destruct (Z.eqb_spec (bptr b - ptr_size) (p - ptr_size)) as [Eq|]; auto. exfalso.
        destruct (C b Hb) as (Cl & Cs & Co).
        pose proof (hf_layout (bsize b) (balign b) (m (bptr b - ptr_size)) Cl Cs) as (M1 & M2 & M3).
        unfold hf_ok in Co. rewrite <- Co in M1, M2.
        apply (U4 (hf_backing m b)); [rewrite A; apply in_map; auto|].
        exists p. unfold in_block, hf_backing. cbn [bptr bsize]. unfold ptr_size in *. lia. }
      split; [|split; auto].
      * cbn [map]. unfold hf_backing at 1. cbn [bptr bsize balign]. rewrite Z.eqb_refl. f_equal.
        rewrite A. apply map_ext_in. intros b Hb. unfold hf_backing. rewrite (Hkeep b Hb). reflexivity.
      * intros b [<-|Hb].
        -- cbn [bsize balign]. split; auto. split; auto. unfold hf_ok. cbn [bptr balign].
           rewrite Z.eqb_refl. reflexivity.
        -- destruct (C b Hb) as (Cl & Cs & Co). split; auto. split; auto.
           unfold hf_ok in *. cbv zeta. rewrite (Hkeep b Hb). exact Co.
  - destruct (Z.eqb_spec size 0) as [->|NZ]; [unfold hf_allocate in E; discriminate|].
    assert (Hs : 0 < size) by (destruct HL; lia).
    pose proof (hf_allocate_spec m w size align HL Hs) as SP. rewrite E in SP. specialize (SP HU).
    destruct (uorc w (length (ulog w))) as [u|]; [discriminate|]. injection SP as -> -> ->.
    cbn [ulog upstream_ok ulive frees_ok] in *. auto.
  - assert (HU' : upstream_ok (ulog w)).
    { unfold hf_deallocate in E. destruct (bptr b =? 0); injection E as <- <-; exact HU. }
    destruct (IH HU') as (A & B & C). destruct (C b Hin) as (Cl & Cs & Co).
    assert (Hb : In (hf_backing m b) (ulive (ulog w))) by (rewrite A; apply in_map; auto).
    pose proof (hf_layout (bsize b) (balign b) (m (bptr b - ptr_size)) Cl Cs) as (M1 & M2 & M3).
    unfold hf_ok in Co. rewrite <- Co in M1, M2, M3.
    unfold hf_deallocate in E. destruct (Z.eqb_spec (bptr b) 0) as [Z0|NZ].
    + exfalso. destruct (ulive_props _ _ HU' Hb) as (H & _). simpl in H. unfold ptr_size in *. lia.
    + injection E as <- <-. cbn [up_free ulog upstream_ok ulive frees_ok] in *.
      assert (HI : forall c d, In c live -> In d live -> hf_backing m c = hf_backing m d -> c = d).
      { apply pd_map_inj; [|rewrite <- A; apply ulive_disjoint; auto].
        intros y Hy. destruct (C y Hy) as (Hl & Hs & _). unfold hf_backing. cbn [bsize].
        rewrite (hf_size_eq _ _ Hl). destruct Hl as (G1 & (k & Gk & Ek) & _). pose proof (pow2_pos k Gk).
        unfold ptr_size. lia. }
      split; [|split].
      * rewrite A. symmetry. apply (map_remove1 (hf_backing m)); auto.
      * split; auto.
      * intros c Hc. apply C. eapply remove1_in; eauto.
  - unfold hf_deallocate in E. simpl in E. injection E as <- <-. auto.
  - destruct (IH HU) as (A & B & C). destruct (hf_geometry _ _ _ HU A C) as (_ & G).
    assert (HK : forall c, In c live -> m' (bptr c - ptr_size) = m (bptr c - ptr_size)).
    { intros c Hc. apply HW. apply G; auto. }
    split; [|split; auto].
    + rewrite A. apply map_ext_in. intros c Hc. unfold hf_backing. rewrite (HK c Hc). reflexivity.
    + intros c Hc. destruct (C c Hc) as (C1 & C2 & C3). split; auto. split; auto.
      unfold hf_ok in *. cbv zeta. rewrite (HK c Hc). exact C3.
Qed.

Lemma hf_header_aligned m l live b : upstream_ok l -> ulive l = map (hf_backing m) live ->
  In b live -> host_legal (bsize b) (balign b) -> hf_ok m b -> (ptr_size | bptr b - ptr_size).
Proof.
  intros HU A Hb (H1 & (k & Hk & Ek) & H3) Co.
  assert (Hu : In (hf_backing m b) (ulive l)) by (rewrite A; apply in_map; auto).
  destruct (ulive_props _ _ HU Hu) as (_ & _ & HD). cbn [hf_backing bptr balign] in HD.
  pose proof (pow2_pos k Hk) as Hp. rewrite <- Ek in Hp.
  unfold hf_ok in Co. set (u := m (bptr b - ptr_size)) in *.
  assert (D8 : (ptr_size | u + ptr_size)).
  { apply Z.divide_add_r; [|apply Z.divide_refl]. apply Z.divide_trans with (2 := HD). exists 2. reflexivity. }
  assert (HB : (ptr_size | bptr b)).
  { destruct (Z_le_gt_dec k 3) as [L|G].
    - assert (DD : (balign b | u + ptr_size)).
      { apply Z.divide_trans with (2 := D8). exists (2 ^ (3 - k)). rewrite Ek, <- Z.pow_add_r by lia.
        replace (3 - k + k) with 3 by lia. reflexivity. }
      pose proof (pad_least (balign b) (u + ptr_size) (u + ptr_size) Hp ltac:(lia) DD).
      pose proof (pad_bounds (balign b) (u + ptr_size) Hp).
      replace (bptr b) with (u + ptr_size) by lia. exact D8.
    - apply Z.divide_trans with (balign b).
      + exists (2 ^ (k - 3)). rewrite Ek. replace ptr_size with (2 ^ 3) by reflexivity.
        rewrite <- Z.pow_add_r by lia. f_equal. lia.
      + rewrite Co. apply pad_divide. auto. }
  apply Z.divide_sub_r; [exact HB|apply Z.divide_refl].
Qed.

Lemma hf_blocks m w live : hf_reach host_legal m w live -> upstream_ok (ulog w) ->
  pairwise_disjoint live /\ frees_ok (ulog w) /\
  (forall b, In b live -> (balign b | bptr b) /\
    exists u, In u (ulive (ulog w)) /\ inside b u /\
      inside (mkBlock (bptr b - ptr_size) ptr_size ptr_size) u /\ (ptr_size | bptr b - ptr_size) /\
      hf_deallocate m w (bptr b) (bsize b) (balign b) =
        (Ret tt, m, up_free w (bptr u) (bsize u) (balign u))) /\
  (forall b c, In b live -> In c live -> ~ overlap b (mkBlock (bptr c - ptr_size) ptr_size 1)).
Proof.
  intros HR HU. destruct (hf_reach_inv _ _ _ HR HU) as (A & B & C).
  destruct (hf_geometry _ _ _ HU A C) as (HIn & G).
  split; [|split; [auto|split; [|exact G]]].
  - apply (pd_map_inside (hf_backing m)); [intros b Hb; apply HIn; auto|].
    rewrite <- A. apply ulive_disjoint; auto.
  - intros b Hb. destruct (HIn b Hb) as (I1 & I2 & I3 & I4). destruct (C b Hb) as (C1 & C2 & C3).
    split; auto.
    exists (hf_backing m b). split; [rewrite A; apply in_map; auto|]. split; auto. split; [exact I2|].
    split; [eapply hf_header_aligned; eauto|].
    unfold hf_deallocate. rewrite (proj2 (Z.eqb_neq _ 0) I4). reflexivity.
Qed.

(** The assert on the result of [std::align] never fails. *)
Lemma hf_defined m w size align m' w' r : host_legal size align ->
  hf_allocate m w size align = (r, m', w') -> upstream_ok (ulog w') -> r <> UB.
Proof.
  intros HL E HU. destruct (Z.eqb_spec size 0) as [->|NZ].
  - unfold hf_allocate in E. simpl in E. injection E as <- <- <-. discriminate.
  - pose proof (hf_allocate_spec m w size align HL ltac:(destruct HL; lia)) as SP.
    rewrite E in SP. specialize (SP HU).
    destruct (uorc w (length (ulog w))); injection SP as -> -> ->; discriminate.
Qed.
