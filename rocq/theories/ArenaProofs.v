(** The arena resource over an upstream whose blocks never touch. *)
From Verif Require Import Base BaseLemmas IntMath Arena ArenaSets.
From Coq Require Import Permutation Sorted.

(** Like [upstream_ok], with a gap between any two live blocks. *)
Fixpoint upstream_apart (l : list uevent) : Prop :=
  match l with
  | [] => True
  | UAlloc s a (Some p) :: l' =>
      0 < p /\ p + s < 2 ^ 64 /\ (a | p) /\
      (forall c, In c (ulive l') -> p + s < bptr c \/ bptr c + bsize c < p) /\ upstream_apart l'
  | UAlloc _ _ None :: l' => upstream_apart l'
  | UFree _ _ _ :: l' => upstream_apart l'
  end.

Lemma apart_ok l : upstream_apart l -> upstream_ok l.
Proof.
  induction l as [|[s a [p|]|p s a] l IH]; cbn; auto.
  intros (H1 & H2 & H3 & H4 & H5). split; auto. split; auto. split; auto. split; auto.
  intros c Hc. apply not_overlap_iff. cbn [bptr bsize]. specialize (H4 c Hc). lia.
Qed.

Definition apart (U : list block) : Prop := forall u v, In u U -> In v U -> u = v \/
  bptr u + bsize u < bptr v \/ bptr v + bsize v < bptr u.

Lemma apart_live l : upstream_apart l -> apart (ulive l).
Proof.
  induction l as [|[s a [p|]|p s a] l IH]; cbn; auto.
  - intros _ u v [].
  - intros (_ & _ & _ & H4 & H5). specialize (IH H5). intros u v [<-|Hu] [<-|Hv].
    + left. auto.
    + right. cbn [bptr bsize]. specialize (H4 v Hv). lia.
    + right. cbn [bptr bsize]. specialize (H4 u Hu). lia.
    + apply IH; auto.
  - intros H u v Hu Hv. apply IH; auto; eapply remove1_in; eauto.
Qed.

(** Pieces [P] tile the upstream blocks [U]. *)
Record tiles (P : list ablk) (U : list block) : Prop := {
  t_pos : positive P;
  t_disj : disj P;
  t_in : forall x, In x P -> exists u, In u U /\ inside (ablock x) u /\ (256 | fst x - bptr u);
  t_cover : forall u y, In u U -> in_block y u -> exists x, In x P /\ in_block y (ablock x) }.

Lemma tiles_perm P P' U : Permutation P P' -> tiles P U -> tiles P' U.
Proof.
  intros HP [H1 H2 H3 H4]. split.
  - intros x Hx. apply H1. eapply Permutation_in; [symmetry; exact HP|auto].
  - eapply disj_perm; eauto.
  - intros x Hx. apply H3. eapply Permutation_in; [symmetry; exact HP|auto].
  - intros u y Hu Hy. destruct (H4 u y Hu Hy) as (x & Hx & Hi). exists x. split; auto.
    eapply Permutation_in; eauto.
Qed.

Lemma tiles_split b n R U : tiles (b :: R) U -> 0 < n < snd b -> (256 | n) ->
  tiles ((fst b, n) :: (fst b + n, snd b - n) :: R) U.
Proof.
  intros [H1 H2 H3 H4] Hn Hd. apply disj_cons in H2. destruct H2 as (D1 & D2).
  assert (PR : forall x, In x R -> 0 < snd x) by (intros; apply H1; right; auto).
  pose proof (H1 b (or_introl eq_refl)) as PB.
  split.
  - intros x [<-|[<-|Hx]]; cbn [snd]; auto; lia.
  - apply disj_cons. split; [|apply disj_cons; split; auto].
    + intros y [<-|Hy]; apply no_overlap; cbn [fst snd]; auto; try lia.
      specialize (D1 y Hy). apply no_overlap in D1; auto. lia.
    + intros y Hy. specialize (D1 y Hy). apply no_overlap in D1; auto. apply no_overlap; cbn [fst snd]; auto; lia.
  - destruct (H3 b (or_introl eq_refl)) as (u & Hu & I & DV).
    intros x [<-|[<-|Hx]].
    + exists u. split; auto. split; auto. intros y Hy. apply I. unfold in_block, ablock in *. cbn [bptr bsize fst snd] in *. lia.
    + exists u. split; auto. split.
      * intros y Hy. apply I. unfold in_block, ablock in *. cbn [bptr bsize fst snd] in *. lia.
      * cbn [fst]. replace (fst b + n - bptr u) with ((fst b - bptr u) + n) by lia. apply Z.divide_add_r; auto.
    + apply H3. right. auto.
  - intros u y Hu Hy. destruct (H4 u y Hu Hy) as (x & [<-|Hx] & Hi).
    + destruct (Z.lt_ge_cases y (fst b + n)) as [L|G].
      * exists (fst b, n). split; [left; auto|]. unfold in_block, ablock in *. cbn [bptr bsize fst snd] in *. lia.
      * exists (fst b + n, snd b - n). split; [right; left; auto|]. unfold in_block, ablock in *. cbn [bptr bsize fst snd] in *. lia.
    + exists x. split; auto. right. right. auto.
Qed.

Lemma tiles_merge a b R U : apart U -> tiles (a :: b :: R) U -> fst a + snd a = fst b ->
  tiles ((fst a, snd a + snd b) :: R) U.
Proof.
  intros HA [H1 H2 H3 H4] HC. apply disj_cons in H2. destruct H2 as (D1 & D2).
  apply disj_cons in D2. destruct D2 as (D2 & D3).
  assert (PR : forall x, In x R -> 0 < snd x) by (intros; apply H1; right; right; auto).
  pose proof (H1 a (or_introl eq_refl)) as PA. pose proof (H1 b (or_intror (or_introl eq_refl))) as PB.
  split.
  - intros x [<-|Hx]; cbn [snd]; auto; lia.
  - apply disj_cons. split; auto. intros y Hy.
    pose proof (D1 y (or_intror Hy)) as N1. pose proof (D2 y Hy) as N2.
    apply no_overlap in N1; auto. apply no_overlap in N2; auto. pose proof (PR y Hy).
    apply no_overlap; cbn [fst snd]; auto; lia.
  - intros x [<-|Hx]; [|apply H3; right; right; auto].
    destruct (H3 a (or_introl eq_refl)) as (u & Hu & Iu & Du).
    destruct (H3 b (or_intror (or_introl eq_refl))) as (v & Hv & Iv & Dv).
    apply inside_iff in Iu; [|auto]. apply inside_iff in Iv; [|auto]. cbn [ablock bptr bsize] in Iu, Iv.
    assert (u = v) as <- by (destruct (HA u v Hu Hv) as [|[|]]; auto; lia).
    exists u. split; auto. split; auto. apply inside_iff; cbn [ablock bptr bsize fst snd]; lia.
  - intros u y Hu Hy. destruct (H4 u y Hu Hy) as (x & [<-|[<-|Hx]] & Hi).
    + eexists. split; [left; reflexivity|]. unfold in_block, ablock in *. cbn [bptr bsize fst snd] in *. lia.
    + eexists. split; [left; reflexivity|]. unfold in_block, ablock in *. cbn [bptr bsize fst snd] in *. lia.
    + exists x. split; auto. right. auto.
Qed.

Lemma tiles_add p s P U : tiles P U -> 0 < s ->
  (forall c, In c U -> p + s < bptr c \/ bptr c + bsize c < p) ->
  tiles ((p, s) :: P) (mkBlock p s max_align :: U).
Proof.
  intros [H1 H2 H3 H4] Hs HA. split.
  - intros x [<-|Hx]; auto.
  - apply disj_cons. split; auto. intros y Hy. destruct (H3 y Hy) as (u & Hu & Iu & _).
    apply inside_iff in Iu; [|apply H1; auto]. specialize (HA u Hu). pose proof (H1 y Hy).
    apply no_overlap; cbn [fst snd ablock bptr bsize] in *; auto; lia.
  - intros x [<-|Hx].
    + eexists. split; [left; reflexivity|]. split; [intros y Hy; exact Hy|]. cbn [fst bptr]. rewrite Z.sub_diag. apply Z.divide_0_r.
    + destruct (H3 x Hx) as (u & Hu & Iu). exists u. split; auto. right. auto.
  - intros u y [<-|Hu] Hy.
    + exists (p, s). split; [left; auto|exact Hy].
    + destruct (H4 u y Hu Hy) as (x & Hx & Hi). exists x. split; auto. right. auto.
Qed.

(** ** Invariant *)
Definition ceil256 (n : Z) : Z := (n + 255) / 256 * 256.
Definition rounded (b : block) : ablk := (bptr b, ceil256 (bsize b)).
Definition arena_legal (initial size align : Z) : Prop :=
  0 <= size /\ ceil256 size <= Z.max initial (2 ^ 18).
Definition notouch (l : list ablk) : Prop := forall x y, In x l -> In y l -> fst x + snd x <> fst y.

Lemma ceil256_spec n : 0 <= n -> n <= ceil256 n < n + 256 /\ (256 | ceil256 n).
Proof.
  intros H. unfold ceil256. split.
  - pose proof (Z.div_mod (n + 255) 256 ltac:(lia)). pose proof (Z.mod_pos_bound (n + 255) 256 ltac:(lia)). lia.
  - exists ((n + 255) / 256). lia.
Qed.

Lemma align_up_legal initial size al : 0 < initial < 2 ^ 64 -> arena_legal initial size al ->
  align_up size = ceil256 size.
Proof.
  intros HI (H1 & H2). unfold align_up, wrap64, two64. rewrite Z.mod_small; [reflexivity|].
  destruct (ceil256_spec size H1) as ((L & _) & (k & Ek)).
  assert (ceil256 size < 2 ^ 64) by lia. rewrite Ek in H.
  assert (k * 256 <= 2 ^ 64 - 256) by lia. lia.
Qed.

Record ainv (initial : Z) (st : ast) (w : world) (live : list block) : Prop := {
  n_sb : a_superblock st = initial;
  n_sf : a_sorted (a_free st);
  n_sa : a_sorted (a_alloc st);
  n_tiles : tiles (a_free st ++ a_alloc st) (ulive (ulog w));
  n_touch : notouch (a_free st);
  n_live : Permutation (a_alloc st) (map rounded live);
  n_pos : forall b, In b live -> 0 < bsize b;
  n_up : forall u, In u (ulive (ulog w)) -> 0 < bsize u /\ balign u = max_align;
  n_frees : frees_ok (ulog w) }.

(** Taking a block from the free set. *)
Lemma fit_inv initial st w live bytes al r st' :
  ainv initial st w live -> 0 < bytes -> fit st (ceil256 bytes) = Some (r, st') ->
  0 < fst r -> 
  ainv initial (mkArena (a_superblock st') (a_maximum st') (a_current st') (a_free st')
                  (set_insert r (a_alloc st'))) w (mkBlock (fst r) bytes al :: live).
Proof.
  intros [H1 H2 H3 H4 H5 H6 H7 H8 H9] Hb E Hr. unfold fit in E.
  destruct (ceil256_spec bytes ltac:(lia)) as (C1 & C2).
  destruct (first_fit (ceil256 bytes) (a_free st)) as [[b l]|] eqn:EF; [|discriminate].
  injection E as <- <-. cbn [with_free a_superblock a_maximum a_current a_free a_alloc].
  pose proof H4 as [T1 T2 T3 T4].
  assert (PF : positive (a_free st)) by (intros x Hx; apply T1; apply in_or_app; auto).
  assert (DF : disj (a_free st)).
  { unfold disj in *. rewrite map_app in T2. apply pairwise_disjoint_app in T2. apply T2. }
  assert (CP : 0 < ceil256 bytes) by lia.
  destruct (first_fit_some _ _ _ _ H2 PF DF CP EF) as (S1 & c & R & P1 & E1 & E2 & CC).
  assert (Eb : b = (fst c, ceil256 bytes)) by (destruct b; cbn in *; congruence).
  assert (HT : tiles (l ++ b :: a_alloc st) (ulive (ulog w))).
  { assert (HTc : tiles (c :: R ++ a_alloc st) (ulive (ulog w))).
    { eapply tiles_perm; [|exact H4]. rewrite P1. reflexivity. }
    destruct CC as [(C3 & C4)|(C3 & C4)].
    - assert (b = c) as -> by (destruct c; cbn in *; congruence).
      eapply tiles_perm; [|exact HTc]. rewrite C4. apply Permutation_middle.
    - apply (tiles_split _ (ceil256 bytes)) in HTc; [|lia|auto].
      eapply tiles_perm; [|exact HTc]. rewrite C4, Eb. symmetry.
      rewrite <- Permutation_middle. cbn [app]. apply perm_skip. reflexivity. }
  assert (HNP : forall x, In x (a_alloc st) -> fst x <> fst b).
  { assert (HT' : tiles (b :: l ++ a_alloc st) (ulive (ulog w))).
    { eapply tiles_perm; [|exact HT]. symmetry. apply Permutation_middle. }
    intros x Hx. apply (disj_ptr_ne b (l ++ a_alloc st)).
    - apply (t_disj _ _ HT').
    - apply (t_pos _ _ HT').
    - apply in_or_app. auto. }
  destruct (set_insert_spec b (a_alloc st) H3 HNP) as (S2 & P2).
  split; cbn [a_superblock a_maximum a_current a_free a_alloc]; auto.
  - eapply tiles_perm; [|exact HT]. rewrite P2. reflexivity.
  - (* no touching *)
    assert (Hc : In c (a_free st)) by (eapply Permutation_in; [symmetry; exact P1|left; auto]).
    assert (HRf : forall x, In x R -> In x (a_free st)) by (intros; eapply Permutation_in; [symmetry; exact P1|right; auto]).
    assert (G : forall x, In x l -> In x R \/ (ceil256 bytes < snd c /\ x = (fst c + ceil256 bytes, snd c - ceil256 bytes))).
    { intros x Hx. destruct CC as [(_ & C4)|(C3 & C4)]; apply (Permutation_in _ C4) in Hx; auto.
      destruct Hx as [<-|Hx]; auto. }
    assert (DR : disj (c :: R)) by (eapply disj_perm; eauto).
    apply disj_cons in DR. destruct DR as (DR & _).
    intros x y Hx Hy. destruct (G x Hx) as [Gx|(Gx & ->)], (G y Hy) as [Gy|(Gy & ->)]; cbn [fst snd].
    + apply H5; auto.
    + specialize (DR x Gx). apply no_overlap in DR; auto. intros E0. pose proof (PF x (HRf x Gx)). lia.
    + replace (fst c + ceil256 bytes + (snd c - ceil256 bytes)) with (fst c + snd c) by lia. apply H5; auto.
    + lia.
  - rewrite P2, Eb. cbn [map]. unfold rounded at 1. cbn [bptr bsize fst]. constructor. auto.
  - intros x [<-|Hx]; cbn [bsize]; auto.
Qed.

Lemma fit_max st w live initial size : ainv initial st w live -> 
  fit st size = None -> forall x, In x (a_free st) -> snd x < size.
Proof.
  intros HI E. unfold fit in E. destruct (first_fit size (a_free st)) as [[b l]|] eqn:EF; [discriminate|].
  apply first_fit_none. auto.
Qed.

(** Every piece has a positive address. *)
Lemma tiles_ptr l P : upstream_ok l -> tiles P (ulive l) -> forall x, In x P ->
  0 < fst x /\ fst x + snd x < 2 ^ 64 /\ (16 | fst x) \/ exists u, In u (ulive l) /\ balign u <> max_align.
Proof.
  intros HU HT x Hx. destruct (t_in _ _ HT x Hx) as (u & Hu & I & D).
  destruct (ulive_props _ _ HU Hu) as (U1 & U2 & U3). apply inside_iff in I; [|apply (t_pos _ _ HT); auto].
  cbn [ablock bptr bsize] in I. destruct (Z.eq_dec (balign u) max_align) as [E|N]; [left|right; eauto].
  split; [lia|]. split; [lia|]. rewrite E in U3.
  replace (fst x) with ((fst x - bptr u) + bptr u) by lia. apply Z.divide_add_r; auto.
  apply Z.divide_trans with 256; auto. exists 16. reflexivity.
Qed.

Lemma inv_ptr initial st w live : ainv initial st w live -> upstream_ok (ulog w) ->
  forall x, In x (a_free st ++ a_alloc st) -> 0 < fst x /\ fst x + snd x < 2 ^ 64 /\ (16 | fst x).
Proof.
  intros HI HU x Hx. destruct (tiles_ptr _ _ HU (n_tiles _ _ _ _ HI) x Hx) as [|(u & Hu & N)]; auto.
  destruct (n_up _ _ _ _ HI u Hu) as (_ & E). congruence.
Qed.

(** A new superblock. *)
Lemma expand_inv initial st w live size r st' w' : 0 < initial < 2 ^ 64 ->
  ainv initial st w live -> expand st w size = (r, st', w') -> upstream_apart (ulog w') ->
  match r with
  | Ret b => ainv initial st' w' live /\ In b (a_free st') /\ 0 < snd b /\
      snd b = (if initial <? size then 2 ^ 18 else initial) /\
      (forall x, In x (a_free st') -> fst x + snd x <> fst b)
  | Throw e => ainv initial st' w' live /\ e = bad_alloc /\ exists s a, ulog w' = UAlloc s a None :: ulog w
  | UB => False
  end.
Proof.
  intros Hin [H1 H2 H3 H4 H5 H6 H7 H8 H9] E HU. unfold expand in E. rewrite H1 in E.
  set (sz := if initial <? size then min_superblock else initial) in *.
  assert (Hsz : 0 < sz) by (unfold sz, min_superblock; destruct (initial <? size); lia).
  unfold up_alloc in E. destruct (uorc w (length (ulog w))) as [p|].
  - injection E as <- <- <-. cbn [ulog upstream_apart] in HU. destruct HU as (U1 & U2 & U3 & U4 & U5).
    pose proof (tiles_add p sz _ _ H4 Hsz U4) as HT.
    assert (HNP : forall x, In x (a_free st) -> fst x <> fst (p, sz)).
    { intros x Hx. apply (disj_ptr_ne (p, sz) (a_free st ++ a_alloc st)); [apply HT|apply HT|apply in_or_app; auto]. }
    assert (EF : find (fun x => fst x =? p) (a_free st) = None).
    { destruct (find (fun x => fst x =? p) (a_free st)) as [x|] eqn:Ex; auto. exfalso.
      apply find_some in Ex. destruct Ex as (X1 & X2). apply Z.eqb_eq in X2. exact (HNP x X1 X2). }
    rewrite EF. destruct (set_insert_spec (p, sz) (a_free st) H2 HNP) as (S1 & P1).
    assert (TCH : forall x, In x (a_free st) -> fst x + snd x <> p /\ p + sz <> fst x).
    { intros x Hx. destruct (t_in _ _ H4 x) as (u & Hu & I & _); [apply in_or_app; auto|].
      apply inside_iff in I; [|apply (t_pos _ _ H4); apply in_or_app; auto]. cbn [ablock bptr bsize] in I.
      pose proof (t_pos _ _ H4 x) as PX. specialize (PX ltac:(apply in_or_app; auto)).
      specialize (U4 u Hu). lia. }
    cbn [a_free]. split; [|split; [eapply Permutation_in; [symmetry; exact P1|left; auto]|]].
    + split; cbn [a_superblock a_maximum a_current a_free a_alloc ulog ulive]; auto.
      * eapply tiles_perm; [|exact HT]. rewrite P1. reflexivity.
      * intros x y Hx Hy. apply (Permutation_in _ P1) in Hx, Hy.
        destruct Hx as [<-|Hx], Hy as [<-|Hy]; cbn [fst snd]; auto; [lia|apply TCH; auto|apply TCH; auto].
      * intros u [<-|Hu]; auto.
    + cbn [snd fst]. split; auto. split; auto. intros x Hx. apply (Permutation_in _ P1) in Hx.
      destruct Hx as [<-|Hx]; cbn [fst snd]; [lia|apply TCH; auto].
  - injection E as <- <- <-. cbn [ulog]. split; [|split; eauto]. split; auto.
Qed.

Lemma get_block_inv initial st w live bytes al r st' w' : 0 < initial < 2 ^ 64 ->
  ainv initial st w live -> arena_legal initial bytes al -> 0 < bytes ->
  arena_allocate st w bytes al = (r, st', w') -> upstream_apart (ulog w') ->
  match r with
  | Ret p => ainv initial st' w' (mkBlock p bytes al :: live) /\ 0 < p
  | Throw e => ainv initial st' w' live /\ e = bad_alloc /\ exists s a, ulog w' = UAlloc s a None :: ulog w
  | UB => False
  end.
Proof.
  intros Hin HI HL Hb E HU. unfold arena_allocate in E. rewrite (proj2 (Z.eqb_neq bytes 0)) in E by lia.
  rewrite (align_up_legal initial bytes al) in E by auto. pose proof HL as (_ & HL2).
  assert (SERVE : forall s w0 b s2, ainv initial s w0 live -> upstream_ok (ulog w0) ->
     fit s (ceil256 bytes) = Some (b, s2) -> 0 < fst b).
  { intros s w0 b s2 HI0 HU0 EF. unfold fit in EF.
    destruct (first_fit (ceil256 bytes) (a_free s)) as [[b' l]|] eqn:FF; [|discriminate]. injection EF as <- <-.
    assert (PF : positive (a_free s)) by (intros x Hx; apply (t_pos _ _ (n_tiles _ _ _ _ HI0)); apply in_or_app; auto).
    assert (DF : disj (a_free s)).
    { pose proof (t_disj _ _ (n_tiles _ _ _ _ HI0)) as T2. unfold disj in *. rewrite map_app in T2.
      apply pairwise_disjoint_app in T2. apply T2. }
    destruct (ceil256_spec bytes ltac:(lia)) as (C1 & C2).
    assert (CP : 0 < ceil256 bytes) by lia.
    destruct (first_fit_some _ _ _ _ (n_sf _ _ _ _ HI0) PF DF CP FF) as (_ & c & R & P1 & E1 & _).
    rewrite E1. apply (inv_ptr _ _ _ _ HI0 HU0). apply in_or_app. left.
    eapply Permutation_in; [symmetry; exact P1|left; auto]. }
  unfold get_block in E.
  destruct (if ceil256 bytes <? min_superblock then fit st (ceil256 bytes) else None) as [[b s2]|] eqn:E1.
  - destruct (ceil256 bytes <? min_superblock); [|discriminate]. injection E as <- <- <-.
    pose proof (SERVE _ _ _ _ HI (apart_ok _ HU) E1) as Hp. split; auto. apply (fit_inv initial st); auto.
  - destruct (expand st w (ceil256 bytes)) as [[re s1] w1] eqn:EX.
    assert (HU1 : upstream_apart (ulog w1)).
    { destruct re as [sb| |]; [|injection E as <- <- <-; auto|injection E as <- <- <-; auto].
      destruct (coalesce sb (a_free s1)); [|injection E as <- <- <-; auto|injection E as <- <- <-; auto].
      match type of E with context [fit ?a ?b] => destruct (fit a b) as [[? ?]|] end; injection E as <- <- <-; auto. }
    pose proof (expand_inv _ _ _ _ _ _ _ _ Hin HI EX HU1) as HE. destruct re as [sb|e|]; [| |destruct HE].
    + destruct HE as (HI1 & Hsb & Psb & Ssb & Tsb).
      assert (PF : positive (a_free s1)) by (intros x Hx; apply (t_pos _ _ (n_tiles _ _ _ _ HI1)); apply in_or_app; auto).
      rewrite (coalesce_present sb (a_free s1) (n_sf _ _ _ _ HI1) Hsb Psb PF Tsb) in E.
      assert (Ew : with_free s1 (a_free s1) = s1) by (destruct s1; reflexivity). rewrite Ew in E.
      destruct (fit s1 (ceil256 bytes)) as [[b s2]|] eqn:EF2.
      * injection E as <- <- <-. pose proof (SERVE _ _ _ _ HI1 (apart_ok _ HU1) EF2) as Hp. split; auto.
        apply (fit_inv initial s1); auto.
      * exfalso. pose proof (fit_max _ _ _ _ _ HI1 EF2 sb Hsb) as X. rewrite Ssb in X.
        destruct (Z.ltb_spec initial (ceil256 bytes)); lia.
    + injection E as <- <- <-. exact HE.
Qed.

(** Returning a block. *)
Lemma arena_free_inv initial st w live b : upstream_apart (ulog w) ->
  ainv initial st w live -> In b live -> a_free st <> [] ->
  exists st', arena_free st (bptr b) = Ret st' /\ ainv initial st' w (remove1 b live) /\
    a_free st' <> [] /\ Permutation (a_alloc st) (rounded b :: a_alloc st').
Proof.
  intros HU [H1 H2 H3 H4 H5 H6 H7 H8 H9] Hb NE. unfold arena_free.
  assert (HR : In (rounded b) (a_alloc st)) by (eapply Permutation_in; [symmetry; exact H6|apply in_map; auto]).
  change (bptr b) with (fst (rounded b)).
  destruct (free_block (fst (rounded b)) (a_alloc st)) as [[x l]|] eqn:EF;
    [|exfalso; eapply free_block_some; eauto].
  destruct (free_block_spec _ _ _ _ EF) as (Ex & P1).
  assert (T : tiles (x :: a_free st ++ l) (ulive (ulog w))).
  { eapply tiles_perm; [|exact H4]. rewrite P1. symmetry. apply Permutation_middle. }
  assert (x = rounded b) as ->.
  { apply (Permutation_in _ P1) in HR. destruct HR as [|HR]; auto. exfalso.
    apply (disj_ptr_ne x (a_free st ++ l)) with (y := rounded b); [apply T|apply T| |auto].
    apply in_or_app. auto. }
  assert (HI0 : ainv initial st w live) by (split; auto).
  assert (Hp : 0 < fst (rounded b)).
  { apply (inv_ptr _ _ _ _ HI0 (apart_ok _ HU)). apply in_or_app. right.
    eapply Permutation_in; [symmetry; exact P1|left; auto]. }
  rewrite (proj2 (Z.eqb_neq _ 0)) by lia. cbn [a_free].
  set (rb := rounded b) in *.
  assert (T2 : positive (rb :: a_free st) /\ disj (rb :: a_free st)).
  { pose proof T as [A1 A2 _ _]. split.
    - intros y [<-|Hy]; apply A1; [left; auto|right; apply in_or_app; auto].
    - unfold disj in *. cbn [map] in *. rewrite map_app in A2. apply (pairwise_disjoint_app (ablock rb :: map ablock (a_free st))) in A2. apply A2. }
  destruct (coalesce_spec rb (a_free st) H2 (proj1 T2) (proj2 T2) NE) as (fl & EC & SF & m & R & PM & MI & TP & TN).
  rewrite EC. cbn [bind]. eexists. split; [reflexivity|].
  pose proof (apart_live _ HU) as HA.
  assert (TF : tiles (fl ++ l) (ulive (ulog w))).
  { destruct MI as [(-> & PR)|[(n & PR & C & ->)|[(p & PR & C & ->)|(p & n & PR & C & C2 & ->)]]].
    - eapply tiles_perm; [|exact T]. rewrite PM, PR. reflexivity.
    - assert (TT : tiles (rb :: n :: R ++ l) (ulive (ulog w))).
      { eapply tiles_perm; [|exact T]. rewrite PR. reflexivity. }
      apply tiles_merge in TT; auto. eapply tiles_perm; [|exact TT]. rewrite PM. reflexivity.
    - assert (TT : tiles (p :: rb :: R ++ l) (ulive (ulog w))).
      { eapply tiles_perm; [|exact T]. rewrite PR. apply perm_swap. }
      apply tiles_merge in TT; auto. eapply tiles_perm; [|exact TT]. rewrite PM. reflexivity.
    - assert (TT : tiles (p :: rb :: n :: R ++ l) (ulive (ulog w))).
      { eapply tiles_perm; [|exact T]. rewrite PR. apply perm_swap. }
      apply tiles_merge in TT; auto. apply tiles_merge in TT; [|auto|cbn [fst snd]; lia].
      eapply tiles_perm; [|exact TT]. rewrite PM. reflexivity. }
  assert (HRl : Permutation (rb :: l) (rb :: map rounded (remove1 b live))).
  { rewrite <- P1, H6. unfold rb. rewrite <- (map_cons rounded). apply Permutation_map. apply remove1_perm. auto. }
  split; [|split].
  - split; cbn [with_free a_superblock a_free a_alloc]; auto.
    + exact (free_block_sorted _ _ _ _ H3 EF).
    + (* no touching *)
      assert (INR : forall y, In y R -> In y (a_free st)).
      { intros y Hy. destruct MI as [(_ & PR)|[(n & PR & _)|[(p & PR & _)|(p & n & PR & _)]]];
          eapply Permutation_in; try (symmetry; exact PR); cbn [In]; auto. }
      assert (TM : forall y, In y R -> fst y + snd y <> fst m /\ fst m + snd m <> fst y).
      { intros y Hy. pose proof (INR y Hy) as Hy'. specialize (TP) ; specialize (TN).
        destruct MI as [(-> & PR)|[(n & PR & C & ->)|[(p & PR & C & ->)|(p & n & PR & C & C2 & ->)]]];
          cbn [fst snd] in *.
        - split; [apply TP; auto|apply TN; auto].
        - split; [apply TP; auto|]. replace (fst rb + (snd rb + snd n)) with (fst n + snd n) by lia.
          apply H5; auto. eapply Permutation_in; [symmetry; exact PR|left; auto].
        - split; [apply H5; auto; eapply Permutation_in; [symmetry; exact PR|left; auto]|].
          replace (fst p + (snd p + snd rb)) with (fst rb + snd rb) by lia. apply TN; auto. lia.
        - split; [apply H5; auto; eapply Permutation_in; [symmetry; exact PR|left; auto]|].
          replace (fst p + (snd p + snd rb + snd n)) with (fst n + snd n) by lia. apply H5; auto.
          eapply Permutation_in; [symmetry; exact PR|right; left; auto]. }
      assert (PMm : 0 < snd m).
      { apply (t_pos _ _ TF). apply in_or_app. left. eapply Permutation_in; [symmetry; exact PM|left; auto]. }
      intros y z Hy Hz. apply (Permutation_in _ PM) in Hy, Hz.
      destruct Hy as [<-|Hy], Hz as [<-|Hz]; [lia|apply TM; auto|apply TM; auto|apply H5; auto].
    + eapply Permutation_cons_inv. exact HRl.
    + intros c Hc. apply H7. eapply remove1_in; eauto.
  - cbn [with_free a_free]. intros ->. apply Permutation_nil_cons in PM. destruct PM.
  - cbn [with_free a_alloc]. exact P1.
Qed.

Definition arena_start (initial maximum : Z) (s0 : ast) (w : world) : Prop :=
  exists w0, fresh w0 /\ arena_construct initial maximum w0 = (Ret tt, s0, w).
Definition arena_reach (legal : Z -> Z -> Prop) (initial maximum : Z) (st : ast) (w : world) (live : list block) : Prop :=
  exists s0, reach arena_allocate arena_deallocate legal s0 (arena_start initial maximum s0) st w live.

Lemma construct_inv initial maximum s0 w : 0 < initial < 2 ^ 64 ->
  arena_start initial maximum s0 w -> upstream_apart (ulog w) -> ainv initial s0 w [].
Proof.
  intros Hin (w0 & F & E) HU. unfold arena_construct in E.
  set (req := if initial =? 2 ^ 64 - 1 then align_up (initial / 2) else initial) in *.
  set (mx := if maximum =? 2 ^ 64 - 1 then 2 ^ 64 - 1 - 2 ^ 26 else maximum) in *.
  assert (HI : ainv initial (mkArena initial mx 0 [] []) w0 []).
  { unfold fresh in F. split; cbn [a_superblock a_free a_alloc app map]; try rewrite F; cbn [ulive frees_ok].
    - reflexivity.
    - constructor.
    - constructor.
    - split; [intros x []|exact I|intros x []|intros u y []].
    - intros x y [].
    - constructor.
    - intros x [].
    - intros x [].
    - exact I. }
  destruct (expand (mkArena initial mx 0 [] []) w0 req) as [[r s1] w1] eqn:EX.
  destruct r as [b| |]; [|discriminate|discriminate]. injection E as <- <-.
  destruct (expand_inv _ _ _ _ _ _ _ _ Hin HI EX HU) as (HI1 & Hb & _).
  rewrite (set_insert_present b _ (n_sf _ _ _ _ HI1) Hb). destruct s1; exact HI1.
Qed.

Lemma arena_log st w bytes al r st' w' : arena_allocate st w bytes al = (r, st', w') ->
  ulog w' = ulog w \/ exists s a x, ulog w' = UAlloc s a x :: ulog w.
Proof.
  unfold arena_allocate. destruct (bytes =? 0); [intros E; injection E as <- <- <-; auto|].
  destruct (get_block st w (align_up bytes)) as [[g s1] w1] eqn:EG.
  intros E. assert (w' = w1) as -> by (destruct g; injection E as <- <- <-; auto). clear E.
  unfold get_block in EG.
  destruct (if align_up bytes <? min_superblock then fit st (align_up bytes) else None) as [[b s2]|];
    [injection EG as <- <- <-; auto|].
  destruct (expand st w (align_up bytes)) as [[x s2] w2] eqn:EX.
  assert (w1 = w2) as ->.
  { destruct x; [|injection EG as <- <- <-; auto|injection EG as <- <- <-; auto].
    destruct (coalesce a (a_free s2)); [|injection EG as <- <- <-; auto|injection EG as <- <- <-; auto].
    match type of EG with context [fit ?a ?b] => destruct (fit a b) as [[? ?]|] end; injection EG as <- <- <-; auto. }
  right. unfold expand, up_alloc in EX. destruct (uorc w (length (ulog w))); injection EX as <- <- <-; cbn [ulog]; eauto.
Qed.

Lemma arena_reach_inv initial maximum st w live : 0 < initial < 2 ^ 64 ->
  arena_reach (arena_legal initial) initial maximum st w live -> upstream_apart (ulog w) ->
  ainv initial st w live.
Proof.
  intros Hin (s0 & HR) HU. revert HU.
  induction HR as [w Hw|s w live size align p s' w' HR IH HL E|s w live size align e s' w' HR IH HL E
      |s w live b s' w' HR IH Hin' E|s w live size align s' w' HR IH E]; intros HU.
  - eapply construct_inv; eauto.
  - assert (HU0 : upstream_apart (ulog w)).
    { destruct (arena_log _ _ _ _ _ _ _ E) as [Q|(a & b & [c|] & Q)]; rewrite Q in HU; auto. apply HU. }
    destruct (Z.eqb_spec size 0) as [->|NZ].
    + cbn in E. injection E as <- <- <-. auto.
    + exact (proj1 (get_block_inv _ _ _ _ _ _ _ _ _ Hin (IH HU0) HL ltac:(destruct HL; lia) E HU)).
  - assert (HU0 : upstream_apart (ulog w)).
    { destruct (arena_log _ _ _ _ _ _ _ E) as [Q|(a & b & [c|] & Q)]; rewrite Q in HU; auto. apply HU. }
    destruct (Z.eqb_spec size 0) as [->|NZ].
    + cbn in E. discriminate.
    + exact (proj1 (get_block_inv _ _ _ _ _ _ _ _ _ Hin (IH HU0) HL ltac:(destruct HL; lia) E HU)).
  - unfold arena_deallocate in E. destruct (Z.eqb_spec (bptr b) 0) as [Z0|NZ].
    + injection E as <- <-. exfalso. pose proof (IH HU) as HI.
      assert (X : 0 < fst (rounded b)).
      { apply (inv_ptr _ _ _ _ HI (apart_ok _ HU)). apply in_or_app. right.
        eapply Permutation_in; [symmetry; apply (n_live _ _ _ _ HI)|apply in_map; auto]. }
      cbn [rounded fst] in X. lia.
    + destruct (arena_free s (bptr b)) as [s1| |] eqn:EF; try discriminate. injection E as <- <-.
      pose proof (IH HU) as HI.
      assert (NE : a_free s <> []).
      { intros E0. unfold arena_free in EF.
        assert (HR2 : In (rounded b) (a_alloc s)) by (eapply Permutation_in; [symmetry; apply (n_live _ _ _ _ HI)|apply in_map; auto]).
        change (bptr b) with (fst (rounded b)) in EF.
        destruct (free_block (fst (rounded b)) (a_alloc s)) as [[x l]|] eqn:FB; [|eapply free_block_some; eauto].
        destruct (free_block_spec _ _ _ _ FB) as (Ex & _). rewrite Ex in EF. cbn [rounded fst] in EF.
        rewrite (proj2 (Z.eqb_neq (bptr b) 0)) in EF by auto. cbn [a_free] in EF. rewrite E0 in EF. discriminate. }
      destruct (arena_free_inv _ _ _ _ b HU HI Hin' NE) as (s2 & E2 & HI2 & _). congruence.
  - cbn in E. injection E as <- <-. auto.
Qed.

(** ** Results *)
Lemma rounded_inside_pd live : pairwise_disjoint (map ablock (map rounded live)) ->
  (forall b, In b live -> 0 < bsize b) -> pairwise_disjoint live.
Proof.
  induction live as [|x l IH]; cbn [map pairwise_disjoint]; auto. intros (H1 & H2) HP.
  split; [|apply IH; auto; intros; apply HP; right; auto].
  intros c Hc (y & Y1 & Y2). apply (H1 (ablock (rounded c))); [apply in_map, in_map; auto|].
  pose proof (HP x (or_introl eq_refl)). pose proof (HP c (or_intror Hc)).
  destruct (ceil256_spec (bsize x) ltac:(lia)). destruct (ceil256_spec (bsize c) ltac:(lia)).
  exists y. unfold in_block, ablock, rounded in *. cbn [fst snd bptr bsize]. lia.
Qed.

Lemma arena_blocks initial maximum st w live : 0 < initial < 2 ^ 64 ->
  arena_reach (arena_legal initial) initial maximum st w live -> upstream_apart (ulog w) ->
  pairwise_disjoint (map (fun b => mkBlock (bptr b) (ceil256 (bsize b)) 16) live) /\
  pairwise_disjoint live /\
  forall b, In b live -> 0 < bptr b /\ (16 | bptr b) /\
    exists u, In u (ulive (ulog w)) /\ inside (mkBlock (bptr b) (ceil256 (bsize b)) 16) u.
Proof.
  intros Hin HR HU. pose proof (arena_reach_inv _ _ _ _ _ Hin HR HU) as HI.
  assert (D : disj (map rounded live)).
  { eapply disj_perm; [apply (n_live _ _ _ _ HI)|]. pose proof (t_disj _ _ (n_tiles _ _ _ _ HI)) as T2.
    unfold disj in *. rewrite map_app in T2. apply pairwise_disjoint_app in T2. apply T2. }
  split; [|split].
  - unfold disj in D. rewrite map_map in D. exact D.
  - apply rounded_inside_pd; [exact D|apply (n_pos _ _ _ _ HI)].
  - intros b Hb. assert (Hr : In (rounded b) (a_free st ++ a_alloc st)).
    { apply in_or_app. right. eapply Permutation_in; [symmetry; apply (n_live _ _ _ _ HI)|apply in_map; auto]. }
    destruct (inv_ptr _ _ _ _ HI (apart_ok _ HU) _ Hr) as (P1 & P2 & P3). split; auto. split; auto.
    destruct (t_in _ _ (n_tiles _ _ _ _ HI) _ Hr) as (u & Hu & I & _). exists u. auto.
Qed.

Lemma arena_alloc_defined initial maximum st w live size al r st' w' : 0 < initial < 2 ^ 64 ->
  arena_reach (arena_legal initial) initial maximum st w live -> arena_legal initial size al -> 0 < size ->
  arena_allocate st w size al = (r, st', w') -> upstream_apart (ulog w') ->
  (exists p, r = Ret p /\ 0 < p) \/
  (r = Throw bad_alloc /\ exists s a, ulog w' = UAlloc s a None :: ulog w).
Proof.
  intros Hin HR HL Hs E HU.
  assert (HU0 : upstream_apart (ulog w)).
  { destruct (arena_log _ _ _ _ _ _ _ E) as [Q|(a & b & [c|] & Q)]; rewrite Q in HU; auto. apply HU. }
  pose proof (arena_reach_inv _ _ _ _ _ Hin HR HU0) as HI.
  pose proof (get_block_inv _ _ _ _ _ _ _ _ _ Hin HI HL Hs E HU) as G. destruct r as [p|e|]; [left| |destruct G].
  - exists p. split; auto. apply G.
  - right. destruct G as (_ & -> & G). auto.
Qed.

Lemma arena_dealloc_defined initial maximum st w live b : 0 < initial < 2 ^ 64 ->
  arena_reach (arena_legal initial) initial maximum st w live -> upstream_apart (ulog w) -> In b live ->
  (a_free st <> [] -> exists st', arena_deallocate st w (bptr b) (bsize b) (balign b) = (Ret tt, st', w)) /\
  (a_free st = [] -> arena_deallocate st w (bptr b) (bsize b) (balign b) = (UB, st, w)).
Proof.
  intros Hin HR HU Hb. pose proof (arena_reach_inv _ _ _ _ _ Hin HR HU) as HI.
  assert (HR2 : In (rounded b) (a_alloc st)) by (eapply Permutation_in; [symmetry; apply (n_live _ _ _ _ HI)|apply in_map; auto]).
  assert (X : 0 < fst (rounded b)).
  { apply (inv_ptr _ _ _ _ HI (apart_ok _ HU)). apply in_or_app. auto. }
  cbn [rounded fst] in X. unfold arena_deallocate. rewrite (proj2 (Z.eqb_neq (bptr b) 0)) by lia. split.
  - intros NE. destruct (arena_free_inv _ _ _ _ b HU HI Hb NE) as (s2 & E2 & _). rewrite E2. eauto.
  - intros E0. unfold arena_free. change (bptr b) with (fst (rounded b)).
    destruct (free_block (fst (rounded b)) (a_alloc st)) as [[x l]|] eqn:FB; [|exfalso; eapply free_block_some; eauto].
    destruct (free_block_spec _ _ _ _ FB) as (Ex & _). rewrite Ex. cbn [rounded fst].
    rewrite (proj2 (Z.eqb_neq (bptr b) 0)) by lia. cbn [a_free]. rewrite E0. reflexivity.
Qed.

(** ** Destructor *)
Lemma free_list_inv initial w : upstream_apart (ulog w) -> forall ps st live,
  ainv initial st w live -> a_free st <> [] -> a_alloc st = ps ->
  exists st', free_list ps st = Ret st' /\ ainv initial st' w [] /\ a_alloc st' = [].
Proof.
  intros HU. induction ps as [|x ps IH]; intros st live HI NE EA.
  - exists st. split; [reflexivity|]. pose proof (n_live _ _ _ _ HI) as P. rewrite EA in P.
    apply Permutation_nil in P. destruct live; [|discriminate]. auto.
  - assert (HX : In x (map rounded live)).
    { eapply Permutation_in; [apply (n_live _ _ _ _ HI)|]. rewrite EA. left. auto. }
    apply in_map_iff in HX. destruct HX as (b & <- & Hb). cbn [free_list].
    change (fst (rounded b)) with (bptr b).
    destruct (arena_free_inv _ _ _ _ b HU HI Hb NE) as (s2 & E2 & HI2 & NE2 & PA).
    rewrite E2. cbn [bind]. apply (IH s2 (remove1 b live)); auto.
    (* the erased element is the first one *)
    unfold arena_free in E2. rewrite EA in E2. cbn [free_block rounded fst] in E2. rewrite Z.eqb_refl in E2.
    cbn [fst a_free] in E2. destruct (fst (rounded b) =? 0); [injection E2 as <-; reflexivity|].
    destruct (coalesce (rounded b) (a_free st)); cbn [bind] in E2; try discriminate. injection E2 as <-. reflexivity.
Qed.

Lemma tiles_whole F U : tiles F U -> notouch F -> (forall u, In u U -> 0 < bsize u /\ balign u = max_align) ->
  apart U -> forall u, In u U -> In (bptr u, bsize u) F.
Proof.
  intros HT NT HP HA u Hu. destruct (HP u Hu) as (Pu & Au).
  destruct (t_cover _ _ HT u (bptr u) Hu ltac:(unfold in_block; lia)) as (x & Hx & Ix).
  pose proof (t_pos _ _ HT x Hx) as Px.
  assert (IN : forall z, In z F -> (exists y, in_block y (ablock z) /\ in_block y u) -> bptr u <= fst z /\ fst z + snd z <= bptr u + bsize u).
  { intros z Hz (y & Y1 & Y2). destruct (t_in _ _ HT z Hz) as (v & Hv & I & _).
    assert (u = v) as <-.
    { pose proof (I y Y1) as Y3. destruct (HA u v Hu Hv) as [|[|]]; auto; unfold in_block in *; lia. }
    apply inside_iff in I; [|apply (t_pos _ _ HT); auto]. cbn [ablock bptr bsize] in I. lia. }
  assert (Ox : exists y, in_block y (ablock x) /\ in_block y u) by (exists (bptr u); split; [auto|unfold in_block; lia]).
  destruct (IN x Hx Ox) as (A1 & A2).
  assert (Ef : fst x = bptr u) by (unfold in_block, ablock in Ix; cbn [bptr bsize] in Ix; lia).
  destruct (Z.eq_dec (fst x + snd x) (bptr u + bsize u)) as [E|N].
  - replace (bptr u, bsize u) with x; auto. destruct x; cbn [fst snd] in *. f_equal; lia.
  - exfalso.
    destruct (t_cover _ _ HT u (fst x + snd x) Hu ltac:(unfold in_block; lia)) as (z & Hz & Iz).
    pose proof (t_pos _ _ HT z Hz) as Pz.
    unfold in_block, ablock in Iz. cbn [bptr bsize] in Iz.
    destruct (disj_pair F x z (t_disj _ _ HT) (t_pos _ _ HT) Hx Hz) as [->|[D|D]]; try lia.
    apply (NT x z Hx Hz). lia.
Qed.

Lemma pd_nodup l : disj l -> positive l -> NoDup l.
Proof.
  induction l as [|x l IH]; intros D P; constructor.
  - intros H. exact (disj_ptr_ne x l D P x H eq_refl).
  - apply disj_cons in D. apply IH; [apply D|intros y Hy; apply P; right; auto].
Qed.

Lemma free_all_blocks bs : forall w rest, Permutation (ulive (ulog w)) (map ablock bs ++ rest) -> frees_ok (ulog w) ->
  let w' := fold_left (fun w b => up_free w (fst b) (snd b) max_align) bs w in
  frees_ok (ulog w') /\ Permutation (ulive (ulog w')) rest.
Proof.
  induction bs as [|b bs IH]; intros w rest HP HF; cbn [fold_left map app] in *; auto.
  assert (Hin : In (mkBlock (fst b) (snd b) max_align) (ulive (ulog w))).
  { eapply Permutation_in; [symmetry; exact HP|left; reflexivity]. }
  apply IH; cbn [up_free ulog ulive frees_ok]; auto.
  apply Permutation_cons_inv with (mkBlock (fst b) (snd b) max_align).
  rewrite <- remove1_perm by auto. rewrite HP. reflexivity.
Qed.

Lemma arena_destructor initial maximum st w live : 0 < initial < 2 ^ 64 ->
  arena_reach (arena_legal initial) initial maximum st w live -> upstream_apart (ulog w) -> a_free st <> [] ->
  exists w', arena_destroy st w = Ret w' /\ frees_ok (ulog w') /\ ulive (ulog w') = [].
Proof.
  intros Hin HR HU NE. pose proof (arena_reach_inv _ _ _ _ _ Hin HR HU) as HI.
  destruct (free_list_inv _ _ HU _ _ _ HI NE eq_refl) as (s2 & E & HI2 & EA).
  unfold arena_destroy. rewrite E. cbn [bind]. eexists. split; [reflexivity|].
  pose proof (n_tiles _ _ _ _ HI2) as T. rewrite EA, app_nil_r in T.
  pose proof (apart_live _ HU) as HA.
  assert (P : Permutation (ulive (ulog w)) (map ablock (a_free s2) ++ [])).
  { rewrite app_nil_r. apply NoDup_Permutation.
    - pose proof (ulive_disjoint _ (apart_ok _ HU)) as D. pose proof (n_up _ _ _ _ HI2) as HP. revert D HP.
      generalize (ulive (ulog w)). clear. intros l. induction l as [|x l IH]; intros D HP; constructor.
      + intros H. destruct D as (D & _). apply (D x H). exists (bptr x).
        destruct (HP x (or_introl eq_refl)). unfold in_block. lia.
      + apply IH; [apply D|intros u Hu; apply HP; right; auto].
    - apply FinFun.Injective_map_NoDup; [|apply pd_nodup; apply T].
      intros x y Exy. destruct x, y. unfold ablock in Exy. cbn in Exy. congruence.
    - intros u. split; intros Hu.
      + pose proof (tiles_whole _ _ T (n_touch _ _ _ _ HI2) (n_up _ _ _ _ HI2) HA u Hu) as X.
        destruct (n_up _ _ _ _ HI2 u Hu) as (_ & A). apply (in_map ablock) in X.
        unfold ablock in X at 1. cbn [fst snd] in X. rewrite <- A in X. destruct u; exact X.
      + apply in_map_iff in Hu. destruct Hu as (x & <- & Hx).
        destruct (t_in _ _ T x Hx) as (v & Hv & I & _).
        pose proof (tiles_whole _ _ T (n_touch _ _ _ _ HI2) (n_up _ _ _ _ HI2) HA v Hv) as X.
        destruct (n_up _ _ _ _ HI2 v Hv) as (Pv & A).
        assert (x = (bptr v, bsize v)).
        { pose proof (t_pos _ _ T x Hx). apply inside_iff in I; [|auto]. cbn [ablock bptr bsize] in I.
          destruct (disj_pair _ x _ (t_disj _ _ T) (t_pos _ _ T) Hx X) as [|[D|D]]; auto; cbn [fst snd] in D; lia. }
        subst x. unfold ablock. cbn [fst snd]. rewrite <- A. destruct v; exact Hv. }
  destruct (free_all_blocks _ _ _ P (n_frees _ _ _ _ HI2)) as (F1 & F2). split; auto.
  apply Permutation_nil. symmetry. exact F2.
Qed.

(** ** Use of the memory *)
Lemma arena_tiling initial maximum st w live : 0 < initial < 2 ^ 64 ->
  arena_reach (arena_legal initial) initial maximum st w live -> upstream_apart (ulog w) ->
  let pieces := map ablock (a_free st) ++ map (fun b => mkBlock (bptr b) (ceil256 (bsize b)) 16) live in
  pairwise_disjoint pieces /\
  (forall x, In x pieces -> 0 < bsize x /\ exists u, In u (ulive (ulog w)) /\ inside x u) /\
  (forall u y, In u (ulive (ulog w)) -> in_block y u -> exists x, In x pieces /\ in_block y x) /\
  (forall x y, In x (a_free st) -> In y (a_free st) -> fst x + snd x <> fst y).
Proof.
  intros Hin HR HU pieces. pose proof (arena_reach_inv _ _ _ _ _ Hin HR HU) as HI.
  assert (HP : Permutation (map ablock (a_free st ++ a_alloc st)) pieces).
  { unfold pieces. rewrite map_app. apply Permutation_app_head.
    rewrite (n_live _ _ _ _ HI). rewrite map_map. reflexivity. }
  destruct (n_tiles _ _ _ _ HI) as [T1 T2 T3 T4].
  split; [|split; [|split]].
  - eapply pairwise_disjoint_perm; [exact HP|exact T2].
  - intros x Hx. apply (Permutation_in _ (Permutation_sym HP)) in Hx. apply in_map_iff in Hx.
    destruct Hx as (z & <- & Hz). split; [apply T1; auto|]. destruct (T3 z Hz) as (u & Hu & I & _). eauto.
  - intros u y Hu Hy. destruct (T4 u y Hu Hy) as (x & Hx & I). exists (ablock x). split; auto.
    eapply Permutation_in; [exact HP|]. apply in_map. auto.
  - exact (n_touch _ _ _ _ HI).
Qed.

Lemma first_fit_lowest size l b : a_sorted l -> In b l -> size <= snd b ->
  (forall c, In c l -> size <= snd c -> fst b <= fst c) ->
  exists r l', first_fit size l = Some (r, l') /\ fst r = fst b.
Proof.
  induction l as [|x l IH]; intros S Hb Hs HL; [destruct Hb|].
  cbn [first_fit]. apply sorted_cons in S. destruct S as (S & F).
  destruct (Z.leb_spec size (snd x)) as [LE|GT].
  - assert (fst x = fst b).
    { destruct Hb as [->|Hb]; auto. pose proof (HL x (or_introl eq_refl) LE). apply F in Hb. lia. }
    destruct (size <? snd x); eexists; eexists; split; eauto.
  - destruct Hb as [->|Hb]; [lia|].
    destruct IH as (r & l' & E & Er); auto; [intros; apply HL; auto; right; auto|].
    rewrite E. eauto.
Qed.

Lemma arena_upstream_use initial maximum st w live size al r st' w' : 0 < initial < 2 ^ 64 ->
  arena_reach (arena_legal initial) initial maximum st w live -> arena_legal initial size al -> 0 < size ->
  arena_allocate st w size al = (r, st', w') -> upstream_apart (ulog w') ->
  (forall b, ceil256 size < 2 ^ 18 -> In b (a_free st) -> ceil256 size <= snd b ->
     (forall c, In c (a_free st) -> ceil256 size <= snd c -> fst b <= fst c) ->
     r = Ret (fst b) /\ w' = w) /\
  (2 ^ 18 <= ceil256 size \/ (forall b, In b (a_free st) -> snd b < ceil256 size) ->
   exists x, ulog w' = UAlloc (if initial <? ceil256 size then 2 ^ 18 else initial) 16 x :: ulog w).
Proof.
  intros Hin HR HL Hs E HU.
  assert (HU0 : upstream_apart (ulog w)).
  { destruct (arena_log _ _ _ _ _ _ _ E) as [Q|(a & b & [c|] & Q)]; rewrite Q in HU; auto. apply HU. }
  pose proof (arena_reach_inv _ _ _ _ _ Hin HR HU0) as HI.
  unfold arena_allocate in E. rewrite (proj2 (Z.eqb_neq size 0)) in E by lia.
  rewrite (align_up_legal _ _ _ Hin HL) in E.
  destruct (get_block st w (ceil256 size)) as [[g s1] w1] eqn:EG.
  assert (w' = w1) as -> by (destruct g; injection E as <- <- <-; auto).
  unfold get_block in EG. change min_superblock with (2 ^ 18) in EG. split.
  - intros b H1 H2 H3 H4. rewrite (proj2 (Z.ltb_lt _ _) H1) in EG. unfold fit in EG.
    destruct (first_fit_lowest _ _ _ (n_sf _ _ _ _ HI) H2 H3 H4) as (q & l' & EF & Eq).
    rewrite EF in EG. injection EG as <- <- <-. injection E as <- <-. rewrite Eq. auto.
  - intros HC.
    assert (EN : (if ceil256 size <? 2 ^ 18 then fit st (ceil256 size) else None) = None).
    { destruct (Z.ltb_spec (ceil256 size) (2 ^ 18)); auto. destruct HC as [HC|HC]; [lia|].
      unfold fit. rewrite (proj2 (first_fit_none _ _) HC). reflexivity. }
    rewrite EN in EG.
    destruct (expand st w (ceil256 size)) as [[x s2] w2] eqn:EX.
    assert (w1 = w2) as ->.
    { destruct x; [|injection EG as <- <- <-; auto|injection EG as <- <- <-; auto].
      destruct (coalesce a (a_free s2)); [|injection EG as <- <- <-; auto|injection EG as <- <- <-; auto].
      match type of EG with context [fit ?a ?b] => destruct (fit a b) as [[? ?]|] end; injection EG as <- <- <-; auto. }
    unfold expand, up_alloc in EX. rewrite (n_sb _ _ _ _ HI) in EX.
    exists (uorc w (length (ulog w))).
    destruct (uorc w (length (ulog w))); injection EX as <- <- <-; reflexivity.
Qed.

(** ** What is held from upstream *)
Definition held (w : world) : Z := fold_right (fun u n => bsize u + n) 0 (ulive (ulog w)).
Definition cur_ok (initial : Z) (st : ast) (w : world) : Prop :=
  a_superblock st = initial /\ a_current st = held w mod 2 ^ 64 /\
  Forall (fun u => bsize u = initial \/ bsize u = 2 ^ 18) (ulive (ulog w)).

Lemma expand_cur initial st w size r st' w' : expand st w size = (r, st', w') -> cur_ok initial st w -> cur_ok initial st' w'.
Proof.
  intros E (H1 & H2 & H3). unfold expand, up_alloc in E.
  destruct (uorc w (length (ulog w))) as [p|]; injection E as <- <- <-; cbn [ulog].
  - unfold cur_ok, held. cbn [a_superblock a_current ulog ulive fold_right bsize]. rewrite H1.
    set (z := if initial <? size then min_superblock else initial).
    split; [auto|]. split.
    + unfold wrap64, two64. rewrite H2. fold (held w). rewrite Z.add_mod_idemp_l by lia. f_equal. subst z. unfold held. lia.
    + constructor; auto. cbn [bsize]. subst z. destruct (initial <? size); auto.
  - unfold cur_ok, held. cbn [ulog ulive]. auto.
Qed.

Lemma with_free_cur initial st w l : cur_ok initial st w -> cur_ok initial (with_free st l) w.
Proof. intros H. exact H. Qed.

Lemma allocate_cur initial st w bytes al r st' w' : arena_allocate st w bytes al = (r, st', w') ->
  cur_ok initial st w -> cur_ok initial st' w'.
Proof.
  unfold arena_allocate. destruct (bytes =? 0); [intros E H; injection E as <- <- <-; exact H|].
  destruct (get_block st w (align_up bytes)) as [[g s1] w1] eqn:EG. intros E H.
  assert (H1 : cur_ok initial s1 w1).
  { clear E. unfold get_block in EG.
    destruct (align_up bytes <? min_superblock) eqn:EL.
    - unfold fit in EG at 1. destruct (first_fit (align_up bytes) (a_free st)) as [[b l]|];
        [injection EG as <- <- <-; exact H|].
      destruct (expand st w (align_up bytes)) as [[x s2] w2] eqn:EX.
      pose proof (expand_cur _ _ _ _ _ _ _ EX H) as H2.
      destruct x; [|injection EG as <- <- <-; exact H2..].
      destruct (coalesce a (a_free s2)); [|injection EG as <- <- <-; exact H2..].
      unfold fit in EG. destruct (first_fit _ _) as [[? ?]|]; injection EG as <- <- <-; exact H2.
    - destruct (expand st w (align_up bytes)) as [[x s2] w2] eqn:EX.
      pose proof (expand_cur _ _ _ _ _ _ _ EX H) as H2.
      destruct x; [|injection EG as <- <- <-; exact H2..].
      destruct (coalesce a (a_free s2)); [|injection EG as <- <- <-; exact H2..].
      unfold fit in EG. destruct (first_fit _ _) as [[? ?]|]; injection EG as <- <- <-; exact H2. }
  destruct g; injection E as <- <- <-; exact H1.
Qed.

Lemma deallocate_cur initial st w p bytes al r st' w' : arena_deallocate st w p bytes al = (r, st', w') ->
  cur_ok initial st w -> cur_ok initial st' w'.
Proof.
  intros E H. unfold arena_deallocate, arena_free in E.
  destruct (p =? 0); [injection E as <- <- <-; exact H|].
  destruct (free_block p (a_alloc st)) as [[b l]|]; [|injection E as <- <- <-; exact H].
  destruct (fst b =? 0); [injection E as <- <- <-; exact H|]. cbn [a_free] in E.
  destruct (coalesce b (a_free st)); cbn [bind] in E; injection E as <- <- <-; exact H.
Qed.

Lemma arena_current legal initial maximum st w live : arena_reach legal initial maximum st w live ->
  a_current st = fold_right (fun u n => bsize u + n) 0 (ulive (ulog w)) mod 2 ^ 64 /\
  forall u, In u (ulive (ulog w)) -> bsize u = initial \/ bsize u = 2 ^ 18.
Proof.
  intros (s0 & HR). enough (H : cur_ok initial st w).
  { destruct H as (_ & H2 & H3). split; [exact H2|]. apply Forall_forall. exact H3. }
  induction HR as [w (w0 & F & E)|s w live size align p s' w' HR IH HL E|s w live size align e s' w' HR IH HL E
    |s w live b s' w' HR IH HI E|s w live size align s' w' HR IH E].
  - unfold arena_construct in E.
    match type of E with context [expand ?a ?b ?c] => destruct (expand a b c) as [[x s1] w1] eqn:EX end.
    assert (H : cur_ok initial s1 w1).
    { eapply expand_cur; [exact EX|]. unfold cur_ok, held. unfold fresh in F. rewrite F. cbn. auto. }
    destruct x; try discriminate. injection E as <- <-. exact H.
  - eapply allocate_cur; eauto.
  - eapply allocate_cur; eauto.
  - eapply deallocate_cur; eauto.
  - eapply deallocate_cur; eauto.
Qed.
