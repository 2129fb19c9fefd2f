(** Invariant of the binary page resource and consequences (proofs for [Buddy]). *)
From Verif Require Import Base BaseLemmas IntMath IntMathProofs Buddy BuddyTree BuddyPage.
From Coq Require Import Permutation.

Definition sp_good (sp : superpage) : Prop := sp_wf sp /\ coalesced sp.

(** ** Searching for a page *)

(** Page [p] of superpage number [k] is vacant, has size [2^g], and its superpage
    accepts requests of size [2^size]. *)
Definition fits (st : list superpage) (size : Z) (k p : nat) (g : Z) : Prop :=
  exists sp, nth_error st k = Some sp /\ sp_min sp <= size /\
             st_at sp p = Some VACANT /\ get_size sp p = g.

Lemma vacant_size_le sp p : sp_wf sp -> st_at sp p = Some VACANT ->
  get_size sp p <= sp_size sp /\ sp_min sp <= get_size sp p.
Proof.
  intros Hwf H. assert (p < 511)%nat by (rewrite <- (wf_len _ Hwf); eapply st_at_lt; eauto).
  rewrite get_size_eq by auto. pose proof (dp_le p). pose proof (wf_min _ Hwf). lia.
Qed.

Lemma find_pass_ok size search : size <= search -> forall l k,
  Forall sp_good l ->
  (exists c, find_pass l k size search = Ret (None, c) /\
     (forall j p, ~ fits l size j p search) /\
     (c = false -> forall sp, In sp l -> sp_min sp <= size -> sp_size sp < search)) \/
  (exists j p c, find_pass l k size search = Ret (Some ((k + j)%nat, p), c) /\
     fits l size j p search).
Proof.
  intros Hss. induction l as [|sp l IH]; intros k HF; cbn [find_pass].
  - left. exists false. split; auto. split; [|simpl; tauto].
    intros j p (sp & H & _). destruct j; discriminate.
  - inversion HF as [|x y [Hwf Hc] HF']; subst.
    assert (Hrec : forall c0,
      (forall p, ~ fits (sp :: l) size 0 p search) ->
      (c0 = false -> sp_min sp <= size -> sp_size sp < search) ->
      forall c1, (forall j p, ~ fits l size j p search) ->
      (c1 = false -> forall sp, In sp l -> sp_min sp <= size -> sp_size sp < search) ->
      (forall j p, ~ fits (sp :: l) size j p search) /\
      (orb c0 c1 = false -> forall sp', In sp' (sp :: l) -> sp_min sp' <= size -> sp_size sp' < search)).
    { intros c0 H0 H0' c1 H1 H1'. split.
      - intros [|j] p Hf; [apply (H0 p Hf)|]. apply (H1 j p). exact Hf.
      - intros Hb sp' [<-|Hin] Hle; destruct c0, c1; simpl in Hb; try discriminate; eauto. }
    assert (Hup : forall j p, fits l size j p search -> fits (sp :: l) size (S j) p search).
    { intros j p (x & H). exists x. exact H. }
    destruct ((sp_min sp <=? size) && (search <=? sp_size sp)) eqn:Eb.
    + apply andb_true_iff in Eb. destruct Eb as [E1 E2].
      apply Z.leb_le in E1. apply Z.leb_le in E2.
      pose proof (wf_min _ Hwf) as Hmin.
      set (d := Z.to_nat (sp_size sp - search)).
      assert (Hd8 : (d <= 8)%nat) by lia.
      assert (Ed : search = sp_size sp - Z.of_nat d) by lia.
      pose proof (first_of_size_ok sp d Hwf Hd8) as Efs. rewrite <- Ed in Efs.
      rewrite Efs. cbn [bind].
      pose proof (pow2_nat_pos d) as Hpd.
      assert (Hp256 : (2 ^ d <= 256)%nat).
      { change 256%nat with (2 ^ 8)%nat. apply Nat.pow_le_mono_r; lia. }
      destruct (scan_ok sp (2 * (2 ^ d - 1) + 1 - (2 ^ d - 1)) (2 ^ d - 1))
        as [[Es Hn]|(q & Es & Hq & Hv)]; [rewrite (wf_len _ Hwf); lia| |].
      * rewrite Es. cbn [bind].
        assert (H0 : forall p, ~ fits (sp :: l) size 0 p search).
        { intros p (x & Hx & _ & Hv & Hg). cbn in Hx. injection Hx as <-.
          assert (Hp : (p < 511)%nat) by (rewrite <- (wf_len _ Hwf); eapply st_at_lt; eauto).
          rewrite get_size_eq in Hg by auto.
          apply (Hn p); auto.
          pose proof (proj2 (dp_level d p) ltac:(lia)). lia. }
        destruct (IH (S k) HF') as [(c & E & Ha & Hb)|(j & p & c & E & Hf)].
        -- left. exists true. rewrite E. cbn [bind fst]. split; auto.
           split; [|discriminate].
           apply (Hrec true H0 ltac:(discriminate) c Ha Hb).
        -- right. exists (S j), p, true. rewrite E. cbn [bind fst].
           replace (S k + j)%nat with (k + S j)%nat by lia. auto.
      * rewrite Es. cbn [bind]. right. exists 0%nat, q, true.
        replace (k + 0)%nat with k by lia. split; auto.
        exists sp. split; [auto|]. split; auto. split; auto.
        assert (Hq511 : (q < 511)%nat) by lia.
        rewrite get_size_eq by auto.
        pose proof (proj1 (dp_level d q) ltac:(lia)). lia.
    + assert (H0 : forall p, ~ fits (sp :: l) size 0 p search).
      { intros p (x & Hx & H1 & Hv & Hg). cbn in Hx. injection Hx as <-.
        pose proof (vacant_size_le sp p Hwf Hv). lia. }
      destruct (IH (S k) HF') as [(c & E & Ha & Hb)|(j & p & c & E & Hf)].
      * left. exists c. rewrite E. split; auto.
        destruct (Hrec false H0 ltac:(lia) c Ha Hb) as [R1 R2]. split; auto.
      * right. exists (S j), p, c. rewrite E.
        replace (S k + j)%nat with (k + S j)%nat by lia. auto.
Qed.

Lemma find_loop_ok st size : Forall sp_good st -> forall fuel search,
  size <= search -> 64 - search < Z.of_nat fuel -> 0 < Z.of_nat fuel ->
  (forall k p g, fits st size k p g -> size <= g -> search <= g) ->
  (find_loop fuel st size search = Ret None /\
     forall k p g, fits st size k p g -> g < size) \/
  (exists k p g, find_loop fuel st size search = Ret (Some (k, p)) /\
     fits st size k p g /\ size <= g /\
     forall k' p' g', fits st size k' p' g' -> size <= g' -> g <= g').
Proof.
  intros HF. induction fuel as [|f IH]; intros search Hs Hf Hf0 Hbelow; [lia|].
  cbn [find_loop].
  destruct (find_pass_ok size search Hs st 0 HF) as [(c & E & Ha & Hb)|(j & p & c & E & Hfit)];
    rewrite E; cbn [bind].
  - destruct c.
    + destruct (Z_lt_ge_dec search 64) as [H64|H64].
      * apply IH; try lia. intros k p g Hfit Hg.
        pose proof (Hbelow k p g Hfit Hg).
        destruct (Z.eq_dec g search) as [->|]; [exfalso; eapply Ha; eauto|lia].
      * exfalso.
        (* beyond 2^63 no superpage is a candidate *)
        assert (Hc : forall l k, Forall sp_good l -> snd (match find_pass l k size search with Ret x => x | _ => (None, false) end) = false).
        { clear - H64. induction l as [|sp l IHl]; intros k HF; cbn [find_pass]; auto.
          inversion HF as [|x y [Hwf Hc] HF']; subst.
          pose proof (wf_size _ Hwf).
          destruct (Z.leb_spec search (sp_size sp)); [lia|].
          rewrite andb_false_r. apply IHl; auto. }
        specialize (Hc st 0%nat HF). rewrite E in Hc. discriminate.
    + left. split; auto. intros k p g Hfit.
      destruct (Z_lt_ge_dec g size) as [|Hge]; auto. exfalso.
      pose proof (Hbelow k p g Hfit ltac:(lia)).
      destruct Hfit as (sp & Hn & Hm & Hv & Hg).
      pose proof (nth_error_In _ _ Hn) as Hin.
      pose proof (Hb eq_refl sp Hin Hm).
      rewrite Forall_forall in HF. destruct (HF sp Hin) as [Hwf _].
      pose proof (vacant_size_le sp p Hwf Hv). lia.
  - right. exists j, p, search. split; auto.
Qed.

Lemma find_free_page_ok st size : Forall sp_good st -> 0 <= size ->
  (find_free_page st size = Ret None /\ forall k p g, fits st size k p g -> g < size) \/
  (exists k p g, find_free_page st size = Ret (Some (k, p)) /\
     fits st size k p g /\ size <= g /\
     forall k' p' g', fits st size k' p' g' -> size <= g' -> g <= g').
Proof. intros HF Hs. apply find_loop_ok; auto; lia. Qed.

(** ** Taking a page *)
Lemma take_page_ok st size k p g : Forall sp_good st -> fits st size k p g -> size <= g ->
  exists sp sp' p', take_page st k p size = Ret (get_addr sp p, upd st k sp') /\
    nth_error st k = Some sp /\ sp_good sp' /\ set_shape sp sp' /\
    get_addr sp' p' = get_addr sp p /\ get_size sp' p' = size /\
    ~ (st_at sp p' = Some OCCUPIED) /\
    (forall x, st_at sp' x = Some OCCUPIED <-> st_at sp x = Some OCCUPIED \/ x = p').
Proof.
  intros HF (sp & Hn & Hm & Hv & Hg) Hle.
  pose proof (nth_error_In _ _ Hn) as Hin.
  rewrite Forall_forall in HF. destruct (HF sp Hin) as [Hwf Hc].
  pose proof (vacant_size_le sp p Hwf Hv) as Hgs. pose proof (wf_min _ Hwf) as Hmin.
  destruct (split_to_ok size 64 sp p Hwf Hv (coal_coal_but _ _ Hc)) as
    (sp1 & p1 & E1 & W1 & Sh1 & C1 & V1 & G1 & A1 & O1); [lia|lia|].
  assert (Hlt : (p1 < length (sp_pages sp1))%nat) by (eapply st_at_lt; eauto).
  exists sp, (set sp1 p1 OCCUPIED), p1.
  unfold take_page. rewrite Hn, (get_state_ok _ _ _ Hv). cbn [bind pstate_eqb assert].
  rewrite E1. cbn [bind]. rewrite (change_state_ok _ _ _ _ V1). cbn [bind].
  pose proof (set_shape_set sp1 p1 OCCUPIED) as Sh2.
  split; [|split; auto; split; [split|split; [|split; [|split; [|split]]]]].
  - rewrite (set_shape_get_addr _ _ _ Sh2), A1. reflexivity.
  - apply set_leaf_wf; auto. right; auto.
  - apply occupy_coal; auto.
  - eapply set_shape_trans; eauto.
  - rewrite (set_shape_get_addr _ _ _ Sh2). exact A1.
  - rewrite (set_shape_get_size _ _ _ Sh2). exact G1.
  - intros H. apply O1 in H. congruence.
  - intros x. st_simpl. destruct (Nat.eq_dec p1 x) as [->|Hne].
    + split; auto.
    + rewrite O1. split; [auto|intros [H|H]; congruence].
Qed.

(** ** The global invariant *)
Definition goal_of (size : Z) : Z := Z.max min_page_size (round_up size).

Record inv (st : state) (w : world) (live : list block) : Prop := {
  i_good : Forall sp_good st;
  i_up : ulive (ulog w) = rev (map sp_block st);
  i_nodup : NoDup (map bptr live);
  i_live : forall b, In b live -> 0 < bsize b <= 2 ^ 63 /\
     exists k sp i, nth_error st k = Some sp /\ st_at sp i = Some OCCUPIED /\
                    bptr b = get_addr sp i /\ get_size sp i = goal_of (bsize b);
  i_occ : forall k sp i, nth_error st k = Some sp -> st_at sp i = Some OCCUPIED ->
     exists b, In b live /\ bptr b = get_addr sp i }.

Lemma inv_init w : ulog w = [] -> inv init w [].
Proof.
  intros H. constructor.
  - constructor.
  - rewrite H. reflexivity.
  - constructor.
  - intros b [].
  - intros [|k] sp i; discriminate.
Qed.

Lemma sp_blocks_disjoint st w live k k' sp sp' : inv st w live -> upstream_ok (ulog w) ->
  nth_error st k = Some sp -> nth_error st k' = Some sp' -> k <> k' ->
  ~ overlap (sp_block sp) (sp_block sp').
Proof.
  intros HI Hok Hk Hk' Hne. pose proof (ulive_disjoint _ Hok) as Hd.
  rewrite (i_up _ _ _ HI) in Hd.
  apply (pairwise_disjoint_perm _ (map sp_block st)) in Hd;
    [|symmetry; apply Permutation_rev].
  eapply pairwise_disjoint_nth; eauto; erewrite map_nth_error; eauto.
Qed.

Lemma good_page sp i s : sp_good sp -> st_at sp i = Some s -> (i < 511)%nat.
Proof. intros [Hwf _] H. rewrite <- (wf_len _ Hwf). eapply st_at_lt; eauto. Qed.

Lemma inv_good st w live k sp : inv st w live -> nth_error st k = Some sp -> sp_good sp.
Proof.
  intros HI Hk. pose proof (i_good _ _ _ HI) as HF. rewrite Forall_forall in HF.
  apply HF. eapply nth_error_In; eauto.
Qed.

(** Leaves of all superpages are disjoint. *)
Lemma leaves_disjoint st w live k sp i k' sp' i' :
  inv st w live -> upstream_ok (ulog w) ->
  nth_error st k = Some sp -> nth_error st k' = Some sp' ->
  is_leaf (st_at sp i) -> is_leaf (st_at sp' i') -> (k, i) <> (k', i') ->
  ~ overlap (pblock sp i) (pblock sp' i').
Proof.
  intros HI Hok Hk Hk' Hi Hi' Hne.
  pose proof (inv_good _ _ _ _ _ HI Hk) as G. pose proof (inv_good _ _ _ _ _ HI Hk') as G'.
  destruct (Nat.eq_dec k k') as [->|Hkk].
  - assert (sp' = sp) by congruence. subst sp'.
    apply leaf_disjoint; auto. apply G.
  - assert (Hin : forall sp i, sp_good sp -> is_leaf (st_at sp i) -> inside (pblock sp i) (sp_block sp)).
    { intros s j [W C] L. apply page_in_sp; [apply W|].
      destruct L as [L|L]; exact (good_page s j _ (conj W C) L). }
    eapply inside_not_overlap; [apply Hin|apply Hin|]; auto.
    eapply sp_blocks_disjoint; eauto.
Qed.

Lemma page_size_pos sp i s : sp_good sp -> st_at sp i = Some s -> 0 < 2 ^ get_size sp i.
Proof.
  intros G H. pose proof (good_page _ _ _ G H) as Hlt. rewrite get_size_eq by auto.
  apply pow2_pos. pose proof (dp_le i Hlt). destruct G as [W _]. pose proof (wf_size _ W). lia.
Qed.

Lemma occ_addr_inj st w live k sp i k' sp' i' :
  inv st w live -> upstream_ok (ulog w) ->
  nth_error st k = Some sp -> nth_error st k' = Some sp' ->
  st_at sp i = Some OCCUPIED -> st_at sp' i' = Some OCCUPIED ->
  get_addr sp i = get_addr sp' i' -> (k, i) = (k', i').
Proof.
  intros HI Hok Hk Hk' Hi Hi' E.
  destruct (Nat.eq_dec k k') as [E1|N1]; destruct (Nat.eq_dec i i') as [E2|N2];
    try congruence; exfalso;
    (apply (leaves_disjoint st w live k sp i k' sp' i'); auto;
      [left; auto|left; auto|congruence|];
     exists (get_addr sp i); unfold in_block, pblock; simpl;
     pose proof (page_size_pos sp i _ (inv_good _ _ _ _ _ HI Hk) Hi);
     pose proof (page_size_pos sp' i' _ (inv_good _ _ _ _ _ HI Hk') Hi'); lia).
Qed.

Lemma goal_bounds s : 0 < s <= 2 ^ 63 -> 8 <= goal_of s <= 63 /\ s <= 2 ^ goal_of s.
Proof.
  intros H. unfold goal_of, min_page_size.
  destruct (round_up_spec s) as (H1 & H2 & _); [lia|]. split; [lia|].
  etransitivity; [exact H2|]. apply Z.pow_le_mono_r; lia.
Qed.

(** Consequences of the invariant. *)
Lemma inv_disjoint st w live : inv st w live -> upstream_ok (ulog w) ->
  pairwise_disjoint live.
Proof.
  intros HI Hok.
  pose proof (i_nodup _ _ _ HI) as Hnd. pose proof (i_live _ _ _ HI) as Hl.
  assert (forall b c, In b live -> In c live -> bptr b <> bptr c -> ~ overlap b c) as Hmain.
  { intros b c Hb Hc Hne.
    destruct (Hl b Hb) as (Sb & k & sp & i & N1 & O1 & A1 & G1).
    destruct (Hl c Hc) as (Sc & k' & sp' & i' & N2 & O2 & A2 & G2).
    eapply inside_not_overlap with (b' := pblock sp i) (c' := pblock sp' i').
    - apply inside_iff; [lia|]. simpl. pose proof (goal_bounds _ Sb). rewrite G1. lia.
    - apply inside_iff; [lia|]. simpl. pose proof (goal_bounds _ Sc). rewrite G2. lia.
    - eapply leaves_disjoint; eauto; [left; auto|left; auto|].
      intros [= -> ->]. congruence. }
  clear HI Hl. induction live as [|b l IH]; simpl; auto.
  simpl in Hnd. inversion Hnd as [|x y Hn Hnd']; subst. split.
  - intros c Hc. apply Hmain; simpl; auto. intros E. apply Hn. rewrite E. apply in_map; auto.
  - apply IH; auto. intros x y Hx Hy. apply Hmain; simpl; auto.
Qed.

Lemma inv_inside st w live b : inv st w live -> In b live ->
  exists u, In u (ulive (ulog w)) /\ inside b u.
Proof.
  intros HI Hb. destruct (i_live _ _ _ HI b Hb) as (Sb & k & sp & i & N1 & O1 & A1 & G1).
  exists (sp_block sp). split.
  - rewrite (i_up _ _ _ HI), <- in_rev. apply in_map. eapply nth_error_In; eauto.
  - intros x Hx. apply (page_in_sp sp i).
    + destruct (inv_good _ _ _ _ _ HI N1) as [W _]. apply W.
    + eapply good_page; eauto. eapply inv_good; eauto.
    + revert x Hx. change (inside b (pblock sp i)). apply inside_iff; [lia|]. simpl.
      pose proof (goal_bounds _ Sb). rewrite G1. lia.
Qed.

Lemma map_upd_same {A B} (f : A -> B) l k x y :
  nth_error l k = Some x -> f y = f x -> map f (upd l k y) = map f l.
Proof.
  intros H E. rewrite map_upd. apply upd_nth_same. rewrite (map_nth_error f _ _ H). congruence.
Qed.

Lemma set_shape_block sp sp' : set_shape sp sp' -> sp_block sp' = sp_block sp.
Proof. intros (E1 & _ & E2 & _). unfold sp_block. congruence. Qed.

(** Taking a page keeps the invariant. *)
Lemma inv_take st w live size align k p g :
  inv st w live -> upstream_ok (ulog w) -> 0 < size <= 2 ^ 63 ->
  fits st (goal_of size) k p g -> goal_of size <= g ->
  exists a st', take_page st k p (goal_of size) = Ret (a, st') /\ 0 < a /\
    inv st' w (mkBlock a size align :: live).
Proof.
  intros HI Hok Hs Hfit Hg.
  destruct (take_page_ok st _ k p g (i_good _ _ _ HI) Hfit Hg) as
    (sp & sp' & p' & E & Hn & Hgood & Hsh & HA & HG & Hfree & Hocc).
  destruct Hfit as (sp0 & Hn0 & Hm & Hv & Hgs).
  assert (sp0 = sp) by congruence. subst sp0.
  exists (get_addr sp p), (upd st k sp'). split; auto.
  pose proof (nth_error_lt _ _ _ Hn) as Hklt.
  assert (Hp0 : 0 < get_addr sp p).
  { assert (In (sp_block sp) (ulive (ulog w))).
    { rewrite (i_up _ _ _ HI), <- in_rev. apply in_map. eapply nth_error_In; eauto. }
    pose proof (ulive_props _ _ Hok H) as (H1 & _). simpl in H1.
    rewrite get_addr_eq by (eapply good_page; [eapply inv_good; eauto|eauto]).
    assert (0 <= 2 ^ (sp_size sp - Z.of_nat (dp p))) by (apply Z.pow_nonneg; lia). nia. }
  split; auto.
  assert (HI' : inv (upd st k sp') w live \/ True) by auto. clear HI'.
  assert (Hnth : forall k' x, nth_error (upd st k sp') k' = Some x ->
     (k' = k /\ x = sp') \/ (k' <> k /\ nth_error st k' = Some x)).
  { intros k' x H. rewrite nth_error_upd in H. destruct (Nat.eq_dec k k') as [->|].
    - destruct (lt_dec k' (length st)); [|lia]. left. split; congruence.
    - right. split; auto. }
  assert (Hnthk : nth_error (upd st k sp') k = Some sp') by (apply nth_error_upd_eq; auto).
  assert (Hfresh : forall b, In b live -> bptr b <> get_addr sp p).
  { intros b Hb Eb. destruct (i_live _ _ _ HI b Hb) as (_ & k1 & sp1 & i1 & N1 & O1 & A1 & G1).
    apply (leaves_disjoint st w live k1 sp1 i1 k sp p); auto; [left; auto|right; auto| |].
    - intros [= -> ->]. congruence.
    - exists (bptr b). unfold in_block, pblock. simpl.
      pose proof (page_size_pos sp1 i1 _ (inv_good _ _ _ _ _ HI N1) O1).
      pose proof (page_size_pos sp p _ (inv_good _ _ _ _ _ HI Hn) Hv). lia. }
  constructor.
  - apply Forall_forall. intros x Hx. apply In_nth_error in Hx. destruct Hx as (k' & Hx).
    apply Hnth in Hx. destruct Hx as [[_ ->]|[_ Hx]]; auto.
    eapply inv_good; eauto.
  - rewrite (i_up _ _ _ HI). f_equal. symmetry. apply (map_upd_same _ _ _ sp); auto.
    apply set_shape_block; auto.
  - simpl. constructor; [|apply (i_nodup _ _ _ HI)].
    intros H. apply in_map_iff in H. destruct H as (b & E1 & E2).
    apply (Hfresh b E2). exact E1.
  - intros b [<-|Hb]; simpl.
    + split; auto. exists k, sp', p'. split; auto. split; [apply Hocc; auto|]. split; auto.
    + destruct (i_live _ _ _ HI b Hb) as (Sb & k1 & sp1 & i1 & N1 & O1 & A1 & G1).
      split; auto. destruct (Nat.eq_dec k k1) as [->|Hne].
      * assert (sp1 = sp) by congruence. subst sp1.
        exists k1, sp', i1. split; auto. split; [apply Hocc; auto|].
        rewrite (set_shape_get_addr _ _ _ Hsh), (set_shape_get_size _ _ _ Hsh). auto.
      * exists k1, sp1, i1. rewrite nth_error_upd_ne by auto. auto.
  - intros k1 sp1 i1 N1 O1. apply Hnth in N1. destruct N1 as [[-> ->]|[Hne N1]].
    + apply Hocc in O1. destruct O1 as [O1| ->].
      * destruct (i_occ _ _ _ HI _ _ _ Hn O1) as (b & Hb & Eb).
        exists b. split; [right; auto|]. rewrite (set_shape_get_addr _ _ _ Hsh). auto.
      * eexists. split; [left; reflexivity|]. simpl. auto.
    + destruct (i_occ _ _ _ HI _ _ _ N1 O1) as (b & Hb & Eb).
      exists b. split; auto. right; auto.
Qed.

(** A new superpage is in order and serves the request it was made for. *)
Lemma new_superpage_st m base p : 16 <= m <= 63 ->
  st_at (new_superpage m base) p =
  if Nat.eq_dec p 0 then Some VACANT else if lt_dec p 511 then Some NON_EXTANT else None.
Proof.
  intros Hm. unfold st_at, new_superpage, delta_superpage_size. cbn [sp_pages].
  replace (num_pages m (m - 8)) with 511%nat
    by (unfold num_pages; replace (m - (m - 8)) with 8 by lia; reflexivity).
  change (511 - 1)%nat with 510%nat.
  destruct p as [|p]; [reflexivity|]. cbn [nth_error].
  destruct (Nat.eq_dec (S p) 0); [lia|].
  destruct (lt_dec (S p) 511).
  - apply nth_error_repeat. lia.
  - apply nth_error_None. rewrite repeat_length. lia.
Qed.

Lemma new_superpage_good m base : 16 <= m <= 63 -> sp_good (new_superpage m base).
Proof.
  intros Hm. pose proof (new_superpage_st m base) as HS. split.
  - constructor; cbn [new_superpage sp_size sp_min]; auto.
    + unfold new_superpage, delta_superpage_size. cbn [sp_pages length].
      rewrite repeat_length. unfold num_pages. replace (m - (m - 8)) with 8 by lia. reflexivity.
    + rewrite HS by auto. discriminate.
    + intros p Hp. rewrite !HS by auto. destruct (Nat.eq_dec p 0); [lia|].
      destruct (lt_dec p 511); [|lia]. split; auto. intros _.
      destruct (Nat.eq_dec (par p) 0); [discriminate|].
      destruct (lt_dec (par p) 511); discriminate.
    + intros p. rewrite HS by auto. destruct (Nat.eq_dec p 0); [discriminate|].
      destruct (lt_dec p 511); discriminate.
  - intros p. rewrite HS by auto. destruct (Nat.eq_dec p 0); [discriminate|].
    destruct (lt_dec p 511); discriminate.
Qed.

Lemma superpage_size_for_ok g : 8 <= g <= 63 ->
  16 <= superpage_size_for g <= 63 /\ superpage_size_for g - 8 <= g <= superpage_size_for g.
Proof.
  intros H. unfold superpage_size_for, min_superpage_size, delta_superpage_size.
  destruct (Z.leb_spec 20 g); lia.
Qed.

Lemma get_size_root sp : get_size sp 0 = sp_size sp.
Proof. rewrite get_size_eq by lia. change (dp 0) with 0%nat. lia. Qed.

(** Adding a superpage keeps the invariant. *)
Lemma inv_add st w w' live m base : inv st w live -> 16 <= m <= 63 ->
  ulog w' = UAlloc (2 ^ m) max_align (Some base) :: ulog w ->
  inv (st ++ [new_superpage m base]) w' live.
Proof.
  intros HI Hm Hw.
  assert (Hnth : forall k x, nth_error st k = Some x -> nth_error (st ++ [new_superpage m base]) k = Some x).
  { intros k x H. rewrite nth_error_app1; auto. eapply nth_error_lt; eauto. }
  constructor.
  - apply Forall_app. split; [apply (i_good _ _ _ HI)|].
    constructor; auto. apply new_superpage_good; auto.
  - rewrite Hw. cbn [ulive]. rewrite (i_up _ _ _ HI), map_app, rev_app_distr. reflexivity.
  - apply (i_nodup _ _ _ HI).
  - intros b Hb. destruct (i_live _ _ _ HI b Hb) as (Sb & k & sp & i & N1 & R).
    split; auto. exists k, sp, i. split; auto.
  - intros k sp i N1 O1.
    destruct (lt_dec k (length st)) as [Hl|Hl].
    + rewrite nth_error_app1 in N1 by auto. eapply (i_occ _ _ _ HI); eauto.
    + rewrite nth_error_app2 in N1 by lia. exfalso.
      destruct (k - length st)%nat as [|k']; [|destruct k'; discriminate].
      cbn in N1. injection N1 as <-. rewrite new_superpage_st in O1 by auto.
      destruct (Nat.eq_dec i 0); [discriminate|]. destruct (lt_dec i 511); discriminate.
Qed.

(** ** The full effect of [allocate] in a good state *)
Definition no_fit (st : state) (goal : Z) : Prop :=
  forall k p g, fits st goal k p g -> g < goal.

Lemma allocate_spec st w live size align :
  inv st w live -> 0 < size <= 2 ^ 63 ->
  upstream_ok (ulog (snd (allocate st w size))) ->
  (* served from existing memory *)
  (exists a st' k p g, allocate st w size = (Ret a, st', w) /\ 0 < a /\
     fits st (goal_of size) k p g /\ goal_of size <= g /\
     (forall k' p' g', fits st (goal_of size) k' p' g' -> goal_of size <= g' -> g <= g') /\
     (exists sp, nth_error st k = Some sp /\ a = get_addr sp p) /\
     inv st' w (mkBlock a size align :: live)) \/
  (* upstream refuses *)
  (exists w', no_fit st (goal_of size) /\ allocate st w size = (Throw bad_alloc, st, w') /\
     ulog w' = UAlloc (2 ^ superpage_size_for (goal_of size)) max_align None :: ulog w /\
     inv st w' live) \/
  (* served from a new superpage *)
  (exists a st' w' base, no_fit st (goal_of size) /\ allocate st w size = (Ret a, st', w') /\
     0 < a /\
     ulog w' = UAlloc (2 ^ superpage_size_for (goal_of size)) max_align (Some base) :: ulog w /\
     inv st' w' (mkBlock a size align :: live)).
Proof.
  intros HI Hs Hok.
  pose proof (goal_bounds size Hs) as [Hg _].
  unfold allocate, round_up_checked in Hok |- *.
  destruct (Z.leb_spec size (2 ^ 63)); [|lia].
  fold (goal_of size) in Hok |- *.
  destruct (find_free_page_ok st (goal_of size) (i_good _ _ _ HI)) as
    [[E Hno]|(k & p & g & E & Hfit & Hle & Hmin)]; [lia| |]; rewrite E in Hok |- *.
  - destruct (superpage_size_for_ok (goal_of size) Hg) as [Hm Hm2].
    unfold allocate_upstream in Hok |- *.
    destruct (Z.ltb_spec (superpage_size_for (goal_of size) - delta_superpage_size) min_page_size) as [Hlt|_];
      [unfold delta_superpage_size, min_page_size in Hlt; lia|].
    unfold up_alloc in Hok |- *.
    destruct (uorc w (length (ulog w))) as [base|] eqn:Eo.
    + right. right.
      set (st1 := st ++ [new_superpage (superpage_size_for (goal_of size)) base]) in *.
      set (w1 := mkWorld (UAlloc (2 ^ superpage_size_for (goal_of size)) max_align (Some base) :: ulog w) (uorc w)) in *.
      assert (HI1 : inv st1 w1 live) by (eapply inv_add; eauto).
      assert (Hnew : fits st1 (goal_of size) (length st) 0 (superpage_size_for (goal_of size))).
      { eexists. split; [|split; [|split]].
        - unfold st1. rewrite nth_error_app2, Nat.sub_diag by lia. reflexivity.
        - cbn. unfold delta_superpage_size. lia.
        - rewrite new_superpage_st by auto. reflexivity.
        - apply get_size_root. }
      destruct (find_free_page_ok st1 (goal_of size) (i_good _ _ _ HI1)) as
        [[E1 Hno1]|(k & p & g & E1 & Hfit & Hle & Hmin)]; [lia| |].
      { exfalso. specialize (Hno1 _ _ _ Hnew). lia. }
      rewrite E1 in Hok |- *.
      assert (Hok1 : upstream_ok (ulog w1)).
      { destruct (take_page st1 k p (goal_of size)) as [[a0 s0]|e|] eqn:Et; exact Hok. }
      destruct (inv_take st1 w1 live size align k p g HI1 Hok1 Hs Hfit Hle) as (a & st' & Et & Ha & HI').
      rewrite Et. exists a, st', w1, base. split; auto.
    + right. left. eexists. split; auto. split; [reflexivity|]. split; [reflexivity|].
      destruct HI. constructor; auto.
  - left.
    assert (Hok1 : upstream_ok (ulog w)).
    { destruct (take_page st k p (goal_of size)) as [[a0 s0]|e|] eqn:Et; exact Hok. }
    destruct (inv_take st w live size align k p g HI Hok1 Hs Hfit Hle) as (a & st' & Et & Ha & HI').
    rewrite Et. exists a, st', k, p, g.
    split; auto. split; auto. split; auto. split; auto. split; auto. split; auto.
    destruct (take_page_ok st _ k p g (i_good _ _ _ HI) Hfit Hle) as (sp & sp' & p' & E2 & Hn & _).
    rewrite E2 in Et. injection Et as <- <-. exists sp. auto.
Qed.

(** ** Deallocation *)
Lemma find_sp_ok st p : forall l k0 k sp,
  nth_error l k = Some sp -> (forall k' sp', (k' < k)%nat -> nth_error l k' = Some sp' ->
     ~ in_block p (sp_block sp')) -> in_block p (sp_block sp) ->
  st = l -> find_sp l k0 p = Some (k0 + k)%nat.
Proof.
  intros l. revert st. induction l as [|x l IH]; intros st k0 k sp Hk Hb Hin ->.
  - destruct k; discriminate.
  - cbn [find_sp]. destruct k as [|k].
    + cbn in Hk. injection Hk as ->. unfold in_block, sp_block in Hin. simpl in Hin.
      destruct (Z.leb_spec (sp_base sp) p); [|lia].
      destruct (Z.ltb_spec p (sp_base sp + 2 ^ sp_size sp)); [|lia].
      simpl. f_equal. lia.
    + specialize (Hb 0%nat x ltac:(lia) eq_refl) as Hx.
      unfold in_block, sp_block in Hx. simpl in Hx.
      destruct ((sp_base x <=? p) && (p <? sp_base x + 2 ^ sp_size x)) eqn:E; [lia|].
      rewrite (IH l (S k0) k sp); auto; [f_equal; lia|].
      intros k' sp' Hk' Hn. apply (Hb (S k')); auto. lia.
Qed.

Lemma in_remove1_iff b c live : NoDup (map bptr live) -> In b live ->
  (In c (remove1 b live) <-> In c live /\ bptr c <> bptr b).
Proof.
  induction live as [|d l IH]; simpl; [tauto|]. intros Hnd Hb.
  inversion Hnd as [|x y Hn Hnd']; subst.
  destruct (block_eq_dec b d) as [->|Hne].
  - split.
    + intros Hc. split; auto. intros E. apply Hn. rewrite <- E. apply in_map; auto.
    + intros [[->|Hc] Hp]; congruence.
  - destruct Hb as [->|Hb]; [congruence|]. simpl. rewrite IH by auto. split.
    + intros [<-|[Hc Hp]]; auto. split; auto. intros E. apply Hn. rewrite E. apply in_map; auto.
    + tauto.
Qed.

Lemma NoDup_remove1 b live : NoDup (map bptr live) -> NoDup (map bptr (remove1 b live)).
Proof.
  induction live as [|d l IH]; simpl; auto. intros Hnd. inversion Hnd as [|x y Hn Hnd']; subst.
  destruct (block_eq_dec b d); auto. simpl. constructor; auto.
  intros H. apply Hn. apply in_map_iff in H. destruct H as (c & <- & Hc).
  apply in_map. eapply remove1_in; eauto.
Qed.

Lemma deallocate_spec st w live b : inv st w live -> upstream_ok (ulog w) -> In b live ->
  exists st', deallocate st (bptr b) (bsize b) = Ret st' /\ 0 < bptr b /\ inv st' w (remove1 b live).
Proof.
  intros HI Hok Hb.
  destruct (i_live _ _ _ HI b Hb) as (Sb & k & sp & i & N1 & O1 & A1 & G1).
  pose proof (inv_good _ _ _ _ _ HI N1) as Hgood.
  pose proof (good_page _ _ _ Hgood O1) as Hi.
  destruct Hgood as [Hwf Hc].
  assert (Hin : in_block (bptr b) (sp_block sp)).
  { apply (page_in_sp sp i); auto; [apply Hwf|]. unfold in_block, pblock. simpl.
    pose proof (page_size_pos sp i _ (conj Hwf Hc) O1). lia. }
  assert (Hpos : 0 < bptr b).
  { assert (In (sp_block sp) (ulive (ulog w))).
    { rewrite (i_up _ _ _ HI), <- in_rev. apply in_map. eapply nth_error_In; eauto. }
    pose proof (ulive_props _ _ Hok H) as (H1 & _). unfold in_block in Hin. lia. }
  unfold deallocate.
  rewrite (find_sp_ok st (bptr b) st 0 k sp); auto.
  2:{ intros k' sp' Hk' Hn Hx. apply (sp_blocks_disjoint st w live k' k sp' sp); auto; [lia|].
      exists (bptr b). auto. }
  cbn [Nat.add]. rewrite N1. rewrite A1.
  destruct (dealloc_page_ok sp i (bsize b) Hwf Hc O1) as (sp' & E & W' & C' & Sh & Occ); auto; [lia|].
  rewrite E. cbn [bind]. exists (upd st k sp'). split; auto. split; [lia|].
  pose proof (nth_error_lt _ _ _ N1) as Hklt.
  assert (Hnth : forall k' x, nth_error (upd st k sp') k' = Some x ->
     (k' = k /\ x = sp') \/ (k' <> k /\ nth_error st k' = Some x)).
  { intros k' x H. rewrite nth_error_upd in H. destruct (Nat.eq_dec k k') as [->|].
    - destruct (lt_dec k' (length st)); [|lia]. left. split; congruence.
    - right. split; auto. }
  assert (Hnthk : nth_error (upd st k sp') k = Some sp') by (apply nth_error_upd_eq; auto).
  constructor.
  - apply Forall_forall. intros x Hx. apply In_nth_error in Hx. destruct Hx as (k' & Hx).
    apply Hnth in Hx. destruct Hx as [[_ ->]|[_ Hx]]; [split; auto|].
    eapply inv_good; eauto.
  - rewrite (i_up _ _ _ HI). f_equal. symmetry. apply (map_upd_same _ _ _ sp); auto.
    apply set_shape_block; auto.
  - apply NoDup_remove1, (i_nodup _ _ _ HI).
  - intros c Hc'. apply in_remove1_iff in Hc'; auto; [|apply (i_nodup _ _ _ HI)].
    destruct Hc' as [Hcl Hne].
    destruct (i_live _ _ _ HI c Hcl) as (Sc & k1 & sp1 & i1 & N2 & O2 & A2 & G2).
    split; auto. destruct (Nat.eq_dec k k1) as [->|Hkk].
    + assert (sp1 = sp) by congruence. subst sp1.
      exists k1, sp', i1. split; auto. split; [apply Occ; split; auto; congruence|].
      rewrite (set_shape_get_addr _ _ _ Sh), (set_shape_get_size _ _ _ Sh). auto.
    + exists k1, sp1, i1. rewrite nth_error_upd_ne by auto. auto.
  - intros k1 sp1 i1 N2 O2. apply Hnth in N2. destruct N2 as [[-> ->]|[Hkk N2]].
    + apply Occ in O2. destruct O2 as [O2 Hii].
      destruct (i_occ _ _ _ HI _ _ _ N1 O2) as (c & Hcl & Ec).
      exists c. rewrite (set_shape_get_addr _ _ _ Sh). split; auto.
      apply in_remove1_iff; auto; [apply (i_nodup _ _ _ HI)|]. split; auto.
      intros E2. apply Hii.
      assert ((k, i1) = (k, i)) by (eapply (occ_addr_inj st w live); eauto; congruence).
      congruence.
    + destruct (i_occ _ _ _ HI _ _ _ N2 O2) as (c & Hcl & Ec).
      exists c. split; auto. apply in_remove1_iff; auto; [apply (i_nodup _ _ _ HI)|].
      split; auto. intros E2.
      assert ((k1, i1) = (k, i)) by (eapply (occ_addr_inj st w live); eauto; congruence).
      congruence.
Qed.
