(** Proofs about the out-of-order queue. *)
From Verif Require Import Base BaseLemmas Copy CopyProofs Async AsyncProofs AsyncCopyProofs Sycl.

(** ** Vocabulary *)
(** Memories with the same contents. *)
Definition meq (m m' : cmem) : Prop := (forall x, m_byte m x = m_byte m' x) /\ m_dev m = m_dev m' /\ m_strict m = m_strict m'.
(** Addresses read and written. *)
Definition reads (o : aop) (x : Z) : Prop :=
  match o with AOCopy _ n src _ => within src n x | AOOut _ n src _ => within src n x | _ => False end.
Definition writes (o : aop) (x : Z) : Prop :=
  match o with AOCopy _ n _ dst => within dst n x | AOIn _ n _ dst => within dst n x | AOSet n dst _ => within dst n x | _ => False end.
(** One operation writes what the other one reads or writes. *)
Definition conflict (a b : aop) : Prop := exists x, (writes a x /\ (reads b x \/ writes b x)) \/ (writes b x /\ (reads a x \/ writes a x)).
Definition independent (l : list aop) : Prop := ForallOrdPairs (fun a b => ~ conflict a b) l.

Lemma meq_refl m : meq m m. Proof. split; auto. Qed.
Lemma meq_sym m m' : meq m m' -> meq m' m. Proof. intros (A & B & C). split; auto. Qed.
Lemma meq_trans m1 m2 m3 : meq m1 m2 -> meq m2 m3 -> meq m1 m3.
Proof. intros (A & B & C) (D & E & F). split; [intros x; now rewrite A|split; congruence]. Qed.
Lemma meq_get m m' a n : meq m m' -> get_bytes m a n = get_bytes m' a n.
Proof. intros (A & _). apply get_bytes_ext. intros i _. apply A. Qed.
Lemma meq_put m m' a bs : meq m m' -> meq (put_bytes m a bs) (put_bytes m' a bs).
Proof. intros (A & B & C). split; [|auto]. intros x. unfold put_bytes. cbn [m_byte]. now rewrite A. Qed.

(** What a successful operation does: it writes [bs] at [d]. *)
Definition op_len (o : aop) : Z := match o with AOCopy _ n _ _ => n | AOOut _ n _ _ => n | AOIn _ n _ _ => n | AOSet n _ _ => n end.
Definition op_dst (o : aop) : Z := match o with AOCopy _ _ _ d => d | AOOut _ _ _ _ => 0 | AOIn _ _ _ d => d | AOSet _ d _ => d end.
Definition op_data (o : aop) (m : cmem) : option (list Z) :=
  match o with
  | AOCopy _ n s _ => get_bytes m s (Z.to_nat n)
  | AOSet n _ v => Some (repeat (v mod 256) (Z.to_nat n))
  | _ => None
  end.
Definition op_static (o : aop) (dev : Z -> bool) (strict : bool) : bool :=
  match o with
  | AOCopy k n s d => negb (s =? 0) && negb (d =? 0) && negb ((s <? d + n) && (d <? s + n)) && (negb strict || kind_ok k (dev s) (dev d))
  | AOSet n d v => negb (d =? 0)
  | _ => false
  end.
Lemma op_char o m m' : sync_op o m = (Ret tt, m') <->
  (op_len o = 0 /\ m' = m /\ (exists k s d, o = AOCopy k 0 s d) \/ op_len o = 0 /\ m' = m /\ (exists d v, o = AOSet 0 d v)) \/
  (op_len o <> 0 /\ op_static o (m_dev m) (m_strict m) = true /\ exists bs old, op_data o m = Some bs /\ get_bytes m (op_dst o) (Z.to_nat (op_len o)) = Some old /\ m' = put_bytes m (op_dst o) bs).
Proof.
  destruct o as [k n s d|k n s x|k n x d|n d v]; cbn [sync_op op_len op_dst op_data op_static].
  - unfold do_copy, kind_check. destruct (n =? 0) eqn:En.
    + apply Z.eqb_eq in En. subst n. split.
      * intros H. injection H as <-. left. left. eauto 6.
      * intros [[(_ & -> & _)|(_ & _ & d' & v & C)]|(C & _)]; [reflexivity|discriminate|congruence].
    + apply Z.eqb_neq in En. destruct (s =? 0) eqn:Es, (d =? 0) eqn:Ed; cbn [orb andb negb];
        try (split; [discriminate|intros [[(C & _)|(C & _)]|(_ & C & _)]; [contradiction|contradiction|discriminate]]).
      destruct (get_bytes m s (Z.to_nat n)) as [bs|]; [destruct (get_bytes m d (Z.to_nat n)) as [old|]|].
      2,3: split; [discriminate|intros [[(C & _)|(C & _)]|(_ & _ & b & o & C1 & C2 & _)]; [contradiction|contradiction|discriminate]].
      destruct ((s <? d + n) && (d <? s + n)); cbn [negb andb];
        [split; [discriminate|intros [[(C & _)|(C & _)]|(_ & C & _)]; [contradiction|contradiction|discriminate]]|].
      destruct (negb (m_strict m) || kind_ok k (m_dev m s) (m_dev m d)).
      * split; [intros H; injection H as <-; right; eauto 7|intros [[(C & _)|(C & _)]|(_ & _ & b & o & C1 & C2 & ->)]; [contradiction|contradiction|congruence]].
      * split; [discriminate|intros [[(C & _)|(C & _)]|(_ & C & _)]; [contradiction|contradiction|discriminate]].
  - split; [discriminate|]. intros [[(_ & _ & k' & s' & d' & C)|(_ & _ & d' & v' & C)]|(_ & C & _)]; discriminate.
  - split; [discriminate|]. intros [[(_ & _ & k' & s' & d' & C)|(_ & _ & d' & v' & C)]|(_ & C & _)]; discriminate.
  - unfold do_memset. destruct (n =? 0) eqn:En.
    + apply Z.eqb_eq in En. subst n. split.
      * intros H. injection H as <-. left. right. eauto 6.
      * intros [[(_ & _ & k & s & d' & C)|(_ & -> & _)]|(C & _)]; [discriminate|reflexivity|congruence].
    + apply Z.eqb_neq in En. destruct (d =? 0) eqn:Ed; cbn [negb];
        [split; [discriminate|intros [[(C & _)|(C & _)]|(_ & C & _)]; [contradiction|contradiction|discriminate]]|].
      destruct (get_bytes m d (Z.to_nat n)) as [old|].
      * split; [intros H; injection H as <-; right; eauto 7|intros [[(C & _)|(C & _)]|(_ & _ & b & o & C1 & C2 & ->)]; [contradiction|contradiction|congruence]].
      * split; [discriminate|intros [[(C & _)|(C & _)]|(_ & _ & b & o & C1 & C2 & _)]; [contradiction|contradiction|discriminate]].
Qed.
Lemma op_data_len o m bs : op_data o m = Some bs -> length bs = Z.to_nat (op_len o).
Proof.
  destruct o; cbn; intros H; try discriminate; [eapply get_bytes_len; eauto|]. injection H as <-. apply repeat_length.
Qed.

(** The same operation on a memory that agrees where it matters. *)
Lemma op_frame o m m' m1 : sync_op o m = (Ret tt, m') -> m_dev m1 = m_dev m -> m_strict m1 = m_strict m ->
  (forall x, reads o x \/ writes o x -> m_byte m1 x = m_byte m x) ->
  exists m1', sync_op o m1 = (Ret tt, m1') /\ m_dev m1' = m_dev m1 /\ m_strict m1' = m_strict m1 /\
    (forall x, writes o x -> m_byte m1' x = m_byte m' x) /\ (forall x, ~ writes o x -> m_byte m1' x = m_byte m1 x) /\ (forall x, ~ writes o x -> m_byte m' x = m_byte m x).
Proof.
  intros H D S E. apply op_char in H. destruct H as [H|(H1 & H2 & bs & old & H3 & H4 & ->)].
  - assert (R : sync_op o m1 = (Ret tt, m1)) by (destruct H as [(_ & _ & k & s & d & ->)|(_ & _ & d & v & ->)]; reflexivity).
    assert (N : forall x, ~ writes o x) by (destruct H as [(_ & _ & k & s & d & ->)|(_ & _ & d & v & ->)]; cbn; unfold within; intros x; lia).
    assert (m' = m) as -> by (destruct H as [(_ & -> & _)|(_ & -> & _)]; auto).
    exists m1. split; [auto|]. split; [auto|]. split; [auto|]. split; [intros x C; destruct (N x C)|]. split; auto.
  - exists (put_bytes m1 (op_dst o) bs).
    assert (W : forall x, within (op_dst o) (Z.of_nat (length bs)) x <-> writes o x).
    { intros x. rewrite (op_data_len o m bs H3). destruct o as [k n s d|k n s y|k n y d|n d v]; cbn in *; try discriminate; unfold within; lia. }
    split; [|split; [reflexivity|split; [reflexivity|]]].
    + apply op_char. right. split; [auto|]. rewrite D, S. split; [auto|]. exists bs, old. split; [|split; [|reflexivity]].
      * destruct o as [k n s d|k n s x|k n x d|n d v]; cbn in *; try discriminate; [|auto]. rewrite <- H3. apply get_bytes_ext.
        intros i Hi. apply E. left. unfold within. lia.
      * rewrite <- H4. apply get_bytes_ext. intros i Hi. apply E. right. destruct o as [k n s d|k n s x|k n x d|n d v]; cbn in *; try discriminate; unfold within; lia.
    + split; [|split]; intros x Hx; rewrite <- W in Hx; unfold within in Hx; unfold put_bytes; cbn [m_byte].
      * replace ((op_dst o <=? x) && (x <? op_dst o + Z.of_nat (length bs))) with true by lia. reflexivity.
      * replace ((op_dst o <=? x) && (x <? op_dst o + Z.of_nat (length bs))) with false by lia. reflexivity.
      * replace ((op_dst o <=? x) && (x <? op_dst o + Z.of_nat (length bs))) with false by lia. reflexivity.
Qed.
Lemma op_meq o m m' m1 : sync_op o m = (Ret tt, m') -> meq m1 m -> exists m1', sync_op o m1 = (Ret tt, m1') /\ meq m1' m'.
Proof.
  intros H (E1 & E2 & E3). destruct (op_frame o m m' m1 H E2 E3) as (m1' & H1 & H2 & H3 & H4 & H5 & H6); [auto|].
  destruct (op_frame o m m' m H eq_refl eq_refl) as (m0 & G1 & G2 & G3 & _); [auto|]. rewrite H in G1. injection G1 as <-.
  exists m1'. split; [auto|]. split; [|split; congruence].
  intros x. assert (writes o x \/ ~ writes o x) as [W|W].
  { destruct o; cbn; unfold within; lia. } { auto. } rewrite H5, H6 by auto. apply E1.
Qed.
Lemma ops_meq l : forall m m' m1, sync_ops l m = (Ret tt, m') -> meq m1 m -> exists m1', sync_ops l m1 = (Ret tt, m1') /\ meq m1' m'.
Proof.
  induction l as [|o l IH]; intros m m' m1 H E; cbn [sync_ops] in *; [injection H as <-; eauto|].
  destruct (sync_op o m) as [[[]| |] m2] eqn:Eo; cbn [cbind] in H; try discriminate.
  destruct (op_meq o m m2 m1 Eo E) as (m3 & -> & E3). cbn [cbind]. eapply IH; eauto.
Qed.
Lemma writes_dec o x : writes o x \/ ~ writes o x.
Proof. destruct o; cbn; unfold within; lia. Qed.

(** Independent operations can be exchanged. *)
Lemma op_swap a b m m1 m2 : ~ conflict a b -> sync_op a m = (Ret tt, m1) -> sync_op b m1 = (Ret tt, m2) ->
  exists m1' m2', sync_op b m = (Ret tt, m1') /\ sync_op a m1' = (Ret tt, m2') /\ meq m2' m2.
Proof.
  intros NC HA HB.
  destruct (op_frame a m m1 m HA eq_refl eq_refl) as (x1 & A1 & A2 & A3 & A4 & A5 & A6); [auto|]. rewrite HA in A1. injection A1 as <-.
  destruct (op_frame b m1 m2 m HB) as (m1' & B1 & B2 & B3 & B4 & B5 & B6); [auto|auto|..].
  { intros x Hx. symmetry. apply A6. intros W. apply NC. exists x. auto. }
  destruct (op_frame a m m1 m1' HA) as (m2' & C1 & C2 & C3 & C4 & C5 & C6); [congruence|congruence|..].
  { intros x Hx. apply B5. intros W. apply NC. exists x. auto. }
  exists m1', m2'. split; [auto|]. split; [auto|].
  destruct (op_frame b m1 m2 m1 HB eq_refl eq_refl) as (x2 & D1 & D2 & D3 & _); [auto|]. rewrite HB in D1. injection D1 as <-.
  split; [|split; congruence]. intros x. destruct (writes_dec a x) as [W|W].
  - rewrite C4 by auto. rewrite B6; [auto|]. intros W'. apply NC. exists x. auto.
  - rewrite C5 by auto. destruct (writes_dec b x) as [W'|W']; [auto|]. rewrite B5, B6, A6 by auto. reflexivity.
Qed.
Lemma ops_front l1 : forall o l2 m m', (forall a, In a l1 -> ~ conflict a o) -> sync_ops (l1 ++ o :: l2) m = (Ret tt, m') ->
  exists m1 m'', sync_op o m = (Ret tt, m1) /\ sync_ops (l1 ++ l2) m1 = (Ret tt, m'') /\ meq m'' m'.
Proof.
  induction l1 as [|a l1 IH]; intros o l2 m m' NC H; cbn [app sync_ops] in *.
  - destruct (sync_op o m) as [[[]| |] m1] eqn:E; cbn [cbind] in H; try discriminate. exists m1, m'. split; [auto|]. split; [auto|apply meq_refl].
  - destruct (sync_op a m) as [[[]| |] m1] eqn:E; cbn [cbind] in H; try discriminate.
    destruct (IH o l2 m1 m' ltac:(intros; apply NC; now right) H) as (m2 & m'' & H1 & H2 & H3).
    destruct (op_swap a o m m1 m2 (NC a (or_introl eq_refl)) E H1) as (n1 & n2 & G1 & G2 & G3).
    destruct (ops_meq _ _ _ n2 H2 G3) as (n3 & G4 & G5). exists n1, n3. split; [auto|]. cbn [sync_ops]. rewrite G2. cbn [cbind]. split; [auto|].
    eapply meq_trans; eauto.
Qed.
Lemma indep_app_inv l1 o l2 : independent (l1 ++ o :: l2) -> (forall a, In a l1 -> ~ conflict a o) /\ independent (l1 ++ l2).
Proof.
  induction l1 as [|a l1 IH]; cbn; intros H; inversion H as [|? ? F R]; subst.
  - split; [intros a []|auto].
  - destruct (IH R) as (H1 & H2). split.
    + intros b [->|Hb]; [|auto]. rewrite Forall_forall in F. apply F. apply in_or_app. right. now left.
    + constructor; [|auto]. rewrite Forall_forall in *. intros b Hb. apply F. apply in_app_or in Hb. apply in_or_app. destruct Hb; [auto|right; now right].
Qed.

(** ** A burst of operations, an event, and a wait *)
Definition burst (l : list aop) : list sycall := map SySubmit l ++ [SyEvent; SyWait 0].

Definition pend (s : sy) : list aop := map snd (sy_q s).
Definition ids (s : sy) : list nat := map fst (sy_q s).
Definition good (l : list aop) (m m' : cmem) : Prop := independent l /\ exists m2, sync_ops l m = (Ret tt, m2) /\ meq m2 m'.
Inductive binv (m' : cmem) : list sycall -> sy -> Prop :=
| bi_issue l2 s : sy_evs s = [] -> incl (ids s) (sy_cur s) -> good (pend s ++ l2) (sy_mem s) m' -> binv m' (map SySubmit l2 ++ [SyEvent; SyWait 0]) s
| bi_wait s l : sy_evs s = [l] -> incl (ids s) l -> good (pend s) (sy_mem s) m' -> binv m' [SyWait 0] s
| bi_done s : sy_q s = [] -> meq (sy_mem s) m' -> binv m' [] s.

Lemma sync_app l1 : forall l2 m m', sync_ops (l1 ++ l2) m = (Ret tt, m') <-> exists m1, sync_ops l1 m = (Ret tt, m1) /\ sync_ops l2 m1 = (Ret tt, m').
Proof.
  induction l1 as [|o l1 IH]; intros l2 m m'; cbn [app sync_ops].
  - split; [eauto|]. intros (m1 & H & H'). congruence.
  - destruct (sync_op o m) as [[[]| |] m1]; cbn [cbind]; [apply IH| |]; (split; [discriminate|intros (? & C & _); discriminate]).
Qed.
Lemma sync_op_dev o m m' : sync_op o m = (Ret tt, m') -> m_dev m' = m_dev m /\ m_strict m' = m_strict m.
Proof. intros H. apply op_char in H. destruct H as [[(_ & -> & _)|(_ & -> & _)]|(_ & _ & bs & old & _ & _ & ->)]; auto. Qed.
Lemma sync_ops_dev l : forall m m', sync_ops l m = (Ret tt, m') -> m_dev m' = m_dev m /\ m_strict m' = m_strict m.
Proof.
  induction l as [|o l IH]; intros m m' H; cbn [sync_ops] in H; [injection H as <-; auto|].
  destruct (sync_op o m) as [[[]| |] m1] eqn:E; cbn [cbind] in H; try discriminate. apply sync_op_dev in E. apply IH in H. destruct E, H. split; congruence.
Qed.
Lemma sync_issue o m m1 m' : sync_op o m1 = (Ret tt, m') -> m_dev m1 = m_dev m -> m_strict m1 = m_strict m ->
  (issue o m = Ret false /\ m' = m1) \/ issue o m = Ret true.
Proof.
  intros H D S. destruct (issue_ok o m1 ltac:(rewrite H; discriminate)) as [(A & B)|[(n & A & B & _)|(A & B)]]; rewrite H in B.
  - left. split; [|congruence]. destruct o; cbn in *; unfold kind_check in *; rewrite ?D, ?S in A; exact A.
  - right. destruct o; cbn in *; unfold kind_check in *; rewrite ?D, ?S in A; exact A.
  - discriminate.
Qed.

Lemma exec_good l o l2 m m1 m' : good (l ++ o :: l2) m m' -> sync_op o m = (Ret tt, m1) -> good (l ++ l2) m1 m'.
Proof.
  intros (I & m2 & H & E) Ho. destruct (indep_app_inv _ _ _ I) as (N & I'). split; [auto|].
  destruct (ops_front l o l2 m m2 N H) as (n & m'' & H1 & H2 & H3). rewrite Ho in H1. injection H1 as <-. exists m''. split; [auto|]. eapply meq_trans; eauto.
Qed.

Lemma binv_step m' c c' : sy_step c c' -> binv m' (fst c) (snd c) -> binv m' (fst c') (snd c').
Proof.
  intros ST. destruct ST as [c cs s s' H|cs s q1 i o q2 m1 Eq Ho]; cbn [fst snd]; intros B.
  - inversion B as [l2 s0 E1 E2 E3 E4|s0 l E1 E2 E3 E4|s0 E1 E2 E4]; subst; try discriminate.
    + destruct l2 as [|o l2]; cbn [map app] in E4; injection E4 as <- <-; cbn [sy_host] in H.
      * injection H as <-. apply bi_wait with (l := sy_cur s); cbn; [now rewrite E1|auto|]. rewrite app_nil_r in E3. exact E3.
      * destruct E3 as (I & m2 & G & E). rewrite sync_app in G. destruct G as (n & G1 & G2). cbn [sync_ops] in G2.
        destruct (sync_op o n) as [[[]| |] n1] eqn:Eo; cbn [cbind] in G2; try discriminate.
        destruct (sync_ops_dev _ _ _ G1) as (D & S).
        destruct (sync_issue o (sy_mem s) n n1 Eo D S) as [(X & ->)|X]; rewrite X in H; injection H as <-.
        -- apply bi_issue; [auto|auto|]. destruct (indep_app_inv _ _ _ I) as (_ & I'). split; [auto|]. exists m2. split; [|auto]. apply sync_app. eauto.
        -- apply bi_issue; cbn [sy_evs sy_cur sy_mem]; [auto| |].
           ++ unfold ids. cbn [sy_q]. rewrite map_app. cbn. apply incl_app; [apply incl_appl; exact E2|apply incl_appr, incl_refl].
           ++ unfold pend. cbn [sy_q]. rewrite map_app, <- app_assoc. cbn. split; [auto|]. exists m2. split; [|auto]. apply sync_app. exists n. split; [auto|].
              cbn [sync_ops]. rewrite Eo. exact G2.
    + cbn [sy_host] in H. rewrite E1 in H. cbn [nth_error] in H.
      destruct (forallb _ l) eqn:F; [|discriminate]. injection H as <-.
      assert (Q : sy_q s = []).
      { destruct (sy_q s) as [|(i, o) q] eqn:Q; [auto|]. exfalso. unfold ids in E2. rewrite Q in E2. cbn in E2.
        rewrite forallb_forall in F. specialize (F i (E2 i (or_introl eq_refl))). cbn in F. rewrite Nat.eqb_refl in F. discriminate. }
      apply bi_done; cbn; [auto|]. destruct E3 as (_ & m2 & G & E). unfold pend in G. rewrite Q in G. cbn in G. injection G as <-. exact E.
  - assert (Es : pend s = map snd q1 ++ o :: map snd q2) by (unfold pend; rewrite Eq, map_app; reflexivity).
    assert (Ei : incl (map fst (q1 ++ q2)) (ids s)).
    { unfold ids. rewrite Eq, !map_app. cbn. apply incl_app; [apply incl_appl, incl_refl|apply incl_appr, incl_tl, incl_refl]. }
    inversion B as [l2 s0 E1 E2 E3 E4|s0 l E1 E2 E3 E4|s0 E1 E2 E4]; subst.
    + apply bi_issue; cbn [sy_evs sy_cur sy_mem]; [auto|eapply incl_tran; eauto|]. rewrite Es in E3. rewrite <- app_assoc in E3.
      unfold pend. cbn [sy_q]. rewrite map_app, <- app_assoc. eapply exec_good; eauto.
    + apply bi_wait with (l := l); cbn [sy_evs sy_cur sy_mem]; [auto|eapply incl_tran; eauto|]. rewrite Es in E3.
      unfold pend. cbn [sy_q]. rewrite map_app. eapply exec_good; eauto.
    + rewrite E1 in Eq. destruct q1; discriminate.
Qed.
Lemma binv_steps m' c c' : sy_steps c c' -> binv m' (fst c) (snd c) -> binv m' (fst c') (snd c').
Proof. induction 1; eauto using binv_step. Qed.

Theorem sycl_burst l m m' cs s : independent l -> sync_ops l m = (Ret tt, m') -> sy_steps (burst l, sy_init m) (cs, s) ->
  (cs = [] -> sy_q s = [] /\ meq (sy_mem s) m') /\
  (forall i o, In (i, o) (sy_q s) -> exists m1, sync_op o (sy_mem s) = (Ret tt, m1)) /\
  (cs <> [] -> exists c, sy_step (cs, s) c).
Proof.
  intros I H ST. assert (B : binv m' cs s).
  { apply (binv_steps _ _ _ ST). cbn [fst snd]. unfold burst. apply bi_issue; cbn; [auto|intros x []|]. split; [auto|]. exists m'. split; [auto|apply meq_refl]. }
  assert (EX : forall i o, In (i, o) (sy_q s) -> exists m1, sync_op o (sy_mem s) = (Ret tt, m1)).
  { intros i o Hi. apply in_split in Hi. destruct Hi as (q1 & q2 & Eq).
    assert (Es : pend s = map snd q1 ++ o :: map snd q2) by (unfold pend; rewrite Eq, map_app; reflexivity).
    assert (exists l2, good (pend s ++ l2) (sy_mem s) m') as (l2 & J & m2 & G & _).
    { inversion B as [l2 s0 E1 E2 E3 E4|s0 l0 E1 E2 E3 E4|s0 E1 E2 E4]; subst; [eauto|exists []; now rewrite app_nil_r|]. rewrite E1 in Eq. destruct q1; discriminate. }
    rewrite Es, <- app_assoc in J, G. cbn [app] in J, G. destruct (indep_app_inv _ _ _ J) as (N & _). destruct (ops_front _ _ _ _ _ N G) as (m1 & m'' & X & _). eauto. }
  split; [|split; [auto|]].
  - intros ->. inversion B as [l2 s0 E1 E2 E3 E4|s0 l0 E1 E2 E3 E4|s0 E1 E2 E4]; subst; auto. destruct l2; discriminate.
  - intros NE. inversion B as [l2 s0 E1 E2 E3 E4|s0 l0 E1 E2 E3 E4|s0 E1 E2 E4]; subst; [| |congruence].
    + destruct l2 as [|o l2]; cbn [map app].
      * eexists. apply sy_call. reflexivity.
      * destruct E3 as (J & m2 & G & E). rewrite sync_app in G. destruct G as (n & G1 & G2). cbn [sync_ops] in G2.
        destruct (sync_op o n) as [[[]| |] n1] eqn:Eo; cbn [cbind] in G2; try discriminate. destruct (sync_ops_dev _ _ _ G1) as (D & S).
        destruct (sync_issue o (sy_mem s) n n1 Eo D S) as [(X & _)|X]; eexists; apply sy_call; cbn [sy_host]; rewrite X; reflexivity.
    + destruct (sy_q s) as [|(i, o) q] eqn:Q.
      * eexists. apply sy_call. cbn [sy_host]. rewrite E1. cbn [nth_error]. rewrite Q. cbn [existsb negb].
        replace (forallb (fun _ : nat => true) l0) with true by (clear; induction l0; auto). reflexivity.
      * destruct (EX i o) as (m1 & X); [rewrite <- Q; rewrite Q; now left|]. eexists. eapply (sy_exec _ s [] i o q); [exact Q|exact X].
Qed.
