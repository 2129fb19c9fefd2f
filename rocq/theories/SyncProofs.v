From Verif Require Import Base BaseLemmas Sync.
Open Scope nat_scope.

Section SyncProofs.
  Context {U Call Res : Type}.
  Variable ustep : U -> Call -> U * Res.
  Variable u0 : U.
  Notation label := (@label Call Res).
  Notation state := (@state U Call Res).
  Notation exec := (exec ustep u0).

  Definition same (t k g : nat) (l : label) : Prop := lt l = t /\ lk l = k /\ lg l = g.
  (** The action [(k, g)] of a thread is in its past. *)
  Definition past (s : state) (t k g : nat) : Prop :=
    k < cnt (th s t) \/ (k = cnt (th s t) /\ g < phase (th s t)).

  Record sinv (tr : list label) (s : state) : Prop := {
    si_past : forall i l, nth_error tr i = Some l -> lg l < 6 /\ past s (lt l) (lk l) (lg l);
    si_uniq : forall i j l m, nth_error tr i = Some l -> nth_error tr j = Some m ->
      lt l = lt m -> lk l = lk m -> lg l = lg m -> i = j;
    (** everything in the past of a thread is in the trace *)
    si_all : forall t k g, g < 6 -> past s t k g -> exists i l, nth_error tr i = Some l /\ same t k g l;
    (** actions of one thread are in order *)
    si_order : forall i j l m, nth_error tr i = Some l -> nth_error tr j = Some m -> lt l = lt m ->
      (lk l < lk m \/ (lk l = lk m /\ lg l < lg m)) -> i < j;
    (** arguments and results are the same in all stages *)
    si_call : forall i j l m, nth_error tr i = Some l -> nth_error tr j = Some m ->
      lt l = lt m -> lk l = lk m -> lc l = lc m;
    si_res : forall i j l m, nth_error tr i = Some l -> nth_error tr j = Some m ->
      lt l = lt m -> lk l = lk m -> 3 <= lg l -> 3 <= lg m -> lr l = lr m;
    si_shape : forall i l, nth_error tr i = Some l -> if 3 <=? lg l then exists r, lr l = Some r else lr l = None;
    si_cur : forall i l, nth_error tr i = Some l -> lk l = cnt (th s (lt l)) ->
      cur (th s (lt l)) = Some (lc l) /\ (3 <= lg l -> res (th s (lt l)) = lr l);
    si_phase : forall t, phase (th s t) < 6;
    si_lock : forall t, lock s = Some t <-> 2 <= phase (th s t) <= 4;
    si_excl : forall i j l m, nth_error tr i = Some l -> nth_error tr j = Some m -> i < j ->
      lg l = 2 -> lg m = 2 -> exists n e, i < n < j /\ nth_error tr n = Some e /\ same (lt l) (lk l) 3 e;
    si_seq : seq_run ustep u0 (upstream_calls tr) (ust s) }.

  Lemma set_same (f : nat -> _) t (x : tstate Call Res) : set f t x t = x.
  Proof. unfold set. rewrite Nat.eqb_refl. reflexivity. Qed.
  Lemma set_other (f : nat -> _) t (x : tstate Call Res) u : u <> t -> set f t x u = f u.
  Proof. unfold set. intros H. destruct (Nat.eqb_spec u t); congruence. Qed.

  Lemma seq_snoc u l u1 c u2 r : seq_run ustep u l u1 -> ustep u1 c = (u2, r) ->
    seq_run ustep u (l ++ [(c, Some r)]) u2.
  Proof.
    induction 1 as [u|u c' u1' r' l u2' E H IH]; simpl; intros HE.
    - econstructor; eauto. constructor.
    - econstructor; eauto.
  Qed.

  Lemma nth_snoc {A} (tr : list A) x i l : nth_error (tr ++ [x]) i = Some l ->
    nth_error tr i = Some l \/ (i = length tr /\ l = x).
  Proof.
    intros H. destruct (Nat.lt_ge_cases i (length tr)).
    - rewrite nth_error_app1 in H by auto. auto.
    - rewrite nth_error_app2 in H by auto.
      assert (HL : i - length tr < length [x]) by (apply nth_error_Some; congruence).
      simpl in HL. replace (i - length tr) with 0 in H by lia. simpl in H. injection H as <-.
      right. split; auto. lia.
  Qed.
  Lemma nth_old {A} (tr : list A) x i l : nth_error tr i = Some l -> nth_error (tr ++ [x]) i = Some l.
  Proof. intros H. rewrite nth_error_app1; auto. apply nth_error_Some. congruence. Qed.
  Lemma nth_new {A} (tr : list A) x : nth_error (tr ++ [x]) (length tr) = Some x.
  Proof. rewrite nth_error_app2 by auto. rewrite Nat.sub_diag. reflexivity. Qed.
  Lemma nth_len {A} (tr : list A) i l : nth_error tr i = Some l -> i < length tr.
  Proof. intros H. apply nth_error_Some. congruence. Qed.

  (** What a step does, uniformly: thread [t] performs its next stage. *)
  Lemma step_uniform s l s' : (forall t, phase (th s t) < 6) ->
    step ustep s l s' ->
    let t := lt l in
    lk l = cnt (th s t) /\ lg l = phase (th s t) /\
    (forall u, u <> t -> th s' u = th s u) /\
    ((lg l < 5 /\ cnt (th s' t) = cnt (th s t) /\ phase (th s' t) = S (lg l) /\
      cur (th s' t) = Some (lc l) /\ res (th s' t) = lr l) \/
     (lg l = 5 /\ cnt (th s' t) = S (cnt (th s t)) /\ phase (th s' t) = 0)) /\
    (1 <= lg l -> cur (th s t) = Some (lc l)) /\
    (4 <= lg l -> res (th s t) = lr l) /\
    (if 3 <=? lg l then exists r, lr l = Some r else lr l = None) /\
    (lock s' = match lg l with 1 => Some t | 4 => None | _ => lock s end) /\
    (lg l = 1 -> lock s = None) /\
    (if lg l =? 3 then exists r, lr l = Some r /\ ustep (ust s) (lc l) = (ust s', r)
     else ust s' = ust s).
  Proof.
    intros Hph H. destruct H as [s t c Hp|s t c Hp Hc Hl|s t c Hp Hc|s t c u' r Hp Hc Hu|s t c r Hp Hc Hr
      |s t c r Hp Hc Hr]; cbn [lt lk lg lc lr th lock ust cnt phase cur res Nat.leb Nat.eqb];
      rewrite ?set_same; cbn [cnt phase cur res];
      (split; [reflexivity|]); (split; [congruence|]);
      (split; [intros u Hu'; apply set_other; exact Hu'|]);
      (split; [first [left; repeat split; lia | right; repeat split; lia]|]);
      (split; [intros; try lia; congruence|]); (split; [intros; try lia; congruence|]);
      (split; [eauto|]); (split; [reflexivity|]); (split; [intros; try lia; congruence|]); eauto.
  Qed.

  Lemma sinv_step tr s l s' : sinv tr s -> step ustep s l s' -> sinv (tr ++ [l]) s'.
  Proof.
    intros I HS. pose proof (si_phase _ _ I) as Hph.
    destruct (step_uniform s l s' Hph HS) as (Hk & Hg & Hoth & Hme & Hc & Hr & Hsh & Hl & Hl1 & Hu).
    set (t := lt l) in *.
    assert (Hfresh : forall i m, nth_error tr i = Some m -> lt m = t ->
      lk m < lk l \/ (lk m = lk l /\ lg m < lg l)).
    { intros i m Hm Ht. destruct (si_past _ _ I i m Hm) as [_ [H|[H1 H2]]];
        rewrite Ht in *; [left; lia|right; lia]. }
    assert (Hpast : forall u k g, g < 6 -> (past s' u k g <-> past s u k g \/ (u = t /\ k = lk l /\ g = lg l))).
    { intros u k g Hg6. unfold past. destruct (Nat.eq_dec u t) as [->|NE].
      - destruct Hme as [(A & -> & -> & _)|(A & -> & ->)].
        + split; [intros [H|[H1 H2]]|intros [[H|[H1 H2]]|(_ & H1 & H2)]]; try lia.
        + split; [intros [H|[H1 H2]]|intros [[H|[H1 H2]]|(_ & H1 & H2)]]; try lia.
      - rewrite (Hoth u NE). split; [auto|intros [H|(H & _)]; [auto|congruence]]. }
    assert (Hg6 : lg l < 6) by (rewrite Hg; apply Hph).
    constructor.
    - intros i m Hm. apply nth_snoc in Hm. destruct Hm as [Hm|[-> ->]].
      + destruct (si_past _ _ I i m Hm) as [A B]. split; auto. apply Hpast; auto.
      + split; auto. apply Hpast; auto.
    - intros i j m n Hm Hn E1 E2 E3. apply nth_snoc in Hm. apply nth_snoc in Hn.
      destruct Hm as [Hm|[-> ->]]; destruct Hn as [Hn|[-> ->]]; auto.
      + eapply (si_uniq _ _ I); eauto.
      + exfalso. destruct (Hfresh i m Hm E1); lia.
      + exfalso. destruct (Hfresh j n Hn (eq_sym E1)); lia.
    - intros u k g Hg' HP. apply Hpast in HP; auto. destruct HP as [HP|(-> & -> & ->)].
      + destruct (si_all _ _ I u k g Hg' HP) as (i & m & Hm & Hs). exists i, m. split; auto. apply nth_old; auto.
      + exists (length tr), l. split; [apply nth_new|]. repeat split.
    - intros i j m n Hm Hn E1 HO. apply nth_snoc in Hm. apply nth_snoc in Hn.
      destruct Hm as [Hm|[-> ->]]; destruct Hn as [Hn|[-> ->]].
      + eapply (si_order _ _ I); eauto.
      + eapply nth_len; eauto.
      + exfalso. destruct (Hfresh j n Hn (eq_sym E1)); lia.
      + lia.
    - assert (Hnew : forall i m, nth_error tr i = Some m -> lt m = t -> lk m = lk l -> lc m = lc l).
      { intros i m Hm Ht Ek. assert (Hg1 : 1 <= lg l) by (destruct (Hfresh i m Hm Ht); lia).
        destruct (si_cur _ _ I i m Hm) as [A _]; [rewrite Ht; congruence|].
        rewrite Ht, (Hc Hg1) in A. congruence. }
      intros i j m n Hm Hn E1 E2. apply nth_snoc in Hm. apply nth_snoc in Hn.
      destruct Hm as [Hm|[-> ->]]; destruct Hn as [Hn|[-> ->]]; auto.
      + eapply (si_call _ _ I); eauto.
      + eapply Hnew; eauto.
      + symmetry. eapply Hnew; eauto.
    - assert (Hnew : forall i m, nth_error tr i = Some m -> lt m = t -> lk m = lk l -> 3 <= lg m -> lr m = lr l).
      { intros i m Hm Ht Ek Hg3. assert (Hg4 : 4 <= lg l) by (destruct (Hfresh i m Hm Ht); lia).
        destruct (si_cur _ _ I i m Hm) as [_ A]; [rewrite Ht; congruence|].
        rewrite <- (A Hg3). rewrite Ht. auto. }
      intros i j m n Hm Hn E1 E2 G1 G2. apply nth_snoc in Hm. apply nth_snoc in Hn.
      destruct Hm as [Hm|[-> ->]]; destruct Hn as [Hn|[-> ->]]; auto.
      + eapply (si_res _ _ I); eauto.
      + eapply Hnew; eauto.
      + symmetry. eapply Hnew; eauto.
    - intros i m Hm. apply nth_snoc in Hm. destruct Hm as [Hm|[-> ->]]; auto.
      eapply (si_shape _ _ I); eauto.
    - intros i m Hm Ek. apply nth_snoc in Hm. destruct Hm as [Hm|[-> ->]].
      + destruct (Nat.eq_dec (lt m) t) as [Et|NE].
        * rewrite Et in *. destruct (Hfresh i m Hm Et) as [HF|[HF1 HF2]].
          -- exfalso. destruct Hme as [(A & B & _)|(A & B & _)]; rewrite B in Ek; lia.
          -- destruct Hme as [(A & B & C & D & E)|(A & B & _)]; [|rewrite B in Ek; lia].
             destruct (si_cur _ _ I i m Hm) as [F G]; [rewrite Et; congruence|]. rewrite Et in *.
             assert (Hc' := Hc ltac:(lia)). split; [congruence|].
             intros H3. rewrite E. rewrite <- (G H3). symmetry. apply Hr. lia.
        * rewrite (Hoth _ NE) in *. eapply (si_cur _ _ I); eauto.
      + fold t in Ek |- *. destruct Hme as [(A & B & C & D & E)|(A & B & _)]; [|rewrite B in Ek; lia].
        rewrite D, E. auto.
    - intros u. destruct (Nat.eq_dec u t) as [->|NE].
      + destruct Hme as [(A & _ & -> & _)|(A & _ & ->)]; lia.
      + rewrite (Hoth u NE). auto.
    - intros u. pose proof (si_lock _ _ I) as HL.
      destruct (Nat.eq_dec u t) as [->|NE].
      + pose proof (HL t) as HLt. rewrite <- Hg in HLt.
        destruct Hme as [(A & _ & -> & _)|(A & _ & ->)]; rewrite Hl;
          destruct (lg l) as [|[|[|[|[|[|n]]]]]]; try lia; split; intros; try lia; try congruence;
          try (apply HLt; lia); try (apply HLt in H; lia).
      + rewrite (Hoth u NE). rewrite <- (HL u). rewrite Hl. pose proof (HL t) as HLt. rewrite <- Hg in HLt.
        destruct (lg l) as [|[|[|[|[|[|n]]]]]]; try lia; try tauto.
        * split; [congruence|]. rewrite (Hl1 eq_refl). discriminate.
        * assert (lock s = Some t) by (apply HLt; lia). split; [discriminate|congruence].
    - intros i j m n Hm Hn Hij G1 G2. apply nth_snoc in Hm. apply nth_snoc in Hn.
      destruct Hn as [Hn|[-> ->]].
      + destruct Hm as [Hm|[-> ->]]; [|apply nth_len in Hn; lia].
        destruct (si_excl _ _ I i j m n Hm Hn Hij G1 G2) as (x & e & Hx & He & HS').
        exists x, e. split; auto. split; auto. apply nth_old. auto.
      + destruct Hm as [Hm|[-> ->]]; [|lia].
        assert (HP : past s (lt m) (lk m) 3).
        { destruct (si_past _ _ I i m Hm) as [_ [HP|[HP1 HP2]]]; [left; auto|].
          right. split; auto. rewrite G1 in HP2.
          destruct (Nat.eq_dec (phase (th s (lt m))) 3) as [E3|]; [|lia].
          exfalso. assert (L1 : lock s = Some (lt m)) by (apply (si_lock _ _ I); lia).
          assert (L2 : lock s = Some t) by (apply (si_lock _ _ I); lia).
          assert (lt m = t) by congruence. rewrite H in *. lia. }
        destruct (si_all _ _ I (lt m) (lk m) 3 ltac:(lia) HP) as (x & e & He & HS').
        exists x, e. split; [|split; [apply nth_old; auto|auto]].
        split; [|eapply nth_len; eauto]. destruct HS' as (E1 & E2 & E3).
        eapply (si_order _ _ I i x m e); eauto; lia.
    - unfold upstream_calls. rewrite filter_app, map_app. simpl.
      destruct (lg l =? 3) eqn:E3; simpl.
      + destruct Hu as (r & -> & Hu). eapply seq_snoc; eauto. apply (si_seq _ _ I).
      + rewrite app_nil_r, Hu. apply (si_seq _ _ I).
  Qed.

  Lemma sinv_init : sinv [] (init u0).
  Proof.
    constructor; simpl; try (intros; destruct i; discriminate); auto; intros; try lia.
    - destruct H0 as [H0|[_ H0]]; simpl in H0; lia.
    - split; [discriminate|lia].
    - constructor.
  Qed.

  Lemma exec_sinv tr s : exec tr s -> sinv tr s.
  Proof.
    induction 1 as [|tr s l s' HE IH HS]; [apply sinv_init|]. eapply sinv_step; eauto.
  Qed.

  (** *** Statements *)

  Lemma sync_sequential tr s : exec tr s -> seq_run ustep u0 (upstream_calls tr) (ust s).
  Proof. intros H. apply (si_seq _ _ (exec_sinv _ _ H)). Qed.

  Lemma sync_exclusive tr s i j t k c t' k' c' : exec tr s ->
    begins tr i t k c -> begins tr j t' k' c' -> i < j ->
    exists m r, i < m < j /\ ends tr m t k c r.
  Proof.
    intros H Hi Hj Hij. pose proof (exec_sinv _ _ H) as I.
    destruct (si_excl _ _ I i j _ _ Hi Hj Hij eq_refl eq_refl) as (m & e & Hm & He & (E1 & E2 & E3)).
    simpl in *. exists m. pose proof (si_shape _ _ I m e He) as HS. rewrite E3 in HS. simpl in HS.
    destruct HS as (r & Er). exists r. split; auto. unfold ends. rewrite He. f_equal.
    pose proof (si_call _ _ I i m _ _ Hi He) as HC. simpl in HC. rewrite E1, E2 in HC.
    specialize (HC eq_refl eq_refl). destruct e. simpl in *. congruence.
  Qed.

  Lemma earlier_stage tr s i l g : exec tr s -> nth_error tr i = Some l -> g < lg l ->
    exists j m, j < i /\ nth_error tr j = Some m /\ same (lt l) (lk l) g m /\ lc m = lc l /\
      (3 <= g -> lr m = lr l).
  Proof.
    intros H Hl Hg. pose proof (exec_sinv _ _ H) as I.
    destruct (si_past _ _ I i l Hl) as [H6 HP].
    assert (HP' : past s (lt l) (lk l) g).
    { destruct HP as [HP|[HP1 HP2]]; [left; auto|right; split; auto; lia]. }
    destruct (si_all _ _ I _ _ g ltac:(lia) HP') as (j & m & Hm & Hs).
    exists j, m. pose proof Hs as (E1 & E2 & E3).
    split; [eapply (si_order _ _ I j i m l); eauto; lia|]. split; auto. split; auto.
    split; [eapply (si_call _ _ I j i m l); eauto|].
    intros. eapply (si_res _ _ I j i m l); eauto; lia.
  Qed.

  Lemma sync_point tr s i t k c r : exec tr s -> returned tr i t k c r ->
    exists j m, m < j < i /\ invoked tr m t k c /\ ends tr j t k c r.
  Proof.
    intros H Hi.
    destruct (earlier_stage tr s i _ 3 H Hi ltac:(simpl; lia)) as (j & e & Hj & He & (E1 & E2 & E3) & Ec & Er).
    specialize (Er ltac:(lia)). simpl in *.
    assert (Ee : e = mkL t k 3 c (Some r)) by (destruct e; simpl in *; congruence). subst e.
    destruct (earlier_stage tr s j _ 0 H He ltac:(simpl; lia)) as (m & e & Hm & He2 & (F1 & F2 & F3) & Fc & _).
    exists j, m. split; [lia|]. split; [|exact He].
    pose proof (si_shape _ _ (exec_sinv _ _ H) m e He2) as HS. rewrite F3 in HS. simpl in HS, F1, F2, Fc.
    unfold invoked. rewrite He2. destruct e. simpl in *. congruence.
  Qed.

  (** Real-time order. *)
  Lemma sync_real_time tr s i t k c r j t' k' c' m c'' r'' : exec tr s ->
    returned tr i t k c r -> invoked tr j t' k' c' -> i < j -> ends tr m t' k' c'' r'' ->
    exists n, n < m /\ ends tr n t k c r.
  Proof.
    intros H Hi Hj Hij Hm. pose proof (exec_sinv _ _ H) as I.
    destruct (sync_point _ _ _ _ _ _ _ H Hi) as (n & q & Hn & _ & He).
    exists n. split; auto.
    assert (j < m) by (eapply (si_order _ _ I j m _ _ Hj Hm eq_refl); simpl; lia). lia.
  Qed.

  (** Program order: a thread invokes a call only after the previous one returned. *)
  Lemma sync_program_order tr s i t k c : exec tr s -> invoked tr i t (S k) c ->
    exists j c' r, j < i /\ returned tr j t k c' r.
  Proof.
    intros H Hi. pose proof (exec_sinv _ _ H) as I.
    destruct (si_past _ _ I i _ Hi) as [_ HP]. simpl in HP.
    assert (HP' : past s t k 5) by (destruct HP as [HP|[HP _]]; left; lia).
    destruct (si_all _ _ I t k 5 ltac:(lia) HP') as (j & e & He & (E1 & E2 & E3)).
    pose proof (si_shape _ _ I j e He) as HS. rewrite E3 in HS. simpl in HS. destruct HS as (r & Er).
    exists j, (lc e), r. split.
    - eapply (si_order _ _ I j i e _ He Hi); simpl; lia.
    - unfold returned. rewrite He. destruct e. simpl in *. congruence.
  Qed.
End SyncProofs.
