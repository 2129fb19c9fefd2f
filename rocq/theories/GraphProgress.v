(** Graphs of memory resources are never stuck, and only call resources below. *)
From Verif Require Import Base BaseLemmas Forwarding ForwardingProofs Stack StackProofs Graph GraphProofs.
From Coq Require Import Permutation.

(** How a node uses the resources below when it allocates: one request after the other, each
    of which may depend on the earlier answers. *)
Inductive prog (S : Type) :=
| Done (r : outcome Z) (s : S)
| Ask (u : nat) (size align : Z) (next : option Z -> prog S).
Arguments Done {S}. Arguments Ask {S}.
Fixpoint run {S} (p : prog S) (l : tlog) (orc : nat -> option Z) : outcome Z * S * mworld :=
  match p with
  | Done r s => (r, s, mkMWorld l orc)
  | Ask u size align next => run (next (orc (length l))) ((u, UAlloc size align (orc (length l))) :: l) orc
  end.

(** [L]: what the logs of the node look like. *)
Record nasking_with (N : node) (L : tlog -> Prop) : Prop := {
  a_log_init : forall s w, n_init N s w -> L (mlog w);
  a_log_alloc : forall s w size align r s' w', L (mlog w) -> n_alloc N s w size align = (r, s', w') -> L (mlog w');
  a_log_free : forall s w p size align r s' w', L (mlog w) -> n_free N s w p size align = (r, s', w') -> L (mlog w');
  a_init : forall s l orc orc', n_init N s (mkMWorld l orc) -> (forall i, (i < length l)%nat -> orc' i = orc i) ->
    n_init N s (mkMWorld l orc');
  a_alloc : forall s l size align, L l -> exists p : prog (nstate N), forall orc, n_alloc N s (mkMWorld l orc) size align = run p l orc;
  a_free : forall s l q size align, L l -> exists r s' l', forall orc,
    n_free N s (mkMWorld l orc) q size align = (r, s', mkMWorld l' orc) }.
Definition nasking (N : node) : Prop := exists L, nasking_with N L.

Lemma run_ext {S} (p : prog S) : forall l orc, exists n, mlog (snd (run p l orc)) = n ++ l /\ morc (snd (run p l orc)) = orc.
Proof.
  induction p as [r s|u size align next IH]; intros l orc; cbn [run]; [exists []; auto|].
  destruct (IH (orc (length l)) ((u, UAlloc size align (orc (length l))) :: l) orc) as (n & E & O). exists (n ++ [(u, UAlloc size align (orc (length l)))]).
  rewrite E, <- app_assoc. auto.
Qed.
(** Only the answers to the requests made matter. *)
Lemma run_orc {S} (p : prog S) : forall l orc orc',
  (forall i, (i < length (mlog (snd (run p l orc))))%nat -> orc' i = orc i) ->
  run p l orc' = (fst (run p l orc), mkMWorld (mlog (snd (run p l orc))) orc').
Proof.
  induction p as [r s|u size align next IH]; intros l orc orc' H; cbn [run] in *; [reflexivity|].
  assert (E : orc' (length l) = orc (length l)).
  { apply H. destruct (run_ext (next (orc (length l))) ((u, UAlloc size align (orc (length l))) :: l) orc) as (n & -> & _).
    rewrite app_length. cbn [length]. lia. }
  rewrite E. apply IH. exact H.
Qed.

Lemma served_log k N L : nasking_with N L -> forall top s w out, served k N top s w out -> L (mlog w).
Proof. intros A top s w out H. induction H; [eapply a_log_init|assumption|eapply a_log_alloc|eapply a_log_alloc|eapply a_log_free]; eassumption. Qed.

Lemma served_orc k N L : nasking_with N L -> forall top s w out, served k N top s w out -> forall orc',
  (forall i, (i < length (mlog w))%nat -> orc' i = morc w i) -> served k N top s (mkMWorld (mlog w) orc') out.
Proof.
  intros A top s w out H. induction H as [s w H|top s w out j e H IH Hj|top s w out size align p s' w' n H IH E Hn
      |top s w out size align s' w' n H IH E Hn|top s w out p size align s' w' n H IH E Hn]; intros orc' HO.
  - apply (served_init k N s (mkMWorld (mlog w) orc')). destruct w as [l orc]. eapply a_init; eauto.
  - apply served_other; auto.
  - destruct w as [l orc]. destruct (a_alloc _ _ A s l size align (served_log _ _ _ A _ _ _ _ H)) as (pr & Q). rewrite Q in E.
    destruct (run_ext pr l orc) as (n0 & _ & O). rewrite E in O. cbn [snd] in O. rewrite O in HO.
    pose proof (run_orc pr l orc orc') as RO. rewrite E in RO. cbn [fst snd] in RO. specialize (RO HO). cbn [mlog morc] in *.
    eapply served_alloc; [apply IH|rewrite Q; exact RO|exact Hn].
    intros i Hi. apply HO. rewrite Hn, app_length. lia.
  - destruct w as [l orc]. destruct (a_alloc _ _ A s l size align (served_log _ _ _ A _ _ _ _ H)) as (pr & Q). rewrite Q in E.
    destruct (run_ext pr l orc) as (n0 & _ & O). rewrite E in O. cbn [snd] in O. rewrite O in HO.
    pose proof (run_orc pr l orc orc') as RO. rewrite E in RO. cbn [fst snd] in RO. specialize (RO HO). cbn [mlog morc] in *.
    eapply served_throw; [apply IH|rewrite Q; exact RO|exact Hn].
    intros i Hi. apply HO. rewrite Hn, app_length. lia.
  - destruct w as [l orc]. destruct (a_free _ _ A s l p size align (served_log _ _ _ A _ _ _ _ H)) as (r & s1 & l1 & Q). rewrite Q in E. injection E as -> -> <-.
    cbn [mlog morc] in *. subst l1. eapply served_free; [apply IH|apply Q|reflexivity].
    intros i Hi. apply HO. rewrite app_length. lia.
Qed.

(** Calls added below for one request: each is answered by [answer]. *)
Inductive added (answer : tlog -> nat -> Z -> Z -> option Z) (l : tlog) : tlog -> Prop :=
| added_none : added answer l l
| added_one l' u s a : added answer l l' -> req_ok s a -> added answer l ((u, UAlloc s a (answer l' u s a)) :: l').
Lemma added_trans answer l1 l2 l3 : added answer l1 l2 -> added answer l2 l3 -> added answer l1 l3.
Proof. intros H1 H2. induction H2; [exact H1|constructor; assumption]. Qed.

Section Progress.
  Variable answer : tlog -> nat -> Z -> Z -> option Z.
  Hypothesis HA : forall l u s a, tok l -> tcalls_ok l -> req_ok s a -> tok ((u, UAlloc s a (answer l u s a)) :: l).

  Lemma added_ok l l' : added answer l l' -> tok l -> tcalls_ok l -> tok l' /\ tcalls_ok l'.
  Proof.
    induction 1 as [|l' u s a H IH HR]; intros HT HC; [auto|]. destruct (IH HT HC) as (I1 & I2). split; [apply HA; assumption|split; assumption].
  Qed.

  Definition can_alloc (B : nat) (ns : list node) : Prop := forall top bottom i size align,
    graph_runs B ns top bottom -> tcalls_ok top -> tok bottom -> req_ok size align ->
    exists res bottom', graph_runs B ns ((i, UAlloc size align res) :: top) bottom' /\ added answer bottom bottom'.

  Lemma run_progress {S} B ns : Forall ncorrect ns -> can_alloc B ns -> forall (p : prog S) l mid bottom orc,
    graph_runs B ns mid bottom -> tcalls_ok mid -> tok bottom ->
    (forall orc', (forall i, (i < length l)%nat -> orc' i = orc i) -> tcalls_ok (mlog (snd (run p l orc')))) ->
    exists orc' n bottom', (forall i, (i < length l)%nat -> orc' i = orc i) /\
      mlog (snd (run p l orc')) = n ++ l /\ graph_runs B ns (n ++ mid) bottom' /\ added answer bottom bottom'.
  Proof.
    intros HF CA. induction p as [r s|u size align next IH]; intros l mid bottom orc HG HC HT HL.
    - exists orc, [], bottom. repeat split; auto. constructor.
    - assert (HR : req_ok size align).
      { specialize (HL orc (fun _ _ => eq_refl)). cbn [run] in HL.
        destruct (run_ext (next (orc (length l))) ((u, UAlloc size align (orc (length l))) :: l) orc) as (n & E & _). rewrite E in HL.
        apply tcalls_ok_app in HL. exact (proj1 HL). }
      destruct (CA mid bottom u size align HG HC HT HR) as (res & b1 & G1 & A1).
      set (orc1 := fun i => if Nat.eqb i (length l) then res else orc i).
      assert (O1 : forall i, (i < length l)%nat -> orc1 i = orc i).
      { intros i Hi. unfold orc1. destruct (Nat.eqb_spec i (length l)); [lia|reflexivity]. }
      assert (OL : orc1 (length l) = res) by (unfold orc1; rewrite Nat.eqb_refl; reflexivity).
      assert (CB : tcalls_ok bottom) by (apply (graph_correct B ns HF _ _ HG HC HT)).
      destruct (added_ok _ _ A1 HT CB) as (T1 & _).
      destruct (IH res ((u, UAlloc size align res) :: l) ((u, UAlloc size align res) :: mid) b1 orc1) as (orc' & n & b2 & O2 & E2 & G2 & A2); auto.
      { split; [exact HR|exact HC]. }
      { intros orc' HO. specialize (HL orc'). cbn [run] in HL. rewrite (HO (length l)), OL in HL by (cbn [length]; lia).
        apply HL. intros i Hi. rewrite HO by (cbn [length]; lia). auto. }
      exists orc', (n ++ [(u, UAlloc size align res)]), b2. split; [|split; [|split]].
      + intros i Hi. rewrite O2 by (cbn [length]; lia). auto.
      + cbn [run]. rewrite (O2 (length l)), OL by (cbn [length]; lia). rewrite E2, <- app_assoc. reflexivity.
      + rewrite <- app_assoc. exact G2.
      + eapply added_trans; eauto.
  Qed.

  Theorem graph_progress B ns : Forall ncorrect ns -> Forall nasking ns -> can_alloc B ns.
  Proof.
    intros HF. induction HF as [|N ns HN HF IH]; intros HQ top bottom i size align HS HC HU HR.
    - cbn [graph_runs] in HS. subst bottom. cbn [graph_runs]. eexists _, _. split; [reflexivity|]. constructor; [constructor|exact HR].
    - inversion HQ as [|? ? (L & QN) QF]; subst. cbn [graph_runs] in HS. destruct HS as (s & w & mid & H1 & H2). set (k := (B + length ns)%nat) in *.
      pose proof HN as (Inv & C).
      assert (GB : gbelow B ns mid) by (exists bottom; auto).
      destruct (served_thm k N Inv C (gbelow B ns) (gbelow_tail B ns) (gbelow_ok B ns HF) _ _ _ _ H1 HC GB) as (live & others & I).
      pose proof (i_out _ _ _ _ _ _ _ _ _ I) as CM.
      destruct (Nat.eq_dec i k) as [->|NE].
      + destruct w as [l orc]. destruct (a_alloc _ _ QN s l size align (served_log _ _ _ QN _ _ _ _ H1)) as (p & Q).
        assert (SO : forall orc', (forall i, (i < length l)%nat -> orc' i = orc i) ->
          served k N top s (mkMWorld l orc') mid /\ exists live others, served_inv k N Inv top s (mkMWorld l orc') mid live others).
        { intros orc' HO. pose proof (served_orc k N L QN _ _ _ _ H1 orc' HO) as H1'. split; [exact H1'|].
          eapply (served_thm k N Inv C (gbelow B ns) (gbelow_tail B ns) (gbelow_ok B ns HF)); eauto. }
        destruct (run_progress B ns HF (IH QF) p l mid bottom orc H2 CM HU) as (orc' & n & b' & O' & E' & G' & A').
        { intros orc' HO. destruct (SO orc' HO) as (_ & lv & ot & I'). pose proof (Q orc') as Q'.
          destruct (run p l orc') as [[r s'] w'] eqn:ER. cbn [snd].
          destruct (g_call _ _ C _ _ _ _ _ _ _ _ (i_inv _ _ _ _ _ _ _ _ _ I') (i_wok _ _ _ _ _ _ _ _ _ I') (i_w _ _ _ _ _ _ _ _ _ I') HR Q') as (n & _ & CW).
          exact CW. }
        assert (CB : tcalls_ok bottom) by (apply (graph_correct B ns HF _ _ H2 CM HU)).
        destruct (added_ok _ _ A' HU CB) as (T' & _). destruct (SO orc' O') as (H1' & lv & ot & I'). pose proof (Q orc') as Q'.
        destruct (run p l orc') as [[r s'] w'] eqn:ER. cbn [snd] in E'.
        assert (GB' : gbelow B ns (n ++ mid)) by (exists b'; auto).
        destruct (served_step_alloc k N Inv C (gbelow B ns) (gbelow_tail B ns) (gbelow_ok B ns HF) _ _ _ _ _ _ _ _ _ _ _ _ I' HC HR Q' E' GB') as [(q & -> & _)|(-> & _)].
        * exists (Some q), b'. split; [|exact A']. exists s', w', (n ++ mid). split; [eapply served_alloc; eauto|exact G'].
        * exists None, b'. split; [|exact A']. exists s', w', (n ++ mid). split; [eapply served_throw; eauto|exact G'].
      + destruct (IH QF mid bottom i size align H2 CM HU HR) as (res & b' & G' & A').
        exists res, b'. split; [|exact A']. exists s, w, ((i, UAlloc size align res) :: mid). split; [apply served_other; assumption|exact G'].
  Qed.
End Progress.

(** Live blocks can always be given back; only frees are passed on. *)
Theorem graph_free_progress B ns : Forall ncorrect ns -> forall top bottom i b,
  graph_runs B ns top bottom -> tcalls_ok top -> tok bottom -> In (i, b) (mlive top) ->
  exists n, graph_runs B ns ((i, UFree (bptr b) (bsize b) (balign b)) :: top) (n ++ bottom) /\ Forall is_free n.
Proof.
  induction 1 as [|N ns HN HF IH]; intros top bottom i b HS HC HU HB.
  - cbn [graph_runs] in *. subst bottom. exists [(i, UFree (bptr b) (bsize b) (balign b))]. split; [reflexivity|constructor; [exact Logic.I|constructor]].
  - cbn [graph_runs] in HS. destruct HS as (s & w & mid & H1 & H2). set (k := (B + length ns)%nat) in *. pose proof HN as (Inv & C).
    assert (GB : gbelow B ns mid) by (exists bottom; auto).
    destruct (served_thm k N Inv C (gbelow B ns) (gbelow_tail B ns) (gbelow_ok B ns HF) _ _ _ _ H1 HC GB) as (live & others & I).
    pose proof (i_out _ _ _ _ _ _ _ _ _ I) as CM.
    assert (FP : forall n, Forall is_free n -> tcalls_ok (n ++ mid) -> exists n', graph_runs B ns (n ++ mid) (n' ++ bottom) /\ Forall is_free n').
    { induction n as [|[j e] n IHn]; intros FN CN; [exists []; auto|]. inversion FN as [|? ? F1 F2]; subst. cbn [app tcalls_ok] in CN. destruct CN as (C1 & C2).
      destruct (IHn F2 C2) as (n1 & G1 & F3). destruct e as [|p sz al]; [contradiction|].
      assert (T1 : tok (n1 ++ bottom)).
      { clear - HU F3. induction n1 as [|[j e] n1 IHn1]; [exact HU|]. inversion F3 as [|? ? A1 A2]; subst. destruct e; [contradiction|]. exact (IHn1 A2). }
      destruct (IH (n ++ mid) (n1 ++ bottom) j (mkBlock p sz al) G1 C2 T1 C1) as (n2 & G2 & F4). cbn [bptr bsize balign] in G2.
      exists (n2 ++ n1). rewrite <- app_assoc. split; [exact G2|]. apply Forall_app. auto. }
    destruct (Nat.eq_dec i k) as [->|NE].
    + destruct (served_step_free k N Inv C (gbelow B ns) (gbelow_ok B ns HF) _ _ _ _ _ _ _ I HC HB) as (s' & w' & n & E & Hn & CO & FR & _).
      destruct (FP n FR CO) as (n' & G' & F'). exists n'. split; [|exact F']. exists s', w', (n ++ mid). split; [eapply served_free; eauto|exact G'].
    + assert (CO : tcalls_ok ([(i, UFree (bptr b) (bsize b) (balign b))] ++ mid)).
      { cbn [app tcalls_ok]. split; [|exact CM]. unfold tcall_ok. cbn [fst snd]. replace (mkBlock (bptr b) (bsize b) (balign b)) with b by (destruct b; reflexivity).
        rewrite (i_pout _ _ _ _ _ _ _ _ _ I). rewrite (i_ptop _ _ _ _ _ _ _ _ _ I) in HB. apply in_or_app. right.
        apply in_app_or in HB. destruct HB as [HB|HB]; [|exact HB]. apply in_map_iff in HB. destruct HB as (c & [= <- _] & _). congruence. }
      destruct (FP [(i, UFree (bptr b) (bsize b) (balign b))]) as (n' & G' & F'); [constructor; [exact Logic.I|constructor]|exact CO|].
      exists n'. split; [|exact F']. exists s, w, ((i, UFree (bptr b) (bsize b) (balign b)) :: mid). split; [apply served_other; assumption|exact G'].
Qed.

(** ** The nodes *)
Lemma plain_tagged u w : plain (tagged u w) = w.
Proof. destruct w as [l orc]. unfold plain, tagged. cbn [mlog morc ulog uorc]. rewrite map_map. cbn [snd]. rewrite map_id. reflexivity. Qed.
Lemma one_node_asking R u : asking R -> nasking (one_node R u).
Proof.
  intros A. exists (fun l => exists l0, l = map (pair u) l0). split; cbn [one_node nstate n_init n_alloc n_free].
  - intros s w (w0 & -> & _). exists (ulog w0). reflexivity.
  - intros s w size align r s' w' _ E. destruct (r_alloc R s (plain w) size align) as [[r1 s1] w1]. injection E as _ _ <-. exists (ulog w1). reflexivity.
  - intros s w p size align r s' w' _ E. destruct (r_free R s (plain w) p size align) as [[r1 s1] w1]. injection E as _ _ <-. exists (ulog w1). reflexivity.
  - intros s l orc orc' (w0 & E & H) HO. destruct w0 as [l0 orc0]. unfold tagged in E. cbn [ulog uorc] in E. injection E as -> ->.
    exists (mkWorld l0 orc'). split; [reflexivity|]. eapply q_init; [exact A|exact H|]. intros i Hi. apply HO. rewrite map_length. exact Hi.
  - intros s l size align (l0 & ->).
    assert (P : forall orc, plain (mkMWorld (map (pair u) l0) orc) = mkWorld l0 orc) by (intros orc; exact (plain_tagged u (mkWorld l0 orc))).
    destruct (q_alloc _ A s l0 size align) as [(r & s' & Q)|(sz & al & f & Q)].
    + exists (Done r s'). intros orc. rewrite P, Q. reflexivity.
    + exists (Ask u sz al (fun a => Done (fst (f a)) (snd (f a)))). intros orc. rewrite P, Q. cbn [run]. rewrite map_length.
      destruct (f (orc (length l0))) as [r s']. reflexivity.
  - intros s l q size align (l0 & ->).
    destruct (q_free _ A s l0 q size align) as (r & s' & n & Q). exists r, s', (map (pair u) (n ++ l0)). intros orc.
    change (plain (mkMWorld (map (pair u) l0) orc)) with (plain (tagged u (mkWorld l0 orc))). rewrite plain_tagged, Q. reflexivity.
Qed.
Lemma tracked_asking alloc : (forall s l size align, exists p : prog amap, forall orc, alloc s (mkMWorld l orc) size align = run p l orc) ->
  nasking (mkNode amap (fun m w => m = [] /\ mlog w = []) alloc tracked_deallocate (fun _ w => w)).
Proof.
  intros HA. exists (fun _ => True). split; cbn [nstate n_init n_alloc n_free]; auto.
  intros s l q size align _. unfold tracked_deallocate, m_free. cbn [mlog morc].
  destruct (q =? 0); [eexists _, _, _; reflexivity|]. destruct (am_find s q); eexists _, _, _; reflexivity.
Qed.
Lemma choice_node_asking dec : nasking (choice_node dec).
Proof.
  apply tracked_asking. intros s l size align. unfold choice_allocate, m_alloc. cbn [mlog morc]. destruct (size =? 0); [exists (Done (Ret 0) s); reflexivity|].
  exists (Ask (dec (length l) size align) size align (fun a => match a with Some p => Done (Ret p) (am_emplace s p (dec (length l) size align)) | None => Done (Throw bad_alloc) s end)).
  intros orc. cbn [run]. destruct (orc (length l)); reflexivity.
Qed.
Lemma coalescing_node_asking ups : nasking (coalescing_node ups).
Proof.
  apply tracked_asking. intros s l size align. unfold coalescing_allocate. destruct (size =? 0); [exists (Done (Ret 0) s); reflexivity|].
  revert l. induction ups as [|u ups IH]; intros l; cbn [coalescing_loop]; [exists (Done (Throw bad_alloc) s); reflexivity|].
  destruct (IH ((u, UAlloc size align None) :: l)) as (pn & Hn).
  exists (Ask u size align (fun a => match a with Some p => Done (Ret p) (am_emplace s p u) | None => pn end)).
  intros orc. unfold m_alloc. cbn [run mlog morc]. destruct (orc (length l)) as [p|]; [reflexivity|apply Hn].
Qed.

(** ** Which resources are called *)
Definition lower (k : nat) (l : tlog) : Prop := Forall (fun x => (fst x < k)%nat) l.
Definition nbelow (k : nat) (N : node) : Prop := exists J : nstate N -> mworld -> Prop,
  (forall s w, J s w -> lower k (mlog w)) /\
  (forall s w, n_init N s w -> J s w) /\
  (forall s w size align r s' w', J s w -> n_alloc N s w size align = (r, s', w') -> J s' w') /\
  (forall s w p size align r s' w', J s w -> n_free N s w p size align = (r, s', w') -> J s' w') /\
  (forall s w, J s w -> lower k (mlog (n_destroy N s w))).
Fixpoint wired (B : nat) (ns : list node) : Prop :=
  match ns with [] => True | N :: ns' => nbelow (B + length ns') N /\ wired B ns' end.

Lemma served_lower k N (J : nstate N -> mworld -> Prop) :
  (forall s w, J s w -> lower k (mlog w)) -> (forall s w, n_init N s w -> J s w) ->
  (forall s w size align r s' w', J s w -> n_alloc N s w size align = (r, s', w') -> J s' w') ->
  (forall s w p size align r s' w', J s w -> n_free N s w p size align = (r, s', w') -> J s' w') ->
  forall top s w out, served k N top s w out -> lower (S k) top -> J s w /\ lower k out.
Proof.
  intros JL JI JA JF top s w out H. induction H as [s w H|top s w out j e H IH Hj|top s w out size align p s' w' n H IH E Hn
      |top s w out size align s' w' n H IH E Hn|top s w out p size align s' w' n H IH E Hn]; intros HT.
  - split; [auto|]. apply (JL s w). auto.
  - inversion HT as [|? ? T1 T2]; subst. destruct (IH T2) as (I1 & I2). split; [exact I1|]. constructor; [cbn [fst] in *; lia|exact I2].
  - inversion HT as [|? ? T1 T2]; subst. destruct (IH T2) as (I1 & I2). pose proof (JA _ _ _ _ _ _ _ I1 E) as I3. split; [exact I3|].
    apply JL in I3. rewrite Hn in I3. apply Forall_app in I3. apply Forall_app. tauto.
  - inversion HT as [|? ? T1 T2]; subst. destruct (IH T2) as (I1 & I2). pose proof (JA _ _ _ _ _ _ _ I1 E) as I3. split; [exact I3|].
    apply JL in I3. rewrite Hn in I3. apply Forall_app in I3. apply Forall_app. tauto.
  - inversion HT as [|? ? T1 T2]; subst. destruct (IH T2) as (I1 & I2). pose proof (JF _ _ _ _ _ _ _ _ I1 E) as I3. split; [exact I3|].
    apply JL in I3. rewrite Hn in I3. apply Forall_app in I3. apply Forall_app. tauto.
Qed.
Theorem graph_lower B ns : wired B ns -> forall top bottom, graph_runs B ns top bottom -> lower (B + length ns) top -> lower B bottom.
Proof.
  induction ns as [|N ns IH]; intros HW top bottom HG HT; cbn [graph_runs wired length] in *.
  - subst. rewrite Nat.add_0_r in HT. exact HT.
  - destruct HW as ((J & JL & JI & JA & JF & _) & HW). destruct HG as (s & w & mid & H1 & H2). rewrite Nat.add_succ_r in HT.
    eapply IH; [exact HW|exact H2|]. eapply served_lower; eauto.
Qed.
Theorem graph_destroyed_lower B ns : wired B ns -> forall top bottom, graph_destroyed B ns top bottom -> lower (B + length ns) top -> lower B bottom.
Proof.
  induction ns as [|N ns IH]; intros HW top bottom HG HT; cbn [graph_destroyed wired length] in *.
  - subst. rewrite Nat.add_0_r in HT. exact HT.
  - destruct HW as ((J & JL & JI & JA & JF & JD) & HW). destruct HG as (s & w & mid & n & H1 & Hn & H2). rewrite Nat.add_succ_r in HT.
    destruct (served_lower (B + length ns) N J JL JI JA JF _ _ _ _ H1 HT) as (I1 & I2).
    eapply IH; [exact HW|exact H2|]. apply JD in I1. rewrite Hn in I1. apply Forall_app in I1. apply Forall_app. tauto.
Qed.
Lemma one_node_below R u k : (u < k)%nat -> nbelow k (one_node R u).
Proof.
  intros Hu. assert (T : forall w, lower k (mlog (tagged u w))).
  { intros w. apply Forall_forall. intros x Hx. cbn [tagged mlog] in Hx. apply in_map_iff in Hx. destruct Hx as (e & <- & _). exact Hu. }
  exists (fun _ w => lower k (mlog w)). cbn [one_node nstate n_init n_alloc n_free n_destroy]. repeat split; auto.
  - intros s w (w0 & -> & _). apply T.
  - intros s w size align r s' w' _ E. destruct (r_alloc R s (plain w) size align) as [[r1 s1] w1]. injection E as _ _ <-. apply T.
  - intros s w p size align r s' w' _ E. destruct (r_free R s (plain w) p size align) as [[r1 s1] w1]. injection E as _ _ <-. apply T.
Qed.
Definition mlower (k : nat) (m : amap) : Prop := Forall (fun x => (snd x < k)%nat) m.
Lemma mlower_emplace k m p u : (u < k)%nat -> mlower k m -> mlower k (am_emplace m p u).
Proof. intros Hu HM. unfold am_emplace. destruct (am_find m p); [exact HM|constructor; assumption]. Qed.
Lemma tracked_below k alloc :
  (forall m w size align r m' w', mlower k m -> lower k (mlog w) -> alloc m w size align = (r, m', w') -> mlower k m' /\ lower k (mlog w')) ->
  nbelow k (mkNode amap (fun m w => m = [] /\ mlog w = []) alloc tracked_deallocate (fun _ w => w)).
Proof.
  intros HA. exists (fun m w => mlower k m /\ lower k (mlog w)). cbn [nstate n_init n_alloc n_free n_destroy].
  split; [tauto|]. split; [intros s w (-> & ->); split; constructor|]. split; [intros s w size align r s' w' (M & LW) E; eauto|].
  split; [|tauto]. intros m w p size align r m' w' (M & LW) E. unfold tracked_deallocate in E.
  destruct (p =? 0); [injection E as _ <- <-; auto|].
  assert (F : forall m, mlower k m -> mlower k (am_erase m p) /\ forall u, am_find m p = Some u -> (u < k)%nat).
  { clear. induction m as [|[q u] m IH]; intros H; cbn [am_erase am_find]; [split; [constructor|discriminate]|].
    inversion H as [|? ? H1 H2]; subst. destruct (IH H2) as (I1 & I2). destruct (p =? q); [split; [exact H2|intros v [= <-]; exact H1]|].
    split; [constructor; assumption|exact I2]. }
  destruct (F m M) as (F1 & F2). destruct (am_find m p) as [u|]; [|injection E as _ <- <-; auto].
  injection E as _ <- <-. split; [exact F1|]. constructor; [apply F2; reflexivity|exact LW].
Qed.
Lemma choice_node_below dec k : (forall n s a, (dec n s a < k)%nat) -> nbelow k (choice_node dec).
Proof.
  intros HD. apply tracked_below. intros m w size align r m' w' M LW E. unfold choice_allocate, m_alloc in E.
  destruct (size =? 0); [injection E as _ <- <-; auto|].
  destruct (morc w (length (mlog w))); injection E as _ <- <-; (split; [try apply mlower_emplace; auto|constructor; [apply HD|exact LW]]).
Qed.
Lemma coalescing_node_below ups k : Forall (fun u => (u < k)%nat) ups -> nbelow k (coalescing_node ups).
Proof.
  intros HU. apply tracked_below. intros m w size align r m' w' M LW E. unfold coalescing_allocate in E.
  destruct (size =? 0); [injection E as _ <- <-; auto|].
  revert w LW E. induction HU as [|u ups Hu HU IH]; intros w LW E; cbn [coalescing_loop] in E; [injection E as _ <- <-; auto|].
  unfold m_alloc in E. destruct (morc w (length (mlog w))) as [p|].
  - injection E as _ <- <-. split; [apply mlower_emplace; assumption|constructor; assumption].
  - eapply IH; [|exact E]. constructor; assumption.
Qed.
