(** A resizable SoA buffer is created, set up, filled by concurrent threads and copied to the
    host: the models of EdmBuffer.v, EdmCopy.v, EdmKernel.v and CopyHost.v put together. *)
From Coq Require Import Permutation.
From Verif Require Import Base BaseLemmas IntMath Align Placement PlacementProofs EdmBuffer EdmBufferTheorems EdmBufferFinal
  EdmDevice EdmDeviceProofs Copy CopyProofs CopyJaggedProofs CopyJaggedTheorems EdmCopy EdmCopyProofs EdmCopyViews CopyHost EdmToHost
  Kernel KernelProofs EdmKernel EdmKernelProofs JaggedPipelineProofs.

Lemma list_ext {A} (l : list A) : forall l', length l = length l' -> (forall i x y, nth_error l i = Some x -> nth_error l' i = Some y -> x = y) -> l = l'.
Proof.
  induction l as [|a l IH]; intros [|b l'] L H; try discriminate; [reflexivity|]. f_equal.
  - apply (H 0%nat); reflexivity.
  - apply IH; [cbn [length] in L; lia|]. intros i x y Hx Hy. apply (H (S i)); assumption.
Qed.

(** The host side of a variable. *)
Definition place_of (v : var) (q : Z) : hplace := match vk v with KScalar => HPScalar q | _ => HPVector q end.

Theorem edm_pipeline_thm vars caps host w hw e w' hw' dflt rows m qs k dev sched :
  schema_ok vars caps -> existsb is_jagged vars = false -> (exists v, In v vars /\ vk v = KVector) -> caps <> [] ->
  need_all (edm_sects vars caps true) < 2 ^ 32 ->
  edm_buffer vars caps true host w hw = (Ret e, w', hw') -> upstream_ok (ulog w') -> upstream_ok (ulog hw') ->
  (forall x, in_block x (eb_mem e) -> m_byte m x <> None /\ m_dev m x = dev) ->
  (forall k v, nth_error vars k = Some v -> vk v = KVector -> Z.of_nat (length (nth k dflt [])) = ve_sz v) ->
  (forall row k bs, In row rows -> nth_error row k = Some (Some bs) ->
     exists v, nth_error vars k = Some v /\ vk v = KVector /\ Z.of_nat (length bs) = ve_sz v) ->
  Z.of_nat (length rows) <= Z.of_nat (length caps) ->
  k <> host_to_device -> k <> device_to_device -> kind_check m k dev false = true ->
  let n := Z.of_nat (length rows) in
  let len v := match vk v with KScalar => ve_sz v | _ => n * ve_sz v end in
  length qs = length vars ->
  (forall i v q, nth_error vars i = Some v -> nth_error qs i = Some q -> q <> 0 /\ m_dev m q = false /\ acc m q (len v) /\
     forall x, within q (len v) x -> ~ in_block x (eb_mem e)) ->
  (forall i j v v' q q', i <> j -> nth_error vars i = Some v -> nth_error vars j = Some v' ->
     nth_error qs i = Some q -> nth_error qs j = Some q' -> apart q (len v) q' (len v')) ->
  (forall i, (i < length rows)%nat -> (2 * length vars + 4 <= count_occ Nat.eq_dec sched i)%nat) ->
  exists m1 d m2 thr m3 new,
    edm_setup (buffer_view e) m = (Ret tt, m1) /\
    dev_make vars (eb_cap e) (eb_size e) (eb_views e) = Ret d /\
    e_run vars d dflt (m1, map ECall rows) sched = Ret (m2, thr) /\ Forall e_done thr /\
    edm_to_host vars k (buffer_view e) (map2 place_of vars qs) m2 =
      (Ret (map (fun v => match vk v with KScalar => HSScalar | _ => HSVector n end) vars), m3) /\
    Permutation new rows /\
    (forall i v q, nth_error vars i = Some v -> nth_error qs i = Some q -> vk v = KVector ->
       get_bytes m3 q (Z.to_nat (n * ve_sz v)) = Some (concat (map (fun row => match nth i row None with Some b => b | None => nth i dflt [] end) new))) /\
    (forall i v p q, nth_error vars i = Some v -> nth_error qs i = Some q -> nth_error (eb_views e) i = Some (EScalar p) ->
       get_bytes m3 q (Z.to_nat (ve_sz v)) = get_bytes m p (Z.to_nat (ve_sz v))) /\
    changes (fun x => in_block x (eb_mem e) \/ exists i v q, nth_error vars i = Some v /\ nth_error qs i = Some q /\ within q (len v) x) m m3.
Proof.
  intros HS Hj (v0 & Hv0 & Kv0) Hc Hneed Eb HU HU' Hmem Hdflt Hrows Hroom Hk1 Hk2 Hkind n len Lq Hq Hqq Hsched.
  pose proof HS as (Hne & Hvars & Hcaps & Hn32 & Htot).
  assert (HB : built vars caps true e) by (split; [exact Hneed|]; exists host, w, hw, w', hw'; auto).
  destruct (edm_buffer_layout vars caps true host w hw _ w' hw' Hne Hvars Hcaps Hn32 Htot Hneed Eb HU HU')
    as [Q|(e' & He & _ & Hcap & Hl & Hs & Hd & Hp & _)]; [discriminate|]. injection He as <-.
  destruct (buffer_facts vars caps true host w hw e w' hw' Hne Hvars Hcaps Hn32 Htot Hneed Eb HU HU') as (_ & _ & _ & Hz & Hpd & Hpl).
  destruct (Hz Hj) as (Hz1 & _). destruct (Hz1 eq_refl) as (Hz2 & Hz3). clear Hz Hz1.
  set (cap := Z.of_nat (length caps)) in *. set (sp := m_ptr (eb_size e)) in *.
  assert (Hcnt : In (mkBlock sp 4 4) (all_counters vars true e)) by (unfold all_counters; rewrite Hj; left; reflexivity).
  (* the variables *)
  assert (Hvw : forall i v x, nth_error vars i = Some v -> nth_error (eb_views e) i = Some x ->
    0 < ve_sz v /\ match x with
    | EScalar p => vk v = KScalar /\ 0 < p /\ forall a, within p (ve_sz v) a -> in_block a (eb_mem e) /\ ~ within sp 4 a
    | EVector y => vk v = KVector /\ Placement.v_cap y = cap /\ Placement.v_size y = sp /\ 0 < Placement.v_ptr y /\
        forall a, within (Placement.v_ptr y) (cap * ve_sz v) a -> in_block a (eb_mem e) /\ ~ within sp 4 a
    | EJagged _ _ _ _ => False
    end).
  { intros i v x Hv Hx. destruct (Hvars v (nth_error_In _ _ Hv)) as (Sz & _). split; [exact Sz|]. pose proof (Hs i v x Hv Hx) as Sh. unfold shape_ok in Sh.
    rewrite Hj in Sh. cbn [andb negb] in Sh.
    assert (Hin : forall b, In b (payload_blocks v x) -> In b (all_payloads vars e)).
    { intros b Ib. unfold all_payloads. apply in_concat. eexists. split; [eapply nth_error_In; rewrite map2_nth, Hv, Hx; reflexivity|exact Ib]. }
    assert (HC0 : 0 < cap) by (unfold cap; destruct caps; [congruence|cbn [length]; lia]).
    assert (Hap : forall b a, In b (payload_blocks v x) -> in_block a b -> ~ within sp 4 a).
    { intros b a Ib Ia Wa. apply pairwise_disjoint_app in Hd. destruct Hd as (_ & _ & Hd). apply (Hd (mkBlock sp 4 4) b); [exact Hcnt|apply in_or_app; right; auto|].
      exists a. split; [exact Wa|exact Ia]. }
    destruct (vk v) eqn:Kv, x as [p|y|? ? ? ?]; try contradiction.
    - destruct (Hpl (mkBlock p (ve_sz v) (ve_al v))) as (P1 & _ & P2); [apply Hin; left; reflexivity|cbn [bsize]; lia|]. cbn [bptr] in P1.
      split; [reflexivity|]. split; [exact P1|]. intros a Wa. split; [apply P2; exact Wa|]. apply (Hap (mkBlock p (ve_sz v) (ve_al v)) a); [left; reflexivity|exact Wa].
    - destruct Sh as (S1 & S2). cbn [payload_blocks] in Hin, Hap. rewrite S1 in Hin, Hap.
      destruct (Hpl (mkBlock (Placement.v_ptr y) (cap * ve_sz v) (ve_al v))) as (P1 & _ & P2); [apply Hin; left; reflexivity|cbn [bsize]; nia|]. cbn [bptr] in P1.
      split; [reflexivity|]. split; [exact S1|]. split; [exact S2|]. split; [exact P1|]. intros a Wa. split; [apply P2; exact Wa|].
      apply (Hap (mkBlock (Placement.v_ptr y) (cap * ve_sz v) (ve_al v)) a); [left; reflexivity|exact Wa].
    - unfold is_jagged in Hj. assert (B : existsb (fun v => match vk v with KJagged => true | _ => false end) vars = true).
      { apply existsb_exists. exists v. rewrite Kv. split; [eapply nth_error_In, Hv|reflexivity]. }
      unfold is_jagged in Hj. congruence. }
  assert (Hpair : forall i i' v v' x x' b b', i <> i' -> nth_error vars i = Some v -> nth_error vars i' = Some v' ->
    nth_error (eb_views e) i = Some x -> nth_error (eb_views e) i' = Some x' -> In b (payload_blocks v x) -> In b' (payload_blocks v' x') ->
    forall a, ~ (in_block a b /\ in_block a b')).
  { intros i i' v v' x x' b b' D Hv Hv' Hx Hx' Ib Ib' a (A1 & A2). refine (nth_error_concat_disjoint _ i i' _ _ b b' Hpd _ _ D Ib Ib' _).
    - rewrite map2_nth, Hv, Hx. reflexivity.
    - rewrite map2_nth, Hv', Hx'. reflexivity.
    - exists a. auto. }
  assert (Hview : forall i v, nth_error vars i = Some v -> exists x, nth_error (eb_views e) i = Some x).
  { intros i v Hv. destruct (nth_error (eb_views e) i) as [x|] eqn:E; [eauto|]. apply nth_error_None in E. assert (i < length vars)%nat by (apply nth_error_Some; congruence). lia. }
  assert (Hspm : forall a, within sp 4 a -> in_block a (eb_mem e)).
  { intros a Wa. destruct (Hp (mkBlock sp 4 4)) as (_ & _ & P); [apply in_or_app; left; exact Hcnt|cbn [bsize]; lia|]. apply P. exact Wa. }
  (* setup *)
  destruct (edm_setup_thm vars caps e m dev HS HB Hc) as (m1 & U1 & U2 & U3 & _).
  { split; [intros x Hx; apply (Hmem x Hx)|intros x Hx; apply (Hmem x Hx)]. }
  assert (U2' : changes (within sp 4) m m1).
  { apply (changes_weaken _ _ _ _ U2). intros x Hx. unfold in_block, mem_block in Hx. cbn [bptr bsize] in Hx. fold sp in Hx. rewrite Hz3 in Hx. exact Hx. }
  assert (U4 : get_bytes m1 sp 4 = Some (le32 0)) by (rewrite Forall_forall in U3; exact (U3 _ Hcnt)).
  assert (A1 : acc m1 sp 4) by (apply (get_bytes_acc 4); eauto).
  assert (SA1 : same_acc m m1).
  { intros x. destruct (Z_lt_dec x sp) as [L|L]; [|destruct (Z_lt_dec x (sp + 4)) as [L'|L']].
    - rewrite (proj1 U2'); [tauto|]. unfold within. lia.
    - specialize (A1 x ltac:(lia)). destruct (Hmem x (Hspm x ltac:(unfold within; lia))). tauto.
    - rewrite (proj1 U2'); [tauto|]. unfold within. lia. }
  (* the device container *)
  set (d := mkDev cap sp (eb_views e)).
  assert (Ed : dev_make vars (eb_cap e) (eb_size e) (eb_views e) = Ret d).
  { replace d with (mkDev (Z.of_nat (length caps)) (if existsb is_jagged vars then 0 else m_ptr (eb_size e)) (eb_views e)) by (rewrite Hj; reflexivity).
    apply (make_ok vars caps true e); auto. intros _. split; [auto|discriminate]. }
  (* the kernel *)
  destruct (edm_kernel_thm vars d dflt m1 [] rows sched) as (m2 & thr & K1 & K2 & K3 & K4 & _ & _ & K5 & K6); cbn [d ed_vars ed_sizep ed_cap length Z.of_nat].
  { exact Hl. } { lia. } { exact Hn32. }
  { intros i v x Hv Hx. pose proof (Hvw i v x Hv Hx) as (Sz & G). destruct x as [p|y|? ? ? ?]; [exact Logic.I| |exact G]. destruct G as (G1 & G2 & G3 & G4 & G5).
    split; [exact Sz|]. split; [exact G2|]. split; [exact G3|]. split.
    { apply (acc_same m m1 _ _ SA1). intros a Ha. apply Hmem. apply G5. exact Ha. }
    split; [|apply (Hdflt i v Hv G1)]. intros a (X1 & X2). destruct (G5 a X2) as (_ & G6). apply G6. exact X1. }
  { intros i i' v v' y y' D Hv Hv' Hx Hx' a (X1 & X2). pose proof (Hvw i v _ Hv Hx) as (_ & _ & C1 & _). pose proof (Hvw i' v' _ Hv' Hx') as (_ & _ & C2 & _).
    apply (Hpair i i' v v' _ _ (mkBlock (Placement.v_ptr y) (Placement.v_cap y * ve_sz v) (ve_al v)) (mkBlock (Placement.v_ptr y') (Placement.v_cap y' * ve_sz v') (ve_al v')) D Hv Hv' Hx Hx' (or_introl eq_refl) (or_introl eq_refl) a).
    unfold in_block. cbn [bptr bsize]. rewrite C1, C2. auto. }
  { exact U4. } { exact Hroom. }
  { intros [|p] row i v y E; discriminate. }
  { intros row i bs Ir E. destruct (Hrows row i bs Ir E) as (v & Hv & Kv & L). destruct (Hview i v Hv) as (x & Hx). pose proof (Hvw i v x Hv Hx) as (_ & G).
    destruct x as [p|y|? ? ? ?]; [destruct G; congruence| |contradiction]. exists v, y. auto. }
  specialize (K5 Hsched). destruct (K6 K5) as (K7 & new & K8 & K9). clear K6. cbn [d ed_vars ed_sizep ed_cap length Z.of_nat] in K3, K7, K9. fold n in K3, K7. rewrite Z.add_0_l in K7.
  pose proof (same_acc_trans _ _ _ SA1 K4) as SA.
  assert (Ln : length new = length rows) by (apply Permutation_length; exact K8).
  assert (Hn0 : 0 <= n <= cap) by (unfold n; lia).
  assert (C12 : changes (fun x => in_block x (eb_mem e) /\ forall i v p, nth_error vars i = Some v -> nth_error (eb_views e) i = Some (EScalar p) -> ~ within p (ve_sz v) x) m m2).
  { eapply changes_weaken; [eapply changes_trans; [exact U2'|exact K3]|]. cbn beta.
    assert (Q1 : forall x, within sp 4 x -> in_block x (eb_mem e) /\ forall i v p, nth_error vars i = Some v -> nth_error (eb_views e) i = Some (EScalar p) -> ~ within p (ve_sz v) x).
    { intros x Wx. split; [apply Hspm, Wx|]. intros i v p Hv Hx Wp. pose proof (Hvw i v _ Hv Hx) as (_ & _ & _ & G). destruct (G x Wp) as (_ & G'). exact (G' Wx). }
    intros x [Wx|[Wx|(p & i & v & y & Bp & Hv & Hx & Wx)]]; [apply Q1, Wx|apply Q1, Wx|].
    pose proof (Hvw i v _ Hv Hx) as (Sz & _ & C1 & _ & _ & G).
    assert (Wx' : within (Placement.v_ptr y) (cap * ve_sz v) x) by (unfold within in *; nia). split; [apply (G x Wx')|].
    intros i' v' p' Hv' Hx' Wp. destruct (Nat.eq_dec i i') as [<-|D]; [congruence|].
    apply (Hpair i i' v v' _ _ (mkBlock (Placement.v_ptr y) (Placement.v_cap y * ve_sz v) (ve_al v)) (mkBlock p' (ve_sz v') (ve_al v')) D Hv Hv' Hx Hx' (or_introl eq_refl) (or_introl eq_refl) x).
    unfold in_block. cbn [bptr bsize]. rewrite C1. auto. }
  assert (Dev : m_dev m2 = m_dev m /\ m_strict m2 = m_strict m) by (split; apply C12).
  assert (Hkind2 : forall a b, m_dev m a = dev -> m_dev m b = false -> kind_check m2 k (m_dev m2 a) (m_dev m2 b) = true).
  { intros a b Ea Ebb. destruct Dev as (D1 & D2). unfold kind_check in *. rewrite D1, D2, Ea, Ebb. exact Hkind. }
  (* the copy *)
  set (col := fun i => concat (map (fun row => match nth i row None with Some b => b | None => nth i dflt [] end) new)).
  set (P := fun i j => exists v q, nth_error vars i = Some v /\ nth_error qs i = Some q /\ job_var j = v /\ job_place j = place_of v q /\
    nth_error (eb_views e) i = Some (job_from j) /\ job_ok k m2 j /\ hosted j /\ vk v = job_kind j /\
    match j with
    | JScalar _ p q' data => q' = q /\ get_bytes m p (Z.to_nat (ve_sz v)) = Some data
    | JVector _ _ y n' data => y = mkView n 0 q /\ n' = n /\ data = col i
    | JJagged _ _ _ _ _ _ _ _ => False
    end).
  destruct (pick P (length vars)) as (jobs & Lj & Hjobs).
  { intros i Hi. destruct (nth_error vars i) as [v|] eqn:Hv; [|apply nth_error_None in Hv; lia].
    destruct (nth_error qs i) as [q|] eqn:Eq; [|apply nth_error_None in Eq; lia]. destruct (Hview i v Hv) as (x & Hx).
    destruct (Hq i v q Hv Eq) as (Q1 & Q2 & Q3 & Q4). pose proof (Hvw i v x Hv Hx) as (Sz & G).
    destruct x as [p|y|? ? ? ?]; [| |contradiction].
    - destruct G as (G1 & G2 & G3). assert (Am : acc m p (ve_sz v)) by (intros a Ha; apply Hmem, (G3 a Ha)).
      destruct (acc_get m p (ve_sz v) ltac:(lia) Am) as (data & Edata).
      assert (E2 : get_bytes m2 p (Z.to_nat (ve_sz v)) = Some data).
      { rewrite <- Edata. apply (changes_get _ _ _ _ _ C12). intros a Ha (_ & Hn). rewrite Z2Nat.id in Ha by lia. exact (Hn i v p Hv Hx Ha). }
      exists (JScalar v p q data), v, q. cbn [job_var job_place job_from job_kind]. split; [exact Hv|]. split; [exact Eq|]. split; [reflexivity|].
      split; [unfold place_of; rewrite G1; reflexivity|]. split; [exact Hx|]. unfold len in Q3, Q4. rewrite G1 in Q3, Q4. split.
      { split; [exact Sz|]. split; [lia|]. split; [exact Q1|]. split; [exact E2|]. split; [apply (acc_same m m2 _ _ SA Q3)|]. split.
        - intros a (X1 & X2). apply (Q4 a X2). apply (G3 a X1).
        - apply Hkind2; [|exact Q2]. apply Hmem. apply (G3 p). unfold within. lia. }
      split; [exact Logic.I|]. split; [exact G1|]. split; [reflexivity|exact Edata].
    - destruct G as (G1 & G2 & G3 & G4 & G5). exists (JVector v y (mkView n 0 q) n (col i)), v, q. cbn [job_var job_place job_from job_kind Placement.v_ptr].
      split; [exact Hv|]. split; [exact Eq|]. split; [reflexivity|]. split; [unfold place_of; rewrite G1; reflexivity|]. split; [exact Hx|].
      unfold len in Q3, Q4. rewrite G1 in Q3, Q4. split.
      { split; [exact Sz|]. cbn [job_var]. cbv zeta. unfold cv. cbn [Copy.v_cap Copy.v_sizep Copy.v_ptr Placement.v_cap Placement.v_size Placement.v_ptr]. split.
        { split; [cbn [Copy.v_cap]; rewrite G2; lia|]. split; [cbn [Copy.v_cap]; rewrite G2; unfold cap; lia|]. cbn [Copy.v_sizep Copy.v_cap]. rewrite G3. replace (sp =? 0) with false by lia. exact K7. }
        split; [lia|]. split; [unfold cap in *; lia|]. split.
        { unfold col. replace n with (Z.of_nat (length (map (fun row => match nth i row None with Some b => b | None => nth i dflt [] end) new))) by (rewrite map_length, Ln; reflexivity).
          apply get_bytes_elements; [exact Sz|]. intros p bs Hpb. rewrite nth_error_map in Hpb. destruct (nth_error new p) as [row|] eqn:Er; [|discriminate]. injection Hpb as <-.
          exact (K9 p row i v y Er Hv Hx). }
        intros Hpos. split; [lia|]. split; [exact Q1|]. split; [apply (acc_same m m2 _ _ SA Q3)|]. split.
        - intros a (X1 & X2). apply (Q4 a X2). apply (G5 a). unfold within. nia.
        - split; [|lia]. apply Hkind2; [|exact Q2]. apply Hmem. apply (G5 (Placement.v_ptr y)). unfold within. nia. }
      split; [split; reflexivity|]. split; [exact G1|]. repeat split. }
  assert (Ev : map job_var jobs = vars).
  { apply list_ext; [rewrite map_length; exact Lj|]. intros i x v Hx Hv. rewrite nth_error_map in Hx. destruct (nth_error jobs i) as [j|] eqn:Ej; [|discriminate]. injection Hx as <-.
    destruct (Hjobs i j Ej) as (v' & q & H1 & _ & H3 & _). congruence. }
  assert (Ef : ev_vars (buffer_view e) = map job_from jobs).
  { unfold buffer_view. cbn [ev_vars]. apply list_ext; [rewrite map_length; lia|]. intros i x y Hx Hy. rewrite nth_error_map in Hy. destruct (nth_error jobs i) as [j|] eqn:Ej; [|discriminate]. injection Hy as <-.
    destruct (Hjobs i j Ej) as (v' & q & _ & _ & _ & _ & H5 & _). congruence. }
  assert (Ep : map job_place jobs = map2 place_of vars qs).
  { apply list_ext; [rewrite map_length, map2_length; lia|]. intros i x y Hx Hy. rewrite nth_error_map in Hx. destruct (nth_error jobs i) as [j|] eqn:Ej; [|discriminate]. injection Hx as <-.
    destruct (Hjobs i j Ej) as (v' & q & H1 & H2 & _ & H4 & _). rewrite map2_nth, H1, H2 in Hy. congruence. }
  assert (Eh : map job_hsize jobs = map (fun v => match vk v with KScalar => HSScalar | _ => HSVector n end) vars).
  { rewrite <- Ev, map_map. apply map_ext_in. intros j Ij. apply In_nth_error in Ij. destruct Ij as (i & Ej). destruct (Hjobs i j Ej) as (v' & q & _ & _ & H3 & _ & _ & _ & _ & H8 & H9).
    subst v'. cbn beta. destruct j; cbn [job_kind job_var job_hsize] in *; rewrite H8; [reflexivity| |contradiction]. destruct H9 as (_ & -> & _). reflexivity. }
  assert (Jw : forall i j v q x, nth_error jobs i = Some j -> nth_error vars i = Some v -> nth_error qs i = Some q -> job_writes j x -> within q (len v) x).
  { intros i j v q x Ej Hv Eq Hx. destruct (Hjobs i j Ej) as (v' & q' & H1 & H2 & H3 & _ & _ & _ & _ & H8 & H9). assert (E1 : v' = v) by congruence. assert (E2 : q' = q) by congruence. rewrite E1 in H3, H8, H9. rewrite E2 in H9. clear E1 E2 H1 H2 v' q'.
    unfold len. rewrite H8. destruct j as [v1 p q1 data|v1 x1 y1 n1 data|]; cbn [job_kind job_var job_writes job_data job_sizes] in *; [| |contradiction].
    - destruct H9 as (-> & _). subst v1. destruct Hx as [Hx|[]]. exact Hx.
    - destruct H9 as (-> & -> & _). subst v1. unfold job_writes, job_data, job_sizes, cv in Hx. cbn [Copy.v_ptr Copy.v_sizep Placement.v_ptr Placement.v_size] in Hx. destruct Hx as [Hx|(_ & Hx & _)]; [exact Hx|congruence]. }
  assert (Jr : forall i j x, nth_error jobs i = Some j -> job_reads j x -> in_block x (eb_mem e)).
  { intros i j x Ej Hx. destruct (Hjobs i j Ej) as (v & q & H1 & _ & H3 & _ & H5 & _ & _ & H8 & H9). pose proof (Hvw i v _ H1 H5) as (Sz & G).
    destruct j as [v1 p q1 data|v1 x1 y1 n1 data|]; cbn [job_from job_var job_reads] in *; [| |contradiction].
    - subst v1. apply (proj2 (proj2 G) x Hx).
    - destruct H9 as (-> & -> & _). subst v1. destruct G as (_ & G2 & G3 & _ & G5). unfold cv in Hx. cbn [Copy.v_ptr Copy.v_sizep] in Hx. rewrite G3 in Hx.
      destruct Hx as [Hx|(_ & Hx)]; [|apply Hspm, Hx]. apply (G5 x). unfold within in *. nia. }
  destruct (edm_to_host_thm k (buffer_view e) m2 jobs n) as (m3 & T1 & T2 & T3).
  - destruct k; auto; congruence.
  - apply Forall_forall. intros j Ij. apply In_nth_error in Ij. destruct Ij as (i & Ej). destruct (Hjobs i j Ej) as (v' & q & _ & _ & H3 & _ & _ & _ & _ & H8 & _). congruence.
  - exact Ef.
  - apply Forall_forall. intros j Ij. apply In_nth_error in Ij. destruct Ij as (i & Ej). destruct (Hjobs i j Ej) as (v' & q & _ & _ & _ & _ & _ & H6 & _). exact H6.
  - apply pairs_nth. intros i i' j j' Hii Ej Ej'. destruct (Hjobs i j Ej) as (v & q & H1 & H2 & _). destruct (Hjobs i' j' Ej') as (v' & q' & H1' & H2' & _).
    assert (Qw : forall a, job_writes j a -> ~ job_writes j' a).
    { intros a Wa Wa'. apply (Hqq i i' v v' q q' ltac:(lia) H1 H1' H2 H2' a). split; [apply (Jw i j v q a Ej H1 H2 Wa)|apply (Jw i' j' v' q' a Ej' H1' H2' Wa')]. }
    split; [split|].
    + intros a Da. apply Qw. left. exact Da.
    + left. intros a Da. apply Qw. right. exact Da.
    + intros a Ra Wa. destruct (Hq i v q H1 H2) as (_ & _ & _ & Q4). apply (Q4 a (Jw i j v q a Ej H1 H2 Wa)). apply (Jr i' j' a Ej' Ra).
  - apply Forall_forall. intros j Ij. apply In_nth_error in Ij. destruct Ij as (i & Ej). destruct (Hjobs i j Ej) as (v' & q & _ & _ & _ & _ & _ & _ & H7 & _). exact H7.
  - apply In_nth_error in Hv0. destruct Hv0 as (i & Hv0). destruct (nth_error jobs i) as [j|] eqn:Ej.
    + exists j. split; [eapply nth_error_In, Ej|]. destruct (Hjobs i j Ej) as (v' & q & H1 & _ & _ & _ & _ & _ & _ & H8 & _). assert (v' = v0) by congruence. subst v'.
      rewrite Kv0 in H8. destruct j; cbn [job_kind job_outer] in *; discriminate.
    + apply nth_error_None in Ej. assert (i < length vars)%nat by (apply nth_error_Some; congruence). lia.
  - intros j n' Ij Eo. apply In_nth_error in Ij. destruct Ij as (i & Ej). destruct (Hjobs i j Ej) as (v' & q & _ & _ & _ & _ & _ & _ & _ & _ & H9).
    destruct j; cbn [job_outer] in Eo; [discriminate| |contradiction]. destruct H9 as (_ & -> & _). congruence.
  - intros _. unfold source_size, buffer_view. cbn [ev_size ev_cap]. fold sp. replace (sp =? 0) with false by lia. split; [exact Hz3|]. split; [exact K7|]. split; [lia|].
    destruct Dev as (D1 & D2). unfold kind_check in *. rewrite D1, D2. destruct (Hmem sp) as (_ & ->); [apply Hspm; unfold within; lia|]. exact Hkind.
  - rewrite Ev, Ep, Eh in T1. exists m1, d, m2, thr, m3, new. split; [exact U1|]. split; [exact Ed|]. split; [exact K1|]. split; [exact K5|]. split; [exact T1|]. split; [exact K8|].
    rewrite Forall_forall in T2.
    assert (Gj : forall i v q, nth_error vars i = Some v -> nth_error qs i = Some q -> exists j, nth_error jobs i = Some j /\ job_done m3 j /\ P i j).
    { intros i v q Hv Eq. destruct (nth_error jobs i) as [j|] eqn:Ej; [|apply nth_error_None in Ej; assert (i < length vars)%nat by (apply nth_error_Some; congruence); lia].
      exists j. split; [reflexivity|]. split; [apply T2; eapply nth_error_In, Ej|apply Hjobs, Ej]. }
    split; [|split].
    + intros i v q Hv Eq Kv. destruct (Gj i v q Hv Eq) as (j & Ej & Dj & v' & q' & H1 & H2 & H3 & _ & _ & _ & _ & H8 & H9).
      assert (E1 : v' = v) by congruence. assert (E2 : q' = q) by congruence. rewrite E1 in H3, H8, H9. rewrite E2 in H9. clear E1 E2 H1 H2 v' q'. rewrite Kv in H8.
      destruct j as [|v1 x1 y1 n1 data|]; cbn [job_kind job_var job_done] in *; try discriminate. destruct H9 as (-> & -> & ->). subst v1. exact (proj1 Dj).
    + intros i v p q Hv Eq Hx. destruct (Gj i v q Hv Eq) as (j & Ej & Dj & v' & q' & H1 & H2 & H3 & _ & H5 & _ & _ & H8 & H9).
      assert (E1 : v' = v) by congruence. assert (E2 : q' = q) by congruence. rewrite E1 in H3, H8, H9. rewrite E2 in H9. clear E1 E2 H1 H2 v' q'. rewrite Hx in H5.
      destruct j as [v1 p1 q1 data|v1 x1 y1 n1 data|]; cbn [job_from job_var job_done] in *; try discriminate. injection H5 as <-. destruct H9 as (-> & H9). subst v1. congruence.
    + eapply changes_weaken; [eapply changes_trans; [exact C12|exact T3]|]. cbn beta. intros x [(Hx & _)|(j & Ij & Wj)]; [left; exact Hx|]. right.
      apply In_nth_error in Ij. destruct Ij as (i & Ej). destruct (Hjobs i j Ej) as (v & q & H1 & H2 & _). exists i, v, q. split; [exact H1|]. split; [exact H2|]. apply (Jw i j v q x Ej H1 H2 Wj).
Qed.
