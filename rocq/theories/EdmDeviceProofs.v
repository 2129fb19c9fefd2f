(** Proofs about edm::device. *)
From Verif Require Export EdmDevice PlacementProofs EdmBufferTheorems EdmBufferFinal BaseLemmas.

(** The memory that an element of a proxy refers to. *)
Definition ref_block (v : var) (r : dref) : block :=
  match r with
  | RAt p => mkBlock p (ve_sz v) (ve_al v)
  | RRow y => mkBlock (v_ptr y) (v_cap y * ve_sz v) (ve_al v)
  end.

Lemma nth_error_concat_disjoint : forall (L : list (list block)) a b l1 l2 x y, pairwise_disjoint (concat L) ->
  nth_error L a = Some l1 -> nth_error L b = Some l2 -> a <> b -> In x l1 -> In y l2 -> ~ overlap x y.
Proof.
  assert (Hov : forall x y, overlap x y -> overlap y x) by (intros x y (z & H1 & H2); exists z; auto).
  induction L as [|l L IH]; intros a b l1 l2 x y H Ha Hb Hab Hx Hy; [destruct a; discriminate|].
  cbn [concat] in H. apply pairwise_disjoint_app in H. destruct H as (H1 & H2 & H3).
  destruct a as [|a], b as [|b]; cbn [nth_error] in Ha, Hb.
  - congruence.
  - injection Ha as <-. apply H3; auto. apply in_concat. exists l2. split; [eapply nth_error_In; eauto|exact Hy].
  - injection Hb as <-. intro Ho. apply Hov in Ho. revert Ho. apply H3; auto.
    apply in_concat. exists l1. split; [eapply nth_error_In; eauto|exact Hx].
  - eapply (IH a b); eauto.
Qed.
Lemma nth_error_concat_pd : forall (L : list (list block)) a l, pairwise_disjoint (concat L) ->
  nth_error L a = Some l -> pairwise_disjoint l.
Proof.
  induction L as [|l0 L IH]; intros [|a] l H Ha; try discriminate; cbn [concat] in H; apply pairwise_disjoint_app in H;
    destruct H as (H1 & H2 & H3); cbn [nth_error] in Ha.
  - injection Ha as <-. exact H1.
  - eapply IH; eauto.
Qed.

Lemma overlap_inside : forall b c b' c', inside b b' -> inside c c' -> overlap b c -> overlap b' c'.
Proof. intros b c b' c' H1 H2 (x & Hx & Hy). exists x. split; [apply H1|apply H2]; auto. Qed.

Lemma dev_items_nth : forall rd vars xs i rs, length vars = length xs -> dev_items rd vars xs i = Ret rs ->
  length rs = length vars /\
  forall k v x, nth_error vars k = Some v -> nth_error xs k = Some x -> exists r, nth_error rs k = Some r /\ dev_item rd v x i = Ret r.
Proof.
  induction vars as [|v vars IH]; intros [|x xs] i rs Hl H; try discriminate; cbn [dev_items] in H.
  - injection H as <-. split; [reflexivity|]. intros [|k] v x Hv; discriminate.
  - destruct (dev_item rd v x i) as [r| |] eqn:Er; try discriminate. cbn [bind] in H.
    destruct (dev_items rd vars xs i) as [rs'| |] eqn:Ers; try discriminate. cbn [bind] in H. injection H as <-.
    cbn [length] in Hl. destruct (IH xs i rs' ltac:(lia) Ers) as [HL HN]. split; [cbn [length]; lia|].
    intros [|k] v' x' Hv Hx; cbn [nth_error] in *.
    + injection Hv as <-. injection Hx as <-. eauto.
    + eauto.
Qed.
Lemma dev_items_ret : forall rd vars xs i, length vars = length xs ->
  (forall k v x, nth_error vars k = Some v -> nth_error xs k = Some x -> exists r, dev_item rd v x i = Ret r) ->
  exists rs, dev_items rd vars xs i = Ret rs.
Proof.
  induction vars as [|v vars IH]; intros [|x xs] i Hl H; try discriminate; cbn [dev_items].
  - eauto.
  - destruct (H O v x eq_refl eq_refl) as [r ->]. cbn [length] in Hl.
    destruct (IH xs i ltac:(lia)) as [rs ->]; [intros k; apply (H (S k))|]. cbn [bind]. eauto.
Qed.

Section OfBuffer.
  Variables (vars : list var) (caps : list Z) (rs : bool) (e : ebuf) (rd : Z -> Z).
  Hypothesis Hvars : vars_ok vars.
  Hypothesis Hlen : length (eb_views e) = length vars.
  Hypothesis Hcap : eb_cap e = Z.of_nat (length caps).
  Hypothesis Hshape : forall i v x, nth_error vars i = Some v -> nth_error (eb_views e) i = Some x ->
    shape_ok caps rs (existsb is_jagged vars) (eb_size e) v x.
  Hypothesis Hcaps : Forall (fun c => 0 <= c < 2 ^ 32) caps.
  Hypothesis Hsize : existsb is_jagged vars = false ->
    (rs = true -> 0 < m_ptr (eb_size e) /\ m_len (eb_size e) = 4) /\ (rs = false -> m_ptr (eb_size e) = 0).
  Hypothesis Hdisj : pairwise_disjoint (all_payloads vars e).
  Hypothesis Hplace : forall q, In q (all_payloads vars e) -> 0 < bsize q -> 0 < bptr q /\ (balign q | bptr q) /\ inside q (eb_mem e).

  Let n := if rs && negb (existsb is_jagged vars) then rd (m_ptr (eb_size e)) else Z.of_nat (length caps).
  Let sp := if existsb is_jagged vars then 0 else m_ptr (eb_size e).
  Let d := mkDev (Z.of_nat (length caps)) sp (eb_views e).

  Lemma views_match : dev_matches d = true.
  Proof.
    unfold dev_matches. apply forallb_forall. intros x Hx. apply In_nth_error in Hx. destruct Hx as [k Hk].
    assert (exists v, nth_error vars k = Some v) as [v Hv].
    { destruct (nth_error vars k) eqn:E; eauto. apply nth_error_None in E.
      assert (k < length (eb_views e))%nat by (apply nth_error_Some; cbn [ed_vars d] in Hk; congruence). lia. }
    specialize (Hshape k v x Hv Hk). unfold shape_ok in Hshape. cbn [ed_cap d].
    destruct (vk v), x; cbn [ev_matches]; try contradiction; auto; lia.
  Qed.

  Lemma make_ok : dev_make vars (eb_cap e) (eb_size e) (eb_views e) = Ret d.
  Proof.
    unfold dev_make, dev_size_pointer. rewrite Hcap. fold sp.
    assert (Hp : (if existsb is_jagged vars then Ret 0 else assert ((m_ptr (eb_size e) =? 0) || (m_len (eb_size e) =? 4)) (Ret (m_ptr (eb_size e)))) = Ret sp).
    { unfold sp. destruct (existsb is_jagged vars) eqn:Ej; [reflexivity|]. destruct (Hsize eq_refl) as [H1 H2].
      unfold assert. destruct ((m_ptr (eb_size e) =? 0) || (m_len (eb_size e) =? 4)) eqn:E; [reflexivity|].
      destruct rs; [destruct (H1 eq_refl); lia|rewrite H2 in E; auto; discriminate]. }
    rewrite Hp. cbn [bind]. fold d. rewrite views_match. reflexivity.
  Qed.

  Lemma size_ok : dev_size rd d = Ret n.
  Proof.
    unfold dev_size. rewrite views_match. unfold assert, n, d, sp. cbn [ed_sizep ed_cap].
    destruct (existsb is_jagged vars) eqn:Ej; cbn [negb]; rewrite ?andb_false_r, ?andb_true_r; [reflexivity|].
    destruct (Hsize eq_refl) as [H1 H2]. destruct rs.
    - destruct (H1 eq_refl). destruct (m_ptr (eb_size e) =? 0) eqn:E; [lia|reflexivity].
    - rewrite H2; auto.
  Qed.

  Lemma capacity_ok : dev_capacity d = Ret (Z.of_nat (length caps)).
  Proof. unfold dev_capacity. rewrite views_match. reflexivity. Qed.

  Lemma vec_size_ok : forall k v y, nth_error vars k = Some v -> nth_error (eb_views e) k = Some (EVector y) ->
    vec_size rd y = n /\ v_cap y = Z.of_nat (length caps) /\ vk v = KVector.
  Proof.
    intros k v y Hv Hx. specialize (Hshape k v _ Hv Hx). unfold shape_ok in Hshape.
    destruct (vk v) eqn:Ek; try contradiction. destruct Hshape as [H1 H2]. split; [|auto].
    unfold vec_size, n. rewrite H1, H2. destruct (existsb is_jagged vars) eqn:Ej; cbn [negb]; rewrite ?andb_false_r, ?andb_true_r; [reflexivity|].
    destruct (Hsize eq_refl) as [H3 H4]. destruct rs; [|reflexivity]. destruct (H3 eq_refl).
    destruct (m_ptr (eb_size e) =? 0) eqn:E; [lia|reflexivity].
  Qed.

  (** What the element of a variable is. *)
  Definition item_is (k : nat) (v : var) (x : eview) (i : Z) (r : dref) : Prop :=
    match x with
    | EScalar p => vk v = KScalar /\ r = RAt p
    | EVector y => vk v = KVector /\ r = RAt (v_ptr y + i * ve_sz v)
    | EJagged _ _ _ inner => vk v = KJagged /\ exists y, r = RRow y /\ nth_error inner (Z.to_nat i) = Some y /\
                               nth_error caps (Z.to_nat i) = Some (v_cap y)
    end.

  Lemma item_ok : forall k v x i, nth_error vars k = Some v -> nth_error (eb_views e) k = Some x ->
    0 <= i < n -> n <= Z.of_nat (length caps) -> exists r, dev_item rd v x i = Ret r /\ item_is k v x i r.
  Proof.
    intros k v x i Hv Hx Hi Hn. pose proof (Hshape k v x Hv Hx) as Hs. unfold shape_ok in Hs.
    destruct x as [p|y|m l h inner]; cbn [dev_item item_is].
    - destruct (vk v); try contradiction. eauto.
    - destruct (vec_size_ok k v y Hv Hx) as (H1 & H2 & H3). rewrite H1. unfold assert.
      destruct (i <? n) eqn:E; [|lia]. eauto.
    - destruct (vk v); try contradiction. destruct Hs as (-> & Hm & _). unfold assert.
      destruct (i <? Z.of_nat (length caps)) eqn:E; [|lia].
      assert (HL : length inner = length caps) by (rewrite <- Hm, map_length; reflexivity).
      destruct (nth_error inner (Z.to_nat i)) as [y|] eqn:Ey; [|apply nth_error_None in Ey; lia].
      exists (RRow y). split; [reflexivity|]. split; [reflexivity|]. exists y. repeat split; auto.
      rewrite <- Hm. apply map_nth_error, Ey.
  Qed.

  Lemma at_ok : forall i, 0 <= i -> n <= Z.of_nat (length caps) ->
    (i < n -> exists items, dev_at rd vars d i = Ret items /\ dev_index rd vars d i = Ret items /\ length items = length vars /\
       forall k v x, nth_error vars k = Some v -> nth_error (eb_views e) k = Some x ->
         exists r, nth_error items k = Some r /\ item_is k v x i r) /\
    (n <= i -> dev_at rd vars d i = UB).
  Proof.
    intros i Hi Hn. unfold dev_at. rewrite size_ok. cbn [bind]. unfold assert. split; intro H.
    - destruct (i <? n) eqn:E; [|lia]. unfold dev_index. cbn [ed_vars d].
      destruct (dev_items_ret rd vars (eb_views e) i (eq_sym Hlen)) as [items Hit].
      { intros k v x Hv Hx. destruct (item_ok k v x i Hv Hx ltac:(lia) Hn) as (r & Hr & _). eauto. }
      exists items. rewrite Hit. repeat split; auto.
      + apply (dev_items_nth rd vars (eb_views e) i items (eq_sym Hlen) Hit).
      + intros k v x Hv Hx. destruct (dev_items_nth rd vars (eb_views e) i items (eq_sym Hlen) Hit) as [_ HN].
        destruct (HN k v x Hv Hx) as (r & Hr & Hd). destruct (item_ok k v x i Hv Hx ltac:(lia) Hn) as (r' & Hr' & Hs).
        rewrite Hd in Hr'. injection Hr' as ->. eauto.
    - destruct (i <? n) eqn:E; [lia|reflexivity].
  Qed.

  Lemma payload_nth : forall k v x, nth_error vars k = Some v -> nth_error (eb_views e) k = Some x ->
    nth_error (map2 payload_blocks vars (eb_views e)) k = Some (payload_blocks v x).
  Proof. intros k v x Hv Hx. rewrite map2_nth, Hv, Hx. reflexivity. Qed.

  (** The block of an element lies inside one of the blocks of the variable. *)
  Lemma item_inside : forall k v x i r, nth_error vars k = Some v -> nth_error (eb_views e) k = Some x ->
    0 <= i < Z.of_nat (length caps) -> item_is k v x i r ->
    exists q, In q (payload_blocks v x) /\ inside (ref_block v r) q /\ balign q = ve_al v /\ (balign q | bptr (ref_block v r) - bptr q).
  Proof.
    intros k v x i r Hv Hx Hi Hr. destruct (Hvars v (nth_error_In _ _ Hv)) as (Hz & _ & Hal).
    destruct x as [p|y|m l h inner]; cbn [item_is payload_blocks] in *.
    - destruct Hr as [_ ->]. eexists. split; [left; reflexivity|]. cbn [ref_block bptr balign]. split; [intros z Hzz; exact Hzz|].
      split; [reflexivity|]. exists 0. lia.
    - destruct Hr as [_ ->]. destruct (vec_size_ok k v y Hv Hx) as (_ & H2 & _).
      eexists. split; [left; reflexivity|]. cbn [ref_block bptr balign]. split; [|split; [reflexivity|]].
      + intros z Hzz. unfold in_block in *. cbn [bptr bsize] in *. rewrite H2. nia.
      + replace (v_ptr y + i * ve_sz v - v_ptr y) with (i * ve_sz v) by lia. apply Z.divide_mul_r. exact Hal.
    - destruct Hr as (_ & y & -> & Hy & _). eexists. split; [apply in_map; eapply nth_error_In; exact Hy|].
      cbn [ref_block bptr balign]. split; [intros z Hzz; exact Hzz|]. split; [reflexivity|]. exists 0. lia.
  Qed.

  Lemma item_placed : forall k v x i r, nth_error vars k = Some v -> nth_error (eb_views e) k = Some x ->
    0 <= i < Z.of_nat (length caps) -> item_is k v x i r -> 0 < bsize (ref_block v r) ->
    inside (ref_block v r) (eb_mem e) /\ (ve_al v | bptr (ref_block v r)).
  Proof.
    intros k v x i r Hv Hx Hi Hr Hb.
    destruct (item_inside k v x i r Hv Hx Hi Hr) as (q & Hq & Hin & Hal & Hdv).
    assert (HQ : In q (all_payloads vars e)).
    { unfold all_payloads. apply in_concat. eexists. split; [eapply nth_error_In, payload_nth; eauto|exact Hq]. }
    assert (Hbq : 0 < bsize q).
    { specialize (Hin (bptr (ref_block v r))). unfold in_block in Hin. lia. }
    destruct (Hplace q HQ Hbq) as (_ & Ha & Hm). split; [intros z Hz; apply Hm, Hin, Hz|].
    rewrite <- Hal in *. replace (bptr (ref_block v r)) with (bptr q + (bptr (ref_block v r) - bptr q)) by lia.
    apply Z.divide_add_r; auto.
  Qed.

  Lemma items_apart : forall k v x i r k' v' x' i' r',
    nth_error vars k = Some v -> nth_error (eb_views e) k = Some x -> 0 <= i < Z.of_nat (length caps) -> item_is k v x i r ->
    nth_error vars k' = Some v' -> nth_error (eb_views e) k' = Some x' -> 0 <= i' < Z.of_nat (length caps) -> item_is k' v' x' i' r' ->
    k <> k' \/ (vk v <> KScalar /\ i <> i') -> ~ overlap (ref_block v r) (ref_block v' r').
  Proof.
    intros k v x i r k' v' x' i' r' Hv Hx Hi Hr Hv' Hx' Hi' Hr' Hne.
    destruct (Nat.eq_dec k k') as [<-|Hk].
    - destruct Hne as [Hne|[Hs Hne]]; [congruence|]. rewrite Hv in Hv'. injection Hv' as <-. rewrite Hx in Hx'. injection Hx' as <-.
      destruct (Hvars v (nth_error_In _ _ Hv)) as (Hz & _ & _).
      destruct x as [p|y|m l h inner]; cbn [item_is] in *.
      + tauto.
      + destruct Hr as [_ ->]. destruct Hr' as [_ ->]. intros (z & H1 & H2). unfold in_block in *. cbn [ref_block bptr bsize] in *. nia.
      + destruct Hr as (_ & y & -> & Hy & _). destruct Hr' as (_ & y' & -> & Hy' & _).
        pose proof (nth_error_concat_pd _ _ _ Hdisj (payload_nth k v _ Hv Hx)) as Hp. cbn [payload_blocks] in Hp.
        eapply (pairwise_disjoint_nth _ (Z.to_nat i) (Z.to_nat i')); [exact Hp| | |lia].
        * apply (map_nth_error (fun x => mkBlock (v_ptr x) (v_cap x * ve_sz v) (ve_al v))), Hy.
        * apply (map_nth_error (fun x => mkBlock (v_ptr x) (v_cap x * ve_sz v) (ve_al v))), Hy'.
    - destruct (item_inside k v x i r Hv Hx Hi Hr) as (q & Hq & Hin & _).
      destruct (item_inside k' v' x' i' r' Hv' Hx' Hi' Hr') as (q' & Hq' & Hin' & _).
      intro Ho. apply (overlap_inside _ _ _ _ Hin Hin') in Ho. revert Ho.
      eapply (nth_error_concat_disjoint _ k k'); [exact Hdisj|exact (payload_nth k v x Hv Hx)|exact (payload_nth k' v' x' Hv' Hx')|exact Hk|exact Hq|exact Hq'].
  Qed.
End OfBuffer.

(** The facts about a buffer that are needed. *)
Lemma buffer_facts : forall vars caps rs host w hw e w' hw', vars <> [] -> vars_ok vars ->
  Forall (fun c => 0 <= c < 2 ^ 32) caps -> Z.of_nat (length caps) < 2 ^ 32 -> total caps < 2 ^ 32 ->
  need_all (edm_sects vars caps rs) < 2 ^ 32 ->
  edm_buffer vars caps rs host w hw = (Ret e, w', hw') -> upstream_ok (ulog w') -> upstream_ok (ulog hw') ->
  length (eb_views e) = length vars /\ eb_cap e = Z.of_nat (length caps) /\
  (forall i v x, nth_error vars i = Some v -> nth_error (eb_views e) i = Some x ->
    shape_ok caps rs (existsb is_jagged vars) (eb_size e) v x) /\
  (existsb is_jagged vars = false ->
    (rs = true -> 0 < m_ptr (eb_size e) /\ m_len (eb_size e) = 4) /\ (rs = false -> m_ptr (eb_size e) = 0)) /\
  pairwise_disjoint (all_payloads vars e) /\
  (forall q, In q (all_payloads vars e) -> 0 < bsize q -> 0 < bptr q /\ (balign q | bptr q) /\ inside q (eb_mem e)).
Proof.
  intros vars caps rs host w hw e w' hw' H1 H2 H3 H4 H5 H6 H7 H8 H9.
  destruct (edm_buffer_layout vars caps rs host w hw _ w' hw' H1 H2 H3 H4 H5 H6 H7 H8 H9) as [Hb|(e' & He & _ & Hc & Hl & Hs & Hd & Hp & Hsp1 & Hsp2 & Hsp3 & Hcnt & _)]; [discriminate|].
  injection He as <-. split; [exact Hl|]. split; [exact Hc|]. split; [exact Hs|]. split; [|split].
  - intros Ej. unfold spans, all_counters in *. rewrite Ej in *. split; intros ->.
    + destruct Hsp3 as (Ha & Hb & Hn & Hz).
      destruct (Hp (mkBlock (m_ptr (eb_size e)) 4 4)) as (Hpos & _); [left; reflexivity|cbn [bsize]; lia|]. cbn [bptr] in Hpos.
      split; [exact Hpos|].
      specialize (Ha (mkBlock (m_ptr (eb_size e)) 4 4) (or_introl eq_refl)).
      pose proof (Ha (m_ptr (eb_size e) + 3)) as Ha'. unfold in_block, mem_block in Ha'. cbn [bptr bsize] in Ha'.
      specialize (Ha' ltac:(lia)).
      destruct (Hcnt (m_ptr (eb_size e) + m_len (eb_size e) - 1)) as (q & Hq & Hqi).
      { unfold in_block, mem_block. cbn [bptr bsize]. lia. }
      destruct Hq as [<-|[]]. unfold in_block in Hqi. cbn [bptr bsize] in Hqi. lia.
    + destruct Hsp3 as (_ & _ & Hn & Hz). apply Hz.
      destruct (Z.eq_dec (m_len (eb_size e)) 0) as [|Hne]; auto.
      destruct (Hcnt (m_ptr (eb_size e))) as (q & [] & _). unfold in_block, mem_block. cbn [bptr bsize]. lia.
  - apply pairwise_disjoint_app in Hd. destruct Hd as (_ & Hd & _). apply pairwise_disjoint_app in Hd. tauto.
  - intros q Hq. apply Hp. apply in_or_app. right. apply in_or_app. right. exact Hq.
Qed.
