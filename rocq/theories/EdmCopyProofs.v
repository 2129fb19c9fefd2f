(** Copies between buffers of SoA containers. *)
From Verif Require Import Base BaseLemmas IntMath Placement PlacementProofs JaggedBufferProofs EdmBuffer EdmBufferProofs EdmBufferTheorems EdmBufferFinal
  EdmCopyLayout Copy CopyProofs CopyJaggedProofs EdmCopy.

(** A schema and capacities within the limits of C50. *)
Definition schema_ok (vars : list var) (caps : list Z) : Prop :=
  vars <> [] /\ vars_ok vars /\ Forall (fun c => 0 <= c < 2 ^ 32) caps /\ Z.of_nat (length caps) < 2 ^ 32 /\ total caps < 2 ^ 32.
(** [e] is what a constructor of edm::buffer has returned. *)
Definition built (vars : list var) (caps : list Z) (rs : bool) (e : ebuf) : Prop :=
  need_all (edm_sects vars caps rs) < 2 ^ 32 /\
  exists host w hw w' hw', edm_buffer vars caps rs host w hw = (Ret e, w', hw') /\ upstream_ok (ulog w') /\ upstream_ok (ulog hw').
(** A block is accessible, and lies on the host or on the device. *)
Definition region (m : cmem) (b : block) (dev : bool) : Prop :=
  acc m (bptr b) (bsize b) /\ forall x, in_block x b -> m_dev m x = dev.
(** The contents of the blocks of one list are found in the blocks of another. *)
Definition bytes_of (m : cmem) (b : block) : option (list Z) := get_bytes m (bptr b) (Z.to_nat (bsize b)).

(** ** Raw memory *)
Lemma copy_raw k f t m : m_len f = m_len t -> 0 < m_len f < 2 ^ 32 -> m_ptr f <> 0 -> m_ptr t <> 0 ->
  acc m (m_ptr f) (m_len f) -> acc m (m_ptr t) (m_len f) -> apart (m_ptr f) (m_len f) (m_ptr t) (m_len f) ->
  kind_check m k (m_dev m (m_ptr f)) (m_dev m (m_ptr t)) = true ->
  exists m', copy_vector 1 k (raw_view f) (raw_view t) m = (Ret true, m') /\ same_acc m m' /\ changes (within (m_ptr t) (m_len t)) m m' /\
    forall i, 0 <= i < m_len f -> m_byte m' (m_ptr t + i) = m_byte m (m_ptr f + i).
Proof.
  intros El Hl Hf Ht Af At Ap K. unfold copy_vector, get_size, raw_view. cbn [v_sizep v_cap v_ptr Z.eqb cbind].
  replace (m_len f =? 0) with false by lia. replace (m_len t <? m_len f) with false by lia. cbn [cbind]. rewrite Z.mul_1_r.
  destruct (do_copy_ok k (m_len f) (m_ptr f) (m_ptr t) m) as (m1 & G & C & S & B); auto; try lia.
  rewrite G. cbn [cbind]. exists m1. split; [reflexivity|]. split; [exact S|]. split; [rewrite <- El; exact C|exact B].
Qed.

Lemma bytes_same m m' v1 v2 b1 b2 : same_place v1 v2 b1 b2 -> inside b1 (mem_block v1) ->
  (forall i, 0 <= i < m_len v1 -> m_byte m' (m_ptr v2 + i) = m_byte m (m_ptr v1 + i)) -> bytes_of m' b2 = bytes_of m b1.
Proof.
  intros (H1 & H2) HI HB. unfold bytes_of. rewrite <- H1. destruct (Z.le_gt_cases (bsize b1) 0) as [L|L].
  - replace (Z.to_nat (bsize b1)) with 0%nat by lia. reflexivity.
  - specialize (H2 L). apply get_bytes_ext. intros i Hi.
    assert (I : in_block (bptr b1 + i) (mem_block v1)) by (apply HI; unfold in_block; lia).
    unfold in_block, mem_block in I. cbn [bptr bsize] in I.
    replace (bptr b2 + i) with (m_ptr v2 + (bptr b1 + i - m_ptr v1)) by lia. rewrite HB by lia. f_equal. lia.
Qed.

(** ** What the constructors give *)
Lemma built_parts vars caps rs e : schema_ok vars caps -> built vars caps rs e -> edm_parts vars caps rs e /\ edm_ok vars caps rs e.
Proof.
  intros (H1 & H2 & H3 & H4 & H5) (Hn & host & w & hw & w' & hw' & E & U & U'). split.
  - apply (edm_buffer_parts vars caps rs host H1 H2 Hn w hw e w' hw' E U U').
  - destruct (edm_buffer_layout vars caps rs host w hw _ w' hw' H1 H2 H3 H4 H5 Hn E U U') as [C|(e' & C & _ & _ & Q)]; [discriminate|].
    injection C as <-. exact Q.
Qed.

Lemma mem_inside vars caps rs e : schema_ok vars caps -> built vars caps rs e ->
  0 <= m_len (eb_payload e) < 2 ^ 32 /\ (0 < m_len (eb_payload e) -> 0 < m_ptr (eb_payload e) /\ inside (mem_block (eb_payload e)) (eb_mem e)) /\
  0 <= m_len (eb_size e) < 2 ^ 32 /\ (0 < m_len (eb_size e) -> 0 < m_ptr (eb_size e) /\ inside (mem_block (eb_size e)) (eb_mem e)) /\
  (m_ptr (eb_size e) <> 0 -> 0 < m_len (eb_size e) /\ rs = true) /\
  (forall x, ~ (in_block x (mem_block (eb_size e)) /\ in_block x (mem_block (eb_payload e)))).
Proof.
  intros HS HB. destruct (built_parts vars caps rs e HS HB) as ((p & a & b & hi & sizes & ls & hs & ps & A & B & C & _ & D & _) & (_ & _ & _ & K & S1 & _ & S2 & _ & PD)).
  assert (BM : 0 < p /\ bptr (eb_mem e) = p /\ bsize (eb_mem e) < 2 ^ 32) by (rewrite D; cbn [bptr bsize]; lia).
  assert (G : forall m l, spans m l -> (forall q, In q l -> In q (all_counters vars rs e ++ all_layouts e ++ all_payloads vars e)) ->
            0 <= m_len m < 2 ^ 32 /\ (0 < m_len m -> 0 < m_ptr m /\ inside (mem_block m) (eb_mem e))).
  { intros m l (_ & Q1 & Q2 & _) Hl. destruct (Z.eq_dec (m_len m) 0) as [E|E]; [split; lia|]. destruct (Q1 ltac:(lia)) as ((b1 & I1 & J1) & (b2 & I2 & J2)).
    unfold in_block in J1, J2.
    destruct (K b1 (Hl b1 I1) ltac:(lia)) as (K1 & _ & K2). destruct (K b2 (Hl b2 I2) ltac:(lia)) as (K3 & _ & K4).
    assert (X1 : in_block (m_ptr m) (eb_mem e)) by (apply K2; unfold in_block; lia).
    assert (X2 : in_block (m_ptr m + m_len m - 1) (eb_mem e)) by (apply K4; unfold in_block; lia).
    unfold in_block in X1, X2. split; [lia|]. intros _. split; [lia|]. intros x Hx. unfold in_block, mem_block in *. cbn [bptr bsize] in Hx. lia. }
  destruct (G _ _ S1) as (P1 & P2); [intros; apply in_or_app; right; apply in_or_app; auto|].
  destruct (G _ _ S2) as (P3 & P4); [intros; apply in_or_app; auto|].
  split; [exact P1|]. split; [exact P2|]. split; [exact P3|]. split; [exact P4|]. split.
  - intros Hn. destruct S2 as (_ & Q1 & Q2 & Q3). assert (0 < m_len (eb_size e)) by (destruct (Z.eq_dec (m_len (eb_size e)) 0) as [E|E]; [destruct (Hn (Q3 E))|lia]).
    split; [auto|]. destruct rs; [reflexivity|]. destruct (Q1 H) as ((q & [] & _) & _).
  - intros x (X1 & X2). destruct PD as (PH & _). apply (PH (mem_block (eb_payload e))); [right; left; reflexivity|]. exists x. auto.
Qed.

(** ** The sizes of a resizable buffer, set from one of fixed size *)
Definition counters_hold (caps : list Z) (m : cmem) (e : eview) : Prop :=
  match e with EJagged _ _ _ inner => Forall2 (fun x c => get_bytes m (Placement.v_size x) 4 = Some (le32 c)) inner caps | _ => True end.

Lemma inner_fixed esz d caps : Forall (fun c => 0 <= c < 2 ^ 32) caps -> forall i off,
  fixed_sizes (map cv (inner_views esz 0 d i off caps)) /\ map v_cap (map cv (inner_views esz 0 d i off caps)) = caps.
Proof.
  induction 1 as [|c caps Hc F IH]; intros i off; cbn [inner_views map]; [split; [constructor|reflexivity]|].
  destruct (IH (i + 1) (off + c)) as (I1 & I2). split; [constructor; auto|]. rewrite I2. unfold cv. cbn [v_cap Placement.v_cap]. rewrite wrap32_small by lia. reflexivity.
Qed.
Lemma inner_at esz s d caps : 0 < s -> forall i off j v, nth_error (map cv (inner_views esz s d i off caps)) j = Some v -> v_sizep v = s + 4 * (i + Z.of_nat j).
Proof.
  intros Hs. induction caps as [|c caps IH]; intros i off [|j] v; cbn [inner_views map nth_error]; try discriminate.
  - intros E. assert (SI : forall a b : vview, Some a = Some b -> b = a) by congruence. rewrite (SI _ _ E). unfold cv. cbn [v_sizep Placement.v_size]. destruct (s =? 0) eqn:E0; lia.
  - intros E. rewrite (IH _ _ _ _ E). lia.
Qed.
Lemma inner_caps esz s d caps : Forall (fun c => 0 <= c < 2 ^ 32) caps -> forall i off,
  Forall2 (fun v n => 0 <= n <= v_cap v /\ v_cap v < 2 ^ 32) (map cv (inner_views esz s d i off caps)) caps.
Proof.
  induction 1 as [|c caps Hc F IH]; intros i off; cbn [inner_views map]; constructor; auto. cbn [v_cap cv Placement.v_cap]. rewrite wrap32_small; lia.
Qed.
Lemma inner_hold esz s d m caps : 0 < s -> forall i off, get_bytes m (s + 4 * i) (4 * length caps) = Some (flat_map le32 caps) ->
  Forall2 (fun x c => get_bytes m (Placement.v_size x) 4 = Some (le32 c)) (inner_views esz s d i off caps) caps.
Proof.
  intros Hs. induction caps as [|c caps IH]; intros i off Hg; cbn [inner_views]; [constructor|].
  replace (4 * length (c :: caps))%nat with (4 + 4 * length caps)%nat in Hg by (cbn [length]; lia). rewrite get_bytes_app in Hg.
  destruct (get_bytes m (s + 4 * i) 4) as [x|] eqn:Ex; [|discriminate]. change (Z.of_nat 4) with 4 in Hg.
  destruct (get_bytes m (s + 4 * i + 4) (4 * length caps)) as [y|] eqn:Ey; [|discriminate]. injection Hg as E.
  assert (Lx := get_bytes_len _ _ _ _ Ex). cbn [flat_map] in E.
  assert (x = le32 c /\ y = flat_map le32 caps) as (-> & ->).
  { pose proof (f_equal (firstn 4) E) as E1. pose proof (f_equal (skipn 4) E) as E2.
    change (skipn 4 (le32 c ++ flat_map le32 caps)) with (flat_map le32 caps) in E2. change (firstn 4 (le32 c ++ flat_map le32 caps)) with (le32 c) in E1.
    rewrite skipn_app, skipn_all2, Lx in E2 by lia. rewrite firstn_app, Lx, firstn_all2 in E1 by lia. cbn [Nat.sub firstn skipn app] in E1, E2. rewrite app_nil_r in E1. auto. }
  constructor.
  - cbn [Placement.v_size]. replace (s =? 0) with false by lia. exact Ex.
  - apply IH. replace (s + 4 * (i + 1)) with (s + 4 * i + 4) by lia. exact Ey.
Qed.
Lemma inner_counter esz s d caps x : 0 < s -> forall i off, s + 4 * i <= x < s + 4 * i + 4 * Z.of_nat (length caps) ->
  exists b, In b (map (fun v => mkBlock (Placement.v_size v) 4 4) (inner_views esz s d i off caps)) /\ in_block x b.
Proof.
  intros Hs. induction caps as [|c caps IH]; intros i off Hx; cbn [length] in Hx; [lia|]. cbn [inner_views map].
  destruct (Z.lt_ge_cases x (s + 4 * i + 4)) as [L|L].
  - eexists. split; [left; reflexivity|]. unfold in_block. cbn [bptr bsize Placement.v_size]. replace (s =? 0) with false by lia. lia.
  - destruct (IH (i + 1) (off + c)) as (b & I & J); [lia|]. exists b. split; [right; exact I|exact J].
Qed.

Lemma copy_sizes_placed caps : Forall (fun c => 0 <= c < 2 ^ 32) caps -> forall vs lo hi l1 h1 p1 s2 l2 h2 p2 m,
  length l1 = length vs -> length h1 = length vs -> length p1 = length vs -> length l2 = length vs -> length h2 = length vs -> length p2 = length vs ->
  0 < lo -> placed lo hi (map (size_sect caps) vs) s2 -> acc m lo (hi - lo) ->
  exists m', copy_sizes_vars (make_views caps vs (map (fun _ => 0) vs) l1 h1 p1) (make_views caps vs s2 l2 h2 p2) m = (Ret tt, m') /\ same_acc m m' /\
    changes (fun x => lo <= x /\ exists b, In b (concat (map counter_blocks (make_views caps vs s2 l2 h2 p2))) /\ in_block x b) m m' /\
    Forall (counters_hold caps m') (make_views caps vs s2 l2 h2 p2).
Proof.
  intros HC. induction vs as [|v vs IH]; intros lo hi [|l1 ll1] [|h1 hh1] [|p1 pp1] s2 [|l2 ll2] [|h2 hh2] [|p2 pp2] m; cbn [length]; try lia.
  - intros _ _ _ _ _ _ Hlo HP HA. destruct s2; [|destruct HP]. exists m. cbn. split; [reflexivity|]. split; [apply same_acc_refl|]. split; [apply changes_refl|constructor].
  - intros. destruct s2 as [|s s2]; [contradiction|]. cbn [map placed] in H6.
    assert (HF : Forall sect_ok (map (size_sect caps) vs)) by apply SS_ok.
    assert (Skip : s_n (size_sect caps v) = 0 -> placed lo hi (map (size_sect caps) vs) s2).
    { intros E. rewrite E in H6. apply H6. }
    cbn [map make_views]. destruct (vk v) eqn:Ev.
    1,2: (specialize (Skip ltac:(unfold size_sect, layout_size; rewrite Ev; reflexivity)); unfold make_view; rewrite Ev; cbn [copy_sizes_vars];
          destruct (IH lo hi ll1 hh1 pp1 s2 ll2 hh2 pp2 m) as (m' & G & S & C & F); auto; try lia;
          exists m'; split; [exact G|]; split; [exact S|]; split; [|constructor; [exact I|exact F]]; exact C).
    unfold make_view. rewrite Ev. cbn [copy_sizes_vars].
    destruct (inner_fixed (ve_sz v) p1 caps HC 0 0) as (F1 & F2).
    assert (GS : get_sizes (map cv (inner_views (ve_sz v) 0 p1 0 0 caps)) m = (Ret caps, m)).
    { unfold get_sizes. rewrite get_sizes_from_fixed by exact F1. cbn [cbind]. rewrite F2. reflexivity. }
    rewrite GS. cbn [cbind].
    destruct caps as [|c0 cs] eqn:Ecs.
    + specialize (Skip ltac:(unfold size_sect, layout_size; rewrite Ev; reflexivity)). cbn [inner_views map set_sizes cbind].
      destruct (IH lo hi ll1 hh1 pp1 s2 ll2 hh2 pp2 m) as (m' & G & S & C & F); auto; try lia.
      exists m'. split; [exact G|]. split; [exact S|]. split; [exact C|]. constructor; [constructor|exact F].
    + rewrite <- Ecs in *. assert (Hn : s_n (size_sect caps v) = Z.of_nat (length caps)) by (unfold size_sect, layout_size; rewrite Ev; reflexivity).
      assert (Hl : 0 < Z.of_nat (length caps)) by (rewrite Ecs; cbn [length]; lia).
      assert (E0 : (s_n (size_sect caps v) =? 0) = false) by lia. rewrite E0 in H6. destruct H6 as (Q1 & Q2 & Q3). rewrite Hn in Q3.
      cbn [s_al s_esz size_sect] in Q1, Q3. assert (Hend := placed_le _ _ _ _ HF Q3).
      assert (Hs : 0 < s) by lia.
      assert (IL : length (map cv (inner_views (ve_sz v) s p2 0 0 caps)) = length caps).
      { rewrite map_length. assert (IG : forall i off, length (inner_views (ve_sz v) s p2 i off caps) = length caps); [|apply IG]. clear. induction caps as [|c l IH]; intros i off; cbn [inner_views length]; auto. }
      destruct (set_sizes_resizable caps (map cv (inner_views (ve_sz v) s p2 0 0 caps)) m s) as (m1 & G1 & _ & S1 & C1 & B1).
      { apply inner_caps. exact HC. }
      { split; [lia|]. intros i w E. rewrite (inner_at _ _ _ _ Hs _ _ _ _ E). lia. }
      { exact Hs. }
      { rewrite IL. intros x Hx. apply H7. lia. }
      rewrite G1. cbn [cbind]. rewrite IL in C1, B1.
      destruct (IH (s + Z.of_nat (length caps) * 4) hi ll1 hh1 pp1 s2 ll2 hh2 pp2 m1) as (m2 & G2 & S2 & C2 & F3); auto; try lia.
      { apply (acc_same m); auto. intros x Hx. apply H7. lia. }
      exists m2. split; [exact G2|]. split; [apply (same_acc_trans _ m1); auto|]. split.
      * apply (changes_weaken _ _ _ _ (changes_trans _ _ _ _ _ C1 C2)). cbn [map concat counter_blocks].
        intros x [X|(X1 & b & X2 & X3)].
        -- unfold within in X. split; [lia|]. destruct (inner_counter (ve_sz v) s p2 caps x Hs 0 0 ltac:(lia)) as (b & I1 & I2). exists b. split; [apply in_or_app; left; exact I1|exact I2].
        -- split; [lia|]. exists b. split; [apply in_or_app; right; exact X2|exact X3].
      * constructor; [|exact F3]. apply inner_hold; [exact Hs|].
        rewrite Z.add_0_r. rewrite <- B1. apply (changes_get _ _ _ _ _ C2). intros x Hx (X & _). unfold within in Hx. lia.
Qed.

(** ** Copies from buffer to buffer, through the raw memory *)
Definition sizes_copied (vars : list var) (caps : list Z) (rs1 rs2 : bool) (e1 e2 : ebuf) (m m' : cmem) : Prop :=
  if rs2 then
    if rs1 then Forall2 (fun b1 b2 => bytes_of m' b2 = bytes_of m b1) (all_counters vars true e1) (all_counters vars true e2)
    else if existsb is_jagged vars then Forall (counters_hold caps m') (eb_views e2)
    else get_bytes m' (m_ptr (eb_size e2)) 4 = Some (le32 (Z.of_nat (length caps)))
  else True.

Lemma Forall2_impl_in {A B} (R Q : A -> B -> Prop) l1 l2 : Forall2 R l1 l2 -> (forall x y, In x l1 -> R x y -> Q x y) -> Forall2 Q l1 l2.
Proof. induction 1; intros HI; constructor; [apply HI; [left|]; auto|]. apply IHForall2. intros. apply HI; [right|]; auto. Qed.

Theorem edm_copy_fast vars caps rs1 rs2 e1 e2 k m d1 d2 : schema_ok vars caps -> built vars caps rs1 e1 -> built vars caps rs2 e2 ->
  0 < m_len (eb_payload e1) -> m_len (eb_payload e1) = m_len (eb_payload e2) ->
  region m (eb_mem e1) d1 -> region m (eb_mem e2) d2 -> ~ overlap (eb_mem e1) (eb_mem e2) -> kind_check m k d1 d2 = true ->
  exists m', edm_copy vars k (buffer_view e1) (buffer_view e2) m = (Ret tt, m') /\ same_acc m m' /\
    Forall2 (fun b1 b2 => bytes_of m' b2 = bytes_of m b1) (all_payloads vars e1) (all_payloads vars e2) /\
    sizes_copied vars caps rs1 rs2 e1 e2 m m' /\
    changes (fun x => in_block x (mem_block (eb_payload e2)) \/ in_block x (mem_block (eb_size e2))) m m'.
Proof.
  intros HS B1 B2 HL EL (A1 & D1) (A2 & D2) HO HK.
  destruct (mem_inside _ _ _ _ HS B1) as (P1 & P2 & P3 & P4 & P5 & P6). destruct (mem_inside _ _ _ _ HS B2) as (Q1 & Q2 & Q3 & Q4 & Q5 & Q6).
  destruct (built_parts _ _ _ _ HS B1) as (E1 & O1). destruct (built_parts _ _ _ _ HS B2) as (E2 & O2).
  pose proof HS as (_ & HV & HC & HN & HT).
  destruct (same_layout vars caps HV HC HT rs1 rs2 e1 e2 E1 E2 EL) as (L1 & L2).
  destruct (P2 HL) as (P2a & P2b). destruct (Q2 ltac:(lia)) as (Q2a & Q2b).
  assert (Acc : forall e b d, acc m (bptr (eb_mem e)) (bsize (eb_mem e)) -> (forall x, in_block x (eb_mem e) -> m_dev m x = d) -> inside (mem_block b) (eb_mem e) -> 0 < m_len b ->
              acc m (m_ptr b) (m_len b) /\ m_dev m (m_ptr b) = d).
  { intros e b d Ha Hd Hi Hp. split; [|apply Hd, Hi; unfold in_block; cbn [mem_block bptr bsize]; lia].
    intros x Hx. apply Ha. apply (Hi x). unfold in_block. cbn [mem_block bptr bsize]. lia. }
  assert (Apart : forall b c, inside (mem_block b) (eb_mem e1) -> inside (mem_block c) (eb_mem e2) -> apart (m_ptr b) (m_len b) (m_ptr c) (m_len c)).
  { intros b c Hb Hc x (X1 & X2). apply HO. exists x. split; [apply Hb|apply Hc]; unfold in_block; cbn [mem_block bptr bsize]; lia. }
  destruct (Acc e1 _ d1 A1 D1 P2b ltac:(lia)) as (X1 & X2). destruct (Acc e2 _ d2 A2 D2 Q2b ltac:(lia)) as (Y1 & Y2).
  pose proof (Apart _ _ P2b Q2b) as Ap. rewrite <- EL in Y1, Ap.
  destruct (copy_raw k (eb_payload e1) (eb_payload e2) m EL ltac:(lia) ltac:(lia) ltac:(lia) X1 Y1 Ap) as (m1 & G1 & S1 & C1 & K1).
  { rewrite X2, Y2. exact HK. }
  unfold edm_copy, buffer_view. cbn [ev_payload ev_size ev_cap ev_vars].
  replace (m_ptr (eb_payload e1) =? 0) with false by lia. replace (m_ptr (eb_payload e2) =? 0) with false by lia.
  rewrite <- EL, Z.eqb_refl. cbn [negb andb]. replace (m_len (eb_payload e1) =? 0) with false by lia. rewrite G1. cbn [cbind].
  assert (PB : forall m', changes (fun x => in_block x (mem_block (eb_size e2))) m1 m' ->
     Forall2 (fun b1 b2 => bytes_of m' b2 = bytes_of m b1) (all_payloads vars e1) (all_payloads vars e2)).
  { intros m' (Cm & _). apply (Forall2_impl_in _ _ _ _ L1). intros b1 b2 I1 R. apply (bytes_same m m' (eb_payload e1) (eb_payload e2)); [exact R|apply O1; exact I1|].
    intros i Hi. rewrite <- K1 by exact Hi. apply Cm. intros X. apply (Q6 (m_ptr (eb_payload e2) + i)). split; [exact X|]. unfold in_block. cbn [mem_block bptr bsize]. lia. }
  assert (CH : forall m', changes (fun x => in_block x (mem_block (eb_size e2))) m1 m' ->
     changes (fun x => in_block x (mem_block (eb_payload e2)) \/ in_block x (mem_block (eb_size e2))) m m').
  { intros m' Cm. exact (changes_trans _ _ _ _ _ C1 Cm). }
  assert (K0 := C1). destruct K0 as (C1a & C1b & C1c).
  destruct (m_ptr (eb_size e2) =? 0) eqn:E0.
  - exists m1. split; [reflexivity|]. split; [exact S1|]. split; [apply PB, changes_refl|]. split; [|apply CH, changes_refl].
    assert (Z0 : m_len (eb_size e2) = 0) by (destruct (Z.eq_dec (m_len (eb_size e2)) 0); [auto|destruct (Q4 ltac:(lia)); lia]).
    assert (NC : forall q, In q (all_counters vars rs2 e2) -> 0 < bsize q -> False).
    { intros q Hq Hp. destruct O2 as (_ & _ & _ & _ & _ & _ & (O2 & _) & _). specialize (O2 q Hq (bptr q)). unfold in_block in O2. cbn [mem_block bptr bsize] in O2. lia. }
    unfold sizes_copied. destruct rs2; [|exact I]. unfold all_counters in *. destruct (existsb is_jagged vars) eqn:EJ; [|exfalso; apply (NC _ (or_introl eq_refl)); cbn; lia].
    assert (NN : concat (map counter_blocks (eb_views e2)) = []).
    { destruct (concat (map counter_blocks (eb_views e2))) as [|q l] eqn:Eq; [reflexivity|]. exfalso. apply (NC q); [left; reflexivity|].
      assert (In q (concat (map counter_blocks (eb_views e2)))) as Hq by (rewrite Eq; left; reflexivity). apply in_concat in Hq. destruct Hq as (bl & Hb & Hq).
      apply in_map_iff in Hb. destruct Hb as (ev & <- & _). destruct ev; try destruct Hq. unfold counter_blocks in Hq. apply in_map_iff in Hq. destruct Hq as (y & <- & _). cbn; lia. }
    destruct rs1.
    + destruct (L2 eq_refl eq_refl) as (_ & L3). rewrite NN in *. inversion L3; subst. constructor.
    + apply Forall_forall. intros ev Hev. destruct ev as [| |n l h inner]; try exact I. unfold counters_hold.
      assert (inner = []).
      { destruct inner as [|y inner]; [reflexivity|]. exfalso.
        assert (X : In (mkBlock (Placement.v_size y) 4 4) (concat (map counter_blocks (eb_views e2)))); [|rewrite NN in X; destruct X].
        apply in_concat. exists (counter_blocks (EJagged n l h (y :: inner))). split; [apply in_map, Hev|left; reflexivity]. }
      subst inner. apply In_nth_error in Hev. destruct Hev as (i & Hi). destruct O2 as (OL & OS & _).
      destruct (nth_error vars i) as [v|] eqn:Ev.
      * specialize (OS i v _ Ev Hi). unfold shape_ok in OS. destruct (vk v); try contradiction. destruct OS as (_ & OS & _). cbn in OS. subst caps. constructor.
      * apply nth_error_None in Ev. assert (i < length (eb_views e2))%nat by (apply nth_error_Some; congruence). lia.
  - assert (Ers : rs2 = true) by (apply Q5; lia). assert (Hlen2 : 0 < m_len (eb_size e2)) by (apply Q5; lia). subst rs2.
    destruct (Q4 Hlen2) as (Q4a & Q4b). destruct (Acc e2 _ d2 A2 D2 Q4b Hlen2) as (Z1 & Z2).
    destruct (m_ptr (eb_size e1) =? 0) eqn:E3; cbn [negb].
    + assert (rs1 = false \/ m_len (eb_size e1) = m_len (eb_size e2)) as [->|EZ].
      { destruct rs1; [right; apply L2; auto|left; auto]. }
      2:{ destruct (P4 ltac:(lia)). lia. }
      unfold copy_sizes. change (jagged_schema vars) with (existsb is_jagged vars). unfold sizes_copied.
      destruct E1 as (p1 & a1 & b1 & hi1 & s1 & l1 & h1 & ps1 & _ & _ & _ & _ & _ & EC1 & _ & _ & Ll1 & Lh1 & Lp1 & V1 & _ & [(_ & S01 & _)|[(Hf & _)|(Hf & _)]]); try discriminate Hf.
      destruct E2 as (p2 & a2 & b2 & hi2 & s2 & l2 & h2 & ps2 & F1 & F2 & F3 & _ & F4 & EC2 & F5 & _ & Ll2 & Lh2 & Lp2 & V2 & _ & [(Hf & _)|[(_ & EJ & PL & EM)|(_ & EJ & s & Es & EM)]]); try discriminate Hf; rewrite EJ.
      * cbn [ev_vars]. rewrite V1, V2, S01.
        assert (Am : acc m1 p2 (a2 - p2)).
        { apply (acc_same m); [exact S1|]. intros x Hx. apply A2. rewrite F4. cbn [bptr bsize]. pose proof (placed_le b2 hi2 _ ps2 (PS_ok vars caps HV) F5). lia. }
        destruct (copy_sizes_placed caps HC vars p2 a2 l1 h1 ps1 s2 l2 h2 ps2 m1 Ll1 Lh1 Lp1 Ll2 Lh2 Lp2 F1 PL Am) as (m2 & G2 & S2 & C2 & H2).
        assert (C2' : changes (fun x => in_block x (mem_block (eb_size e2))) m1 m2).
        { apply (changes_weaken _ _ _ _ C2). intros x (_ & b & Hb & Hx). destruct O2 as (_ & _ & _ & _ & _ & _ & (O2 & _) & _). apply (O2 b); [|exact Hx].
          unfold all_counters. rewrite EJ, V2. exact Hb. }
        exists m2. split; [exact G2|]. split; [apply (same_acc_trans _ m1); auto|]. split; [apply PB, C2'|]. split; [exact H2|apply CH, C2'].
      * cbn [ev_cap ev_size].
        destruct (do_copy_in_ok (size_cptype k) (le32 (eb_cap e1)) (m_ptr (eb_size e2)) m1) as (m2 & G2 & C2 & S2 & H2).
        { discriminate. } { lia. }
        { unfold kind_check. rewrite C1b, C1c, Z2. apply (size_kind m k d1). exact HK. }
        { rewrite le32_len. change (Z.of_nat 4) with 4. apply (acc_same m); [exact S1|]. rewrite EM in Z1 |- *. exact Z1. }
        assert (C2' : changes (fun x => in_block x (mem_block (eb_size e2))) m1 m2).
        { apply (changes_weaken _ _ _ _ C2). rewrite EM. unfold within, in_block. cbn [mem_block bptr bsize m_ptr m_len]. rewrite le32_len. change (Z.of_nat 4) with 4. auto. }
        exists m2. split; [exact G2|]. split; [apply (same_acc_trans _ m1); auto|]. split; [apply PB, C2'|]. split; [|apply CH, C2'].
        rewrite le32_len in H2. rewrite H2, EC1. rewrite wrap32_small by lia. reflexivity.
    + assert (rs1 = true) by (apply P5; lia). subst rs1. destruct (L2 eq_refl eq_refl) as (EZ & L3).
      rewrite EZ, Z.eqb_refl. cbn [negb]. destruct (P4 ltac:(lia)) as (P4a & P4b). destruct (Acc e1 _ d1 A1 D1 P4b ltac:(lia)) as (W1 & W2).
      pose proof (Apart _ _ P4b Q4b) as Ap2. rewrite <- EZ in Z1, Ap2.
      destruct (copy_raw k (eb_size e1) (eb_size e2) m1 EZ ltac:(lia) ltac:(lia) ltac:(lia)) as (m2 & G2 & S2 & C2 & K2).
      { apply (acc_same m); auto. } { apply (acc_same m); auto. } { exact Ap2. } { unfold kind_check. rewrite C1b, C1c, W2, Z2. exact HK. }
      rewrite G2. cbn [cbind]. exists m2. split; [reflexivity|]. split; [apply (same_acc_trans _ m1); auto|].
      split; [apply PB; exact C2|]. split; [|apply CH; exact C2].
      unfold sizes_copied. apply (Forall2_impl_in _ _ _ _ L3). intros b1 b2 I1 R. apply (bytes_same m m2 (eb_size e1) (eb_size e2)); [exact R|apply O1; exact I1|].
      intros i Hi. rewrite K2 by exact Hi. apply C1a. intros X. unfold within in X. apply HO. exists (m_ptr (eb_size e1) + i).
      split; [apply P4b; unfold in_block; cbn [mem_block bptr bsize]; lia|apply Q2b; unfold in_block; cbn [mem_block bptr bsize]; lia].
Qed.

(** Without an assumption about the lengths: the same kind of buffer, with the usual
    alignments. *)
Theorem edm_copy_same vars caps rs e1 e2 k m d1 d2 : schema_ok vars caps -> (forall v, In v vars -> ve_al v <= 16) ->
  built vars caps rs e1 -> built vars caps rs e2 -> 0 < m_len (eb_payload e1) ->
  region m (eb_mem e1) d1 -> region m (eb_mem e2) d2 -> ~ overlap (eb_mem e1) (eb_mem e2) -> kind_check m k d1 d2 = true ->
  exists m', edm_copy vars k (buffer_view e1) (buffer_view e2) m = (Ret tt, m') /\
    Forall2 (fun b1 b2 => bytes_of m' b2 = bytes_of m b1) (all_payloads vars e1) (all_payloads vars e2) /\
    Forall2 (fun b1 b2 => bytes_of m' b2 = bytes_of m b1) (all_counters vars rs e1) (all_counters vars rs e2) /\
    changes (fun x => in_block x (mem_block (eb_payload e2)) \/ in_block x (mem_block (eb_size e2))) m m'.
Proof.
  intros HS HA B1 B2 HL R1 R2 HO HK. pose proof HS as (Hne & HV & _). pose proof B1 as (Hn & _).
  pose proof (same_length vars caps rs e1 e2 Hne HV HA Hn (proj1 (built_parts _ _ _ _ HS B1)) (proj1 (built_parts _ _ _ _ HS B2))) as EL.
  destruct (edm_copy_fast vars caps rs rs e1 e2 k m d1 d2 HS B1 B2 HL EL R1 R2 HO HK) as (m' & G & _ & F & S & C).
  exists m'. split; [exact G|]. split; [exact F|]. split; [|exact C]. destruct rs; [exact S|constructor].
Qed.

(** ** setup, get_size and memset *)
Lemma size_unit vars caps rs e : schema_ok vars caps -> built vars caps rs e -> caps <> [] -> rs = true ->
  0 < m_len (eb_size e) /\ (existsb is_jagged vars = false -> m_len (eb_size e) = 4 /\ m_ptr (eb_size e) <> 0).
Proof.
  intros HS HB Hc ->. destruct (mem_inside _ _ _ _ HS HB) as (_ & _ & M1 & M2 & _).
  destruct (built_parts _ _ _ _ HS HB) as ((p & a & b & hi & sizes & ls & hs & ps & A & B & C & _ & D & EC & F & _ & _ & _ & _ & _ & _ & [(H & _)|[(_ & EJ & PL & EM)|(_ & EJ & s & Es & EM)]]) & _); [discriminate| |].
  - split; [|congruence]. rewrite EM. cbn [m_len]. apply existsb_exists in EJ. destruct EJ as (v & Hv & Ej).
    apply In_nth_error in Hv. destruct Hv as (i & Hi).
    assert (Et : nth_error (map (size_sect caps) vars) i = Some (size_sect caps v)) by (rewrite nth_error_map, Hi; reflexivity).
    pose proof (count_firstn (map (size_sect caps) vars) i _ (SS_ok vars caps) Et) as CF. unfold size_sect at 3 in CF. cbn [s_n] in CF.
    unfold is_jagged in Ej. unfold layout_size in CF. destruct (vk v); try discriminate. destruct caps as [|c cs]; [congruence|]. cbn [length] in CF.
    assert (FO : Forall sect_ok (firstn i (map (size_sect (c :: cs)) vars))) by (apply Forall_firstn'; apply SS_ok). pose proof (count_nonneg _ FO). lia.
  - rewrite EM in *. cbn [m_len m_ptr] in *. split; [lia|]. intros _. split; [reflexivity|]. destruct (M2 ltac:(lia)). lia.
Qed.

Theorem edm_setup_thm vars caps e m d : schema_ok vars caps -> built vars caps true e -> caps <> [] -> region m (eb_mem e) d ->
  exists m', edm_setup (buffer_view e) m = (Ret tt, m') /\ changes (fun x => in_block x (mem_block (eb_size e))) m m' /\
    Forall (fun b => bytes_of m' b = Some (le32 0)) (all_counters vars true e) /\
    (existsb is_jagged vars = false -> edm_get_size vars (buffer_view e) m' = (Ret 0, m')).
Proof.
  intros HS HB Hc (A1 & D1). destruct (mem_inside _ _ _ _ HS HB) as (_ & _ & M1 & M2 & _). destruct (size_unit _ _ _ _ HS HB Hc eq_refl) as (L & LJ).
  destruct (built_parts _ _ _ _ HS HB) as ((p & a & b & hi & sizes & ls & hs & ps & _ & _ & _ & _ & _ & EC & _) & O).
  destruct (M2 L) as (P & I). pose proof HS as (_ & _ & _ & HN & _).
  unfold edm_setup, buffer_view. cbn [ev_cap ev_size]. rewrite EC, wrap32_small by lia.
  assert (0 < Z.of_nat (length caps)) by (destruct caps; [congruence|cbn [length]; lia]).
  replace (Z.of_nat (length caps) =? 0) with false by lia. replace (m_ptr (eb_size e) =? 0) with false by lia. replace (m_len (eb_size e) =? 0) with false by lia.
  destruct (do_memset_ok (m_len (eb_size e)) (m_ptr (eb_size e)) 0 m) as (m' & G & C & _ & B); [lia|lia| |].
  { intros x Hx. apply A1. apply (I x). unfold in_block. cbn [mem_block bptr bsize]. lia. }
  exists m'. split; [exact G|]. split; [exact C|].
  assert (F : Forall (fun b => bytes_of m' b = Some (le32 0)) (all_counters vars true e)).
  { apply Forall_forall. intros q Hq. assert (bsize q = 4).
    { unfold all_counters in Hq. destruct (existsb is_jagged vars); [|destruct Hq as [<-|[]]; reflexivity]. apply in_concat in Hq. destruct Hq as (l & Hl & Hq).
      apply in_map_iff in Hl. destruct Hl as (ev & <- & _). destruct ev; try destruct Hq. cbn [counter_blocks] in Hq. apply in_map_iff in Hq. destruct Hq as (y & <- & _). reflexivity. }
    destruct O as (_ & _ & _ & _ & _ & _ & (O & _) & _). specialize (O q Hq). unfold bytes_of. rewrite H0. change (Z.to_nat 4) with 4%nat. cbn [get_bytes].
    assert (K : forall x, bptr q <= x < bptr q + 4 -> m_byte m' x = Some 0).
    { intros x Hx. rewrite (B x); [reflexivity|]. apply (O x). unfold in_block. lia. }
    rewrite !K by lia. reflexivity. }
  split; [exact F|]. intros EJ. destruct (LJ EJ) as (L4 & LP). unfold edm_get_size, jagged_schema. rewrite EJ. cbn [ev_size ev_cap].
  replace (m_ptr (eb_size e) =? 0) with false by lia. rewrite L4. cbn [Z.eqb Pos.eqb negb].
  unfold all_counters in F. rewrite EJ in F. inversion F as [|? ? F1 _]; subst. unfold bytes_of in F1. cbn [bptr bsize] in F1.
  rewrite (do_copy_out_ok 4 _ m' _ LP F1). reflexivity.
Qed.
Theorem edm_setup_fixed vars caps e m : schema_ok vars caps -> built vars caps false e ->
  edm_setup (buffer_view e) m = (Ret tt, m) /\ edm_get_size vars (buffer_view e) m = (Ret (Z.of_nat (length caps)), m).
Proof.
  intros HS HB. destruct (built_parts _ _ _ _ HS HB) as ((p & a & b & hi & sizes & ls & hs & ps & _ & _ & _ & _ & _ & EC & _ & _ & _ & _ & _ & _ & _ & [(_ & _ & EM)|[(H & _)|(H & _)]]) & _); try discriminate.
  pose proof HS as (_ & _ & _ & HN & _). unfold edm_setup, edm_get_size, buffer_view. cbn [ev_cap ev_size]. rewrite EM, EC, wrap32_small by lia. cbn [m_ptr Z.eqb].
  split; [destruct (_ =? 0); reflexivity|destruct (jagged_schema vars); reflexivity].
Qed.

Theorem edm_memset_thm vars caps rs e m d value : schema_ok vars caps -> built vars caps rs e -> 0 < m_len (eb_payload e) -> region m (eb_mem e) d ->
  exists m', edm_memset vars (buffer_view e) value m = (Ret tt, m') /\ changes (fun x => in_block x (mem_block (eb_payload e))) m m' /\
    forall b x, In b (all_payloads vars e) -> in_block x b -> m_byte m' x = Some (value mod 256).
Proof.
  intros HS HB L (A1 & D1). destruct (mem_inside _ _ _ _ HS HB) as (M0 & M2 & _). destruct (M2 L) as (P & I). destruct (built_parts _ _ _ _ HS HB) as (_ & O).
  unfold edm_memset, buffer_view. cbn [ev_payload]. replace (m_ptr (eb_payload e) =? 0) with false by lia. cbn [negb].
  destruct (memset_vector_thm 1 (raw_view (eb_payload e)) value m) as (m' & G & C & B).
  { lia. } { cbn [raw_view v_cap]. lia. } { intros _. cbn [raw_view v_ptr]. lia. }
  { cbn [raw_view v_ptr v_cap]. rewrite Z.mul_1_r. intros x Hx. apply A1. apply (I x). unfold in_block. cbn [mem_block bptr bsize]. lia. }
  cbn [raw_view v_cap v_ptr] in C, B. rewrite Z.mul_1_r in C, B.
  exists m'. split; [exact G|]. split; [exact C|]. intros b x Hb Hx. apply B. destruct O as (_ & _ & _ & _ & (O & _) & _). apply (O b Hb x Hx).
Qed.
