(** The layout theorem for edm::buffer. *)
From Verif Require Import Base BaseLemmas IntMath IntMathProofs Align AlignProofs Placement PlacementProofs JaggedBufferProofs EdmBuffer EdmBufferProofs.

Fixpoint map2 {A B C} (f : A -> B -> C) (l : list A) (m : list B) : list C :=
  match l, m with x :: l', y :: m' => f x y :: map2 f l' m' | _, _ => [] end.
Lemma map2_nth {A B C} (f : A -> B -> C) l m i : nth_error (map2 f l m) i =
  match nth_error l i, nth_error m i with Some x, Some y => Some (f x y) | _, _ => None end.
Proof.
  revert m i. induction l as [|x l IH]; intros [|y m] [|i]; cbn [map2 nth_error]; auto.
  - destruct (nth_error l i); auto.
Qed.
Lemma map2_length {A B C} (f : A -> B -> C) l m : length l = length m -> length (map2 f l m) = length l.
Proof. revert m. induction l as [|x l IH]; intros [|y m] H; cbn [map2 length] in *; try lia. f_equal. apply IH. lia. Qed.

(** ** What the statements talk about *)

(** Memory ranges of a variable: its elements, the array of inner views, and the
    size counters of a jagged vector. *)
Definition payload_blocks (v : var) (e : eview) : list block :=
  match e with
  | EScalar p => [mkBlock p (ve_sz v) (ve_al v)]
  | EVector x => [mkBlock (v_ptr x) (v_cap x * ve_sz v) (ve_al v)]
  | EJagged _ _ _ inner => map (fun x => mkBlock (v_ptr x) (v_cap x * ve_sz v) (ve_al v)) inner
  end.
Definition layout_blocks (e : eview) : list block :=
  match e with EJagged n l _ _ => [mkBlock l (24 * n) 8] | _ => [] end.
Definition counter_blocks (e : eview) : list block :=
  match e with EJagged _ _ _ inner => map (fun x => mkBlock (v_size x) 4 4) inner | _ => [] end.

Definition all_payloads (vars : list var) (e : ebuf) : list block := concat (map2 payload_blocks vars (eb_views e)).
Definition all_layouts (e : ebuf) : list block := concat (map layout_blocks (eb_views e)).
Definition all_counters (vars : list var) (resizable : bool) (e : ebuf) : list block :=
  if resizable then
    if existsb is_jagged vars then concat (map counter_blocks (eb_views e))
    else [mkBlock (m_ptr (eb_size e)) 4 4]
  else [].
Definition mem_block (m : mview) : block := mkBlock (m_ptr m) (m_len m) 1.

(** [m] spans the blocks [l]: it contains them, and starts and ends with one. *)
Definition spans (m : mview) (l : list block) : Prop :=
  (forall b, In b l -> inside b (mem_block m)) /\
  (0 < m_len m -> (exists b, In b l /\ in_block (m_ptr m) b) /\ (exists b, In b l /\ in_block (m_ptr m + m_len m - 1) b)) /\
  0 <= m_len m /\ (m_len m = 0 -> m_ptr m = 0).

(** The views describe the requested variables. *)
Definition shape_ok (caps : list Z) (rs jagged : bool) (msize : mview) (v : var) (e : eview) : Prop :=
  match vk v, e with
  | KScalar, EScalar _ => True
  | KVector, EVector x => v_cap x = Z.of_nat (length caps) /\ v_size x = (if rs && negb jagged then m_ptr msize else 0)
  | KJagged, EJagged n _ _ inner =>
      n = Z.of_nat (length caps) /\ map v_cap inner = caps /\
      (rs = false -> forall x, In x inner -> v_size x = 0)
  | _, _ => False
  end.

Definition vars_ok (vars : list var) : Prop :=
  forall v, In v vars -> 0 < ve_sz v /\ pow2 (ve_al v) /\ (ve_al v | ve_sz v).

(** ** Proof *)
Section Geometry.
  Variables (vars : list var) (caps : list Z).
  Hypothesis HV : vars_ok vars.
  Hypothesis HC : Forall (fun c => 0 <= c < 2 ^ 32) caps.
  Hypothesis HN : Z.of_nat (length caps) < 2 ^ 32.
  Hypothesis HT : total caps < 2 ^ 32.

  Let LS := map (layout_sect caps) vars.
  Let PS := map (payload_sect caps) vars.
  Let SS := map (size_sect caps) vars.

  Lemma payload_size_nonneg v : 0 <= payload_size caps v.
  Proof. unfold payload_size. destruct (vk v); try lia. unfold wrap64. apply Z.mod_pos_bound. reflexivity. Qed.
  Lemma LS_ok : Forall sect_ok LS.
  Proof.
    apply Forall_forall. intros t Ht. apply in_map_iff in Ht. destruct Ht as (v & <- & _).
    unfold layout_sect, layout_size, sect_ok. destruct (vk v); cbn [s_esz s_al s_n]; (split; [lia|]; split; [|lia]).
    - exists 2; split; [lia|reflexivity].
    - exists 2; split; [lia|reflexivity].
    - exists 3; split; [lia|reflexivity].
  Qed.
  Lemma SS_ok : Forall sect_ok SS.
  Proof.
    apply Forall_forall. intros t Ht. apply in_map_iff in Ht. destruct Ht as (v & <- & _).
    unfold size_sect, layout_size, sect_ok. cbn [s_esz s_al s_n]. split; [lia|]. split; [exists 2; split; [lia|reflexivity]|].
    destruct (vk v); lia.
  Qed.
  Lemma PS_ok : Forall sect_ok PS.
  Proof.
    apply Forall_forall. intros t Ht. apply in_map_iff in Ht. destruct Ht as (v & <- & Hv).
    destruct (HV v Hv) as (H1 & H2 & _). unfold payload_sect, sect_ok. cbn [s_esz s_al s_n].
    split; [auto|]. split; [auto|]. apply payload_size_nonneg.
  Qed.
  Lemma LS_uniform : uniform 24 8 LS.
  Proof.
    intros t Ht Hn. apply in_map_iff in Ht. destruct Ht as (v & <- & _). unfold layout_sect, layout_size in *.
    destruct (vk v); cbn [s_esz s_al s_n] in *; try lia.
  Qed.
  Lemma SS_uniform : uniform 4 4 SS.
  Proof. intros t Ht Hn. apply in_map_iff in Ht. destruct Ht as (v & <- & _). auto. Qed.

  Lemma total_wrap : wrap64 (total caps) = total caps.
  Proof. apply wrap64_small. pose proof (total_nonneg caps HC). lia. Qed.
  Lemma len_wrap : wrap32 (Z.of_nat (length caps)) = Z.of_nat (length caps).
  Proof. apply wrap32_small. lia. Qed.

  Lemma make_views_nth i sizes ls hs ps v s l h p :
    nth_error vars i = Some v -> nth_error sizes i = Some s -> nth_error ls i = Some l ->
    nth_error hs i = Some h -> nth_error ps i = Some p ->
    nth_error (make_views caps vars sizes ls hs ps) i = Some (make_view caps v s l h p).
  Proof.
    clear. revert i sizes ls hs ps. induction vars as [|u us IH]; intros [|i] [|] [|] [|] [|]; cbn [nth_error make_views]; try discriminate.
    - intros. congruence.
    - intros. eauto.
  Qed.
  Lemma make_views_length sizes ls hs ps : length sizes = length vars -> length ls = length vars ->
    length hs = length vars -> length ps = length vars -> length (make_views caps vars sizes ls hs ps) = length vars.
  Proof.
    clear. revert sizes ls hs ps. induction vars as [|u us IH]; intros [|] [|] [|] [|]; cbn [length make_views]; try lia.
    intros. f_equal. apply IH; lia.
  Qed.

  (** Blocks grouped by section. *)
  Lemma concat_disjoint lo hi ts ps Bss : Forall sect_ok ts -> placed lo hi ts ps -> length Bss = length ts ->
    (forall i t x B, nth_error ts i = Some t -> nth_error ps i = Some x -> nth_error Bss i = Some B ->
       pairwise_disjoint B /\ forall b, In b B -> 0 < bsize b -> 0 < s_n t /\ x <= bptr b /\ bptr b + bsize b <= x + s_n t * s_esz t) ->
    pairwise_disjoint (concat Bss) /\
    forall b, In b (concat Bss) -> 0 < bsize b -> lo <= bptr b /\ bptr b + bsize b <= hi.
  Proof.
    clear. intros HF. revert lo ps Bss. induction HF as [|t ts (H1 & H2 & H3) HF IH]; intros lo ps [|B Bss] HP HL HB; cbn [length] in HL; try lia.
    - cbn. split; [auto|]. intros b [].
    - destruct ps as [|x ps]; [destruct HP|]. cbn [placed] in HP. cbn [concat].
      destruct (HB 0%nat t x B eq_refl eq_refl eq_refl) as (B1 & B2).
      pose proof (Z.mul_nonneg_nonneg (s_n t) (s_esz t) H3 ltac:(lia)) as Hm.
      assert (HP' : exists lo', placed lo' hi ts ps /\ lo <= lo' /\ (0 < s_n t -> lo <= x /\ x + s_n t * s_esz t <= lo')).
      { destruct (s_n t =? 0) eqn:E0.
        - apply Z.eqb_eq in E0. exists lo. destruct HP as (_ & HP). split; [auto|]. split; lia.
        - destruct HP as (P1 & _ & HP). eexists. split; [exact HP|]. split; lia. }
      destruct HP' as (lo' & HP' & Hlo & Hx).
      destruct (IH lo' ps Bss HP' ltac:(lia)) as (I1 & I2).
      { intros i u y C Hu Hy HC. apply (HB (S i)); auto. }
      pose proof (placed_le _ _ _ _ HF HP') as Hle. split.
      + apply pairwise_disjoint_app. split; [auto|]. split; [auto|].
        intros b c Hb Hc (z & Z1 & Z2). unfold in_block in *.
        destruct (B2 b Hb ltac:(lia)) as (Q1 & Q2 & Q3). destruct (I2 c Hc ltac:(lia)) as (Q4 & Q5). specialize (Hx Q1). lia.
      + intros b Hb Hpos. apply in_app_or in Hb. destruct Hb as [Hb|Hb].
        * destruct (B2 b Hb Hpos) as (Q1 & Q2 & Q3). specialize (Hx Q1). lia.
        * destruct (I2 b Hb Hpos). lia.
  Qed.

  Lemma in_concat_nth {X} (ls : list (list X)) x : In x (concat ls) -> exists i l, nth_error ls i = Some l /\ In x l.
  Proof.
    clear. intros H. apply in_concat in H. destruct H as (l & Hl & Hx). apply In_nth_error in Hl. destruct Hl as (i & Hi).
    exists i, l. auto.
  Qed.
  Lemma nth_in_concat {X} (ls : list (list X)) i l x : nth_error ls i = Some l -> In x l -> In x (concat ls).
  Proof. clear. intros H Hx. apply in_concat. exists l. split; auto. eapply nth_error_In; eauto. Qed.

  Lemma count_split (ts : list sect) y : Forall sect_ok ts -> 0 <= y < count ts ->
    exists i t, nth_error ts i = Some t /\ count (firstn i ts) <= y < count (firstn i ts) + s_n t.
  Proof.
    clear. intros HF. revert y. induction HF as [|t ts (_ & _ & H3) HF IH]; intros y Hy; cbn [count fold_right] in Hy; [lia|].
    fold (count ts) in Hy. destruct (Z_lt_ge_dec y (s_n t)).
    - exists 0%nat, t. split; [reflexivity|]. cbn. lia.
    - destruct (IH (y - s_n t) ltac:(lia)) as (i & u & Eu & Hu). exists (S i), u. split; [exact Eu|].
      cbn [firstn count fold_right]. fold (count (firstn i ts)). lia.
  Qed.
  Lemma count_firstn (ts : list sect) i t : Forall sect_ok ts -> nth_error ts i = Some t ->
    0 <= count (firstn i ts) /\ count (firstn i ts) + s_n t <= count ts.
  Proof.
    clear. intros HF. revert i. induction HF as [|u ts (_ & _ & H3) HF IH]; intros [|i] E; try discriminate; cbn [nth_error firstn count fold_right] in *; fold (count ts).
    - injection E as ->. pose proof (count_nonneg ts HF). lia.
    - fold (count (firstn i ts)). destruct (IH _ E). lia.
  Qed.
  Lemma uniform_last E A lo hi ts ps : 0 < lo -> 0 < E -> 0 < A -> (A | E) -> Forall sect_ok ts -> uniform E A ts ->
    placed lo hi ts ps -> find_last ps ts = find_first ps + E * count ts.
  Proof.
    clear. intros Hlo HE HA HAE HF HU HP. destruct (find_ends lo hi ts ps Hlo HF HP) as (F1 & F2 & F3).
    destruct (uniform_first E A lo hi ts ps Hlo HE HA HAE HF HU HP) as (_ & U2).
    pose proof (count_nonneg ts HF) as Hc. destruct (Z.eq_dec (count ts) 0) as [E0|E0].
    { destruct (F1 E0) as (-> & ->). rewrite E0. lia. }
    destruct (F2 ltac:(lia)) as (_ & _ & _ & (j & u & y & Ej & Hu & Ey & EL)).
    rewrite (U2 j u y Ej Ey Hu) in EL. destruct (HU u (nth_error_In _ _ Ej) Hu) as (Eu & _). rewrite Eu in EL.
    destruct (count_firstn ts j u HF Ej) as (C1 & C2).
    destruct (count_split ts (count ts - 1) HF ltac:(lia)) as (i & t & Ei & Hi).
    assert (Hlt : (i < length ps)%nat) by (rewrite (placed_length _ _ _ _ HP); eapply nth_error_lt; eauto).
    destruct (nth_error ps i) as [x|] eqn:Ex; [|apply nth_error_None in Ex; lia].
    destruct (count_firstn ts i t HF Ei) as (D1 & D2).
    destruct (F3 i t x Ei Ex ltac:(lia)) as (_ & G). rewrite (U2 i t x Ei Ex ltac:(lia)) in G.
    destruct (HU t (nth_error_In _ _ Ei) ltac:(lia)) as (Et & _). rewrite Et in G.
    pose proof (Z.mul_le_mono_nonneg_l _ _ E ltac:(lia) C2) as M1. rewrite Z.mul_add_distr_l in M1.
    assert (M2 : E * count ts = E * count (firstn i ts) + E * s_n t) by (rewrite <- Z.mul_add_distr_l; f_equal; lia). lia.
  Qed.

  (** One buffer: [mem] is cut into counters, layouts and payloads. *)
  Variables (mem : block) (a b : Z) (sizes ls ps hs : list Z).
  Let hi := bptr mem + bsize mem.
  Hypothesis Hmem : 0 < bptr mem.
  Hypothesis Hsmall : bsize mem < 2 ^ 32.
  Hypothesis Hab : bptr mem <= a <= b.
  Hypothesis HPL : placed a b LS ls.
  Hypothesis HPP : placed b hi PS ps.
  Hypothesis Hsz : length sizes = length vars.
  Hypothesis Hhs : length hs = length vars.
  Let views := make_views caps vars sizes ls hs ps.

  Lemma ls_len : length ls = length vars.
  Proof. rewrite (placed_length _ _ _ _ HPL). unfold LS. apply map_length. Qed.
  Lemma ps_len : length ps = length vars.
  Proof. rewrite (placed_length _ _ _ _ HPP). unfold PS. apply map_length. Qed.
  Lemma views_len : length views = length vars.
  Proof. apply make_views_length; auto using ls_len, ps_len. Qed.

  Lemma view_nth i e : nth_error views i = Some e ->
    exists v s l h p, nth_error vars i = Some v /\ nth_error sizes i = Some s /\ nth_error ls i = Some l /\
      nth_error hs i = Some h /\ nth_error ps i = Some p /\ e = make_view caps v s l h p.
  Proof.
    intros E. assert (Hi : (i < length vars)%nat) by (rewrite <- views_len; eapply nth_error_lt; eauto).
    destruct (nth_error vars i) as [v|] eqn:Ev; [|apply nth_error_None in Ev; lia].
    destruct (nth_error sizes i) as [s|] eqn:Es; [|apply nth_error_None in Es; lia].
    destruct (nth_error ls i) as [l|] eqn:El; [|apply nth_error_None in El; rewrite ls_len in El; lia].
    destruct (nth_error hs i) as [h|] eqn:Eh; [|apply nth_error_None in Eh; lia].
    destruct (nth_error ps i) as [p|] eqn:Ep; [|apply nth_error_None in Ep; rewrite ps_len in Ep; lia].
    exists v, s, l, h, p. repeat (split; [auto|]).
    pose proof (make_views_nth i sizes ls hs ps v s l h p Ev Es El Eh Ep) as E'. fold views in E'. congruence.
  Qed.

  Let PB := map2 payload_blocks vars views.
  Let LB := map layout_blocks views.

  Lemma payload_group i t x B : nth_error PS i = Some t -> nth_error ps i = Some x -> nth_error PB i = Some B ->
    pairwise_disjoint B /\
    forall q, In q B -> 0 < bsize q ->
      0 < s_n t /\ x <= bptr q /\ bptr q + bsize q <= x + s_n t * s_esz t /\ ((s_al t | x) -> (balign q | bptr q)).
  Proof.
    intros Et Ex EB. unfold PB in EB. rewrite map2_nth in EB.
    destruct (nth_error vars i) as [v|] eqn:Ev; [|discriminate]. destruct (nth_error views i) as [e|] eqn:Ee; [|discriminate].
    injection EB as <-. destruct (view_nth i e Ee) as (v' & s & l & h & p & Ev' & Es & El & Eh & Ep & ->).
    replace v' with v in * by congruence. replace p with x in * by congruence. clear v' Ev' p Ep.
    unfold PS in Et. rewrite nth_error_map, Ev in Et. injection Et as <-.
    destruct (HV v (nth_error_In _ _ Ev)) as (V1 & V2 & V3).
    unfold payload_sect, payload_size, make_view, payload_blocks. cbn [s_n s_esz s_al]. destruct (vk v).
    - split; [cbn; tauto|]. intros q [<-|[]] Hq. cbn [bptr bsize balign] in *. split; [lia|]. split; [lia|]. split; [lia|auto].
    - rewrite len_wrap. split; [cbn; tauto|]. intros q [<-|[]] Hq. cbn [bptr bsize balign v_ptr v_cap] in *.
      split; [|split; [lia|]; split; [lia|auto]]. destruct (Z.of_nat (length caps)) eqn:EN; lia.
    - rewrite total_wrap. split.
      + change (fun x0 => mkBlock (v_ptr x0) (v_cap x0 * ve_sz v) (ve_al v)) with (payload_of (ve_sz v) (ve_al v)).
        apply payloads_disjoint; auto.
      + intros q Hq Hpos. apply in_map_iff in Hq. destruct Hq as (u & <- & Hu). apply In_nth_error in Hu. destruct Hu as (k & Eu).
        destruct (view_at (ve_sz v) s x caps HC k u Eu) as (c & Ec & Hc & Ecap & _ & Eptr & Hn0 & Hle).
        destruct (payload_range (ve_sz v) s x caps V1 HC k u Eu) as (R1 & R2).
        cbn [bptr bsize balign] in *. split.
        { destruct (Z.eq_dec c 0) as [E0|]; [rewrite Ecap, E0 in Hpos; lia|lia]. }
        split; [lia|]. split; [lia|]. intros Hd. rewrite Eptr. apply Z.divide_add_r; [auto|]. apply Z.divide_mul_l. auto.
  Qed.

  Lemma layout_group i t x B : nth_error LS i = Some t -> nth_error ls i = Some x -> nth_error LB i = Some B ->
    pairwise_disjoint B /\
    forall q, In q B -> 0 < bsize q ->
      0 < s_n t /\ x <= bptr q /\ bptr q + bsize q <= x + s_n t * s_esz t /\ ((s_al t | x) -> (balign q | bptr q)).
  Proof.
    intros Et Ex EB. unfold LB in EB. rewrite nth_error_map in EB.
    destruct (nth_error views i) as [e|] eqn:Ee; [|discriminate]. injection EB as <-.
    destruct (view_nth i e Ee) as (v & s & l & h & p & Ev & Es & El & Eh & Ep & ->).
    replace l with x in * by congruence. unfold LS in Et. rewrite nth_error_map, Ev in Et. injection Et as <-.
    unfold layout_sect, layout_size, make_view, layout_blocks. destruct (vk v); cbn [s_n s_esz s_al].
    - split; [cbn; auto|]. intros q [].
    - split; [cbn; auto|]. intros q [].
    - rewrite len_wrap. split; [cbn; tauto|]. intros q [<-|[]] Hq. cbn [bptr bsize balign] in *. split; [lia|]. split; [lia|]. split; [lia|auto].
  Qed.

  Lemma PB_len : length PB = length PS.
  Proof. unfold PB, PS. rewrite map2_length, map_length; auto. rewrite views_len. reflexivity. Qed.
  Lemma LB_len : length LB = length LS.
  Proof. unfold LB, LS. rewrite !map_length. apply views_len. Qed.

  (** The combined lemma for a group of sections. *)
  Lemma group_thm lo1 hi1 ts xs Bss : 0 < lo1 -> hi1 - lo1 < 2 ^ 32 -> Forall sect_ok ts -> placed lo1 hi1 ts xs -> length Bss = length ts ->
    (forall i t x B, nth_error ts i = Some t -> nth_error xs i = Some x -> nth_error Bss i = Some B ->
       pairwise_disjoint B /\
       forall q, In q B -> 0 < bsize q ->
         0 < s_n t /\ x <= bptr q /\ bptr q + bsize q <= x + s_n t * s_esz t /\ ((s_al t | x) -> (balign q | bptr q))) ->
    (* every section is covered at its ends *)
    (forall i t x B, nth_error ts i = Some t -> nth_error xs i = Some x -> nth_error Bss i = Some B -> 0 < s_n t ->
       (exists q, In q B /\ in_block x q) /\ (exists q, In q B /\ in_block (x + s_n t * s_esz t - 1) q)) ->
    pairwise_disjoint (concat Bss) /\
    (forall q, In q (concat Bss) -> 0 < bsize q -> lo1 <= bptr q /\ bptr q + bsize q <= hi1 /\ (balign q | bptr q)) /\
    spans (find_view xs ts) (concat Bss) /\
    (0 < m_len (find_view xs ts) -> lo1 <= m_ptr (find_view xs ts) /\ m_ptr (find_view xs ts) + m_len (find_view xs ts) <= hi1).
  Proof.
    clear. intros Hlo Hsm HF HP HL HB HE.
    destruct (concat_disjoint lo1 hi1 ts xs Bss HF HP HL) as (D1 & D2).
    { intros i t x B Et Ex EB. destruct (HB i t x B Et Ex EB) as (B1 & B2). split; [auto|].
      intros q Hq Hpos. destruct (B2 q Hq Hpos) as (Q1 & Q2 & Q3 & _). auto. }
    destruct (find_ends lo1 hi1 ts xs Hlo HF HP) as (F1 & F2 & F3).
    pose proof (count_nonneg ts HF) as Hc.
    assert (Hnth : forall q, In q (concat Bss) -> 0 < bsize q -> exists i t x B, nth_error ts i = Some t /\ nth_error xs i = Some x /\
              nth_error Bss i = Some B /\ In q B).
    { intros q Hq Hpos. destruct (in_concat_nth Bss q Hq) as (i & B & EB & HqB).
      assert (Hi : (i < length ts)%nat) by (rewrite <- HL; eapply nth_error_lt; eauto).
      destruct (nth_error ts i) as [t|] eqn:Et; [|apply nth_error_None in Et; lia].
      destruct (nth_error xs i) as [x|] eqn:Ex; [|apply nth_error_None in Ex; rewrite (placed_length _ _ _ _ HP) in Ex; lia].
      exists i, t, x, B. auto. }
    assert (HW : m_len (find_view xs ts) = find_last xs ts - find_first xs).
    { unfold find_view. cbn [m_len]. apply wrap32_small. destruct (Z.eq_dec (count ts) 0) as [E0|E0].
      - destruct (F1 E0) as (-> & ->). lia.
      - destruct (F2 ltac:(lia)) as (A1 & A2 & (i & t & Ei & Hi & Exi) & _).
        destruct (F3 i t _ Ei Exi Hi) as (A3 & A4). rewrite Forall_forall in HF.
        destruct (HF t (nth_error_In _ _ Ei)) as (T1 & _). pose proof (Z.mul_pos_pos (s_n t) (s_esz t) Hi T1). lia. }
    split; [exact D1|]. split; [|split].
    - intros q Hq Hpos. destruct (D2 q Hq Hpos) as (A1 & A2). split; [auto|]. split; [auto|].
      destruct (Hnth q Hq Hpos) as (i & t & x & B & Et & Ex & EB & HqB).
      destruct (HB i t x B Et Ex EB) as (_ & B2). destruct (B2 q HqB Hpos) as (Q1 & _ & _ & Q4). apply Q4.
      destruct (placed_nth _ _ _ _ HF HP i t x Et Ex) as (_ & P2). apply P2. auto.
    - unfold spans. rewrite HW. change (m_ptr (find_view xs ts)) with (find_first xs). split; [|split; [|split]].
      + intros q Hq z Hz. unfold mem_block, in_block in *. cbn [bptr bsize]. rewrite HW. change (m_ptr (find_view xs ts)) with (find_first xs).
        destruct (Hnth q Hq ltac:(lia)) as (i & t & x & B & Et & Ex & EB & HqB).
        destruct (HB i t x B Et Ex EB) as (_ & B2). destruct (B2 q HqB ltac:(lia)) as (Q1 & Q2 & Q3 & _).
        destruct (F3 i t x Et Ex Q1). lia.
      + intros Hpos. assert (Hcp : 0 < count ts).
        { destruct (Z.eq_dec (count ts) 0) as [E0|E0]; [|lia]. destruct (F1 E0). lia. }
        destruct (F2 Hcp) as (_ & _ & (i & t & Et & Ht & Ex) & (j & u & y & Eu & Hu & Ey & EL)).
        assert (Hi : (i < length Bss)%nat) by (rewrite HL; eapply nth_error_lt; eauto).
        assert (Hj : (j < length Bss)%nat) by (rewrite HL; eapply nth_error_lt; eauto).
        destruct (nth_error Bss i) as [B|] eqn:EB; [|apply nth_error_None in EB; lia].
        destruct (nth_error Bss j) as [B'|] eqn:EB'; [|apply nth_error_None in EB'; lia].
        destruct (HE i t _ B Et Ex EB Ht) as ((q & Hq & Hq') & _).
        destruct (HE j u y B' Eu Ey EB' Hu) as (_ & (r & Hr & Hr')). split.
        * exists q. split; [exact (nth_in_concat Bss i B q EB Hq)|exact Hq'].
        * exists r. split; [exact (nth_in_concat Bss j B' r EB' Hr)|]. replace (find_first xs + (find_last xs ts - find_first xs) - 1) with (y + s_n u * s_esz u - 1) by lia. auto.
      + rewrite <- HW. unfold find_view. cbn [m_len]. unfold wrap32. apply Z.mod_pos_bound. reflexivity.
      + intros Hz. destruct (Z.eq_dec (count ts) 0) as [E0|E0]; [apply F1; auto|].
        destruct (F2 ltac:(lia)) as (A1 & A2 & (i & t & Ei & Hi & Exi) & _).
        destruct (F3 i t _ Ei Exi Hi) as (A3 & A4). rewrite Forall_forall in HF.
        destruct (HF t (nth_error_In _ _ Ei)) as (T1 & _). pose proof (Z.mul_pos_pos (s_n t) (s_esz t) Hi T1). lia.
    - rewrite HW. change (m_ptr (find_view xs ts)) with (find_first xs). intros Hpos.
      destruct (Z.eq_dec (count ts) 0) as [E0|E0]; [destruct (F1 E0); lia|].
      destruct (F2 ltac:(lia)) as (A1 & A2 & _). lia.
  Qed.

  (** Inner views of a jagged vector cover the ends of its payload. *)
  Lemma inner_covers_first esz al s x : 0 < esz -> 0 < total caps ->
    exists q, In q (map (payload_of esz al) (inner_views esz s x 0 0 caps)) /\ in_block x q.
  Proof.
    intros He Ht. assert (G : exists k c, nth_error caps k = Some c /\ 0 < c /\ total (firstn k caps) = 0).
    { clear - HC Ht. induction HC as [|c l Hc HF IH]; cbn [total fold_right] in Ht; [lia|]. fold (total l) in Ht.
      destruct (Z.eq_dec c 0) as [->|].
      - destruct (IH HF ltac:(lia)) as (k & c & Ek & Hc' & Hz). exists (S k), c. split; [auto|]. split; [auto|].
        cbn [firstn total fold_right]. fold (total (firstn k l)). lia.
      - exists 0%nat, c. split; [reflexivity|]. split; [lia|reflexivity]. }
    destruct G as (k & c & Ek & Hc & Hz).
    assert (Hc' : 0 <= c < 2 ^ 32) by (rewrite Forall_forall in HC; apply HC; eapply nth_error_In; eauto).
    exists (payload_of esz al (mkView (wrap32 c) (if s =? 0 then 0 else s + 4 * (0 + Z.of_nat k)) (x + esz * (0 + total (firstn k caps))))).
    split.
    - apply in_map. apply nth_error_In with k. rewrite inner_views_nth, Ek. reflexivity.
    - unfold in_block, payload_of. cbn [bptr bsize v_ptr v_cap]. rewrite Hz, wrap32_small by auto.
      pose proof (Z.mul_pos_pos c esz Hc He). lia.
  Qed.
  Lemma inner_covers_last esz al s x : 0 < esz -> 0 < total caps ->
    exists q, In q (map (payload_of esz al) (inner_views esz s x 0 0 caps)) /\ in_block (x + total caps * esz - 1) q.
  Proof.
    intros He Ht. assert (G : exists k c, nth_error caps k = Some c /\ 0 < c /\ total (firstn k caps) + c = total caps).
    { clear - HC Ht. induction HC as [|c l Hc HF IH]; cbn [total fold_right] in Ht; [lia|]. fold (total l) in Ht.
      pose proof (total_nonneg l HF). destruct (Z.eq_dec (total l) 0) as [E0|].
      - exists 0%nat, c. split; [reflexivity|]. split; [lia|]. cbn [firstn total fold_right]. fold (total l). lia.
      - destruct (IH HF ltac:(lia)) as (k & d & Ek & Hd & Hz). exists (S k), d. split; [auto|]. split; [auto|].
        cbn [firstn total fold_right]. fold (total (firstn k l)) (total l). lia. }
    destruct G as (k & c & Ek & Hc & Hz).
    assert (Hc' : 0 <= c < 2 ^ 32) by (rewrite Forall_forall in HC; apply HC; eapply nth_error_In; eauto).
    exists (payload_of esz al (mkView (wrap32 c) (if s =? 0 then 0 else s + 4 * (0 + Z.of_nat k)) (x + esz * (0 + total (firstn k caps))))).
    split.
    - apply in_map. apply nth_error_In with k. rewrite inner_views_nth, Ek. reflexivity.
    - unfold in_block, payload_of. cbn [bptr bsize v_ptr v_cap]. rewrite wrap32_small by auto. rewrite <- Hz.
      rewrite Z.mul_add_distr_r, Z.add_0_l, (Z.mul_comm esz). pose proof (Z.mul_pos_pos c esz Hc He). lia.
  Qed.

  Lemma payload_ends i t x B : nth_error PS i = Some t -> nth_error ps i = Some x -> nth_error PB i = Some B -> 0 < s_n t ->
    (exists q, In q B /\ in_block x q) /\ (exists q, In q B /\ in_block (x + s_n t * s_esz t - 1) q).
  Proof.
    intros Et Ex EB Hn. unfold PB in EB. rewrite map2_nth in EB.
    destruct (nth_error vars i) as [v|] eqn:Ev; [|discriminate]. destruct (nth_error views i) as [e|] eqn:Ee; [|discriminate].
    injection EB as <-. destruct (view_nth i e Ee) as (v' & s & l & h & p & Ev' & Es & El & Eh & Ep & ->).
    replace v' with v in * by congruence. replace p with x in * by congruence. clear v' Ev' p Ep.
    unfold PS in Et. rewrite nth_error_map, Ev in Et. injection Et as <-.
    destruct (HV v (nth_error_In _ _ Ev)) as (V1 & V2 & V3).
    unfold payload_sect, payload_size, make_view, payload_blocks in *. cbn [s_n s_esz s_al] in *. destruct (vk v).
    - split; eexists; (split; [left; reflexivity|]); unfold in_block; cbn [bptr bsize]; lia.
    - rewrite len_wrap. pose proof (Z.mul_pos_pos _ _ Hn V1).
      split; eexists; (split; [left; reflexivity|]); unfold in_block; cbn [bptr bsize v_ptr v_cap]; lia.
    - rewrite total_wrap in *. change (fun x0 => mkBlock (v_ptr x0) (v_cap x0 * ve_sz v) (ve_al v)) with (payload_of (ve_sz v) (ve_al v)).
      split; [apply inner_covers_first; auto|apply inner_covers_last; auto].
  Qed.
  Lemma layout_ends i t x B : nth_error LS i = Some t -> nth_error ls i = Some x -> nth_error LB i = Some B -> 0 < s_n t ->
    (exists q, In q B /\ in_block x q) /\ (exists q, In q B /\ in_block (x + s_n t * s_esz t - 1) q).
  Proof.
    intros Et Ex EB Hn. unfold LB in EB. rewrite nth_error_map in EB.
    destruct (nth_error views i) as [e|] eqn:Ee; [|discriminate]. injection EB as <-.
    destruct (view_nth i e Ee) as (v & s & l & h & p & Ev & Es & El & Eh & Ep & ->).
    replace l with x in * by congruence. unfold LS in Et. rewrite nth_error_map, Ev in Et. injection Et as <-.
    unfold layout_sect, layout_size, make_view, layout_blocks in *. destruct (vk v); cbn [s_n s_esz s_al] in *; try lia.
    rewrite len_wrap. split; eexists; (split; [left; reflexivity|]); unfold in_block; cbn [bptr bsize]; lia.
  Qed.

  (** Size counters of jagged vectors. *)
  Let CB := map counter_blocks views.
  Lemma CB_len : length CB = length SS.
  Proof. unfold CB, SS. rewrite !map_length. apply views_len. Qed.

  Lemma counter_at esz s p k : 0 < s -> (k < length caps)%nat ->
    In (mkBlock (s + 4 * Z.of_nat k) 4 4) (map (fun x => mkBlock (v_size x) 4 4) (inner_views esz s p 0 0 caps)).
  Proof.
    intros Hs Hk. destruct (nth_error caps k) as [c|] eqn:Ec; [|apply nth_error_None in Ec; lia].
    apply in_map_iff. eexists. split; [|apply nth_error_In with k; rewrite inner_views_nth, Ec; reflexivity].
    cbn [v_size]. replace (s =? 0) with false by (symmetry; apply Z.eqb_neq; lia). f_equal.
  Qed.

  Lemma jagged_n i t x : nth_error SS i = Some t -> nth_error sizes i = Some x -> placed (bptr mem) a SS sizes -> 0 < s_n t -> 0 < x /\ (4 | x).
  Proof.
    intros Et Ex HP Hn. destruct (placed_nth _ _ _ _ SS_ok HP i t x Et Ex) as (_ & P2). specialize (P2 Hn).
    destruct (SS_uniform t (nth_error_In _ _ Et) Hn) as (_ & EA). rewrite EA in P2. split; [lia|tauto].
  Qed.

  Lemma counter_group (HPS : placed (bptr mem) a SS sizes) i t x B :
    nth_error SS i = Some t -> nth_error sizes i = Some x -> nth_error CB i = Some B ->
    pairwise_disjoint B /\
    forall q, In q B -> 0 < bsize q ->
      0 < s_n t /\ x <= bptr q /\ bptr q + bsize q <= x + s_n t * s_esz t /\ ((s_al t | x) -> (balign q | bptr q)).
  Proof.
    intros Et Ex EB. unfold CB in EB. rewrite nth_error_map in EB.
    destruct (nth_error views i) as [e|] eqn:Ee; [|discriminate]. injection EB as <-.
    destruct (view_nth i e Ee) as (v & s & l & h & p & Ev & Es & El & Eh & Ep & ->).
    replace s with x in * by congruence. pose proof (jagged_n i t x Et Ex HPS) as HX.
    unfold SS in Et. rewrite nth_error_map, Ev in Et. injection Et as <-.
    unfold size_sect, layout_size, make_view, counter_blocks in *. destruct (vk v); cbn [s_n s_esz s_al] in *.
    - split; [cbn; auto|]. intros q [].
    - split; [cbn; auto|]. intros q [].
    - destruct caps as [|c0 caps'] eqn:EC; [cbn; split; [auto|intros q []]|]. rewrite <- EC in *.
      assert (Hn : 0 < Z.of_nat (length caps)) by (rewrite EC; cbn [length]; lia).
      destruct (HX Hn) as (Hx0 & Hx4). split.
      + change (fun x0 => mkBlock (v_size x0) 4 4) with counter_of. apply counters_disjoint; auto. lia.
      + intros q Hq _. apply in_map_iff in Hq. destruct Hq as (u & <- & Hu). apply In_nth_error in Hu. destruct Hu as (k & Eu).
        destruct (view_at (ve_sz v) x p caps HC k u Eu) as (c & Ec & _ & _ & Esz & _). apply nth_error_lt in Ec.
        replace (x =? 0) with false in Esz by (symmetry; apply Z.eqb_neq; lia). cbn [bptr bsize balign]. rewrite Esz.
        split; [auto|]. split; [lia|]. split; [lia|]. intros Hd. apply Z.divide_add_r; [auto|apply Z.divide_factor_l].
  Qed.
  Lemma counter_ends (HPS : placed (bptr mem) a SS sizes) i t x B :
    nth_error SS i = Some t -> nth_error sizes i = Some x -> nth_error CB i = Some B -> 0 < s_n t ->
    (exists q, In q B /\ in_block x q) /\ (exists q, In q B /\ in_block (x + s_n t * s_esz t - 1) q).
  Proof.
    intros Et Ex EB Hn. unfold CB in EB. rewrite nth_error_map in EB.
    destruct (nth_error views i) as [e|] eqn:Ee; [|discriminate]. injection EB as <-.
    destruct (view_nth i e Ee) as (v & s & l & h & p & Ev & Es & El & Eh & Ep & ->).
    replace s with x in * by congruence. destruct (jagged_n i t x Et Ex HPS Hn) as (Hx0 & Hx4).
    unfold SS in Et. rewrite nth_error_map, Ev in Et. injection Et as <-.
    unfold size_sect, layout_size, make_view, counter_blocks in *. destruct (vk v); cbn [s_n s_esz s_al] in *; try lia.
    split.
    - eexists. split; [apply (counter_at _ _ _ 0%nat Hx0); lia|]. unfold in_block. cbn [bptr bsize]. lia.
    - eexists. split; [apply (counter_at _ _ _ (length caps - 1)%nat Hx0); lia|]. unfold in_block. cbn [bptr bsize]. lia.
  Qed.

  Lemma count_SS : count SS = fold_right (fun v n => layout_size caps v + n) 0 vars.
  Proof. unfold SS. clear. induction vars as [|v vs IH]; cbn [map count fold_right]; [reflexivity|]. fold (count (map (size_sect caps) vs)). rewrite IH. reflexivity. Qed.

  Lemma msize_eq (HPS : placed (bptr mem) a SS sizes) :
    mkMem (wrap32 (fold_right (fun v n => layout_size caps v + n) 0 vars * 4)) (find_first sizes) = find_view sizes SS.
  Proof.
    unfold find_view. f_equal. f_equal.
    rewrite (uniform_last 4 4 (bptr mem) a SS sizes Hmem ltac:(lia) ltac:(lia) (Z.divide_refl 4) SS_ok SS_uniform HPS), count_SS. lia.
  Qed.

  Lemma counters_exact (HPS : placed (bptr mem) a SS sizes) x :
    in_block x (mem_block (find_view sizes SS)) -> exists q, In q (concat CB) /\ in_block x q.
  Proof.
    intros Hx. unfold in_block, mem_block in Hx. cbn [bptr bsize] in Hx. change (m_ptr (find_view sizes SS)) with (find_first sizes) in Hx.
    pose proof (uniform_last 4 4 (bptr mem) a SS sizes Hmem ltac:(lia) ltac:(lia) (Z.divide_refl 4) SS_ok SS_uniform HPS) as EL.
    destruct (find_ends (bptr mem) a SS sizes Hmem SS_ok HPS) as (F1 & F2 & _).
    assert (HW : m_len (find_view sizes SS) <= 4 * count SS).
    { unfold find_view. cbn [m_len]. rewrite EL. pose proof (count_nonneg SS SS_ok).
      replace (find_first sizes + 4 * count SS - find_first sizes) with (4 * count SS) by lia. apply Z.mod_le; lia. }
    set (y := (x - find_first sizes) / 4). assert (Hy : 4 * y <= x - find_first sizes < 4 * y + 4) by (subst y; lia).
    destruct (count_split SS y SS_ok ltac:(lia)) as (i & t & Et & Ht).
    assert (Hi : (i < length SS)%nat) by (eapply nth_error_lt; eauto).
    destruct (nth_error sizes i) as [s|] eqn:Es; [|apply nth_error_None in Es; rewrite (placed_length _ _ _ _ HPS) in Es; lia].
    destruct (nth_error CB i) as [B|] eqn:EB; [|apply nth_error_None in EB; rewrite CB_len in EB; lia].
    destruct (uniform_first 4 4 (bptr mem) a SS sizes Hmem ltac:(lia) ltac:(lia) (Z.divide_refl 4) SS_ok SS_uniform HPS) as (_ & U2).
    pose proof (U2 i t s Et Es ltac:(lia)) as EU. destruct (jagged_n i t s Et Es HPS ltac:(lia)) as (Hs0 & _).
    pose proof EB as EB0. unfold CB in EB. rewrite nth_error_map in EB.
    destruct (nth_error views i) as [e|] eqn:Ee; [|discriminate]. injection EB as <-.
    destruct (view_nth i e Ee) as (v & s' & l & h & p & Ev & Es' & El & Eh & Ep & ->). replace s' with s in * by congruence.
    unfold SS in Et. rewrite nth_error_map, Ev in Et. injection Et as <-.
    unfold size_sect, layout_size, make_view, counter_blocks in *. destruct (vk v); cbn [s_n s_esz s_al] in *; try lia.
    set (k := Z.to_nat (y - count (firstn i SS))).
    eexists. split; [eapply nth_in_concat; [exact EB0|apply (counter_at _ _ _ k Hs0); lia]|].
    unfold in_block. cbn [bptr bsize]. lia.
  Qed.

  (** Conclusions. *)
  Definition edm_ok (rs : bool) (e : ebuf) : Prop :=
    length (eb_views e) = length vars /\
    (forall i v x, nth_error vars i = Some v -> nth_error (eb_views e) i = Some x ->
       shape_ok caps rs (existsb is_jagged vars) (eb_size e) v x) /\
    pairwise_disjoint (all_counters vars rs e ++ all_layouts e ++ all_payloads vars e) /\
    (forall q, In q (all_counters vars rs e ++ all_layouts e ++ all_payloads vars e) -> 0 < bsize q ->
       0 < bptr q /\ (balign q | bptr q) /\ inside q (eb_mem e)) /\
    spans (eb_payload e) (all_payloads vars e) /\
    spans (eb_layout e) (all_layouts e) /\
    spans (eb_size e) (all_counters vars rs e) /\
    (forall x, in_block x (mem_block (eb_size e)) -> exists q, In q (all_counters vars rs e) /\ in_block x q) /\
    pairwise_disjoint [mem_block (eb_size e); mem_block (eb_layout e); mem_block (eb_payload e)].

  Definition size_facts (rs : bool) (msize : mview) : Prop :=
    (rs = false /\ msize = mkMem 0 0 /\ (forall s, In s sizes -> s = 0)) \/
    (rs = true /\ existsb is_jagged vars = true /\ placed (bptr mem) a SS sizes /\
     msize = mkMem (wrap32 (fold_right (fun v n => layout_size caps v + n) 0 vars * 4)) (find_first sizes)) \/
    (rs = true /\ existsb is_jagged vars = false /\ exists s, (forall x, In x sizes -> x = s) /\ msize = mkMem 4 s /\
       (4 | s) /\ bptr mem <= s /\ s + 4 <= a).

  Lemma Hb_hi : b <= hi.
  Proof. apply (placed_le _ _ PS ps PS_ok HPP). Qed.

  (** Counters, whatever the case. *)
  Lemma counters_thm rs msize e : size_facts rs msize -> eb_views e = views -> eb_size e = msize ->
    pairwise_disjoint (all_counters vars rs e) /\
    (forall q, In q (all_counters vars rs e) -> 0 < bsize q -> bptr mem <= bptr q /\ bptr q + bsize q <= a /\ (balign q | bptr q)) /\
    spans msize (all_counters vars rs e) /\
    (forall x, in_block x (mem_block msize) -> exists q, In q (all_counters vars rs e) /\ in_block x q) /\
    (0 < m_len msize -> bptr mem <= m_ptr msize /\ m_ptr msize + m_len msize <= a).
  Proof.
    intros HS Ev Em. unfold all_counters. rewrite Ev, Em. destruct HS as [(-> & -> & Hz)|[(-> & HJ & HPS & ->)|(-> & HJ & s & Hs & -> & Hs4 & Hs1 & Hs2)]].
    - split; [cbn; auto|]. split; [intros q []|]. split.
      { split; [intros q []|]. cbn. split; [lia|]. split; [lia|auto]. }
      split; [intros x Hx; unfold in_block in Hx; cbn in Hx; lia|cbn; lia].
    - rewrite HJ. rewrite (msize_eq HPS).
      destruct (group_thm (bptr mem) a SS sizes CB Hmem ltac:(pose proof Hb_hi; unfold hi in *; lia) SS_ok HPS CB_len
                  (counter_group HPS) (counter_ends HPS)) as (G1 & G2 & G3 & G4).
      split; [exact G1|]. split; [exact G2|]. split; [exact G3|]. split; [exact (counters_exact HPS)|exact G4].
    - rewrite HJ. cbn [m_ptr m_len]. split; [cbn; tauto|]. split.
      { intros q [<-|[]] _. cbn [bptr bsize balign]. split; [lia|]. split; [lia|auto]. }
      split.
      { split; [intros q [<-|[]] x Hx; exact Hx|]. cbn [m_ptr m_len]. split; [|split; lia].
        intros _. split; eexists; (split; [left; reflexivity|]); unfold in_block; cbn [bptr bsize]; lia. }
      split; [|lia]. intros x Hx. eexists. split; [left; reflexivity|exact Hx].
  Qed.

  Lemma edm_ok_core rs msize e : size_facts rs msize -> eb_views e = views -> eb_size e = msize ->
    eb_layout e = find_view ls LS -> eb_payload e = find_view ps PS -> eb_mem e = mem -> edm_ok rs e.
  Proof.
    intros HS Ev Em El Ep Emem.
    destruct (counters_thm rs msize e HS Ev Em) as (C1 & C2 & C3 & C4 & C5).
    pose proof Hb_hi as Hbh.
    assert (Hsm : hi - b < 2 ^ 32) by (unfold hi; lia). assert (Hsm' : b - a < 2 ^ 32) by (unfold hi in *; lia).
    destruct (group_thm b hi PS ps PB ltac:(lia) Hsm PS_ok HPP PB_len payload_group payload_ends) as (P1 & P2 & P3 & P4).
    destruct (group_thm a b LS ls LB ltac:(lia) Hsm' LS_ok HPL LB_len layout_group layout_ends) as (L1 & L2 & L3 & L4).
    assert (EP : all_payloads vars e = concat PB) by (unfold all_payloads; rewrite Ev; reflexivity).
    assert (EL : all_layouts e = concat LB) by (unfold all_layouts; rewrite Ev; reflexivity).
    unfold edm_ok. rewrite EP, EL, Em, El, Ep, Emem.
    split; [rewrite Ev; apply views_len|]. split; [|split; [|split; [|split; [exact P3|split; [exact L3|split; [exact C3|split; [exact C4|]]]]]]].
    - rewrite Ev. intros i v x Evi Ex. destruct (view_nth i x Ex) as (v' & s & l & h & p & Ev' & Es & _ & _ & _ & ->).
      replace v' with v in * by congruence. unfold shape_ok, make_view. destruct (vk v) eqn:Ek; auto.
      + cbn [v_cap v_size]. split; [apply len_wrap|].
        destruct HS as [(-> & _ & Hz)|[(-> & HJ & HPS & _)|(-> & HJ & s' & Hs & -> & _)]]; cbn [andb negb].
        * apply Hz. eapply nth_error_In; eauto.
        * rewrite HJ. cbn [negb]. assert (Et : nth_error SS i = Some (size_sect caps v)) by (unfold SS; rewrite nth_error_map, Evi; reflexivity).
          destruct (placed_nth _ _ _ _ SS_ok HPS i _ s Et Es) as (P0 & _). apply P0. unfold size_sect, layout_size. rewrite Ek. reflexivity.
        * rewrite HJ. cbn [negb m_ptr]. apply Hs. eapply nth_error_In; eauto.
      + split; [apply len_wrap|]. split; [apply inner_views_caps; auto|]. intros Hrs u Hu. apply In_nth_error in Hu. destruct Hu as (k & Eu).
        destruct (view_at (ve_sz v) s p caps HC k u Eu) as (c & _ & _ & _ & Esz & _). rewrite Esz.
        destruct HS as [(_ & _ & Hz)|[(E & _)|(E & _)]]; [|congruence|congruence].
        rewrite (Hz s (nth_error_In _ _ Es)). reflexivity.
    - apply pairwise_disjoint_app. split; [auto|]. split.
      + apply pairwise_disjoint_app. split; [auto|]. split; [auto|].
        intros x y Hx Hy (z & Z1 & Z2). unfold in_block in *. destruct (L2 x Hx ltac:(lia)). destruct (P2 y Hy ltac:(lia)). lia.
      + intros x y Hx Hy (z & Z1 & Z2). unfold in_block in *. destruct (C2 x Hx ltac:(lia)). apply in_app_or in Hy.
        destruct Hy as [Hy|Hy]; [destruct (L2 y Hy ltac:(lia))|destruct (P2 y Hy ltac:(lia))]; lia.
    - intros q Hq Hpos.
      assert (G : bptr mem <= bptr q /\ bptr q + bsize q <= hi /\ (balign q | bptr q)).
      { apply in_app_or in Hq. destruct Hq as [Hq|Hq]; [destruct (C2 q Hq Hpos) as (? & ? & ?); split; [lia|]; split; [lia|auto]|].
        apply in_app_or in Hq. destruct Hq as [Hq|Hq]; [destruct (L2 q Hq Hpos) as (? & ? & ?)|destruct (P2 q Hq Hpos) as (? & ? & ?)]; (split; [lia|]; split; [lia|auto]). }
      destruct G as (G1 & G2 & G3). split; [lia|]. split; [auto|]. intros x Hx. unfold in_block, hi in *. lia.
    - apply nth_pairwise. intros i j x y Hij Hx Hy (z & Z1 & Z2).
      destruct C3 as (_ & _ & C3 & _). destruct P3 as (_ & _ & P3 & _). destruct L3 as (_ & _ & L3 & _).
      destruct i as [|[|[|i]]]; destruct j as [|[|[|j]]]; cbn [nth_error] in Hx, Hy; try lia; try discriminate;
        try (destruct i; discriminate); try (destruct j; discriminate); injection Hx as <-; injection Hy as <-;
        unfold in_block, mem_block in Z1, Z2; cbn [bptr bsize] in Z1, Z2; lia.
  Qed.

  (** The host copy of the layout has the same structure. *)
  Lemma host_layout_core lo' hi' : 0 < lo' -> placed lo' hi' LS hs ->
    m_len (find_view hs LS) = m_len (find_view ls LS) /\
    forall i n l h inner, nth_error views i = Some (EJagged n l h inner) -> 0 < n ->
      h - m_ptr (find_view hs LS) = l - m_ptr (find_view ls LS) /\ 0 < h /\
      inside (mkBlock h (24 * n) 8) (mkBlock lo' (hi' - lo') 1).
  Proof.
    intros Hlo' HPH. assert (Ha : 0 < a) by lia.
    pose proof (uniform_last 24 8 lo' hi' LS hs Hlo' ltac:(lia) ltac:(lia) ltac:(exists 3; reflexivity) LS_ok LS_uniform HPH) as E1.
    pose proof (uniform_last 24 8 a b LS ls Ha ltac:(lia) ltac:(lia) ltac:(exists 3; reflexivity) LS_ok LS_uniform HPL) as E2.
    split.
    { unfold find_view. cbn [m_len]. rewrite E1, E2. f_equal. lia. }
    intros i n l h inner Ev Hn. destruct (view_nth i _ Ev) as (v & s & l0 & h0 & p & Evi & Es & El & Eh & Ep & Em).
    unfold make_view in Em. destruct (vk v) eqn:Ek; try discriminate. injection Em as En <- E3 _. rewrite len_wrap in En.
    assert (Et : nth_error LS i = Some (mkSect 24 8 n)).
    { unfold LS. rewrite nth_error_map, Evi. cbn [option_map]. unfold layout_sect, layout_size. rewrite Ek, En. reflexivity. }
    destruct (uniform_first 24 8 a b LS ls Ha ltac:(lia) ltac:(lia) ltac:(exists 3; reflexivity) LS_ok LS_uniform HPL) as (_ & U1).
    destruct (uniform_first 24 8 lo' hi' LS hs Hlo' ltac:(lia) ltac:(lia) ltac:(exists 3; reflexivity) LS_ok LS_uniform HPH) as (_ & U2).
    destruct (placed_nth _ _ _ _ LS_ok HPH i _ h0 Et Eh) as (_ & P2). specialize (P2 Hn). cbn [s_n s_esz] in P2.
    assert (EH : h = h0) by (rewrite E3; destruct (h0 =? 0) eqn:E0; [apply Z.eqb_eq in E0; lia|auto]). rewrite EH.
    pose proof (U1 i _ l Et El Hn) as V1. pose proof (U2 i _ h0 Et Eh Hn) as V2. unfold find_view. cbn [m_ptr].
    split; [lia|]. split; [lia|]. intros x Hx. unfold in_block in *. cbn [bptr bsize] in *. lia.
  Qed.
End Geometry.
