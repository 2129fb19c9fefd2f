(** A resizable jagged buffer is created, set up, filled by concurrent threads and copied to
    the host: the models of Placement.v, CopyHost.v and JaggedKernel.v put together. *)
From Coq Require Import Permutation.
From Verif Require Import Base BaseLemmas IntMath IntMathProofs Align Placement PlacementProofs JaggedBufferProofs EdmBuffer
  Copy CopyProofs CopyJaggedProofs CopyJaggedTheorems EdmCopy CopyHost CopyHostProofs Views ViewsProofs Kernel KernelProofs JaggedKernel JaggedKernelProofs.

(** The memory of a resizable jagged buffer. *)
Lemma jagged_inner_rs sz eal caps w h d inner w' : 0 < sz -> pow2 eal -> caps <> [] ->
  Forall (fun c => 0 <= c < 2 ^ 32) caps -> 4 * Z.of_nat (length caps) + total caps * sz + 2 * Z.max 4 eal < 2 ^ 64 ->
  jagged_inner sz eal caps true w = (Ret (h, d, inner), w') -> upstream_ok (ulog w') ->
  exists b, inner = Some b /\ ulog w' = UAlloc (bsize b) 16 (Some (bptr b)) :: ulog w /\ balign b = 16 /\ 0 < h /\ bptr b <= h /\ 0 <= d /\
    h + 4 * Z.of_nat (length caps) <= bptr b + bsize b /\
    (total caps = 0 -> d = 0) /\
    (0 < total caps -> h + 4 * Z.of_nat (length caps) <= d /\ d + total caps * sz <= bptr b + bsize b).
Proof.
  intros He Ha Hne HF Hn E HU. unfold jagged_inner in E.
  pose proof (total_nonneg caps HF) as Ht.
  assert (Hal0 : 0 < eal) by (destruct Ha as (j & Hj & ->); apply pow2_pos; auto).
  assert (Hte : total caps <= total caps * sz) by (pose proof (Z.mul_le_mono_nonneg_l 1 sz (total caps) Ht ltac:(lia)); lia).
  rewrite (wrap64_small (total caps)) in E by lia. cbn [negb andb] in E.
  assert (Hl : 0 < Z.of_nat (length caps)) by (destruct caps; [congruence|cbn [length]; lia]).
  replace (Z.of_nat (length caps) =? 0) with false in E by lia. cbn [negb] in E.
  set (ts := [mkSect 4 4 (Z.of_nat (length caps)); mkSect sz eal (total caps)]) in *.
  destruct (placement w ts) as [r0 w0] eqn:Ep.
  assert (w0 = w') by (destruct r0 as [[b [|s [|d' [|]]]]|e|]; congruence). subst w0.
  assert (HN : need_all ts < 2 ^ 64).
  { unfold need_all, need, ts, placement_align. cbn [fold_right length Placement.s_n s_esz s_al]. lia. }
  assert (HS : Forall sect_ok ts).
  { constructor; [|constructor; [|constructor]]; unfold sect_ok; cbn [Placement.s_n s_esz s_al].
    - split; [lia|]. split; [exists 2; split; [lia|reflexivity]|lia].
    - split; [lia|]. split; [auto|lia]. }
  destruct (placement_ok w ts r0 w' HS ltac:(discriminate) HN Ep HU) as [(p & ps & -> & El & Hp & HP)|(-> & El)]; [|discriminate].
  pose proof (placed_length _ _ _ _ HP) as HL. destruct ps as [|s [|d' [|]]]; try discriminate HL. injection E as <- <- <-.
  exists (mkBlock p (need_all ts) 16). cbn [bptr bsize balign]. split; [reflexivity|]. split; [exact El|]. split; [reflexivity|].
  destruct (placed_nth _ _ _ _ HS HP 0%nat _ _ eq_refl eq_refl) as (_ & H0). cbn [Placement.s_n s_esz s_al] in H0.
  destruct (H0 Hl) as (S1 & S2 & S3).
  destruct (placed_nth _ _ _ _ HS HP 1%nat _ _ eq_refl eq_refl) as (Hz & H1). cbn [Placement.s_n s_esz s_al] in Hz, H1.
  split; [lia|]. split; [lia|]. split.
  { destruct (Z.eq_dec (total caps) 0) as [Q|Q]; [rewrite (Hz Q); lia|]. destruct (H1 ltac:(lia)) as (D1 & _). lia. }
  split; [lia|]. split; [exact Hz|]. intros Hpos. destruct (H1 Hpos) as (D1 & D2 & D3).
  pose proof (placed_order _ _ _ _ HS HP 0%nat 1%nat _ _ _ _ ltac:(lia) eq_refl eq_refl eq_refl eq_refl ltac:(cbn [Placement.s_n]; lia) Hpos) as HO.
  cbn [Placement.s_n s_esz] in HO. lia.
Qed.

Lemma jagged_buffer_rs sz eal caps host w hw j w' hw' : 0 < sz -> pow2 eal -> caps <> [] ->
  Forall (fun c => 0 <= c < 2 ^ 32) caps -> Z.of_nat (length caps) * 24 < 2 ^ 64 ->
  4 * Z.of_nat (length caps) + total caps * sz + 2 * Z.max 4 eal < 2 ^ 64 ->
  jagged_buffer sz eal caps true host w hw = (Ret j, w', hw') -> upstream_ok (ulog w') -> upstream_ok (ulog hw') ->
  let n := Z.of_nat (length caps) in
  exists h d b, jb_views j = inner_views sz h d 0 0 caps /\ jb_inner j = Some b /\
    0 < h /\ bptr b <= h /\ 0 <= d /\ h + 4 * n <= bptr b + bsize b /\ bptr b + bsize b < 2 ^ 64 /\
    (total caps = 0 -> d = 0) /\ (0 < total caps -> h + 4 * n <= d /\ d + total caps * sz <= bptr b + bsize b) /\
    0 < jb_ptr j /\ 0 < jb_host_ptr j /\ apart (jb_ptr j) (24 * n) (bptr b) (bsize b) /\
    bsize (jb_host j) = 24 * n /\ bptr (jb_host j) = jb_host_ptr j /\
    (host = true -> bptr (jb_outer j) = jb_ptr j /\ bsize (jb_outer j) = 24 * n) /\
    (host = false -> jb_ptr j = jb_host_ptr j).
Proof.
  intros He Ha Hne HF H24 Hn E HU HU'. cbv zeta. set (n := Z.of_nat (length caps)) in *.
  assert (Hn0 : 0 < n) by (unfold n; destruct caps; [congruence|cbn [length]; lia]).
  unfold jagged_buffer in E. fold n in E. destruct host.
  - destruct (alloc_outer w n) as [[o| |] w1] eqn:E1; try discriminate.
    destruct (alloc_outer hw n) as [[hb| |] hw2] eqn:E2; try discriminate.
    destruct (jagged_inner sz eal caps true w1) as [[[[h d] inner]| |] w3] eqn:E3; try discriminate.
    injection E as <- <- <-.
    destruct (jagged_inner_rs sz eal caps w1 h d inner w3 He Ha Hne HF Hn E3 HU) as (b & -> & El & Eb & I1 & I2 & I3 & I4 & I5 & I6).
    rewrite El in HU. cbn [upstream_ok] in HU. destruct HU as (U1 & U2 & U3 & U4 & U5).
    destruct (alloc_outer_ok w n _ w1 ltac:(lia) ltac:(lia) E1 U5) as [(X & _)|[(_ & X & _)|(_ & p & P1 & P2 & P3 & P4)]]; [lia|discriminate|].
    destruct (alloc_outer_ok hw n _ hw2 ltac:(lia) ltac:(lia) E2 HU') as [(X & _)|[(_ & X & _)|(_ & q & Q1 & Q2 & Q3 & Q4)]]; [lia|discriminate|].
    injection P3 as ->. injection Q3 as ->. exists h, d, b. cbn [jb_views jb_inner jb_ptr jb_host_ptr jb_host jb_outer bptr bsize].
    split; [reflexivity|]. split; [reflexivity|]. split; [exact I1|]. split; [exact I2|]. split; [exact I3|]. split; [exact I4|]. split; [exact U2|].
    split; [exact I5|]. split; [exact I6|]. split; [exact P1|]. split; [exact Q1|]. split.
    { intros x (X1 & X2). apply (U4 (mkBlock p (n * 24) 16)); [rewrite P4; left; reflexivity|]. exists x. unfold in_block. cbn [bptr bsize]. lia. }
    split; [lia|]. split; [reflexivity|]. split; [intros _; split; [reflexivity|lia]|discriminate].
  - destruct (alloc_outer w 0) as [[o| |] w1] eqn:E1; try discriminate. cbn in E1. injection E1 as <- <-.
    destruct (alloc_outer w n) as [[hb| |] w2] eqn:E2; try discriminate.
    destruct (jagged_inner sz eal caps true w2) as [[[[h d] inner]| |] w3] eqn:E3; try discriminate.
    injection E as <- <- <-.
    destruct (jagged_inner_rs sz eal caps w2 h d inner w3 He Ha Hne HF Hn E3 HU) as (b & -> & El & Eb & I1 & I2 & I3 & I4 & I5 & I6).
    rewrite El in HU. cbn [upstream_ok] in HU. destruct HU as (U1 & U2 & U3 & U4 & U5).
    destruct (alloc_outer_ok w n _ w2 ltac:(lia) ltac:(lia) E2 U5) as [(X & _)|[(_ & X & _)|(_ & p & P1 & P2 & P3 & P4)]]; [lia|discriminate|].
    injection P3 as ->. exists h, d, b. cbn [jb_views jb_inner jb_ptr jb_host_ptr jb_host jb_outer bptr bsize].
    split; [reflexivity|]. split; [reflexivity|]. split; [exact I1|]. split; [exact I2|]. split; [exact I3|]. split; [exact I4|]. split; [exact U2|].
    split; [exact I5|]. split; [exact I6|]. split; [exact P1|]. split; [exact P1|]. split.
    { intros x (X1 & X2). apply (U4 (mkBlock p (n * 24) 16)); [rewrite P4; left; reflexivity|]. exists x. unfold in_block. cbn [bptr bsize]. lia. }
    split; [lia|]. split; [reflexivity|]. split; [discriminate|reflexivity].
Qed.

Lemma pick {A} (P : nat -> A -> Prop) n : (forall r, (r < n)%nat -> exists x, P r x) ->
  exists l, length l = n /\ forall r x, nth_error l r = Some x -> P r x.
Proof.
  induction n as [|n IH]; intros H.
  - exists []. split; [reflexivity|]. intros [|r] x; discriminate.
  - destruct IH as (l & L & Hl); [intros; apply H; lia|]. destruct (H n ltac:(lia)) as (x & Hx). exists (l ++ [x]).
    split; [rewrite app_length, L; cbn [length]; lia|]. intros r y Hy. destruct (Nat.lt_ge_cases r n) as [Q|Q].
    + rewrite nth_error_app1 in Hy by lia. auto.
    + rewrite nth_error_app2 in Hy by lia. rewrite L in Hy. destruct (r - n)%nat as [|[|k]] eqn:Ek; try discriminate. cbn in Hy. injection Hy as <-.
      replace r with n by lia. exact Hx.
Qed.

Lemma acc_elements m a n bs : get_bytes m a n = Some bs -> acc m a (Z.of_nat n).
Proof. intros H. apply get_bytes_acc. eauto. Qed.

Lemma flat_le32_nth m h ns r n : get_bytes m h (4 * length ns) = Some (flat_map le32 ns) -> nth_error ns r = Some n ->
  get_bytes m (h + 4 * Z.of_nat r) 4 = Some (le32 n).
Proof.
  intros H E. rewrite flat_map_concat_map in H. replace (h + 4 * Z.of_nat r) with (h + Z.of_nat r * 4) by lia. change 4%nat with (Z.to_nat 4).
  apply (elements_get_bytes 4 m ltac:(lia) (map le32 ns)).
  - apply Forall_forall. intros b Hb. apply in_map_iff in Hb. destruct Hb as (u & <- & _). reflexivity.
  - rewrite map_length. replace (Z.to_nat (Z.of_nat (length ns) * 4)) with (4 * length ns)%nat by lia. exact H.
  - rewrite nth_error_map, E. reflexivity.
Qed.
Lemma flat_le32_all m h ns : (forall r n, nth_error ns r = Some n -> get_bytes m (h + 4 * Z.of_nat r) 4 = Some (le32 n)) ->
  get_bytes m h (4 * length ns) = Some (flat_map le32 ns).
Proof.
  intros H. rewrite flat_map_concat_map. replace (4 * length ns)%nat with (Z.to_nat (Z.of_nat (length (map le32 ns)) * 4)) by (rewrite map_length; lia).
  apply get_bytes_elements; [lia|]. intros p bs Hp. rewrite nth_error_map in Hp. destruct (nth_error ns p) as [n|] eqn:E; [|discriminate]. cbn in Hp. injection Hp as <-.
  change (Z.to_nat 4) with 4%nat. rewrite Z.mul_comm. exact (H p n E).
Qed.

Lemma pairs_nth {A} (R : A -> A -> Prop) l : (forall i j x y, (i < j)%nat -> nth_error l i = Some x -> nth_error l j = Some y -> R x y) -> ForallOrdPairs R l.
Proof.
  induction l as [|a l IH]; intros H; constructor.
  - apply Forall_forall. intros y Hy. apply In_nth_error in Hy. destruct Hy as (j & Hj). apply (H 0%nat (S j)); [lia|reflexivity|exact Hj].
  - apply IH. intros i j x y Hij Hx Hy. apply (H (S i) (S j)); [lia|exact Hx|exact Hy].
Qed.
Lemma vec_views_nth ns : forall qs r v, nth_error (vec_views ns qs) r = Some v -> exists n q, nth_error ns r = Some n /\ nth_error qs r = Some q /\ v = mkV n 0 q.
Proof.
  induction ns as [|n ns IH]; intros [|q qs] [|r] v; cbn [vec_views nth_error]; try discriminate.
  - intros E. injection E as <-. eauto.
  - apply IH.
Qed.

Theorem jagged_pipeline_thm sz eal caps host w hw j w' hw' vals m0 qs k dev sched :
  0 < sz -> pow2 eal -> caps <> [] -> (forall c, In c caps -> 0 <= c < 2 ^ 32) -> Z.of_nat (length caps) * 24 < 2 ^ 64 ->
  4 * Z.of_nat (length caps) + total caps * sz + 2 * Z.max 4 eal < 2 ^ 64 ->
  jagged_buffer sz eal caps true host w hw = (Ret j, w', hw') -> upstream_ok (ulog w') -> upstream_ok (ulog hw') ->
  (forall b, b = jb_outer j \/ b = jb_host j \/ jb_inner j = Some b -> acc m0 (bptr b) (bsize b)) ->
  (forall b x, jb_inner j = Some b -> in_block x b -> m_dev m0 x = dev) ->
  (host = true -> kind_check m0 host_to_device (m_dev m0 (jb_host_ptr j)) (m_dev m0 (jb_ptr j)) = true /\
     forall x, in_block x (jb_host j) -> ~ in_block x (jb_outer j) /\ forall b, jb_inner j = Some b -> ~ in_block x b) ->
  (forall r bs, In (r, bs) vals -> (r < length caps)%nat /\ Z.of_nat (length bs) = sz) ->
  (forall r c, nth_error caps r = Some c -> Z.of_nat (length (row_vals r vals)) <= c) ->
  length qs = length caps ->
  (forall r q, nth_error qs r = Some q -> let n := Z.of_nat (length (row_vals r vals)) * sz in
     (0 < n -> q <> 0 /\ kind_check m0 k dev (m_dev m0 q) = true) /\ acc m0 q n /\
     forall x b, within q n x -> jb_inner j = Some b -> ~ in_block x b) ->
  (forall r1 r2 q1 q2 x, r1 <> r2 -> nth_error qs r1 = Some q1 -> nth_error qs r2 = Some q2 ->
     within q1 (Z.of_nat (length (row_vals r1 vals)) * sz) x -> within q2 (Z.of_nat (length (row_vals r2 vals)) * sz) x -> False) ->
  (forall i, (i < length vals)%nat -> (4 <= count_occ Nat.eq_dec sched i)%nat) ->
  let views := map cv (jb_views j) in
  let m := put_bytes m0 (jb_host_ptr j) (flat_map view_bytes_of views) in
  exists m1 m2 thr m3 news,
    setup_described views (jb_host_ptr j) (jb_ptr j) m = (Ret tt, m1) /\
    jk_run sz (mkJ (Z.of_nat (length caps)) (jb_ptr j) (jb_host_ptr j)) (m1, map (fun c => JAt (fst c) (snd c)) vals) sched = Ret (m2, thr) /\
    copy_to_vecs sz k views qs m2 = (Ret (map (fun new => Z.of_nat (length new)) news), m3) /\
    length news = length caps /\
    (forall r new, nth_error news r = Some new -> Permutation new (row_vals r vals)) /\
    (forall r q new, nth_error qs r = Some q -> nth_error news r = Some new ->
       get_bytes m3 q (Z.to_nat (Z.of_nat (length new) * sz)) = Some (concat new)).
Proof.
  intros Hsz Hal Hne HF0 H24 Hbig Ej HU HU' Hacc Hdev Hhost Hvals Hroom Lq Hq Hqq Hsched views m.
  assert (HF : Forall (fun c => 0 <= c < 2 ^ 32) caps) by (apply Forall_forall; exact HF0).
  destruct (jagged_buffer_rs sz eal caps host w hw j w' hw' Hsz Hal Hne HF H24 Hbig Ej HU HU')
    as (h & d & b & Ev & Eb & I1 & I2 & I3 & I4 & I5 & I6 & I7 & J1 & J2 & J3 & J4 & J5 & J6 & J7).
  set (n := Z.of_nat (length caps)) in *. pose proof (total_nonneg caps HF) as Ht.
  assert (Hn0 : 0 < n) by (unfold n; destruct caps; [congruence|cbn [length]; lia]).
  assert (Lv : length views = length caps) by (unfold views; rewrite map_length, Ev; apply views_length).
  assert (Hbytes : Z.of_nat (length (flat_map view_bytes_of views)) = 24 * n).
  { unfold n. rewrite <- Lv. clear. induction views as [|v l IH]; [reflexivity|]. cbn [flat_map]. rewrite app_length, Nat2Z.inj_add, IH. cbn [length]. change (length (view_bytes_of v)) with 24%nat. lia. }
  (* the inner vectors *)
  assert (V : forall r v, nth_error views r = Some v -> exists c, nth_error caps r = Some c /\ 0 <= c < 2 ^ 32 /\ v_cap v = c /\
            v_sizep v = h + 4 * Z.of_nat r /\ v_ptr v = d + sz * total (firstn r caps) /\ 0 <= total (firstn r caps) /\ total (firstn r caps) + c <= total caps).
  { intros r v Hv. unfold views in Hv. rewrite Ev, nth_error_map in Hv. destruct (nth_error (inner_views sz h d 0 0 caps) r) as [u|] eqn:Eu; [|discriminate].
    cbn in Hv. injection Hv as <-. destruct (view_at sz h d caps HF r u Eu) as (c & A1 & A2 & A3 & A4 & A5 & A6 & A7). exists c.
    replace (h =? 0) with false in A4 by lia. unfold cv. cbn [v_cap v_sizep v_ptr]. auto 10. }
  assert (VC : forall r v x, nth_error views r = Some v -> within (v_sizep v) 4 x -> h + 4 * Z.of_nat r <= x < h + 4 * Z.of_nat r + 4 /\ h <= x < h + 4 * n).
  { intros r v x Hv Hx. destruct (V r v Hv) as (c & _ & _ & _ & A & _). unfold within in Hx. rewrite A in Hx.
    assert (r < length views)%nat by (apply nth_error_Some; congruence). unfold n. lia. }
  assert (VP : forall r v x, nth_error views r = Some v -> within (v_ptr v) (v_cap v * sz) x ->
            exists c, nth_error caps r = Some c /\ h + 4 * n <= d /\ d + sz * total (firstn r caps) <= x < d + sz * (total (firstn r caps) + c) /\ h + 4 * n <= x < bptr b + bsize b).
  { intros r v x Hv Hx. destruct (V r v Hv) as (c & A1 & A2 & A3 & _ & A5 & A6 & A7). exists c. unfold within in Hx. rewrite A3, A5 in Hx.
    assert (0 < total caps) by nia. destruct (I7 ltac:(assumption)) as (B1 & B2). split; [exact A1|]. split; [exact B1|]. split; [lia|]. split; [nia|].
    assert (sz * (total (firstn r caps) + c) <= sz * total caps) by nia. lia. }
  assert (RB : forall r v x, nth_error views r = Some v -> region sz v x -> in_block x b).
  { intros r v x Hv [Hx|Hx]; unfold in_block; [destruct (VC r v x Hv Hx); lia|]. destruct (VP r v x Hv Hx) as (c & _ & _ & _ & Q). lia. }
  assert (RD : forall r1 r2 v1 v2 x, r1 <> r2 -> nth_error views r1 = Some v1 -> nth_error views r2 = Some v2 -> region sz v1 x -> region sz v2 x -> False).
  { assert (PP : forall r1 r2 v1 v2 x, (r1 < r2)%nat -> nth_error views r1 = Some v1 -> nth_error views r2 = Some v2 -> within (v_ptr v1) (v_cap v1 * sz) x -> within (v_ptr v2) (v_cap v2 * sz) x -> False).
    { intros r1 r2 v1 v2 x Hr H1 H2 X1 X2. destruct (VP r1 v1 x H1 X1) as (c1 & E1 & _ & R1 & _). destruct (VP r2 v2 x H2 X2) as (c2 & E2 & _ & R2 & _).
      assert (T : total (firstn r1 caps) + c1 <= total (firstn r2 caps)) by (rewrite <- (total_firstn_S caps r1 c1 E1); apply total_firstn_mono; auto). nia. }
    intros r1 r2 v1 v2 x Hr H1 H2 [X1|X1] [X2|X2].
    - destruct (VC r1 v1 x H1 X1). destruct (VC r2 v2 x H2 X2). lia.
    - destruct (VC r1 v1 x H1 X1). destruct (VP r2 v2 x H2 X2) as (c & _ & _ & _ & Q). lia.
    - destruct (VC r2 v2 x H2 X2). destruct (VP r1 v1 x H1 X1) as (c & _ & _ & _ & Q). lia.
    - destruct (Nat.lt_total r1 r2) as [L|[L|L]]; [exact (PP r1 r2 v1 v2 x L H1 H2 X1 X2)|exact (Hr L)|exact (PP r2 r1 v2 v1 x L H2 H1 X2 X1)]. }
  (* the memory after the constructor *)
  assert (Ah : acc m0 (jb_host_ptr j) (24 * n)) by (rewrite <- J5, <- J4; apply Hacc; auto).
  assert (SA0 : same_acc m0 m) by (apply put_bytes_acc; rewrite Hbytes; exact Ah).
  assert (C0 : changes (within (jb_host_ptr j) (24 * n)) m0 m) by (pose proof (put_bytes_changes m0 (jb_host_ptr j) (flat_map view_bytes_of views)) as Q; rewrite Hbytes in Q; exact Q).
  assert (Dh : get_bytes m (jb_host_ptr j) (24 * length views) = Some (flat_map view_bytes_of views)).
  { replace (24 * length views)%nat with (length (flat_map view_bytes_of views)) by (rewrite Lv; lia). apply get_bytes_put. }
  assert (Ab0 : acc m0 (bptr b) (bsize b)) by (apply Hacc; auto).
  assert (Ah1 : apart h (4 * n) (jb_host_ptr j) (24 * n)).
  { intros x (X1 & X2). destruct host.
    - destruct (Hhost eq_refl) as (_ & Q). destruct (Q x) as (_ & Q2); [unfold in_block; lia|]. apply (Q2 b Eb). unfold in_block. lia.
    - rewrite <- (J7 eq_refl) in X2. apply (J3 x). lia. }
  assert (Ah2 : apart h (4 * n) (jb_ptr j) (24 * n)) by (intros x (X1 & X2); apply (J3 x); lia).
  assert (Fc : Forall (fun v => 0 <= v_cap v < 2 ^ 32) views).
  { apply Forall_forall. intros v Hv. apply In_nth_error in Hv. destruct Hv as (r & Hv). destruct (V r v Hv) as (c & _ & A & -> & _). exact A. }
  assert (Hv0 : views <> []) by (intros Q; rewrite Q in Lv; destruct caps; [congruence|discriminate]).
  destruct (setup_described_thm views (jb_host_ptr j) (jb_ptr j) h m Hv0 Fc) as (m1 & S1 & S2 & S3 & S4 & S5).
  { right. rewrite Lv. fold n. split; [split; [lia|]; intros i v Hv; destruct (V i v Hv) as (c & _ & _ & _ & A & _); exact A|]. split; [exact I1|].
    split; [|split; assumption]. apply (acc_same m0 m); [exact SA0|]. eapply acc_sub; [exact Ab0|lia|lia]. }
  { exact Dh. }
  { intros Hd. assert (host = true) as -> by (destruct host; [reflexivity|destruct (Hd (J7 eq_refl))]). destruct (Hhost eq_refl) as (Q1 & Q2). destruct (J6 eq_refl) as (O1 & O2).
    rewrite Lv. fold n. split; [lia|]. split; [lia|]. split.
    { apply (acc_same m0 m); [exact SA0|]. rewrite <- O1, <- O2. apply Hacc. auto. }
    split; [|rewrite (proj1 (proj2 C0)); exact Q1]. intros x (X1 & X2). destruct (Q2 x) as (Q3 & _); [unfold in_block; lia|]. apply Q3. unfold in_block. lia. }
  rewrite Lv in S2, S3, S5. fold n in S5.
  destruct S4 as (S4a & S4b). assert (Sz : get_bytes m1 h (4 * length views) = Some (flat_map le32 (repeat 0 (length views)))).
  { destruct S4b as [(Q & _)|(p & P1 & P2 & P3)].
    - exfalso. destruct views as [|v l]; [congruence|]. inversion Q as [|? ? Q1 _]; subst. destruct (V 0%nat v eq_refl) as (c & _ & _ & _ & A & _). lia.
    - assert (p = h).
      { destruct views as [|v l] eqn:El; [congruence|]. destruct (V 0%nat v eq_refl) as (c & _ & _ & _ & A & _). pose proof (proj2 P1 0%nat v eq_refl). lia. }
      subst p. rewrite P3. f_equal. f_equal. clear - V I1. assert (G : forall v, In v views -> v_sizep v <> 0).
      { intros v Hv. apply In_nth_error in Hv. destruct Hv as (r & Hv). destruct (V r v Hv) as (c & _ & _ & _ & A & _). lia. }
      clear V. induction views as [|v l IH]; [reflexivity|]. cbn [map repeat length]. rewrite IH by (intros; apply G; right; assumption).
      assert (v_sizep v <> 0) by (apply G; left; reflexivity). replace (v_sizep v =? 0) with false by lia. reflexivity. }
  assert (SA1 : same_acc m m1).
  { intros x. pose proof (acc_elements _ _ _ _ Sz) as A1. pose proof (acc_elements _ _ _ _ S2) as A2. rewrite Lv in A1.
    destruct (Z_lt_dec x h) as [X1|X1]; [|destruct (Z_lt_dec x (h + 4 * n)) as [X2|X2]].
    2: { assert (m_byte m1 x <> None) by (apply A1; unfold n in *; lia). assert (m_byte m x <> None); [|tauto]. apply (acc_same m0 m _ _ SA0 Ab0). lia. }
    1, 2: destruct (Z_lt_dec x (jb_ptr j)) as [Y1|Y1]; [|destruct (Z_lt_dec x (jb_ptr j + 24 * n)) as [Y2|Y2]].
    all: try (assert (E : m_byte m1 x = m_byte m x) by (apply (proj1 S5); unfold within; intros [(_ & Q)|(_ & Q)]; lia); rewrite E; tauto).
    all: assert (m_byte m1 x <> None) by (apply A2; unfold n in *; lia); assert (m_byte m x <> None); [|tauto].
    all: apply (acc_same m0 m (jb_ptr j) (24 * n) SA0); [|lia]; destruct host; [destruct (J6 eq_refl) as (O1 & O2); rewrite <- O1, <- O2; apply Hacc; auto|rewrite (J7 eq_refl); exact Ah]. }
  pose proof (same_acc_trans _ _ _ SA0 SA1) as SA.
  (* the kernel *)
  destruct (jagged_kernel_thm sz Hsz (mkJ n (jb_ptr j) (jb_host_ptr j)) views (repeat [] (length views)) vals m1) with (sched := sched)
    as (m2 & thr & K1 & _ & K2 & K3 & K4 & K5); cbn [j_size j_ptr].
  { apply repeat_length. }
  { unfold n. rewrite Lv. reflexivity. }
  { rewrite Lv. exact S2. }
  { intros r bs Hin. rewrite Lv. apply Hvals. exact Hin. }
  { intros r v old (Jv & Jo). assert (old = []) as -> by (apply nth_error_In in Jo; apply repeat_spec in Jo; exact Jo).
    destruct (V r v Jv) as (c & A1 & A2 & A3 & A4 & A5 & A6 & A7). assert (r < length views)%nat by (apply nth_error_Some; congruence). rewrite Lv in *.
    split; [lia|]. split; [unfold n in *; lia|]. split.
    { rewrite A5. destruct (Z.eq_dec (total caps) 0) as [Q|Q].
      - rewrite (I6 Q). replace (total (firstn r caps)) with 0 by lia. lia.
      - destruct (I7 ltac:(lia)) as (B1 & B2). assert (sz * total (firstn r caps) <= sz * total caps) by nia. nia. }
    cbn [length Z.of_nat concat]. split.
    { split; [lia|]. split; [lia|]. replace (v_sizep v =? 0) with false by lia. rewrite A4. apply (flat_le32_nth m1 h (repeat 0 (length caps))).
      - rewrite repeat_length. rewrite <- Lv in *. exact Sz.
      - rewrite (nth_error_nth' _ 0) by (rewrite repeat_length; assumption). rewrite nth_repeat. reflexivity. }
    split. { intros x (X1 & X2). destruct (VC r v x Jv X1). destruct (VP r v x Jv X2) as (c' & _ & _ & _ & Q). lia. }
    split. { intros x Hx. apply (acc_same m0 m1 _ _ SA Ab0). pose proof (RB r v x Jv (or_intror Hx)) as Q. exact Q. }
    split; [constructor|]. split; [reflexivity|]. rewrite A3. apply Hroom. exact A1. }
  { intros v x Hv Hx X. apply In_nth_error in Hv. destruct Hv as (r & Hv). pose proof (RB r v x Hv Hx) as Q. rewrite Lv in X. fold n in X. apply (J3 x). exact (conj X Q). }
  { exact RD. }
  specialize (K5 (K4 Hsched)). destruct K5 as (_ & K5).
  assert (K6 : forall r v, nth_error views r = Some v -> view_size m2 v (Z.of_nat (length (row_vals r vals))) /\
     exists new, Permutation new (row_vals r vals) /\ get_bytes m2 (v_ptr v) (Z.to_nat (Z.of_nat (length (row_vals r vals)) * sz)) = Some (concat new)).
  { intros r v Hv. assert (r < length views)%nat by (apply nth_error_Some; congruence). apply (K5 r v []). split; [exact Hv|].
    rewrite (nth_error_nth' _ []) by (rewrite repeat_length; assumption). rewrite nth_repeat. reflexivity. }
  destruct (pick (fun r new => forall v, nth_error views r = Some v -> Permutation new (row_vals r vals) /\ get_bytes m2 (v_ptr v) (Z.to_nat (Z.of_nat (length new) * sz)) = Some (concat new)) (length caps)) as (news & Ln & Hnew).
  { intros r Hr. rewrite <- Lv in Hr. destruct (nth_error views r) as [v|] eqn:Hv; [|apply nth_error_None in Hv; lia].
    destruct (K6 r v Hv) as (_ & new & N1 & N2). exists new. intros v' Hv'. injection Hv' as <-. split; [exact N1|]. rewrite (Permutation_length N1). exact N2. }
  (* the copy to the host *)
  set (srcs := map (fun p => mkSrc (fst p) (Z.of_nat (length (snd p))) (concat (snd p))) (combine views news)).
  assert (Lc : length views = length news) by congruence.
  assert (Es1 : map s_view srcs = views). { unfold srcs. rewrite map_map. cbn [s_view]. apply combine_fst. exact Lc. }
  assert (Es2 : map s_n srcs = map (fun new => Z.of_nat (length new)) news).
  { unfold srcs. rewrite map_map. cbn [s_n]. rewrite <- (map_map snd (fun new : list (list Z) => Z.of_nat (length new))), combine_snd by exact Lc. reflexivity. }
  assert (Ls : length srcs = length caps) by (rewrite <- Lv, <- Es1, map_length; reflexivity).
  assert (Hsrc : forall r s, nth_error srcs r = Some s -> exists v new, nth_error views r = Some v /\ nth_error news r = Some new /\ s = mkSrc v (Z.of_nat (length new)) (concat new)).
  { intros r s H. assert (H1 : nth_error views r = Some (s_view s)) by (rewrite <- Es1, nth_error_map, H; reflexivity).
    assert (r < length news)%nat by (rewrite <- Lc; apply nth_error_Some; congruence). destruct (nth_error news r) as [new|] eqn:En; [|apply nth_error_None in En; lia].
    exists (s_view s), new. split; [exact H1|]. split; [reflexivity|].
    unfold srcs in H. rewrite nth_error_map in H. destruct (nth_error (combine views news) r) as [[v' new']|] eqn:Ec; [|discriminate]. cbn in H. injection H as <-. cbn [s_view] in *.
    assert (Q : nth_error (map snd (combine views news)) r = Some new') by (rewrite nth_error_map, Ec; reflexivity). rewrite combine_snd in Q by exact Lc.
    assert (new' = new) as -> by congruence. reflexivity. }
  assert (Ndev : m_dev m2 = m_dev m0 /\ m_strict m2 = m_strict m0).
  { destruct C0 as (_ & E1 & E2). destruct S5 as (_ & E3 & E4). destruct K2 as (_ & E5 & E6). split; congruence. }
  pose proof (same_acc_trans _ _ _ SA K3) as SA2.
  assert (Hln : forall r new, nth_error news r = Some new -> length new = length (row_vals r vals)).
  { intros r new Hnn. assert (r < length views)%nat by (rewrite Lc; apply nth_error_Some; congruence). destruct (nth_error views r) as [v|] eqn:Hv; [|apply nth_error_None in Hv; lia].
    destruct (Hnew r new Hnn v Hv) as (P & _). apply Permutation_length. exact P. }
  destruct (copy_to_vecs_thm sz Hsz k srcs qs m2) as (m3 & T1 & T2 & _).
  - congruence.
  - apply Forall_forall. intros s Hs. apply In_nth_error in Hs. destruct Hs as (r & Hs). destruct (Hsrc r s Hs) as (v & new & H1 & H2 & ->). unfold src_ok. cbn [s_view s_n s_data].
    destruct (V r v H1) as (c & A1 & A2 & A3 & A4 & A5 & A6 & A7). destruct (K6 r v H1) as ((B1 & B2 & _) & _). rewrite <- (Hln r new H2) in B1.
    split; [|split; [exact B1|apply (proj2 (Hnew r new H2 v H1))]]. split; [lia|]. split.
    + intros Hc. rewrite A5. destruct (I7 ltac:(lia)) as (D1 & D2). nia.
    + intros x Hx. apply (acc_same m0 m2 _ _ SA2 Ab0). exact (RB r v x H1 (or_intror Hx)).
  - rewrite Es1, Es2. split.
    + clear - K6 Lc Hln. assert (G : forall r v new, nth_error views r = Some v -> nth_error news r = Some new -> 0 <= Z.of_nat (length new) <= v_cap v /\ v_cap v < 2 ^ 32).
      { intros r v new H1 H2. destruct (K6 r v H1) as ((B1 & B2 & _) & _). rewrite <- (Hln r new H2) in B1. auto. }
      clear - G Lc. revert news Lc G. induction views as [|v l IH]; intros [|new news] Lc G; cbn in Lc; try discriminate; constructor.
      * apply (G 0%nat); reflexivity.
      * apply IH; [lia|]. intros r. apply (G (S r)).
    + right. exists h. split; [split; [lia|]; intros i v Hv; destruct (V i v Hv) as (c & _ & _ & _ & A & _); exact A|]. split; [exact I1|].
      rewrite Lc, <- (map_length (fun new : list (list Z) => Z.of_nat (length new))). apply flat_le32_all. intros r n' Hn'. rewrite nth_error_map in Hn'.
      destruct (nth_error news r) as [new|] eqn:En; [|discriminate]. cbn in Hn'. injection Hn' as <-.
      assert (r < length views)%nat by (rewrite Lc; apply nth_error_Some; congruence). destruct (nth_error views r) as [v|] eqn:Hv; [|apply nth_error_None in Hv; lia].
      destruct (K6 r v Hv) as ((B1 & B2 & B3) & _). destruct (V r v Hv) as (c & _ & _ & _ & A & _). replace (v_sizep v =? 0) with false in B3 by lia.
      rewrite A in B3. rewrite (Hln r new En). exact B3.
  - rewrite Es2. set (tos := vec_views (map (fun new => Z.of_nat (length new)) news) qs).
    assert (HT : forall r t, nth_error tos r = Some t -> exists q, nth_error qs r = Some q /\ t = mkV (Z.of_nat (length (row_vals r vals))) 0 q /\ (exists v, nth_error views r = Some v)).
    { intros r t H. apply vec_views_nth in H. destruct H as (n' & q & H1 & H2 & ->). rewrite nth_error_map in H1. destruct (nth_error news r) as [new|] eqn:En; [|discriminate].
      cbn in H1. injection H1 as <-. exists q. split; [exact H2|]. rewrite (Hln r new En). split; [reflexivity|].
      assert (r < length views)%nat by (rewrite Lc; apply nth_error_Some; congruence). destruct (nth_error views r) as [v|] eqn:Hv; [eauto|apply nth_error_None in Hv; lia]. }
    split; [|split].
    + apply Forall_forall. intros t Ht'. apply In_nth_error in Ht'. destruct Ht' as (r & Hr). destruct (HT r t Hr) as (q & H1 & -> & v & H2). destruct (Hq r q H1) as (Q1 & Q2 & Q3).
      destruct (K6 r v H2) as ((B1 & B2 & _) & _). unfold view_ok. cbn [v_cap v_ptr]. split; [lia|]. split; [intros Hc; apply Q1; nia|]. exact (acc_same m0 m2 _ _ SA2 Q2).
    + apply pairs_nth. intros i j' t u Hij H1 H2. destruct (HT i t H1) as (q1 & E1 & -> & _). destruct (HT j' u H2) as (q2 & E2 & -> & _).
      intros x (X1 & X2). cbn [v_cap v_ptr] in X1, X2. apply (Hqq i j' q1 q2 x ltac:(lia) E1 E2 X1 X2).
    + intros s t Hs Ht'. apply In_nth_error in Hs, Ht'. destruct Hs as (r & Hs). destruct Ht' as (r' & Hr). destruct (Hsrc r s Hs) as (v & new & H1 & H2 & ->). destruct (HT r' t Hr) as (q & H3 & -> & _).
      cbn [s_view v_cap v_ptr]. destruct (Hq r' q H3) as (Q1 & Q2 & Q3). split.
      * intros x (X1 & X2). cbn [v_cap v_ptr] in X2. apply (Q3 x b X2 Eb). exact (RB r v x H1 (or_intror X1)).
      * intros Hc Hc'. unfold kind_check in *. rewrite (proj1 Ndev), (proj2 Ndev).
        assert (Ed : m_dev m0 (v_ptr v) = dev). { apply (Hdev b); [exact Eb|]. apply (RB r v _ H1). right. unfold within. nia. }
        rewrite Ed. apply Q1. nia.
  - rewrite Es1, Es2 in T1. exists m1, m2, thr, m3, news. split; [exact S1|]. split; [exact K1|]. split; [exact T1|]. split; [exact Ln|]. split.
    + intros r new En. assert (r < length views)%nat by (rewrite Lc; apply nth_error_Some; congruence). destruct (nth_error views r) as [v|] eqn:Hv; [|apply nth_error_None in Hv; lia].
      apply (proj1 (Hnew r new En v Hv)).
    + intros r q new Eq En. assert (r < length srcs)%nat by (rewrite Ls, <- Lq; apply nth_error_Some; congruence). destruct (nth_error srcs r) as [s|] eqn:Es; [|apply nth_error_None in Es; lia].
      destruct (Hsrc r s Es) as (v & new' & H1 & H2 & Hs). assert (new' = new) as -> by congruence.
      clear - T2 Es Eq Hs. revert qs r T2 Es Eq. induction srcs as [|s0 l IH]; intros qs [|r] T2 Es Eq; try discriminate.
      * inversion T2 as [|? q0 ? qs' P1 P2]; subst. cbn in Es, Eq. injection Es as ->. injection Eq as ->. cbn [s_n s_data] in P1. exact P1.
      * inversion T2 as [|? q0 ? qs' P1 P2]; subst. exact (IH qs' r P2 Es Eq).
Qed.
