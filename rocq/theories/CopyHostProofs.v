(** Proofs about the copies that create or resize their target. *)
From Verif Require Import Base BaseLemmas Placement PlacementProofs JaggedBufferProofs EdmBuffer Copy CopyProofs CopyJaggedProofs CopyJaggedTheorems EdmCopy EdmCopyViews CopyHost.

(** One inner vector of a source: its view, its size, the bytes of its elements. *)
Record jsrc := mkSrc { s_view : vview; s_n : Z; s_data : list Z }.

Section Fresh.
  Variable sz : Z.
  Hypothesis sz_pos : 0 < sz.
  Variable k : cptype.

  Definition src_ok (m : cmem) (s : jsrc) : Prop :=
    view_ok sz m (s_view s) /\ 0 <= s_n s <= v_cap (s_view s) /\
    get_bytes m (v_ptr (s_view s)) (Z.to_nat (s_n s * sz)) = Some (s_data s).
  (** Room for the elements, apart from other targets and all sources. *)
  Definition targets_ok (m : cmem) (srcs : list jsrc) (tos : list vview) : Prop :=
    Forall (view_ok sz m) tos /\ ForallOrdPairs (payloads_apart sz) tos /\
    (forall s t, In s srcs -> In t tos -> payloads_apart sz (s_view s) t /\
       (0 < v_cap (s_view s) -> 0 < v_cap t -> kind_check m k (m_dev m (v_ptr (s_view s))) (m_dev m (v_ptr t)) = true)).
  Definition arrived (m : cmem) (s : jsrc) (t : vview) : Prop :=
    get_bytes m (v_ptr t) (Z.to_nat (s_n s * sz)) = Some (s_data s).

  Definition row_of (p : jsrc * vview) : jrow := mkRow (s_view (fst p)) (snd p) (s_n (fst p)) (s_data (fst p)).

  Lemma combine_fst {A B} (l : list A) : forall l' : list B, length l = length l' -> map fst (combine l l') = l.
  Proof. induction l as [|a l IH]; intros [|b l'] H; cbn in *; try discriminate; [auto|]. f_equal. apply IH. lia. Qed.
  Lemma combine_snd {A B} (l : list A) : forall l' : list B, length l = length l' -> map snd (combine l l') = l'.
  Proof. induction l as [|a l IH]; intros [|b l'] H; cbn in *; try discriminate; [auto|]. f_equal. apply IH. lia. Qed.
  Lemma pairs_map {A B} (R : B -> B -> Prop) (f : A -> B) l : ForallOrdPairs R (map f l) -> ForallOrdPairs (fun x y => R (f x) (f y)) l.
  Proof.
    induction l as [|a l IH]; cbn [map]; intros H; inversion H as [|? ? H1 H2]; subst; constructor; auto.
    rewrite Forall_forall in *. intros x Hx. apply H1. apply in_map. auto.
  Qed.

  Lemma fresh_copy srcs tos m : Forall2 (fun s t => v_cap t = s_n s /\ v_sizep t = 0) srcs tos -> Forall (src_ok m) srcs ->
    jagged_sizes m (map s_view srcs) (map s_n srcs) -> targets_ok m srcs tos ->
    exists b m', copy_jagged sz k (map s_view srcs) tos m = (Ret b, m') /\
      changes (fun x => exists t, In t tos /\ payload sz t x) m m' /\ Forall2 (arrived m') srcs tos.
  Proof.
    intros F2 Fs Hs (T1 & T2 & T3). pose proof (Forall2_len _ _ _ F2) as L.
    destruct srcs as [|s0 srcs0] eqn:Es.
    { destruct tos; [|discriminate]. exists false, m. split; [apply copy_jagged_empty|]. split; [apply changes_refl|constructor]. }
    rewrite <- Es in *. set (rows := map row_of (combine srcs tos)).
    assert (E1 : map r_from rows = map s_view srcs).
    { unfold rows. rewrite map_map. cbn [row_of r_from]. rewrite <- (map_map fst s_view), combine_fst; auto. }
    assert (E2 : map r_to rows = tos).
    { unfold rows. rewrite map_map. cbn [row_of r_to]. apply combine_snd. auto. }
    assert (E3 : map r_n rows = map s_n srcs).
    { unfold rows. rewrite map_map. cbn [row_of r_n]. rewrite <- (map_map fst s_n), combine_fst; auto. }
    assert (IN : forall r, In r rows -> exists s t, In s srcs /\ In t tos /\ r = row_of (s, t) /\ v_cap t = s_n s).
    { intros r Hr. unfold rows in Hr. apply in_map_iff in Hr. destruct Hr as ((s & t) & <- & Hr). exists s, t.
      split; [apply (in_combine_l _ _ _ _ Hr)|]. split; [apply (in_combine_r _ _ _ _ Hr)|]. split; [auto|].
      clear - F2 Hr. induction F2 as [|a b la lb (H & _) _ IH]; cbn [combine In] in Hr; [contradiction|].
      destruct Hr as [Hr|Hr]; [injection Hr as -> ->; auto|auto]. }
    assert (FX : fixed_sizes tos) by (clear - F2; induction F2 as [|a b la lb (_ & H) _ IH]; constructor; auto).
    rewrite Forall_forall in Fs, T1.
    destruct (copy_jagged_thm sz sz_pos k rows m) as (m' & G & D & _ & C).
    - intros E. rewrite E in E3. rewrite Es in E3. discriminate.
    - apply Forall_forall. intros r Hr. destruct (IN r Hr) as (s & t & Is & It & -> & Ec). destruct (Fs s Is) as (V & N & B).
      unfold row_ok. cbn [row_of r_from r_to r_n r_data fst snd]. split; [auto|]. split; [auto|]. split; [auto|]. split; [lia|]. split; [auto|]. apply (T3 s t); auto.
    - split.
      + apply (pairs_map (payloads_apart sz) r_to). rewrite E2. auto.
      + intros r r' Hr Hr'. destruct (IN r Hr) as (s & t & Is & It & -> & _). destruct (IN r' Hr') as (s' & t' & Is' & It' & -> & _).
        cbn [row_of r_from r_to fst snd]. apply (T3 s t'); auto.
    - rewrite E1, E3. auto.
    - left. rewrite E2. auto.
    - exists true, m'. rewrite E1, E2 in G. split; [exact G|]. split.
      + apply (changes_weaken _ _ _ _ C). intros x [(r & Hr & P)|P].
        * destruct (IN r Hr) as (s & t & _ & It & -> & _). exists t. auto.
        * rewrite E2 in P. destruct tos as [|t tos']; [contradiction|]. inversion FX; subst. cbn [sizes_range] in P. destruct P; contradiction.
      + assert (D' : forall s t, In (s, t) (combine srcs tos) -> arrived m' s t).
        { intros s t H. apply (D (row_of (s, t))). unfold rows. apply in_map. auto. }
        clear - D' L. revert tos L D'. induction srcs as [|s srcs IH]; intros [|t tos] L D'; cbn in L; try discriminate; constructor.
        * apply D'. left. auto.
        * apply IH; [lia|]. intros s' t' H. apply D'. right. auto.
  Qed.

  (** ** Copies into vectors of vectors *)
  Lemma vec_views_caps : forall s qs, length s = length qs -> map v_cap (vec_views s qs) = s.
  Proof. induction s as [|n s IH]; intros [|q qs] H; cbn in *; try discriminate; [auto|]. f_equal. apply IH. lia. Qed.

  Theorem copy_to_vecs_thm srcs qs m : length qs = length srcs -> Forall (src_ok m) srcs ->
    jagged_sizes m (map s_view srcs) (map s_n srcs) -> targets_ok m srcs (vec_views (map s_n srcs) qs) ->
    exists m', copy_to_vecs sz k (map s_view srcs) qs m = (Ret (map s_n srcs), m') /\
      Forall2 (fun s q => get_bytes m' q (Z.to_nat (s_n s * sz)) = Some (s_data s)) srcs qs /\
      changes (fun x => exists s q, In (s, q) (combine srcs qs) /\ within q (s_n s * sz) x) m m'.
  Proof.
    intros L Fs Hs Ht. unfold copy_to_vecs. rewrite (get_sizes_ok _ _ _ Hs). cbn [cbind].
    destruct (fresh_copy srcs (vec_views (map s_n srcs) qs) m) as (b & m' & G & C & A); auto.
    { clear - L. revert qs L. induction srcs as [|s srcs IH]; intros [|q qs] L; cbn in L; try discriminate; constructor; [split; reflexivity|apply IH; lia]. }
    exists m'. rewrite G. cbn [cbind]. split; [reflexivity|]. split.
    - clear - A L. revert qs L A. induction srcs as [|s srcs IH]; intros [|q qs] L A; cbn in L; try discriminate; constructor; inversion A; subst; auto.
    - apply (changes_weaken _ _ _ _ C). clear - L. intros x (t & It & P). revert qs L It.
      induction srcs as [|s srcs IH]; intros [|q qs] L It; cbn in L; try discriminate; [contradiction|].
      cbn [map vec_views In] in It. destruct It as [<-|It].
      + exists s, q. split; [left; auto|exact P].
      + destruct (IH qs ltac:(lia) It) as (s' & q' & I & W). exists s', q'. split; [right; auto|auto].
  Qed.

  (** ** copy::to *)
  Lemma host_read_sizes_ok m srcs : jagged_sizes m (map s_view srcs) (map s_n srcs) ->
    (forall s, In s srcs -> v_sizep (s_view s) <> 0 -> m_dev m (v_sizep (s_view s)) = false) ->
    host_read_sizes (map s_view srcs) m = Ret (map s_n srcs).
  Proof.
    intros (F & H) D. destruct H as [(H1 & H2)|(p & H1 & H2 & H3)].
    - clear F D. revert H1 H2. induction srcs as [|s srcs IH]; intros H1 H2; [reflexivity|]. cbn [map host_read_sizes] in *.
      inversion H1; subst. unfold host_read_size. rewrite H3. cbn [Z.eqb bind]. injection H2 as E2 H2. rewrite IH; auto. cbn [bind]. rewrite E2. reflexivity.
    - revert p F D H1 H2 H3. induction srcs as [|s srcs IH]; intros p F D H1 H2 H3; [reflexivity|]. cbn [map host_read_sizes].
      inversion F as [|? ? ? ? (N1 & N2) F']; subst. cbn [map] in H1. destruct (sizes_at_tail _ _ _ H1 H2) as (E & H1').
      cbn [map length flat_map] in H3. rewrite map_length in H3. replace (4 * S (length srcs))%nat with (4 + 4 * length srcs)%nat in H3 by lia.
      rewrite get_bytes_app in H3. destruct (get_bytes m p 4) as [b4|] eqn:G4; [|discriminate].
      destruct (get_bytes m (p + Z.of_nat 4) (4 * length srcs)) as [bl|] eqn:Gl; [|discriminate]. injection H3 as H3.
      assert (L4 : length b4 = 4%nat) by (apply (get_bytes_len _ _ _ _ G4)).
      assert (E4 : b4 = le32 (s_n s) /\ bl = flat_map le32 (map s_n srcs)).
      { assert (Q : firstn 4 (b4 ++ bl) = firstn 4 (le32 (s_n s) ++ flat_map le32 (map s_n srcs))) by (rewrite H3; reflexivity).
        rewrite !firstn_app, L4, le32_len, Nat.sub_diag in Q. rewrite !firstn_O, !app_nil_r in Q.
        rewrite firstn_all2 in Q by lia. rewrite firstn_all2 in Q by (rewrite le32_len; lia). subst b4.
        split; [reflexivity|]. apply (app_inv_head (le32 (s_n s))). exact H3. }
      destruct E4 as (-> & ->).
      unfold host_read_size at 1. rewrite E. replace (p =? 0) with false by lia. rewrite <- E, (D s) by (try (left; reflexivity); lia). rewrite E, G4.
      rewrite unle32_le32 by lia. cbn [bind]. rewrite (IH (p + 4)); auto.
      + intros s' Hs'. apply D. right. auto.
      + lia.
      + rewrite map_length. exact Gl.
  Qed.

  Lemma buffer_views_nth d s i : Forall (fun n => 0 <= n < 2 ^ 32) s ->
    nth_error (buffer_views sz d s) i = match nth_error s i with Some n => Some (mkV n 0 (d + sz * total (firstn i s))) | None => None end.
  Proof.
    intros F. unfold buffer_views. rewrite nth_error_map, inner_views_nth. destruct (nth_error s i) as [n|] eqn:E; [|reflexivity].
    cbn [option_map]. unfold cv. cbn [Placement.v_cap Placement.v_size Placement.v_ptr Z.eqb]. rewrite wrap32_small; [reflexivity|].
    rewrite Forall_forall in F. apply F. apply nth_error_In in E. auto.
  Qed.
  Lemma buffer_views_length d s : length (buffer_views sz d s) = length s.
  Proof.
    unfold buffer_views. rewrite map_length. enough (E : forall h i o, length (inner_views sz h d i o s) = length s) by apply E.
    induction s as [|n s IH]; intros h i o; cbn [inner_views length]; auto.
  Qed.

  Theorem to_jagged_thm srcs d m : Forall (src_ok m) srcs -> jagged_sizes m (map s_view srcs) (map s_n srcs) ->
    (forall s, In s srcs -> v_sizep (s_view s) <> 0 -> m_dev m (v_sizep (s_view s)) = false) ->
    (0 < total (map s_n srcs) -> 0 < d) -> acc m d (total (map s_n srcs) * sz) ->
    (forall s x, In s srcs -> within d (total (map s_n srcs) * sz) x ->
       ~ payload sz (s_view s) x /\ kind_check m k (m_dev m (v_ptr (s_view s))) (m_dev m x) = true) ->
    exists to m', to_jagged sz k (map s_view srcs) d m = (Ret to, m') /\
      map v_cap to = map s_n srcs /\ fixed_sizes to /\ Forall2 (arrived m') srcs to /\
      ForallOrdPairs (payloads_apart sz) to /\ Forall (fun t => forall x, payload sz t x -> within d (total (map s_n srcs) * sz) x) to /\
      changes (within d (total (map s_n srcs) * sz)) m m'.
  Proof.
    intros Fs Hs Hh Hd Ha Hk. set (S := map s_n srcs) in *. set (to := buffer_views sz d S).
    assert (R : Forall (fun n => 0 <= n < 2 ^ 32) S).
    { unfold S. clear - Fs. induction Fs as [|s l ((V & _) & N & _) _ IH]; constructor; [lia|auto]. }
    assert (N : forall i t, nth_error to i = Some t -> exists n, nth_error S i = Some n /\ t = mkV n 0 (d + sz * total (firstn i S))).
    { intros i t E. unfold to in E. rewrite buffer_views_nth in E by auto. destruct (nth_error S i) as [n|]; [|discriminate]. injection E as <-. exists n. auto. }
    assert (IW : forall i t, nth_error to i = Some t -> d <= v_ptr t /\ v_ptr t + v_cap t * sz = d + sz * total (firstn (1 + i) S) /\ v_ptr t + v_cap t * sz <= d + total S * sz).
    { intros i t E. destruct (N i t E) as (n & En & ->). cbn [v_ptr v_cap].
      pose proof (total_firstn_nonneg S i R). pose proof (total_firstn_S S i n En) as TS. pose proof (total_firstn_le S (1 + i) R) as TL.
      change (1 + i)%nat with (Datatypes.S i) in *. rewrite TS. split; [|split]; nia. }
    assert (T1 : Forall (view_ok sz m) to).
    { apply Forall_forall. intros t It. destruct (In_nth_error _ _ It) as (i & E). destruct (IW i t E) as (W1 & W2 & W3). destruct (N i t E) as (n & En & ->).
      cbn [v_ptr v_cap] in *. assert (0 <= n < 2 ^ 32) by (rewrite Forall_forall in R; apply R; apply nth_error_In in En; auto).
      assert (0 <= total (firstn i S)) by (apply total_firstn_nonneg; auto).
      split; [cbn; auto|]. cbn [v_ptr v_cap]. split; [|apply (acc_sub m _ _ _ _ Ha); auto].
      intros Hn. assert (0 < total S). { pose proof (total_firstn_S S i n En). pose proof (total_firstn_le S (1 + i) R). change (1 + i)%nat with (Datatypes.S i) in *. lia. }
      specialize (Hd H1). nia. }
    assert (T2 : ForallOrdPairs (payloads_apart sz) to).
    { assert (Q : forall i j t u, (i < j)%nat -> nth_error to i = Some t -> nth_error to j = Some u -> payloads_apart sz t u).
      { intros i j t u Hij Et Eu. destruct (IW i t Et) as (_ & W & _). destruct (N j u Eu) as (n & En & ->).
        pose proof (total_firstn_mono S (1 + i) j R ltac:(lia)) as M. intros x Hx. cbn [v_ptr v_cap] in Hx. nia. }
      clear - Q. induction to as [|t l IH]; constructor.
      - apply Forall_forall. intros u Iu. destruct (In_nth_error _ _ Iu) as (j & E). apply (Q 0%nat (1 + j)%nat); auto. lia.
      - apply IH. intros i j a b Hij Ea Eb. apply (Q (1 + i)%nat (1 + j)%nat); auto. lia. }
    assert (T4 : Forall (fun t => forall x, payload sz t x -> within d (total S * sz) x) to).
    { apply Forall_forall. intros t It x P. destruct (In_nth_error _ _ It) as (i & E). destruct (IW i t E) as (W1 & _ & W3). unfold payload, within in *. lia. }
    assert (L : length srcs = length to) by (unfold to, S; rewrite buffer_views_length, map_length; auto).
    assert (F2 : Forall2 (fun s t => v_cap t = s_n s /\ v_sizep t = 0) srcs to).
    { assert (Q : forall i s t, nth_error srcs i = Some s -> nth_error to i = Some t -> v_cap t = s_n s /\ v_sizep t = 0).
      { intros i s t Es Et. destruct (N i t Et) as (n & En & ->). cbn. unfold S in En. rewrite nth_error_map, Es in En. injection En as <-. auto. }
      clear - Q L. revert Q L. generalize to. clear. induction srcs as [|s l IH]; intros [|t to] Q L; cbn in L; try discriminate; constructor.
      - apply (Q 0%nat); reflexivity.
      - apply IH; [|lia]. intros i s' t' E1 E2. apply (Q (1 + i)%nat); auto. }
    assert (FX : fixed_sizes to) by (clear - F2; induction F2 as [|a b la lb (_ & H) _ IH]; constructor; auto).
    destruct (fresh_copy srcs to m) as (b & m' & G & C & A); auto.
    - split; [auto|]. split; [auto|]. intros s t Is It. rewrite Forall_forall in T4. split.
      + intros x (X1 & X2). apply (proj1 (Hk s x Is (T4 t It x X2))). exact X1.
      + intros _ Hc. apply (proj2 (Hk s (v_ptr t) Is (T4 t It (v_ptr t) ltac:(unfold payload, within; nia)))).
    - exists to, m'. unfold to_jagged. rewrite host_read_sizes_ok by auto. fold S. fold to. rewrite (setup_jagged_fixed to m FX). cbn [cbind]. rewrite G. cbn [cbind].
      split; [reflexivity|]. split.
      { clear - F2. unfold S. induction F2 as [|? ? ? ? (E & _) _ IH]; cbn [map]; [auto|]. rewrite E, IH. auto. }
      split; [auto|]. split; [auto|]. split; [auto|]. split; [auto|].
      apply (changes_weaken _ _ _ _ C). intros x (t & It & P). rewrite Forall_forall in T4. apply (T4 t It x P).
  Qed.

  (** A source whose sizes are kept in device memory: the first size is read by the host. *)
  Theorem to_jagged_device from v l d m : from = v :: l -> v_sizep v <> 0 -> m_dev m (v_sizep v) = true ->
    to_jagged sz k from d m = (UB, m).
  Proof.
    intros -> H1 H2. unfold to_jagged. cbn [host_read_sizes]. unfold host_read_size. replace (v_sizep v =? 0) with false by lia. rewrite H2. reflexivity.
  Qed.
End Fresh.

(** ** Setup with the description of the inner vectors *)
Theorem setup_described_thm l host_ptr ptr q m :
  l <> [] -> Forall (fun v => 0 <= v_cap v < 2 ^ 32) l ->
  (fixed_sizes l \/ (sizes_at q l /\ 0 < q /\ acc m q (4 * Z.of_nat (length l)) /\
     apart q (4 * Z.of_nat (length l)) host_ptr (24 * Z.of_nat (length l)) /\ apart q (4 * Z.of_nat (length l)) ptr (24 * Z.of_nat (length l)))) ->
  get_bytes m host_ptr (24 * length l) = Some (flat_map view_bytes_of l) ->
  (ptr <> host_ptr -> ptr <> 0 /\ host_ptr <> 0 /\ acc m ptr (24 * Z.of_nat (length l)) /\
     apart host_ptr (24 * Z.of_nat (length l)) ptr (24 * Z.of_nat (length l)) /\
     kind_check m host_to_device (m_dev m host_ptr) (m_dev m ptr) = true) ->
  exists m', setup_described l host_ptr ptr m = (Ret tt, m') /\
    get_bytes m' ptr (24 * length l) = Some (flat_map view_bytes_of l) /\
    get_bytes m' host_ptr (24 * length l) = Some (flat_map view_bytes_of l) /\
    jagged_sizes m' l (map (fun v => if v_sizep v =? 0 then v_cap v else 0) l) /\
    changes (fun x => (ptr <> host_ptr /\ within ptr (24 * Z.of_nat (length l)) x) \/
                      (~ fixed_sizes l /\ within q (4 * Z.of_nat (length l)) x)) m m'.
Proof.
  intros Hne F Hs Hb Hp. unfold setup_described. destruct l as [|v0 l0] eqn:El; [congruence|]. rewrite <- El in *.
  set (N := Z.of_nat (length l)) in *. assert (HN : 0 < N) by (unfold N; rewrite El; cbn [length]; lia).
  assert (S1 : exists m1, setup_jagged l m = (Ret tt, m1) /\ changes (fun x => ~ fixed_sizes l /\ within q (4 * N) x) m m1 /\ same_acc m m1 /\
    jagged_sizes m1 l (map (fun v => if v_sizep v =? 0 then v_cap v else 0) l) /\
    (ptr <> host_ptr -> fixed_sizes l \/ (apart q (4 * N) ptr (24 * N))) /\ get_bytes m1 host_ptr (24 * length l) = get_bytes m host_ptr (24 * length l)).
  { destruct Hs as [FX|(SA & Q & A & A1 & A2)].
    - exists m. split; [apply setup_jagged_fixed; auto|]. split; [apply changes_refl|]. split; [apply same_acc_refl|]. split; [|split; auto].
      assert (E : map (fun v => if v_sizep v =? 0 then v_cap v else 0) l = map v_cap l).
      { clear - FX. induction FX as [|v l E _ IH]; cbn [map]; [auto|]. rewrite E, IH. reflexivity. }
      rewrite E. split; [clear - F; induction F; cbn [map]; constructor; auto; lia|]. left. auto.
    - destruct (setup_jagged_thm l m q) as (m1 & G & C & J); auto. exists m1. split; [exact G|].
      assert (NF : ~ fixed_sizes l).
      { intros FX. pose proof (sizes_at_nonnull _ _ SA Q) as NN. rewrite El in *. inversion FX; subst. inversion NN; subst. contradiction. }
      split; [apply (changes_weaken _ _ _ _ C); auto|]. split.
      { unfold setup_jagged in G. rewrite El in G. destruct (v_sizep v0 =? 0); [injection G as <-; apply same_acc_refl|].
        rewrite El in SA. destruct (sizes_at_tail _ _ _ SA Q) as (E0 & _). rewrite E0 in G.
        destruct (do_memset_ok (4 * Z.of_nat (length (v0 :: l0))) q 0 m) as (m2 & G2 & _ & S2 & _); [lia|lia|rewrite <- El; auto|].
        rewrite G2 in G. injection G as <-. auto. }
      split; [|split].
      + replace (map (fun v => if v_sizep v =? 0 then v_cap v else 0) l) with (repeat 0 (length l)); [exact J|].
        pose proof (sizes_at_nonnull _ _ SA Q) as NN. clear - NN. induction NN as [|v l E _ IH]; cbn [length repeat map]; [auto|].
        rewrite <- IH. replace (v_sizep v =? 0) with false by lia. reflexivity.
      + auto.
      + apply (changes_get _ _ _ _ _ C). intros x Hx Hx'. apply (A1 x). unfold within, N in *. lia. }
  destruct S1 as (m1 & G1 & C1 & A1 & J1 & P1 & H1). rewrite G1. cbn [cbind]. rewrite Hb in H1.
  destruct (ptr =? host_ptr) eqn:Ep.
  - apply Z.eqb_eq in Ep. subst ptr. exists m1. split; [reflexivity|]. split; [auto|]. split; [auto|]. split; [auto|].
    apply (changes_weaken _ _ _ _ C1). intros x Hx. right. exact Hx.
  - apply Z.eqb_neq in Ep. destruct (Hp Ep) as (K1 & K2 & K3 & K4 & K5). fold N.
    destruct (do_copy_ok host_to_device (N * 24) host_ptr ptr m1) as (m2 & G2 & C2 & A2 & B2).
    + lia.
    + intros _. split; [auto|]. split; [auto|]. destruct C1 as (_ & D1 & D2). unfold kind_check in *. rewrite D1, D2. auto.
    + intros x Hx. assert (A : acc m1 host_ptr (Z.of_nat (24 * length l))) by (apply get_bytes_acc; eauto). apply A. unfold N in Hx. lia.
    + intros x Hx. apply (acc_same _ _ _ _ A1 K3). lia.
    + intros x Hx. apply (K4 x). lia.
    + exists m2. split; [exact G2|]. split.
      { rewrite <- H1. apply get_bytes_ext. intros i Hi. apply B2. unfold N. lia. }
      split.
      { rewrite <- H1. apply (changes_get _ _ _ _ _ C2). intros x Hx Hx'. apply (K4 x). unfold within, N in *. lia. }
      split.
      { destruct J1 as (J1 & J2). split; [auto|]. destruct J2 as [J2|(p & S1 & S2 & S3)]; [left; auto|]. right. exists p. split; [auto|]. split; [auto|].
        rewrite <- S3. apply (changes_get _ _ _ _ _ C2). intros x Hx Hx'.
        destruct Hs as [FX|(SA & Q & _ & _ & AP)].
        - pose proof (sizes_at_nonnull _ _ S1 S2) as NN. rewrite El in *. inversion FX; subst. inversion NN; subst. contradiction.
        - assert (p = q). { rewrite El in SA, S1. destruct (sizes_at_tail _ _ _ SA Q) as (Ea & _). destruct (sizes_at_tail _ _ _ S1 S2) as (Eb & _). lia. }
          subst p. apply (AP x). unfold within, N in *. lia. }
      apply (changes_weaken _ _ _ _ (changes_trans _ _ _ _ _ C1 C2)). intros x [Hx|Hx]; [right; exact Hx|left]. split; [auto|]. unfold within in *. lia.
Qed.
