(** Proofs for KernProg.v: kernels append to buffers as to bounded lists. *)
From Verif Require Import Base BaseLemmas Copy CopyProofs Kernel KernelProofs KernelSafe BufProg BufProgProofs KernProg.
From Coq Require Import ZArith List Bool Lia Permutation.
Import ListNotations.
Local Open Scope Z_scope.

(** ** Lists *)
Lemma upd_mid {A} (l1 : list A) x l2 y : upd (l1 ++ x :: l2) (length l1) y = l1 ++ y :: l2.
Proof. induction l1 as [|a l1 IH]; cbn [length app upd]; [reflexivity|]. f_equal. exact IH. Qed.
Lemma nth_mid {A} (l1 : list A) x l2 : nth_error (l1 ++ x :: l2) (length l1) = Some x.
Proof. rewrite nth_error_app2 by lia. rewrite Nat.sub_diag. reflexivity. Qed.

Lemma chunks (sz : nat) : (0 < sz)%nat -> forall n (bs : list Z), length bs = (n * sz)%nat ->
  exists l, length l = n /\ Forall (fun b => length b = sz) l /\ concat l = bs.
Proof.
  intros Hs. induction n as [|n IH]; intros bs Hl.
  - exists []. split; [reflexivity|]. split; [constructor|]. destruct bs; [reflexivity|discriminate Hl].
  - destruct (IH (skipn sz bs)) as (l & L1 & L2 & L3). { rewrite skipn_length, Hl. cbn. lia. }
    exists (firstn sz bs :: l). split; [cbn; congruence|]. split.
    + constructor; [|exact L2]. rewrite firstn_length, Hl. cbn. lia.
    + cbn [concat]. rewrite L3. apply firstn_skipn.
Qed.

(** ** One step of a kernel of Kernel.v, seen from one thread *)
Lemma k_step_local sz v m l1 k l2 m' thr' : k_step sz v (m, l1 ++ k :: l2) (length l1) = Ret (m', thr') ->
  exists k', k_step sz v (m, [k]) 0 = Ret (m', [k']) /\ thr' = l1 ++ k' :: l2 /\ k_val k' = k_val k.
Proof.
  unfold k_step, assert. rewrite nth_mid. cbn [nth_error]. destruct k as [bs|idx bs|idx bs|idx bs].
  - destruct (negb (v_sizep v =? 0)); [|discriminate]. destruct (get_bytes m (v_sizep v) 4) as [c|]; [|discriminate].
    destruct (unle32 c <? v_cap v); [|discriminate]. intros E. injection E as <- <-. eexists. split; [reflexivity|]. split; [apply upd_mid|reflexivity].
  - destruct (idx <? v_cap v); [|discriminate]. destruct (get_bytes m _ _); [|discriminate].
    intros E. injection E as <- <-. eexists. split; [reflexivity|]. split; [apply upd_mid|reflexivity].
  - intros E. injection E as <- <-. eexists. split; [reflexivity|]. split; [apply upd_mid|reflexivity].
  - intros E. injection E as <- <-. eexists. split; [reflexivity|]. split; reflexivity.
Qed.

Lemma k_run_app sz v s1 : forall s s2, k_run sz v s (s1 ++ s2) = bind (k_run sz v s s1) (fun s' => k_run sz v s' s2).
Proof. induction s1 as [|i s1 IH]; intros s s2; cbn [app k_run bind]; [reflexivity|]. destruct (k_step sz v s i); cbn [bind]; [apply IH|reflexivity|reflexivity]. Qed.
Lemma f_run_app esz vi osz vo g s1 : forall s s2, f_run esz vi osz vo g s (s1 ++ s2) = bind (f_run esz vi osz vo g s s1) (fun s' => f_run esz vi osz vo g s' s2).
Proof. induction s1 as [|i s1 IH]; intros s s2; cbn [app f_run bind]; [reflexivity|]. destruct (f_step esz vi osz vo g s i); cbn [bind]; [apply IH|reflexivity|reflexivity]. Qed.

(** ** Simulation of a kernel that filters by one in which every thread appends *)
Section Filter.
  Variables (esz : Z) (vi : vview) (osz : Z) (vo : vview) (g : list Z -> option (list Z)) (nthr : nat) (m0 : cmem) (n : Z).
  Variable elem : nat -> option (list Z).
  Definition val (t : nat) : option (list Z) := if Z.of_nat t <? n then match elem t with Some e => g e | None => None end else None.
  Definition outs : list (list Z) := somes (map val (seq 0 nthr)).
  Variable P : Z -> Prop.
  Hypothesis Hrun : forall sched, exists m' thr, k_run osz vo (m0, map KCall outs) sched = Ret (m', thr) /\ changes P m0 m'.
  Hypothesis Hsize : forall m, changes P m0 m -> dev_size vi m = Some n.
  Hypothesis Helem : forall m t, changes P m0 m -> (t < nthr)%nat -> Z.of_nat t < n ->
    exists e, elem t = Some e /\ get_bytes m (v_ptr vi + Z.of_nat t * esz) (Z.to_nat esz) = Some e.

  Definition contrib (s : fthr) : list kthr :=
    match s with
    | FSize t | FRead t => match val t with Some b => [KCall b] | None => [] end
    | FPush k => [k]
    | FEnd => []
    end.
  Definition ok (i : nat) (s : fthr) : Prop :=
    match s with
    | FSize t => t = i
    | FRead t => t = i /\ Z.of_nat t < n
    | FPush k => val i = Some (k_val k)
    | FEnd => val i = None
    end.
  Definition frank (s : fthr) : nat := match s with FSize _ => 5 | FRead _ => 4 | FPush k => rank k | FEnd => 0 end.

  Record Sim (sched : list nat) (m : cmem) (thr : list fthr) : Prop := mkSim {
    s_run : exists sched', k_run osz vo (m0, map KCall outs) sched' = Ret (m, flat_map contrib thr);
    s_len : length thr = nthr;
    s_ok : forall i s, nth_error thr i = Some s -> ok i s;
    s_rank : forall i s, nth_error thr i = Some s -> (frank s <= 5 - count_occ Nat.eq_dec sched i)%nat }.

  Lemma sim_changes sched m thr : Sim sched m thr -> changes P m0 m.
  Proof. intros S. destruct (s_run _ _ _ S) as (sched' & E). destruct (Hrun sched') as (m' & thr' & E' & C). rewrite E in E'. injection E' as <- _. exact C. Qed.

  Lemma sim_init : Sim [] m0 (map FSize (seq 0 nthr)).
  Proof.
    constructor.
    - exists []. cbn [k_run]. f_equal. f_equal. unfold outs, somes. induction (seq 0 nthr) as [|t l IH]; [reflexivity|].
      cbn [map flat_map]. rewrite map_app, IH. f_equal. cbn [contrib]. destruct (val t); reflexivity.
    - rewrite map_length, seq_length. reflexivity.
    - intros i s Hs. rewrite nth_error_map in Hs. destruct (nth_error (seq 0 nthr) i) as [t|] eqn:E; [|discriminate]. injection Hs as <-.
      pose proof (proj1 (nth_error_Some (seq 0 nthr) i) ltac:(congruence)) as Hl. rewrite seq_length in Hl. cbn [ok].
      apply (nth_error_nth _ _ 0%nat) in E. rewrite seq_nth in E by exact Hl. lia.
    - intros i s Hs. rewrite nth_error_map in Hs. destruct (nth_error (seq 0 nthr) i) as [t|] eqn:E; [|discriminate]. injection Hs as <-. cbn. lia.
  Qed.

  Lemma sim_step sched m thr i : Sim sched m thr -> exists m' thr', f_step esz vi osz vo g (m, thr) i = Ret (m', thr') /\ Sim (sched ++ [i]) m' thr'.
  Proof.
    intros S. pose proof (sim_changes _ _ _ S) as C.
    assert (CO : forall j, count_occ Nat.eq_dec (sched ++ [i]) j = (count_occ Nat.eq_dec sched j + if Nat.eq_dec i j then 1 else 0)%nat).
    { intros j. rewrite count_occ_app. cbn [count_occ]. destruct (Nat.eq_dec i j); lia. }
    destruct (nth_error thr i) as [s|] eqn:N.
    2:{ exists m, thr. unfold f_step. rewrite N. split; [reflexivity|]. constructor; [exact (s_run _ _ _ S)|exact (s_len _ _ _ S)|exact (s_ok _ _ _ S)|].
      intros j s Hj. pose proof (s_rank _ _ _ S j s Hj). rewrite CO. destruct (Nat.eq_dec i j); [congruence|]. lia. }
    pose proof (s_ok _ _ _ S i s N) as O. pose proof (s_rank _ _ _ S i s N) as K.
    destruct (nth_error_split _ _ N) as (l1 & l2 & El & Li).
    assert (Hi : (i < nthr)%nat) by (rewrite <- (s_len _ _ _ S); apply nth_error_Some; congruence).
    (* what is common to all steps *)
    assert (G : forall m' s', (exists sched', k_run osz vo (m0, map KCall outs) sched' = Ret (m', flat_map contrib (upd thr i s'))) ->
      ok i s' -> (frank s' <= frank s - 1)%nat -> Sim (sched ++ [i]) m' (upd thr i s')).
    { intros m' s' R O' K'. constructor.
      - exact R.
      - rewrite upd_length. exact (s_len _ _ _ S).
      - intros j t Hj. rewrite nth_upd in Hj. destruct (Nat.eqb_spec i j) as [<-|D]; [rewrite N in Hj; injection Hj as <-; exact O'|exact (s_ok _ _ _ S j t Hj)].
      - intros j t Hj. rewrite nth_upd in Hj. rewrite CO. destruct (Nat.eq_dec i j) as [<-|D].
        + rewrite Nat.eqb_refl, N in Hj. injection Hj as <-. lia.
        + replace (Nat.eqb i j) with false in Hj by (symmetry; apply Nat.eqb_neq; exact D). pose proof (s_rank _ _ _ S j t Hj). lia. }
    assert (Q : forall s', contrib s' = contrib s -> exists sched', k_run osz vo (m0, map KCall outs) sched' = Ret (m, flat_map contrib (upd thr i s'))).
    { intros s' Hc. destruct (s_run _ _ _ S) as (sched' & E). exists sched'. rewrite E. f_equal. f_equal.
      rewrite El at 2. rewrite <- Li, upd_mid. rewrite El. rewrite !flat_map_app. cbn [flat_map]. rewrite Hc. reflexivity. }
    unfold f_step. rewrite N. destruct s as [t|t|k|].
    - cbn [ok] in O. subst t. rewrite (Hsize m C). eexists m, _. split; [reflexivity|]. destruct (Z.ltb_spec (Z.of_nat i) n) as [Hn|Hn].
      + apply G; [apply Q; reflexivity|split; [reflexivity|exact Hn]|cbn; lia].
      + assert (V : val i = None) by (unfold val; destruct (Z.ltb_spec (Z.of_nat i) n); [lia|reflexivity]).
        apply G; [apply Q; cbn [contrib]; rewrite V; reflexivity|exact V|cbn; lia].
    - destruct O as (-> & Hn). rewrite (Hsize m C). destruct (Helem m i C Hi Hn) as (e & E1 & E2). unfold assert.
      replace (Z.of_nat i <? n) with true by lia. rewrite E2. eexists m, _. split; [reflexivity|].
      assert (V : val i = g e) by (unfold val; replace (Z.of_nat i <? n) with true by lia; rewrite E1; reflexivity).
      destruct (g e) as [v|].
      + apply G; [apply Q; cbn [contrib]; rewrite V; reflexivity|exact V|cbn; lia].
      + apply G; [apply Q; cbn [contrib]; rewrite V; reflexivity|exact V|cbn; lia].
    - destruct (s_run _ _ _ S) as (sched' & E). rewrite El in E. rewrite flat_map_app in E. cbn [flat_map contrib app] in E.
      set (p := flat_map contrib l1) in *. set (q := flat_map contrib l2) in *.
      destruct (Hrun (sched' ++ [length p])) as (m' & thr' & E' & _). rewrite k_run_app, E in E'. cbn [bind k_run] in E'.
      destruct (k_step osz vo (m, p ++ k :: q) (length p)) as [[m1 t1]| |] eqn:E1; cbn [bind] in E'; try discriminate. injection E' as -> ->.
      pose proof (step_rank _ _ _ _ _ _ _ E1) as (_ & R).
      destruct (k_step_local _ _ _ _ _ _ _ _ E1) as (k' & F1 & -> & F3). rewrite F1. cbn [hd].
      eexists m', _. split; [reflexivity|]. apply G.
      + exists (sched' ++ [length p]). rewrite k_run_app, E. cbn [bind k_run]. rewrite E1. cbn [bind]. f_equal. f_equal.
        rewrite El, <- Li, upd_mid, flat_map_app. reflexivity.
      + cbn [ok] in *. rewrite F3. exact O.
      + destruct (R (length p) k (nth_mid _ _ _)) as (k2 & N2 & R2). rewrite nth_mid in N2. injection N2 as <-.
        destruct (Nat.eq_dec (length p) (length p)); [cbn [frank]; lia|contradiction].
    - exists m, thr. split; [reflexivity|]. constructor; [exact (s_run _ _ _ S)|exact (s_len _ _ _ S)|exact (s_ok _ _ _ S)|].
      intros j s Hj. pose proof (s_rank _ _ _ S j s Hj). rewrite CO. destruct (Nat.eq_dec i j) as [<-|D]; [|lia]. rewrite N in Hj. injection Hj as <-. cbn. lia.
  Qed.

  Lemma sim_run sched : exists m thr, f_run esz vi osz vo g (m0, map FSize (seq 0 nthr)) sched = Ret (m, thr) /\ Sim sched m thr.
  Proof.
    induction sched as [|i sched IH] using rev_ind.
    - exists m0, (map FSize (seq 0 nthr)). split; [reflexivity|exact sim_init].
    - destruct IH as (m & thr & E & S). destruct (sim_step _ _ _ i S) as (m' & thr' & E' & S'). exists m', thr'. split; [|exact S'].
      rewrite f_run_app, E. cbn [bind f_run]. rewrite E'. reflexivity.
  Qed.

  Lemma filter_thm sched : (forall t, (t < nthr)%nat -> (5 <= count_occ Nat.eq_dec sched t)%nat) ->
    exists m thr sched' kthr, f_run esz vi osz vo g (m0, map FSize (seq 0 nthr)) sched = Ret (m, thr) /\
      k_run osz vo (m0, map KCall outs) sched' = Ret (m, kthr) /\ Forall k_done kthr /\
      forallb f_finished thr = true /\ map is_some (map f_idx thr) = map is_some (map val (seq 0 nthr)) /\
      somes (map f_idx thr) = map (fun t => match t with KDone x _ => x | _ => 0 end) kthr.
  Proof.
    intros Hc. destruct (sim_run sched) as (m & thr & E & S). destruct (s_run _ _ _ S) as (sched' & E'). exists m, thr, sched', (flat_map contrib thr).
    split; [exact E|]. split; [exact E'|].
    assert (D : forall i s, nth_error thr i = Some s -> (exists x bs, s = FPush (KDone x bs) /\ val i = Some bs) \/ (s = FEnd /\ val i = None)).
    { intros i s Hs. pose proof (s_rank _ _ _ S i s Hs) as R. pose proof (s_ok _ _ _ S i s Hs) as O.
      assert (Hi : (i < nthr)%nat) by (rewrite <- (s_len _ _ _ S); apply nth_error_Some; congruence). specialize (Hc i Hi).
      destruct s as [t|t|[bs|x bs|x bs|x bs]|]; cbn [frank rank] in R; try lia; [left; exists x, bs; split; [reflexivity|exact O]|right; split; [reflexivity|exact O]]. }
    assert (D' : Forall (fun s => (exists x bs, s = FPush (KDone x bs)) \/ s = FEnd) thr).
    { apply Forall_forall. intros s Hs. apply In_nth_error in Hs. destruct Hs as (i & Hs). destruct (D i s Hs) as [(x & bs & -> & _)|(-> & _)]; [left; eexists _, _; reflexivity|right; reflexivity]. }
    split. { clear - D'. induction D' as [|s thr H _ IH]; [constructor|]. cbn [flat_map]. apply Forall_app. split; [|exact IH].
      destruct H as [(x & bs & ->)| ->]; cbn [contrib]; [constructor; [exact I|constructor]|constructor]. }
    split. { apply forallb_forall. intros s Hs. rewrite Forall_forall in D'. destruct (D' s Hs) as [(x & bs & ->)| ->]; reflexivity. }
    split.
    - apply nth_ext with (d := false) (d' := false). { rewrite !map_length, seq_length. exact (s_len _ _ _ S). }
      intros i Hi. rewrite !map_length in Hi. rewrite !map_map.
      destruct (nth_error thr i) as [s|] eqn:N; [|apply nth_error_None in N; lia].
      rewrite (nth_error_nth (map (fun x => is_some (f_idx x)) thr) i false (x := is_some (f_idx s))) by (rewrite nth_error_map, N; reflexivity).
      assert (Hs : nth_error (seq 0 nthr) i = Some i).
      { rewrite (s_len _ _ _ S) in Hi. rewrite (nth_error_nth' (seq 0 nthr) 0%nat) by (rewrite seq_length; exact Hi). rewrite seq_nth by exact Hi. reflexivity. }
      rewrite (nth_error_nth (map (fun x => is_some (val x)) (seq 0 nthr)) i false (x := is_some (val i))) by (rewrite nth_error_map, Hs; reflexivity).
      destruct (D i s N) as [(x & bs & -> & V)|(-> & V)]; rewrite V; reflexivity.
    - clear - D'. induction D' as [|s thr H _ IH]; [reflexivity|]. cbn [map somes flat_map] in *. unfold somes in IH. rewrite map_app, <- IH.
      destruct H as [(x & bs & ->)| ->]; reflexivity.
  Qed.
End Filter.

(** ** Bytes that are known *)
Lemma all_known_get m : forall l a e, all_known l = Some e -> (forall k c, nth_error l k = Some (Some c) -> m_byte m (a + Z.of_nat k) = Some c) ->
  get_bytes m a (length l) = Some e.
Proof.
  induction l as [|x l IH]; intros a e; cbn [all_known fold_right length get_bytes].
  - intros E _. injection E as <-. reflexivity.
  - destruct x as [c|]; [|discriminate]. fold (all_known l). destruct (all_known l) as [e'|] eqn:E'; [|discriminate]. intros E H. injection E as <-.
    pose proof (H 0%nat c eq_refl) as H0. rewrite Z.add_0_r in H0. rewrite H0. rewrite (IH (a + 1) e' eq_refl); [reflexivity|].
    intros k c' Hk. rewrite <- (H (S k) c' Hk). f_equal. lia.
Qed.
Lemma Rb_known m f a k c : Rb m f a -> nth_error (a_bytes a) k = Some (Some c) -> m_byte m (v_ptr (f_view f) + Z.of_nat k) = Some c.
Proof.
  intros (H1 & H2 & H3 & H4 & H5 & H6) Hk. assert (Hl : (k < length (a_bytes a))%nat) by (apply nth_error_Some; rewrite Hk; discriminate).
  destruct (f_block f) as [b|]; [destruct H6 as (K1 & K2 & K3 & K4 & K5 & K6 & K7 & K8 & K9 & K10); exact (K7 k c Hk)|]. destruct H6 as (H6 & _). nia.
Qed.
Lemma nth_slice {A} (l : list A) p q k x : nth_error (firstn p (skipn q l)) k = Some x -> nth_error l (q + k) = Some x.
Proof.
  intros H. assert (Hk : (k < length (firstn p (skipn q l)))%nat) by (apply nth_error_Some; congruence).
  rewrite firstn_length, skipn_length in Hk. rewrite <- (firstn_skipn q l). rewrite nth_error_app2 by (rewrite firstn_length; lia).
  rewrite firstn_length. replace (q + k - Nat.min q (length l))%nat with k by lia.
  rewrite <- (firstn_skipn p (skipn q l)). rewrite nth_error_app1 by (rewrite firstn_length, skipn_length; lia). exact H.
Qed.
Lemma elem_get m f a t e : Rb m f a -> 0 <= Z.of_nat t < a_cap a -> a_elem a t = Some e ->
  get_bytes m (v_ptr (f_view f) + Z.of_nat t * a_esz a) (Z.to_nat (a_esz a)) = Some e.
Proof.
  intros R Ht E. pose proof R as (H1 & H2 & H3 & H4 & H5 & H6). unfold a_elem in E.
  replace (Z.to_nat (a_esz a)) with (length (firstn (Z.to_nat (a_esz a)) (skipn (t * Z.to_nat (a_esz a)) (a_bytes a)))) at 1
    by (rewrite firstn_length, skipn_length; nia).
  apply (all_known_get m _ _ e E). intros k c Hk. apply nth_slice in Hk. rewrite <- (Rb_known _ _ _ _ _ R Hk). f_equal. nia.
Qed.

(** The size and the elements of a buffer change. *)
Lemma Rb_both m m' f a n bs : Rb m f a -> a_size a <> Fixed ->
  acc m' (v_ptr (f_view f)) (a_cap a * a_esz a) -> get_bytes m' (v_sizep (f_view f)) 4 = Some (le32 n) -> 0 <= n <= a_cap a -> length bs = length (a_bytes a) ->
  (forall k c, nth_error bs k = Some (Some c) -> m_byte m' (v_ptr (f_view f) + Z.of_nat k) = Some c) ->
  Rb m' f (mkA (a_esz a) (a_cap a) (Sized n) bs).
Proof.
  intros (H1 & H2 & H3 & H4 & H5 & H6) Hs HA HG Hn HL HB. unfold Rb. cbn [a_esz a_cap a_size a_bytes]. rewrite HL. repeat (split; [assumption|]).
  destruct (f_block f) as [b|]; [|destruct H6 as (_ & _ & H6); contradiction].
  destruct H6 as (K1 & K2 & K3 & K4 & K5 & K6 & K7 & K8 & K9 & K10). destruct (K9 Hs) as (M1 & M2 & M3 & M4). repeat (split; [assumption|]).
  split; [discriminate|]. split.
  - intros _. repeat (split; [assumption|]). apply (proj1 (get_bytes_acc 4 m' _)). exists (le32 n). exact HG.
  - intros k Hk. injection Hk as <-. split; [exact Hn|exact HG].
Qed.

Lemma slot_in p idx : (exists q, In q p /\ fst q = idx) -> exists q, In q p /\ fst q = idx /\ slot p idx = snd q.
Proof.
  intros (q & Hq & E). unfold slot. destruct (find (fun q => fst q =? idx) p) as [r|] eqn:F.
  - exists r. apply find_some in F. destruct F as (F1 & F2). split; [exact F1|]. split; [lia|reflexivity].
  - exfalso. pose proof (find_none _ _ F q Hq) as N. cbn beta in N. lia.
Qed.

Lemma nth_combine {A B} p : forall (l : list A) (l' : list B) x y, nth_error l p = Some x -> nth_error l' p = Some y -> nth_error (combine l l') p = Some (x, y).
Proof. induction p as [|p IH]; intros [|a l] [|b l'] x y H1 H2; try discriminate; cbn in *; [congruence|apply IH; assumption]. Qed.
Lemma nth_combine_inv {A B} p : forall (l : list A) (l' : list B) x y, nth_error (combine l l') p = Some (x, y) -> nth_error l p = Some x /\ nth_error l' p = Some y.
Proof. induction p as [|p IH]; intros [|a l] [|b l'] x y H; try discriminate; cbn in *; [injection H as -> ->; auto|apply IH; exact H]. Qed.

Lemma launch_step w m h l i j f u a b n k g nthr sched : Inv w m h l -> nth_error h i = Some (Some f) -> nth_error h j = Some (Some u) ->
  nth_error l i = Some (Some a) -> nth_error l j = Some (Some b) -> i <> j -> a_num a = Some n -> a_size b = Sized k ->
  let vals := map (appended a n g) (seq 0 nthr) in let outs := somes vals in let len := Z.of_nat (length outs) in
  (forall t, (t < nthr)%nat -> Z.of_nat t < n -> a_elem a t <> None) ->
  Forall (fun v => Z.of_nat (length v) = a_esz b) outs -> k + len <= a_cap b ->
  (forall t, (t < nthr)%nat -> (5 <= count_occ Nat.eq_dec sched t)%nat) ->
  exists m' thr, f_run (f_esz f) (f_view f) (f_esz u) (f_view u) g (m, map FSize (seq 0 nthr)) sched = Ret (m', thr) /\
    forallb f_finished thr = true /\ map is_some (map f_idx thr) = map is_some vals /\
    (forall s, (s < length outs)%nat -> In (k + Z.of_nat s) (somes (map f_idx thr))) /\
    let new := map (fun s => slot (combine (somes (map f_idx thr)) outs) (k + Z.of_nat s)) (seq 0 (length outs)) in
    Inv w m' h (upd l j (Some (mkA (a_esz b) (a_cap b) (Sized (k + len))
      (firstn (Z.to_nat (k * a_esz b)) (a_bytes b) ++ map Some (concat new) ++ skipn (Z.to_nat ((k + len) * a_esz b)) (a_bytes b))))).
Proof.
  intros HI Hf Hu Ha Hb Hij Hn Hk vals outs0 len Hel Hsz Hroom Hc.
  destruct (alive_buf _ _ _ _ _ _ HI Ha) as (f' & Hf' & R). rewrite Hf in Hf'. injection Hf' as <-.
  destruct (alive_buf _ _ _ _ _ _ HI Hb) as (u' & Hu' & Q). rewrite Hu in Hu'. injection Hu' as <-.
  pose proof R as (H1 & H2 & H3 & H4 & H5 & H6). pose proof Q as (J1 & J2 & J3 & J4 & J5 & J6).
  pose proof (Rb_view_size _ _ _ _ R Hn) as VS. assert (Hna : n <= a_cap a) by (destruct VS as (V & _); rewrite H3 in V; lia).
  assert (NF : a_size b <> Fixed) by (rewrite Hk; discriminate).
  assert (VSk : view_size m (f_view u) k) by (apply (Rb_view_size _ _ _ _ Q); unfold a_num; rewrite Hk; reflexivity).
  assert (SB : v_sizep (f_view u) <> 0 /\ apart (v_sizep (f_view u)) 4 (v_ptr (f_view u)) (a_cap b * a_esz b) /\ 0 < a_cap b).
  { destruct (f_block u) as [c|]; [|destruct J6 as (_ & _ & J6); contradiction]. destruct J6 as (P1 & _ & _ & _ & _ & _ & _ & _ & J6 & _).
    destruct (J6 NF) as (L1 & L2 & L3 & L4). auto. }
  destruct SB as (SB1 & SB2 & SB3). assert (Hk0 : 0 <= k) by (destruct VSk; lia).
  assert (Sep : forall x, region f x -> region u x -> False) by (intros x; exact (i_sep _ _ _ _ HI i j f u x Hij Hf Hu)).
  (* the elements that are already there *)
  pose proof (Rb_acc _ _ _ Q) as Au.
  assert (Ak : acc m (v_ptr (f_view u)) (k * a_esz b)) by (apply (acc_sub m _ _ _ _ Au); nia).
  destruct (acc_get m (v_ptr (f_view u)) (k * a_esz b) ltac:(nia) Ak) as (data & Ed).
  destruct (chunks (Z.to_nat (a_esz b)) ltac:(lia) (Z.to_nat k) data) as (old & O1 & O2 & O3). { rewrite (get_bytes_len _ _ _ _ Ed). nia. }
  assert (Lo : Z.of_nat (length old) = k) by lia.
  set (P := fun x => within (v_sizep (f_view u)) 4 x \/ within (v_ptr (f_view u) + k * a_esz b) (len * a_esz b) x).
  assert (HK : forall s, exists m' thr, k_run (a_esz b) (f_view u) (m, map KCall outs0) s = Ret (m', thr) /\ length thr = length outs0 /\ changes P m m' /\ same_acc m m' /\
    (Forall k_done thr -> view_size m' (f_view u) (k + len) /\ (forall i t, nth_error thr i = Some t -> exists idx bs, t = KDone idx bs /\ nth_error outs0 i = Some bs /\
         k <= idx < k + len /\ get_bytes m' (v_ptr (f_view u) + idx * a_esz b) (Z.to_nat (a_esz b)) = Some bs))).
  { intros s. destruct (kernel_thm (a_esz b) (f_view u) m old outs0 s) as (m' & thr & T1 & T2 & T3 & T4 & _ & T6).
    - exact J2.
    - exact SB1.
    - rewrite J3. lia.
    - rewrite Lo. exact VSk.
    - apply Forall_app. split; [|exact Hsz]. apply Forall_forall. intros x Hx. rewrite Forall_forall in O2. rewrite (O2 x Hx). lia.
    - rewrite Lo, J3. exact Hroom.
    - rewrite J3. exact Au.
    - rewrite J3. exact SB2.
    - rewrite Lo, O3. exact Ed.
    - rewrite Lo in *. exists m', thr. split; [exact T1|]. split; [exact T2|]. split; [exact T3|]. split; [exact T4|].
      intros D. destruct (T6 D) as (U1 & U2 & _). split; [exact U1|exact U2]. }
  assert (PR : forall x, P x -> region u x).
  { intros x [Hx|Hx]; [exact (Rb_region_size _ _ _ _ Q NF Hx)|]. apply (Rb_region_bytes _ _ _ _ Q). unfold within in *. nia. }
  assert (RF : forall m1, changes P m m1 -> Rb m1 f a).
  { intros m1 (C & _). apply (Rb_frame m m1 f a); [|exact R]. intros x Hx. apply C. intros HP. exact (Sep x Hx (PR x HP)). }
  destruct (filter_thm (a_esz a) (f_view f) (a_esz b) (f_view u) g nthr m n (a_elem a) P) with (sched := sched)
    as (m' & thr & sched' & kthr & E1 & E2 & E3 & E4 & E5 & E6).
  - intros s. destruct (HK s) as (m1 & t1 & G1 & _ & G3 & _). exists m1, t1. split; [exact G1|exact G3].
  - intros m1 C1. pose proof (Rb_view_size _ _ _ _ (RF m1 C1) Hn) as (V1 & V2 & V3). unfold dev_size.
    destruct (v_sizep (f_view f) =? 0); [rewrite V3; reflexivity|]. rewrite V3. cbn [option_map]. rewrite unle32_le32 by lia. reflexivity.
  - intros m1 t C1 Ht Htn. specialize (Hel t Ht Htn). destruct (a_elem a t) as [e|] eqn:Ee; [|contradiction]. exists e. split; [reflexivity|].
    apply (elem_get m1 f a t e (RF m1 C1)); [lia|exact Ee].
  - exact Hc.
  - exists m', thr. rewrite H1, J1. split; [exact E1|]. split; [exact E4|]. split; [exact E5|].
    set (idxs := somes (map f_idx thr)) in *.
    change (somes (map (val g n (a_elem a)) (seq 0 nthr))) with outs0 in *. change (outs g nthr n (a_elem a)) with outs0 in *.
    destruct (HK sched') as (m2 & t2 & G1 & G2 & G3 & G4 & G5). rewrite E2 in G1. injection G1 as <- <-. destruct (G5 E3) as (G6 & G7). clear G5.
    assert (Li : length idxs = length outs0) by (rewrite E6, map_length; exact G2).
    assert (NI : forall p x, nth_error idxs p = Some x -> exists bs, nth_error kthr p = Some (KDone x bs) /\ nth_error outs0 p = Some bs /\ k <= x < k + len /\
       get_bytes m' (v_ptr (f_view u) + x * a_esz b) (Z.to_nat (a_esz b)) = Some bs).
    { intros p x Hp. rewrite E6, nth_error_map in Hp. destruct (nth_error kthr p) as [t|] eqn:Et; [|discriminate]. injection Hp as Hp.
      destruct (G7 p t Et) as (idx & bs & -> & A1 & A2 & A3). subst x. exists bs. auto. }
    assert (ND : NoDup idxs).
    { apply NoDup_nth_error. intros p q Hp Epq. destruct (nth_error idxs p) as [x|] eqn:Ep; [|apply nth_error_None in Ep; lia]. symmetry in Epq.
      destruct (NI p x Ep) as (b1 & B1 & _). destruct (NI q x Epq) as (b2 & B2 & _).
      destruct (kernel_safe (a_esz b) (f_view u) m k outs0 sched' m' kthr J2 SB1 VSk Hsz ltac:(rewrite J3; exact SB2) E2) as (cl & _ & _ & _ & S4 & _).
      exact (S4 p q _ _ x B1 B2 eq_refl eq_refl). }
    set (rng := map (fun s => k + Z.of_nat s) (seq 0 (length outs0))).
    assert (PM : Permutation idxs rng).
    { apply NoDup_Permutation_bis; [exact ND|unfold rng; rewrite map_length, seq_length; lia|].
      intros x Hx. apply In_nth_error in Hx. destruct Hx as (p & Hp). destruct (NI p x Hp) as (bs & _ & _ & Hr & _).
      unfold rng. apply in_map_iff. exists (Z.to_nat (x - k)). split; [lia|]. apply in_seq. lia. }
    assert (CV : forall s, (s < length outs0)%nat -> In (k + Z.of_nat s) idxs).
    { intros s Hs. apply (Permutation_in _ (Permutation_sym PM)). unfold rng. apply in_map_iff. exists s. split; [reflexivity|]. apply in_seq. lia. }
    split; [exact CV|]. intros new.
    assert (SL : forall s, (s < length outs0)%nat ->
      get_bytes m' (v_ptr (f_view u) + (k + Z.of_nat s) * a_esz b) (Z.to_nat (a_esz b)) = Some (slot (combine idxs outs0) (k + Z.of_nat s))).
    { intros s Hs. pose proof (CV s Hs) as Hi. apply In_nth_error in Hi. destruct Hi as (p & Hp). destruct (NI p _ Hp) as (bs & _ & Hb' & _ & _).
      destruct (slot_in (combine idxs outs0) (k + Z.of_nat s)) as ([x bs'] & Q1 & Q2 & Q3).
      { exists (k + Z.of_nat s, bs). split; [|reflexivity]. apply nth_error_In with (n := p). apply nth_combine; assumption. }
      cbn [fst snd] in *. subst x. rewrite Q3. apply In_nth_error in Q1. destruct Q1 as (q & Hq).
      assert (Hq1 : nth_error idxs q = Some (k + Z.of_nat s) /\ nth_error outs0 q = Some bs').
      { exact (nth_combine_inv _ _ _ _ _ Hq). }
      destruct Hq1 as (Hq1 & Hq2). destruct (NI q _ Hq1) as (bs2 & _ & B1 & _ & B2). rewrite Hq2 in B1. injection B1 as <-. exact B2. }
    assert (Ln : length new = length outs0) by (unfold new; rewrite map_length, seq_length; reflexivity).
    assert (GN : get_bytes m' (v_ptr (f_view u) + k * a_esz b) (Z.to_nat (len * a_esz b)) = Some (concat new)).
    { replace (len * a_esz b) with (Z.of_nat (length new) * a_esz b) by (rewrite Ln; reflexivity). apply get_bytes_elements; [exact J2|].
      intros p bs Hp. assert (Hpl : (p < length outs0)%nat) by (rewrite <- Ln; apply nth_error_Some; congruence).
      unfold new in Hp. rewrite nth_error_map in Hp.
      rewrite (nth_error_nth' (seq 0 (length outs0)) 0%nat) in Hp by (rewrite seq_length; exact Hpl). rewrite seq_nth in Hp by exact Hpl. injection Hp as <-.
      rewrite <- (SL p Hpl). f_equal. cbn [Nat.add]. lia. }
    pose proof (get_bytes_len _ _ _ _ GN) as Lc. destruct G6 as (V1 & V2 & V3). replace (v_sizep (f_view u) =? 0) with false in V3 by lia.
    destruct G3 as (C1 & C2 & C3).
    assert (K1 : Z.of_nat (Z.to_nat (k * a_esz b)) = k * a_esz b) by nia.
    assert (K2 : Z.of_nat (Z.to_nat ((k + len) * a_esz b)) = (k + len) * a_esz b) by nia.
    assert (K3 : Z.of_nat (Z.to_nat (len * a_esz b)) = len * a_esz b) by nia.
    assert (K4 : (k + len) * a_esz b <= a_cap b * a_esz b) by nia.
    assert (K5 : (k + len) * a_esz b = k * a_esz b + len * a_esz b) by lia.
    apply (Inv_write w m m' h l j u b); try assumption.
    + intros x Hx. apply C1. intros HP. exact (Hx (PR x HP)).
    + apply (Rb_both m m' u b (k + len)); try assumption.
      * exact (acc_same _ _ _ _ G4 Au).
      * rewrite J3 in V1. lia.
      * rewrite !app_length, map_length, firstn_length, skipn_length, Lc. lia.
      * intros q c Hq. destruct (Nat.lt_ge_cases q (Z.to_nat (k * a_esz b))) as [A|A].
        -- rewrite nth_error_app1 in Hq by (rewrite firstn_length; lia).
           assert (Hq' : nth_error (a_bytes b) q = Some (Some c)).
           { rewrite <- (firstn_skipn (Z.to_nat (k * a_esz b)) (a_bytes b)). rewrite nth_error_app1 by (rewrite firstn_length; lia). exact Hq. }
           rewrite C1; [exact (Rb_known _ _ _ _ _ Q Hq')|]. intros [Hx|Hx]; [|unfold within in Hx; lia].
           apply (SB2 (v_ptr (f_view u) + Z.of_nat q)). split; [exact Hx|]. lia.
        -- rewrite nth_error_app2 in Hq by (rewrite firstn_length; lia). rewrite firstn_length in Hq.
           replace (q - Nat.min (Z.to_nat (k * a_esz b)) (length (a_bytes b)))%nat with (q - Z.to_nat (k * a_esz b))%nat in Hq by lia.
           destruct (Nat.lt_ge_cases q (Z.to_nat ((k + len) * a_esz b))) as [B|B].
           ++ rewrite nth_error_app1 in Hq by (rewrite map_length, Lc; lia). rewrite nth_error_map in Hq.
              destruct (nth_error (concat new) (q - Z.to_nat (k * a_esz b))) as [c'|] eqn:Eq; [|discriminate]. injection Hq as ->.
              pose proof (get_bytes_nth _ _ _ _ (Z.of_nat (q - Z.to_nat (k * a_esz b))) GN ltac:(lia)) as GB. rewrite Nat2Z.id, Eq in GB. rewrite <- GB. f_equal. lia.
           ++ rewrite nth_error_app2 in Hq by (rewrite map_length, Lc; lia). rewrite map_length, Lc in Hq.
              assert (Hq' : nth_error (a_bytes b) q = Some (Some c)).
              { rewrite <- (firstn_skipn (Z.to_nat ((k + len) * a_esz b)) (a_bytes b)). rewrite nth_error_app2 by (rewrite firstn_length; lia).
                rewrite <- Hq. f_equal. rewrite firstn_length. lia. }
              rewrite C1; [exact (Rb_known _ _ _ _ _ Q Hq')|].
              assert (Hl : (q < length (a_bytes b))%nat) by (apply nth_error_Some; rewrite Hq'; discriminate).
              intros [Hx|Hx]; [|unfold within in Hx; lia]. apply (SB2 (v_ptr (f_view u) + Z.of_nat q)). split; [exact Hx|]. lia.
Qed.

(** ** Programs *)
Lemma klog_grows st o : exists n, ulog (b_w (snd (kstep st o))) = n ++ ulog (b_w st).
Proof.
  destruct o as [o|i j g n sched]; cbn [kstep].
  - apply (log_grows st o (fst (bstep st o))). destruct (bstep st o); reflexivity.
  - exists []. destruct (get_buf st i); [|reflexivity]. destruct (get_buf st j); [|reflexivity]. destruct (f_run _ _ _ _ _ _ _) as [[m thr]| |]; reflexivity.
Qed.
Lemma klogs_grow ops : forall st, exists n, ulog (b_w (snd (kruns st ops))) = n ++ ulog (b_w st).
Proof.
  induction ops as [|o ops IH]; intros st; cbn [kruns snd]; [exists []; reflexivity|].
  destruct (klog_grows st o) as (n1 & H1). destruct (IH (snd (kstep st o))) as (n2 & H2). exists (n2 ++ n1). rewrite H2, H1. apply app_assoc.
Qed.

Lemma kstep_ok st l o : Inv (b_w st) (b_m st) (b_h st) l -> upstream_ok (ulog (b_w (snd (kstep st o)))) ->
  match kjudge l o (fst (kstep st o)) with Good l' => Inv (b_w (snd (kstep st o))) (b_m (snd (kstep st o))) (b_h (snd (kstep st o))) l' | Illegal => True | Wrong => False end.
Proof.
  intros HI HU. destruct o as [o|i j g nthr sched].
  - cbn [kstep kjudge fst snd] in *. apply (step_ok st l o); [exact HI|destruct (bstep st o); reflexivity|exact HU].
  - cbn [kjudge]. destruct (alive l i) as [a|] eqn:Ea; [|exact I]. destruct (alive l j) as [b|] eqn:Eb; [|exact I].
    destruct (a_num a) as [n|] eqn:En; [|exact I]. destruct (a_size b) as [| |k] eqn:Ek; try exact I.
    cbv zeta. set (vals := map (appended a n g) (seq 0 nthr)). set (outs0 := somes vals).
    destruct (negb (Nat.eqb i j) && _ && _ && _ && _) eqn:L; [|exact I].
    apply andb_prop in L. destruct L as (L & L5). apply andb_prop in L. destruct L as (L & L4). apply andb_prop in L. destruct L as (L & L3). apply andb_prop in L. destruct L as (L1 & L2).
    apply alive_some in Ea, Eb.
    destruct (alive_buf _ _ _ _ _ _ HI Ea) as (f & Hf & _). destruct (alive_buf _ _ _ _ _ _ HI Eb) as (u & Hu & _).
    assert (Gf : get_buf st i = Some f) by (apply get_buf_some; exact Hf). assert (Gu : get_buf st j = Some u) by (apply get_buf_some; exact Hu).
    destruct (launch_step _ _ _ _ i j f u a b n k g nthr sched HI Hf Hu Ea Eb) as (m' & thr & E1 & E2 & E3 & E4 & E5).
    + apply Nat.eqb_neq. destruct (Nat.eqb i j); [discriminate|reflexivity].
    + exact En.
    + exact Ek.
    + intros t Ht Htn. rewrite forallb_forall in L2. specialize (L2 t ltac:(apply in_seq; lia)). destruct (a_elem a t); [discriminate|].
      replace (Z.of_nat t <? n) with true in L2 by lia. discriminate.
    + apply Forall_forall. intros x Hx. rewrite forallb_forall in L3. specialize (L3 x Hx). lia.
    + fold vals. fold outs0. lia.
    + intros t Ht. rewrite forallb_forall in L5. specialize (L5 t ltac:(apply in_seq; lia)). apply Nat.leb_le in L5. exact L5.
    + cbn [kstep]. rewrite Gf, Gu, E1, E2. cbn [fst snd b_w b_m b_h]. fold vals in E3, E4, E5. fold outs0 in E4, E5.
      destruct (list_eq_dec bool_dec (map is_some (map f_idx thr)) (map is_some vals)) as [_|D]; [|exact (D E3)].
      destruct (forallb (fun s => existsb (Z.eqb (k + Z.of_nat s)) (somes (map f_idx thr))) (seq 0 (length outs0))) eqn:F; cbn [andb]; [exact E5|].
      apply not_true_iff_false in F. apply F. apply forallb_forall. intros s Hs. apply in_seq in Hs. apply existsb_exists. exists (k + Z.of_nat s).
      split; [apply E4; lia|apply Z.eqb_refl].
Qed.

Lemma kruns_ok ops : forall st l, Inv (b_w st) (b_m st) (b_h st) l -> upstream_ok (ulog (b_w (snd (kruns st ops)))) ->
  match kjudge_all l ops (fst (kruns st ops)) with
  | Good l' => Inv (b_w (snd (kruns st ops))) (b_m (snd (kruns st ops))) (b_h (snd (kruns st ops))) l' | Illegal => True | Wrong => False end.
Proof.
  induction ops as [|o ops IH]; intros st l HI; cbn [kruns kjudge_all fst snd].
  - intros _. exact HI.
  - intros HU. destruct (klogs_grow ops (snd (kstep st o))) as (n & Hn). pose proof HU as HU1. rewrite Hn in HU1. apply upstream_ok_app in HU1.
    pose proof (kstep_ok st l o HI HU1) as HS. destruct (kjudge l o (fst (kstep st o))) as [l'| |]; [|exact I|exact HS].
    exact (IH _ l' HS HU).
Qed.

Theorem kprograms orc ops rs st : kruns (bst0 orc) ops = (rs, st) -> upstream_ok (ulog (b_w st)) ->
  match kjudge_all [] ops rs with
  | Good l => frees_ok (ulog (b_w st)) /\
      length (ulive (ulog (b_w st))) = length (filter (fun o => match o with Some a => negb (a_cap a =? 0) | None => false end) l)
  | Illegal => True
  | Wrong => False
  end.
Proof.
  intros E HU. pose proof (kruns_ok ops (bst0 orc) [] (inv0 orc)) as H. rewrite E in H. cbn [fst snd] in H. specialize (H HU).
  destruct (kjudge_all [] ops rs) as [l| |]; [|exact I|exact H].
  split; [exact (i_frees _ _ _ _ H)|]. rewrite (Permutation_length (i_perm _ _ _ _ H)). exact (blks_count _ _ _ _ H).
Qed.

(** ** What a kernel appends *)
Lemma slots_perm : forall idxs (vs : list (list Z)), length idxs = length vs -> NoDup idxs -> map (slot (combine idxs vs)) idxs = vs.
Proof.
  induction idxs as [|x idxs IH]; intros [|v vs] HL ND; try discriminate; [reflexivity|]. cbn [combine map]. apply NoDup_cons_iff in ND. destruct ND as (N1 & N2).
  f_equal.
  - unfold slot. cbn [find fst]. rewrite Z.eqb_refl. reflexivity.
  - rewrite <- (IH vs) at 2; [|cbn in HL; congruence|exact N2]. apply map_ext_in. intros y Hy. unfold slot. cbn [find fst].
    destruct (Z.eqb_spec x y) as [->|_]; [contradiction|reflexivity].
Qed.
Lemma somes_length {A B} : forall (l : list (option A)) (l' : list (option B)), map is_some l = map is_some l' -> length (somes l) = length (somes l').
Proof. induction l as [|[x|] l IH]; intros [|[y|] l'] H; try discriminate; cbn in *; [reflexivity|f_equal|]; apply IH; congruence. Qed.

Theorem launch_appends l i j g nthr sched r l' : kjudge l (KLaunch i j g nthr sched) r = Good l' ->
  exists a b n k new, nth_error l i = Some (Some a) /\ nth_error l j = Some (Some b) /\ i <> j /\ a_num a = Some n /\ a_size b = Sized k /\
    Permutation new (somes (map (appended a n g) (seq 0 nthr))) /\
    let k' := k + Z.of_nat (length new) in
    k' <= a_cap b /\
    l' = upd l j (Some (mkA (a_esz b) (a_cap b) (Sized k') (firstn (Z.to_nat (k * a_esz b)) (a_bytes b) ++ map Some (concat new) ++ skipn (Z.to_nat (k' * a_esz b)) (a_bytes b)))).
Proof.
  cbn [kjudge]. destruct (alive l i) as [a|] eqn:Ea; [|discriminate]. destruct (alive l j) as [b|] eqn:Eb; [|discriminate].
  destruct (a_num a) as [n|] eqn:En; [|discriminate]. destruct (a_size b) as [| |k] eqn:Ek; try discriminate.
  cbv zeta. set (vals := map (appended a n g) (seq 0 nthr)). set (outs0 := somes vals).
  destruct (negb (Nat.eqb i j) && _ && _ && _ && _) eqn:L; [|discriminate].
  apply andb_prop in L. destruct L as (L & _). apply andb_prop in L. destruct L as (L & L4). apply andb_prop in L. destruct L as (L & _). apply andb_prop in L. destruct L as (L1 & _).
  apply alive_some in Ea, Eb. destruct r as [r|idxs|]; try discriminate.
  destruct (list_eq_dec bool_dec (map is_some idxs) (map is_some vals)) as [E|]; [|discriminate]. cbn [andb].
  destruct (forallb _ _) eqn:F; [|discriminate]. intros H. injection H as <-.
  set (rng := map (fun s => k + Z.of_nat s) (seq 0 (length outs0))).
  pose proof (somes_length _ _ E) as HL. fold outs0 in HL.
  assert (NR : NoDup rng). { unfold rng. apply FinFun.Injective_map_NoDup; [intros x y; lia|apply seq_NoDup]. }
  assert (IC : incl rng (somes idxs)).
  { intros x Hx. unfold rng in Hx. apply in_map_iff in Hx. destruct Hx as (s & <- & Hs). rewrite forallb_forall in F. specialize (F s Hs). apply existsb_exists in F.
    destruct F as (y & Hy & Ey). apply Z.eqb_eq in Ey. rewrite Ey. exact Hy. }
  assert (PM : Permutation rng (somes idxs)) by (apply NoDup_Permutation_bis; [exact NR|unfold rng; rewrite map_length, seq_length; lia|exact IC]).
  exists a, b, n, k, (map (fun s => slot (combine (somes idxs) outs0) (k + Z.of_nat s)) (seq 0 (length outs0))).
  split; [exact Ea|]. split; [exact Eb|]. split; [apply Nat.eqb_neq; destruct (Nat.eqb i j); [discriminate|reflexivity]|]. split; [exact En|]. split; [exact Ek|]. split.
  - apply Permutation_trans with (map (slot (combine (somes idxs) outs0)) (somes idxs)).
    + rewrite <- (map_map (fun s => k + Z.of_nat s) (slot (combine (somes idxs) outs0))). apply Permutation_map. exact PM.
    + rewrite (slots_perm (somes idxs) outs0 HL (Permutation_NoDup PM NR)). apply Permutation_refl.
  - cbv zeta. rewrite map_length, seq_length. split; [lia|reflexivity].
Qed.
