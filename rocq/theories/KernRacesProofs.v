(** Proofs for KernRaces.v. *)
From Verif Require Import Races RacesProofs.
From Verif Require Import Base BaseLemmas Copy CopyProofs Kernel KernelProofs KernelSafe BufProg BufProgProofs KernProg KernProgProofs KernRaces.
From Coq Require Import ZArith List Bool Lia Permutation.
Import ListNotations.
Local Open Scope Z_scope.

(** ** What the steps of a launch have in common *)
Lemma launch_setup w m h l i j f u a b n k g nthr : Inv w m h l -> nth_error h i = Some (Some f) -> nth_error h j = Some (Some u) ->
  nth_error l i = Some (Some a) -> nth_error l j = Some (Some b) -> i <> j -> a_num a = Some n -> a_size b = Sized k ->
  let outs := somes (map (appended a n g) (seq 0 nthr)) in let len := Z.of_nat (length outs) in
  (forall t, (t < nthr)%nat -> Z.of_nat t < n -> a_elem a t <> None) ->
  Forall (fun v => Z.of_nat (length v) = a_esz b) outs -> k + len <= a_cap b ->
  exists P, (forall s, exists m' thr, k_run (a_esz b) (f_view u) (m, map KCall outs) s = Ret (m', thr) /\ changes P m m') /\
    (forall m1, changes P m m1 -> dev_size (f_view f) m1 = Some n) /\
    (forall m1 t, changes P m m1 -> (t < nthr)%nat -> Z.of_nat t < n ->
       exists e, a_elem a t = Some e /\ get_bytes m1 (v_ptr (f_view f) + Z.of_nat t * a_esz a) (Z.to_nat (a_esz a)) = Some e) /\
    view_size m (f_view u) k /\ v_sizep (f_view u) <> 0 /\ acc m (v_ptr (f_view u)) (v_cap (f_view u) * a_esz b) /\
    apart (v_sizep (f_view u)) 4 (v_ptr (f_view u)) (v_cap (f_view u) * a_esz b) /\ f_esz f = a_esz a /\ f_esz u = a_esz b /\ 0 < a_esz b /\ 0 < a_esz a /\
    (forall x, within (v_sizep (f_view u)) 4 x \/ within (v_ptr (f_view u)) (v_cap (f_view u) * a_esz b) x -> region u x) /\
    (forall x, (v_sizep (f_view f) <> 0 /\ within (v_sizep (f_view f)) 4 x) \/ within (v_ptr (f_view f)) (n * a_esz a) x -> region f x) /\
    (forall x, region f x -> region u x -> False).
Proof.
  intros HI Hf Hu Ha Hb Hij Hn Hk outs0 len Hel Hsz Hroom.
  destruct (alive_buf _ _ _ _ _ _ HI Ha) as (f' & Hf' & R). rewrite Hf in Hf'. injection Hf' as <-.
  destruct (alive_buf _ _ _ _ _ _ HI Hb) as (u' & Hu' & Q). rewrite Hu in Hu'. injection Hu' as <-.
  pose proof R as (H1 & H2 & H3 & H4 & H5 & H6). pose proof Q as (J1 & J2 & J3 & J4 & J5 & J6).
  pose proof (Rb_view_size _ _ _ _ R Hn) as VS. assert (Hna : n <= a_cap a) by (destruct VS as (V & _); rewrite H3 in V; lia).
  assert (NF : a_size b <> Fixed) by (rewrite Hk; discriminate).
  assert (VSk : view_size m (f_view u) k) by (apply (Rb_view_size _ _ _ _ Q); unfold a_num; rewrite Hk; reflexivity).
  assert (SB : v_sizep (f_view u) <> 0 /\ apart (v_sizep (f_view u)) 4 (v_ptr (f_view u)) (a_cap b * a_esz b) /\ 0 < a_cap b).
  { destruct (f_block u) as [c|]; [|destruct J6 as (_ & _ & J6); contradiction]. destruct J6 as (P1 & _ & _ & _ & _ & _ & _ & _ & J6 & _).
    destruct (J6 NF) as (L1 & L2 & L3 & L4). auto. }
  destruct SB as (SB1 & SB2 & SB3). assert (Hk0 : 0 <= k) by (destruct VSk; lia).
  assert (Sep : forall x, region f x -> region u x -> False) by (intros x; exact (i_sep _ _ _ _ HI i j f u x Hij Hf Hu)).
  pose proof (Rb_acc _ _ _ Q) as Au.
  assert (Ak : acc m (v_ptr (f_view u)) (k * a_esz b)) by (apply (acc_sub m _ _ _ _ Au); nia).
  destruct (acc_get m (v_ptr (f_view u)) (k * a_esz b) ltac:(nia) Ak) as (data & Ed).
  destruct (chunks (Z.to_nat (a_esz b)) ltac:(lia) (Z.to_nat k) data) as (old & O1 & O2 & O3). { rewrite (get_bytes_len _ _ _ _ Ed). nia. }
  assert (Lo : Z.of_nat (length old) = k) by lia.
  set (P := fun x => within (v_sizep (f_view u)) 4 x \/ within (v_ptr (f_view u) + k * a_esz b) (len * a_esz b) x).
  exists P. split.
  { intros s. destruct (kernel_thm (a_esz b) (f_view u) m old outs0 s) as (m' & thr & T1 & T2 & T3 & _).
    - exact J2.
    - exact SB1.
    - rewrite J3. lia.
    - rewrite Lo. exact VSk.
    - apply Forall_app. split; [|exact Hsz]. apply Forall_forall. intros x Hx. rewrite Forall_forall in O2. rewrite (O2 x Hx). lia.
    - rewrite Lo, J3. exact Hroom.
    - rewrite J3. exact Au.
    - rewrite J3. exact SB2.
    - rewrite Lo, O3. exact Ed.
    - rewrite Lo in *. exists m', thr. split; [exact T1|exact T3]. }
  assert (PR : forall x, P x -> region u x).
  { intros x [Hx|Hx]; [exact (Rb_region_size _ _ _ _ Q NF Hx)|]. apply (Rb_region_bytes _ _ _ _ Q). unfold within in *. nia. }
  assert (RF : forall m1, changes P m m1 -> Rb m1 f a).
  { intros m1 (C & _). apply (Rb_frame m m1 f a); [|exact R]. intros x Hx. apply C. intros HP. exact (Sep x Hx (PR x HP)). }
  split. { intros m1 C1. pose proof (Rb_view_size _ _ _ _ (RF m1 C1) Hn) as (V1 & V2 & V3). unfold dev_size.
    destruct (v_sizep (f_view f) =? 0); [rewrite V3; reflexivity|]. rewrite V3. cbn [option_map]. rewrite unle32_le32 by lia. reflexivity. }
  split. { intros m1 t C1 Ht Htn. specialize (Hel t Ht Htn). destruct (a_elem a t) as [e|] eqn:Ee; [|contradiction]. exists e. split; [reflexivity|].
    apply (elem_get m1 f a t e (RF m1 C1)); [lia|exact Ee]. }
  split; [exact VSk|]. split; [exact SB1|]. rewrite J3. split; [exact Au|]. split; [exact SB2|]. split; [exact H1|]. split; [exact J1|]. split; [exact J2|]. split; [exact H2|].
  split. { intros x [Hx|Hx]; [exact (Rb_region_size _ _ _ _ Q NF Hx)|exact (Rb_region_bytes _ _ _ _ Q Hx)]. }
  split; [|exact Sep].
  intros x [(Hz & Hx)|Hx]; [|apply (Rb_region_bytes _ _ _ _ R); unfold within in *; nia].
  apply (Rb_region_size _ _ _ _ R); [|exact Hx]. intros Hfix. destruct (f_block f) as [c|]; [destruct H6 as (_ & _ & _ & _ & _ & _ & _ & H6 & _); exact (Hz (H6 Hfix))|destruct H6 as (_ & H6 & _); contradiction].
Qed.

(** ** Races *)
Section Races.
  Variables (esz : Z) (vi : vview) (osz : Z) (vo : vview) (g : list Z -> option (list Z)) (nthr : nat) (m0 : cmem) (n : Z).
  Variable elem : nat -> option (list Z).
  Variable P : Z -> Prop.
  Let outs := somes (map (val g n elem) (seq 0 nthr)).
  Hypothesis Hrun : forall sched, exists m' thr, k_run osz vo (m0, map KCall outs) sched = Ret (m', thr) /\ changes P m0 m'.
  Hypothesis Hsize : forall m, changes P m0 m -> dev_size vi m = Some n.
  Hypothesis Helem : forall m t, changes P m0 m -> (t < nthr)%nat -> Z.of_nat t < n ->
    exists e, elem t = Some e /\ get_bytes m (v_ptr vi + Z.of_nat t * esz) (Z.to_nat esz) = Some e.
  Notation Sim := (Sim osz vo g nthr m0 n elem).
  Notation contrib := (contrib g n elem).

  Lemma sim_step_k sched m thr i m' thr' : Sim sched m thr -> f_step esz vi osz vo g (m, thr) i = Ret (m', thr') ->
    exists s, k_run osz vo (m, flat_map contrib thr) s = Ret (m', flat_map contrib thr').
  Proof.
    intros S E. pose proof (sim_changes osz vo g nthr m0 n elem P Hrun _ _ _ S) as C.
    unfold f_step in E. destruct (nth_error thr i) as [s|] eqn:N; [|injection E as <- <-; exists []; reflexivity].
    pose proof (s_ok _ _ _ _ _ _ _ _ _ _ S i s N) as O.
    destruct (nth_error_split _ _ N) as (l1 & l2 & El & Li).
    assert (Hi : (i < nthr)%nat) by (rewrite <- (s_len _ _ _ _ _ _ _ _ _ _ S); apply nth_error_Some; congruence).
    assert (Q : forall s', contrib s' = contrib s -> flat_map contrib (upd thr i s') = flat_map contrib thr).
    { intros s' Hc. rewrite El at 1. rewrite <- Li, upd_mid. rewrite El. rewrite !flat_map_app. cbn [flat_map]. rewrite Hc. reflexivity. }
    destruct s as [t|t|k|].
    - cbn [ok] in O. subst t. rewrite (Hsize m C) in E. injection E as <- <-. exists []. cbn [k_run]. f_equal. f_equal. symmetry. apply Q.
      destruct (Z.ltb_spec (Z.of_nat i) n) as [Hn|Hn]; [reflexivity|]. cbn [KernProgProofs.contrib]. unfold val. destruct (Z.ltb_spec (Z.of_nat i) n); [lia|reflexivity].
    - destruct O as (-> & Hn). rewrite (Hsize m C) in E. destruct (Helem m i C Hi Hn) as (e & E1 & E2). unfold assert in E.
      replace (Z.of_nat i <? n) with true in E by lia. rewrite E2 in E. injection E as <- <-. exists []. cbn [k_run]. f_equal. f_equal. symmetry. apply Q.
      cbn [KernProgProofs.contrib]. unfold val. replace (Z.of_nat i <? n) with true by lia. rewrite E1. destruct (g e); reflexivity.
    - destruct (s_run _ _ _ _ _ _ _ _ _ _ S) as (sched' & K). rewrite El in K. rewrite flat_map_app in K. cbn [flat_map KernProgProofs.contrib app] in K.
      set (p := flat_map contrib l1) in *. set (q := flat_map contrib l2) in *.
      destruct (Hrun (sched' ++ [length p])) as (m2 & thr2 & E' & _). rewrite k_run_app in E'. unfold outs in E'. change (KernProgProofs.outs g nthr n elem) with (somes (map (val g n elem) (seq 0 nthr))) in K.
      rewrite K in E'. cbn [bind k_run] in E'.
      destruct (k_step osz vo (m, p ++ k :: q) (length p)) as [[m1 t1]| |] eqn:E1; cbn [bind] in E'; try discriminate. injection E' as -> ->.
      destruct (k_step_local _ _ _ _ _ _ _ _ E1) as (k' & F1 & -> & F3). rewrite F1 in E. cbn [hd] in E. injection E as <- <-.
      exists [length p]. rewrite El, <- Li, upd_mid. rewrite !flat_map_app. cbn [flat_map KernProgProofs.contrib app]. fold p q. cbn [k_run]. rewrite E1. reflexivity.
    - injection E as <- <-. exists []. reflexivity.
  Qed.

  Lemma sim_more mid : forall sched m thr m' thr', Sim sched m thr -> f_run esz vi osz vo g (m, thr) mid = Ret (m', thr') ->
    Sim (sched ++ mid) m' thr' /\ exists s, k_run osz vo (m, flat_map contrib thr) s = Ret (m', flat_map contrib thr').
  Proof.
    induction mid as [|i mid IH]; intros sched m thr m' thr' S; cbn [f_run].
    - intros E. injection E as <- <-. rewrite app_nil_r. split; [exact S|]. exists []. reflexivity.
    - destruct (f_step esz vi osz vo g (m, thr) i) as [[m1 thr1]| |] eqn:E1; cbn [bind]; try discriminate. intros E.
      destruct (sim_step esz vi osz vo g nthr m0 n elem P Hrun Hsize Helem _ _ _ i S) as (m2 & thr2 & E2 & S2). rewrite E1 in E2. injection E2 as <- <-.
      destruct (sim_step_k _ _ _ _ _ _ S E1) as (s1 & K1). destruct (IH _ _ _ _ _ S2 E) as (S3 & s2 & K2).
      rewrite <- app_assoc in S3. split; [exact S3|]. exists (s1 ++ s2). rewrite k_run_app, K1. exact K2.
  Qed.

  (** The position of a thread among those that append. *)
  Definition pos (i : nat) : nat := length (somes (map (val g n elem) (seq 0 i))).
  Lemma contrib_length i s : ok g n elem i s -> length (contrib s) = length (somes [val g n elem i]).
  Proof.
    destruct s as [t|t|k|]; cbn [ok KernProgProofs.contrib].
    - intros ->. destruct (val g n elem i); reflexivity.
    - intros (-> & _). destruct (val g n elem i); reflexivity.
    - intros ->. reflexivity.
    - intros ->. reflexivity.
  Qed.
  Lemma pos_S i : pos (S i) = (pos i + length (somes [val g n elem i]))%nat.
  Proof. unfold pos. rewrite seq_S, map_app. unfold somes. rewrite flat_map_app, app_length. reflexivity. Qed.
  Lemma pos_nth sched m thr i k : Sim sched m thr -> nth_error thr i = Some (FPush k) -> nth_error (flat_map contrib thr) (pos i) = Some k.
  Proof.
    intros S N. destruct (nth_error_split _ _ N) as (l1 & l2 & El & Li).
    assert (L : length (flat_map contrib l1) = pos i).
    { assert (O : forall j s, nth_error l1 j = Some s -> ok g n elem j s).
      { intros j s Hj. apply (s_ok _ _ _ _ _ _ _ _ _ _ S j s). rewrite El. rewrite nth_error_app1; [exact Hj|]. apply nth_error_Some. congruence. }
      rewrite <- Li. clear - O. induction l1 as [|s l1 IH] using rev_ind; [reflexivity|].
      rewrite flat_map_app, !app_length. cbn [length flat_map]. rewrite app_nil_r. rewrite IH.
      - rewrite Nat.add_1_r, pos_S. f_equal. apply contrib_length. apply O. rewrite nth_error_app2, Nat.sub_diag by lia. reflexivity.
      - intros j t Hj. apply O. rewrite nth_error_app1; [exact Hj|]. apply nth_error_Some. congruence. }
    rewrite El, flat_map_app. cbn [flat_map KernProgProofs.contrib app]. rewrite <- L. apply nth_mid.
  Qed.
  Lemma pos_mono i j : (i < j)%nat -> (pos (S i) <= pos j)%nat.
  Proof. intros H. induction j as [|j IH]; [lia|]. destruct (Nat.eq_dec i j) as [->|D]; [lia|]. specialize (IH ltac:(lia)). rewrite (pos_S j). lia. Qed.
  Lemma pos_lt sched m thr i k j : Sim sched m thr -> nth_error thr i = Some (FPush k) -> (i < j)%nat -> (pos i < pos j)%nat.
  Proof.
    intros S N H. pose proof (pos_mono i j H) as K. rewrite pos_S in K. pose proof (s_ok _ _ _ _ _ _ _ _ _ _ S i _ N) as O. cbn [ok] in O. rewrite O in K. cbn in K. lia.
  Qed.

  Variable k0 : Z.
  Hypothesis Hosz : 0 < osz.
  Hypothesis Hesz : 0 < esz.
  Hypothesis Hvo : v_sizep vo <> 0.
  Hypothesis Hk0 : view_size m0 vo k0.
  Hypothesis Hacc : acc m0 (v_ptr vo) (v_cap vo * osz).
  Hypothesis Hlen : Forall (fun v => Z.of_nat (length v) = osz) outs.
  Hypothesis Hap : apart (v_sizep vo) 4 (v_ptr vo) (v_cap vo * osz).
  Variables (ri ro : Z -> Prop).
  Hypothesis Hro : forall x, within (v_sizep vo) 4 x \/ within (v_ptr vo) (v_cap vo * osz) x -> ro x.
  Hypothesis Hri : forall x, (v_sizep vi <> 0 /\ within (v_sizep vi) 4 x) \/ within (v_ptr vi) (n * esz) x -> ri x.
  Hypothesis Hsep : forall x, ri x -> ro x -> False.

  (** Accesses of threads that do not append are reads of the input, the others are to the output. *)
  Lemma access_in sched m thr i t a x : Sim sched m thr -> nth_error thr i = Some t -> (forall k, t <> FPush k) -> In a (f_access esz vi osz vo t) ->
    writes a = false /\ (within (a_ptr a) (a_len a) x -> ri x).
  Proof.
    intros S N D A. pose proof (s_ok _ _ _ _ _ _ _ _ _ _ S i _ N) as O. destruct t as [t|t|k|]; cbn [f_access] in A.
    - destruct (Z.eqb_spec (v_sizep vi) 0); [destruct A|]. destruct A as [<-|[]]. split; [reflexivity|]. cbn [a_ptr a_len]. intros Hx. apply Hri. auto.
    - destruct O as (-> & Hn). apply in_app_or in A. destruct A as [A|[<-|[]]].
      + destruct (Z.eqb_spec (v_sizep vi) 0); [destruct A|]. destruct A as [<-|[]]. split; [reflexivity|]. cbn [a_ptr a_len]. intros Hx. apply Hri. auto.
      + split; [reflexivity|]. cbn [a_ptr a_len]. intros Hx. apply Hri. right. unfold within in *. nia.
    - destruct (D k eq_refl).
    - destruct A.
  Qed.
  Lemma access_out sched m thr i k a x : Sim sched m thr -> nth_error thr i = Some (FPush k) -> In a (k_access osz vo k) -> within (a_ptr a) (a_len a) x -> ro x.
  Proof.
    intros S N A Hx. apply Hro. pose proof (pos_nth _ _ _ _ _ S N) as NK. destruct (s_run _ _ _ _ _ _ _ _ _ _ S) as (sched' & K).
    destruct k as [bs|idx bs|idx bs|idx bs]; cbn [k_access] in A; try (destruct A; fail); destruct A as [<-|[]]; cbn [a_ptr a_len] in Hx.
    - left. exact Hx.
    - right. destruct (kernel_safe osz vo m0 k0 outs sched' m (flat_map contrib thr) Hosz Hvo Hk0 Hlen Hap K) as (cl & _ & (S2 & _) & S3 & _).
      pose proof (S3 (pos i) idx (ex_intro _ _ (conj NK eq_refl))) as B. destruct Hk0 as (B1 & _). unfold within in *. nia.
  Qed.

  Theorem filter_races before mid m1 thr1 m2 thr2 i j ti tj a b :
    f_run esz vi osz vo g (m0, map FSize (seq 0 nthr)) before = Ret (m1, thr1) -> f_run esz vi osz vo g (m1, thr1) mid = Ret (m2, thr2) -> i <> j ->
    nth_error thr1 i = Some ti -> nth_error thr2 j = Some tj -> In a (f_access esz vi osz vo ti) -> In b (f_access esz vi osz vo tj) -> ~ conflict a b.
  Proof.
    intros E1 E2 D N1 N2 A B.
    destruct (sim_more before [] m0 _ m1 thr1 (sim_init esz vi osz vo g nthr m0 n elem P Hsize Helem) E1) as (S1 & s1 & K1). destruct (sim_more mid _ _ _ _ _ S1 E2) as (S2 & s2 & K2).
    assert (F : forall t, (exists k, t = FPush k) \/ (forall k, t <> FPush k)) by (intros [t|t|k|]; [right|right|left; eexists; reflexivity|right]; intros; discriminate).
    destruct (F ti) as [(ki & ->)|Fi], (F tj) as [(kj & ->)|Fj]; cbn [f_access] in *.
    - assert (K0 : k_run osz vo (m0, map KCall outs) s1 = Ret (m1, flat_map contrib thr1)).
      { rewrite <- K1. f_equal. f_equal. unfold outs, somes. clear. induction (seq 0 nthr) as [|t l IH]; [reflexivity|].
        cbn [map flat_map]. rewrite map_app, IH. f_equal. cbn [KernProgProofs.contrib]. destruct (val g n elem t); reflexivity. }
      apply (kernel_races osz vo m0 k0 outs s1 s2 m1 (flat_map contrib thr1) m2 (flat_map contrib thr2) (pos i) (pos j) ki kj a b); try assumption.
      + assert (i < j \/ j < i)%nat as [H|H] by lia; [pose proof (pos_lt _ _ _ _ _ j S1 N1 H)|pose proof (pos_lt _ _ _ _ _ i S2 N2 H)]; lia.
      + exact (pos_nth _ _ _ _ _ S1 N1).
      + exact (pos_nth _ _ _ _ _ S2 N2).
    - apply not_conflict. intros x Hx Hy. destruct (access_in _ _ _ _ _ _ x S2 N2 Fj B) as (_ & R). exact (Hsep x (R Hy) (access_out _ _ _ _ _ _ _ S1 N1 A Hx)).
    - apply not_conflict. intros x Hx Hy. destruct (access_in _ _ _ _ _ _ x S1 N1 Fi A) as (_ & R). exact (Hsep x (R Hx) (access_out _ _ _ _ _ _ _ S2 N2 B Hy)).
    - intros (_ & W & _). destruct (access_in _ _ _ _ _ _ 0 S1 N1 Fi A) as (W1 & _). destruct (access_in _ _ _ _ _ _ 0 S2 N2 Fj B) as (W2 & _). rewrite W1, W2 in W. discriminate.
  Qed.
End Races.

(** ** Launches in programs *)
Lemma legal_launch l i j g nthr sched r : kjudge l (KLaunch i j g nthr sched) r <> Illegal ->
  exists a b n k, nth_error l i = Some (Some a) /\ nth_error l j = Some (Some b) /\ i <> j /\ a_num a = Some n /\ a_size b = Sized k /\
    (forall t, (t < nthr)%nat -> Z.of_nat t < n -> a_elem a t <> None) /\
    Forall (fun v => Z.of_nat (length v) = a_esz b) (somes (map (appended a n g) (seq 0 nthr))) /\
    k + Z.of_nat (length (somes (map (appended a n g) (seq 0 nthr)))) <= a_cap b.
Proof.
  cbn [kjudge]. destruct (alive l i) as [a|] eqn:Ea; [|contradiction]. destruct (alive l j) as [b|] eqn:Eb; [|contradiction].
  destruct (a_num a) as [n|] eqn:En; [|contradiction]. destruct (a_size b) as [| |k] eqn:Ek; try contradiction.
  cbv zeta. destruct (negb (Nat.eqb i j) && _ && _ && _ && _) eqn:L; [|contradiction]. intros _.
  apply andb_prop in L. destruct L as (L & L5). apply andb_prop in L. destruct L as (L & L4). apply andb_prop in L. destruct L as (L & L3). apply andb_prop in L. destruct L as (L1 & L2).
  apply alive_some in Ea, Eb. exists a, b, n, k. split; [exact Ea|]. split; [exact Eb|]. split; [apply Nat.eqb_neq; destruct (Nat.eqb i j); [discriminate|reflexivity]|].
  split; [exact En|]. split; [exact Ek|]. split.
  { intros t Ht Htn. rewrite forallb_forall in L2. specialize (L2 t ltac:(apply in_seq; lia)). destruct (a_elem a t); [discriminate|].
    replace (Z.of_nat t <? n) with true in L2 by lia. discriminate. }
  split; [|lia]. apply Forall_forall. intros x Hx. rewrite forallb_forall in L3. specialize (L3 x Hx). lia.
Qed.

Theorem program_launch orc ops rs st l i j g nthr sched r f u : kruns (bst0 orc) ops = (rs, st) -> upstream_ok (ulog (b_w st)) -> kjudge_all [] ops rs = Good l ->
  kjudge l (KLaunch i j g nthr sched) r <> Illegal -> get_buf st i = Some f -> get_buf st j = Some u ->
  let run := f_run (f_esz f) (f_view f) (f_esz u) (f_view u) g in
  (forall any, exists m' thr', run (b_m st, map FSize (seq 0 nthr)) any = Ret (m', thr')) /\
  (forall before mid m1 thr1 m2 thr2 p q tp tq a b, run (b_m st, map FSize (seq 0 nthr)) before = Ret (m1, thr1) -> run (m1, thr1) mid = Ret (m2, thr2) -> p <> q ->
    nth_error thr1 p = Some tp -> nth_error thr2 q = Some tq ->
    In a (f_access (f_esz f) (f_view f) (f_esz u) (f_view u) tp) -> In b (f_access (f_esz f) (f_view f) (f_esz u) (f_view u) tq) -> ~ conflict a b).
Proof.
  intros E HU J L Gf Gu run. pose proof (kruns_ok ops (bst0 orc) [] (inv0 orc)) as HI. rewrite E in HI. cbn [fst snd] in HI. specialize (HI HU). rewrite J in HI.
  destruct (legal_launch _ _ _ _ _ _ _ L) as (a & b & n & k & Ha & Hb & Hij & Hn & Hk & L1 & L2 & L3).
  apply get_buf_some in Gf, Gu.
  destruct (launch_setup _ _ _ _ i j f u a b n k g nthr HI Gf Gu Ha Hb Hij Hn Hk L1 L2 L3) as (P & T1 & T2 & T3 & T4 & T5 & T6 & T7 & T8 & T9 & T10 & T11 & T12 & T13 & T14).
  subst run. rewrite T8, T9. split.
  - intros any. destruct (sim_run (a_esz a) (f_view f) (a_esz b) (f_view u) g nthr (b_m st) n (a_elem a) P T1 T2 T3 any) as (m' & thr' & R & _). exists m', thr'. exact R.
  - intros before mid m1 thr1 m2 thr2 p q tp tq c d E1 E2 D N1 N2 A B.
    exact (filter_races (a_esz a) (f_view f) (a_esz b) (f_view u) g nthr (b_m st) n (a_elem a) P T1 T2 T3 k T10 T11 T5 T4 T6 L2 T7 (region f) (region u) T12 T13 T14
      before mid m1 thr1 m2 thr2 p q tp tq c d E1 E2 D N1 N2 A B).
Qed.
