(** Proofs for ElemProg.v: kernels that map one buffer to another, or to itself. *)
From Verif Require Import Base BaseLemmas Copy BufProg BufProgProofs KernProg KernProgProofs ElemProg ElemProgProofs.
From Coq Require Import ZArith List Bool Lia.
Import ListNotations.
Local Open Scope Z_scope.

Fixpoint locs (i : nat) (k : Z) (n : nat) : list (nat * Z) := match n with O => [] | S n' => (i, k) :: locs i (k + 1) n' end.
Lemma locs_in i n : forall k x, In x (locs i k n) -> fst x = i /\ k <= snd x < k + Z.of_nat n.
Proof. induction n as [|n IH]; intros k x; cbn [locs]; [contradiction|]. intros [<-|H]; cbn [fst snd]; [split; [reflexivity|lia]|]. destruct (IH _ _ H). split; [assumption|lia]. Qed.

Lemma srun_get l i a n : alive l i = Some a -> a_num a = Some n -> forall bs k next, 0 <= k -> k + Z.of_nat (length bs) <= n * a_esz a ->
  (forall r c, nth_error bs r = Some c -> nth_error (a_bytes a) (Z.to_nat k + r) = Some (Some c)) ->
  srun l (get_elem i k (length bs) next) =
    match srun l (next bs) with Some e => Some (mkE (e_end e) (locs i k (length bs) ++ e_reads e) (e_writes e) (length bs + e_steps e)) | None => None end.
Proof.
  intros Ha Hn. induction bs as [|c bs IH]; intros k next Hk HN HB; cbn [length get_elem].
  - cbn [locs app Nat.add]. destruct (srun l (next [])) as [[]|]; reflexivity.
  - cbn [srun]. rewrite Ha, Hn. cbn [length] in HN. replace ((0 <=? k) && (k <? n * a_esz a)) with true by lia.
    pose proof (HB O c eq_refl) as H0. rewrite Nat.add_0_r in H0. rewrite H0. rewrite IH.
    + destruct (srun l (next (c :: bs))) as [e|]; [|reflexivity]. reflexivity.
    + lia.
    + lia.
    + intros r d Hd. rewrite <- (HB (S r) d Hd). f_equal. lia.
Qed.

Definition put_all (a : abuf) (k : Z) (bs : list Z) : abuf :=
  mkA (a_esz a) (a_cap a) (a_size a) (firstn (Z.to_nat k) (a_bytes a) ++ map Some bs ++ skipn (Z.to_nat k + length bs) (a_bytes a)).
Lemma put_shift {A} (l : list A) k x (m : list A) n : (k < length l)%nat ->
  firstn (S k) (upd l k x) ++ m ++ skipn (S k + n) (upd l k x) = firstn k l ++ (x :: m) ++ skipn (S k + n) l.
Proof.
  revert k. induction l as [|y l IH]; intros [|k] H; cbn [length] in H; try lia; cbn [upd firstn skipn Nat.add app].
  - reflexivity.
  - f_equal. apply (IH k). lia.
Qed.

Lemma alive_upd l i a b : alive l i = Some a -> alive (upd l i (Some b)) i = Some b.
Proof. intros H. apply alive_some in H. unfold alive. rewrite nth_upd, Nat.eqb_refl, H. reflexivity. Qed.

Lemma srun_put i n : forall bs l a k next, alive l i = Some a -> a_num a = Some n -> 0 <= k -> k + Z.of_nat (length bs) <= n * a_esz a ->
  n * a_esz a <= Z.of_nat (length (a_bytes a)) ->
  srun l (put_elem i k bs next) =
    match srun (upd l i (Some (put_all a k bs))) next with
    | Some e => Some (mkE (e_end e) (e_reads e) (locs i k (length bs) ++ e_writes e) (length bs + e_steps e)) | None => None end.
Proof.
  induction bs as [|c bs IH]; intros l a k next Ha Hn Hk HN HF; cbn [length put_elem].
  - unfold put_all. cbn [map app length]. rewrite Nat.add_0_r, firstn_skipn. apply alive_some in Ha.
    replace (mkA (a_esz a) (a_cap a) (a_size a) (a_bytes a)) with a by (destruct a; reflexivity). rewrite (upd_id _ _ _ Ha). destruct (srun l next) as [[]|]; reflexivity.
  - cbn [srun]. rewrite Ha, Hn. cbn [length] in HN. replace ((0 <=? k) && (k <? n * a_esz a)) with true by lia.
    rewrite (IH _ (a_put a k c)); [|exact (alive_upd _ _ _ _ Ha)|exact Hn|lia|cbn [a_put a_esz]; lia|cbn [a_put a_bytes a_esz]; rewrite upd_length; lia].
    rewrite upd_upd. replace (put_all (a_put a k c) (k + 1) bs) with (put_all a k (c :: bs)).
    + destruct (srun _ next) as [e|]; reflexivity.
    + unfold put_all, a_put. cbn [a_esz a_cap a_size a_bytes length map]. f_equal. replace (Z.to_nat (k + 1)) with (S (Z.to_nat k)) by lia.
      rewrite put_shift by lia. do 3 f_equal. lia.
Qed.

Lemma all_known_nth : forall (l : list (option Z)) e r c, all_known l = Some e -> nth_error e r = Some c -> nth_error l r = Some (Some c).
Proof.
  induction l as [|x l IH]; intros e r c; cbn; [intros H; injection H as <-; destruct r; discriminate|]. destruct x as [x|]; [|discriminate]. fold (all_known l).
  destruct (all_known l) as [e'|] eqn:E; [|discriminate]. intros H. injection H as <-. destruct r as [|r]; cbn [nth_error]; [congruence|]. apply IH. reflexivity.
Qed.
Lemma all_known_length : forall (l : list (option Z)) e, all_known l = Some e -> length e = length l.
Proof.
  induction l as [|x l IH]; intros e; cbn; [intros H; injection H as <-; reflexivity|]. destruct x as [x|]; [|discriminate]. fold (all_known l).
  destruct (all_known l) as [e'|] eqn:E; [|discriminate]. intros H. injection H as <-. cbn. f_equal. apply IH. reflexivity.
Qed.
Lemma independent_make es : (forall t u e e' x, t <> u -> nth_error es t = Some e -> nth_error es u = Some e' -> In x (e_writes e) -> ~ In x (e_reads e') /\ ~ In x (e_writes e')) ->
  independent es = true.
Proof.
  intros H. unfold independent. apply forallb_forall. intros t Ht. apply in_seq in Ht. apply forallb_forall. intros u Hu. apply in_seq in Hu.
  destruct (Nat.eqb_spec t u) as [|D]; [reflexivity|]. cbn [orb]. apply forallb_forall. intros x Hx. apply negb_true_iff. apply not_true_iff_false. intros K.
  apply existsb_exists in K. destruct K as (y & Hy & E). destruct (loc_eqb_spec x y) as [<-|]; [|discriminate].
  destruct (H t u (nth t es no_run) (nth u es no_run) x D) as (A & B); [apply nth_error_nth'; lia|apply nth_error_nth'; lia|exact Hx|].
  apply in_app_or in Hy. tauto.
Qed.

Lemma skip_skip {A} (p q : nat) : forall l : list A, skipn p (skipn q l) = skipn (q + p) l.
Proof. induction q as [|q IH]; intros l; [reflexivity|]. destruct l as [|x l]; [destruct p; reflexivity|]. apply IH. Qed.
Lemma nth_skip {A} (q r : nat) : forall l : list A, nth_error (skipn q l) r = nth_error l (q + r).
Proof. induction q as [|q IH]; intros l; [reflexivity|]. destruct l as [|x l]; [destruct r; reflexivity|]. apply IH. Qed.

Section Map.
  Variables (l : list (option abuf)) (i j : nat) (a b : abuf) (n nb : Z) (g : list Z -> list Z) (K : nat) (el : nat -> list Z).
  Hypothesis Ha : alive l i = Some a.
  Hypothesis Hb : alive l j = Some b.
  Hypothesis Hn : a_num a = Some n.
  Hypothesis Hnb : a_num b = Some nb.
  Hypothesis Hpos : 0 < a_esz a /\ 0 < a_esz b.
  Hypothesis Hfa : n * a_esz a <= Z.of_nat (length (a_bytes a)).
  Hypothesis Hfb : nb * a_esz b <= Z.of_nat (length (a_bytes b)).
  Hypothesis HKn : Z.of_nat K <= n.
  Hypothesis HKb : Z.of_nat K <= nb.
  Hypothesis Hel : forall t, (t < K)%nat -> a_elem a t = Some (el t) /\ Z.of_nat (length (g (el t))) = a_esz b.

  Definition outs (s : nat) : list Z := concat (map (fun t => g (el t)) (seq 0 s)).
  Definition buf_s (s : nat) : abuf := mkA (a_esz b) (a_cap b) (a_size b) (map Some (outs s) ++ skipn (s * Z.to_nat (a_esz b)) (a_bytes b)).
  Definition l_s (s : nat) : list (option abuf) := upd l j (Some (buf_s s)).

  Lemma outs_length s : (s <= K)%nat -> length (outs s) = (s * Z.to_nat (a_esz b))%nat.
  Proof.
    induction s as [|s IH]; intros H; [reflexivity|]. unfold outs. rewrite seq_S, map_app, concat_app, app_length. fold (outs s). rewrite IH by lia. cbn [map concat Nat.add].
    rewrite app_nil_r. destruct (Hel s ltac:(lia)) as (_ & HL). lia.
  Qed.
  Lemma outs_S s : outs (S s) = outs s ++ g (el s).
  Proof. unfold outs. rewrite seq_S, map_app, concat_app. cbn [map concat Nat.add]. rewrite app_nil_r. reflexivity. Qed.
  Lemma l_0 : l_s 0 = l.
  Proof. unfold l_s, buf_s. cbn. apply alive_some in Hb. replace (mkA _ _ _ _) with b by (destruct b; reflexivity). apply upd_id. exact Hb. Qed.
  Lemma alive_j s : alive (l_s s) j = Some (buf_s s).
  Proof. apply (alive_upd l j b). exact Hb. Qed.
  Lemma buf_s_len s : (s <= K)%nat -> length (a_bytes (buf_s s)) = length (a_bytes b).
  Proof. intros H. unfold buf_s. cbn [a_bytes]. rewrite app_length, map_length, outs_length, skipn_length by exact H. nia. Qed.
  Lemma elem_nth s r c : (s < K)%nat -> nth_error (el s) r = Some c -> nth_error (a_bytes a) (s * Z.to_nat (a_esz a) + r) = Some (Some c).
  Proof. intros Hs Hc. destruct (Hel s Hs) as (HE & _). unfold a_elem in HE. apply (nth_slice _ _ _ _ _ (all_known_nth _ _ _ _ HE Hc)). Qed.
  Lemma elem_len s : (s < K)%nat -> length (el s) = Z.to_nat (a_esz a).
  Proof. intros Hs. destruct (Hel s Hs) as (HE & _). unfold a_elem in HE. rewrite (all_known_length _ _ HE), firstn_length, skipn_length. nia. Qed.

  (** The input of thread [s] in front of it. *)
  Lemma alive_i s : (s <= K)%nat -> exists a', alive (l_s s) i = Some a' /\ a_num a' = Some n /\ a_esz a' = a_esz a /\
    ((s < K)%nat -> forall r c, nth_error (el s) r = Some c -> nth_error (a_bytes a') (s * Z.to_nat (a_esz a) + r) = Some (Some c)).
  Proof.
    intros Hs. destruct (Nat.eq_dec i j) as [E|D].
    - assert (Eab : a = b) by (rewrite E in Ha; congruence). exists (buf_s s). rewrite E. split; [apply alive_j|]. split; [rewrite Eab in Hn; exact Hn|]. split; [rewrite Eab; reflexivity|].
      intros Hlt r c Hc. unfold buf_s. cbn [a_bytes]. pose proof (outs_length s Hs) as HL. rewrite nth_error_app2; rewrite map_length, HL; rewrite Eab; [|lia].
      replace (s * Z.to_nat (a_esz b) + r - s * Z.to_nat (a_esz b))%nat with r by lia.
      pose proof (elem_nth s r c Hlt Hc) as HN. rewrite Eab in HN. rewrite <- HN. apply nth_skip.
    - exists a. split; [|split; [exact Hn|split; [reflexivity|intros Hlt r c; exact (elem_nth s r c Hlt)]]].
      unfold alive, l_s. rewrite nth_upd. replace (Nat.eqb j i) with false by (symmetry; apply Nat.eqb_neq; congruence). exact Ha.
  Qed.

  Definition run_of (t : nat) (e : erun) : Prop := (e_steps e <= 1 + Z.to_nat (a_esz a) + Z.to_nat (a_esz b))%nat /\
    ((t < K)%nat -> e_reads e = locs i (Z.of_nat t * a_esz a) (Z.to_nat (a_esz a)) /\ e_writes e = locs j (Z.of_nat t * a_esz b) (Z.to_nat (a_esz b))) /\
    ((K <= t)%nat -> e_reads e = [] /\ e_writes e = []).
  Lemma one_thread s : (s < K)%nat -> exists e, srun (l_s s) (map_thread i (a_esz a) j (a_esz b) g s) = Some e /\ e_end e = l_s (S s) /\ run_of s e.
  Proof.
    intros Hs. destruct (alive_i s ltac:(lia)) as (a' & A1 & A2 & A3 & A4). unfold map_thread. cbn [srun]. rewrite A1, A2.
    replace (Z.of_nat s <? n) with true by lia. pose proof (elem_len s Hs) as HL. rewrite <- HL.
    rewrite (srun_get _ i a' n A1 A2 (el s)); [|nia|rewrite HL, A3; nia|].
    2: { intros r c Hc. rewrite <- (A4 Hs r c Hc). f_equal. nia. }
    destruct (Hel s Hs) as (_ & HG). pose proof (buf_s_len s ltac:(lia)) as HBL.
    rewrite (srun_put j nb (g (el s)) (l_s s) (buf_s s)); [|apply alive_j|exact Hnb|nia|rewrite HG; unfold buf_s; cbn [a_esz]; nia|rewrite HBL; exact Hfb].
    cbn [srun also e_end e_reads e_writes e_steps app]. eexists. split; [reflexivity|]. cbn [e_end]. split.
    - unfold l_s. rewrite upd_upd. do 2 f_equal. unfold put_all, buf_s. cbn [a_esz a_cap a_size a_bytes]. f_equal.
      replace (Z.to_nat (Z.of_nat s * a_esz b)) with (s * Z.to_nat (a_esz b))%nat by nia. pose proof (outs_length s ltac:(lia)) as HO.
      rewrite firstn_app, map_length, HO, Nat.sub_diag, firstn_O, app_nil_r. rewrite firstn_all2 by (rewrite map_length; lia).
      rewrite outs_S, map_app, <- app_assoc. do 2 f_equal. rewrite skipn_app, map_length, HO, skipn_all2 by (rewrite map_length; lia). cbn [app].
      rewrite skip_skip. f_equal. nia.
    - unfold run_of. cbn [e_steps e_reads e_writes]. split; [nia|]. split; [|lia]. intros _. rewrite !app_nil_r. split; [rewrite HL; reflexivity|]. f_equal. nia.
  Qed.

  Lemma idle_thread s : Z.of_nat s >= n -> (K <= s)%nat -> srun (l_s K) (map_thread i (a_esz a) j (a_esz b) g s) = Some (mkE (l_s K) [] [] 1).
  Proof.
    intros Hs HK. destruct (alive_i K (le_n K)) as (a' & A1 & A2 & _). unfold map_thread. cbn [srun]. rewrite A1, A2. replace (Z.of_nat s <? n) with false by lia. reflexivity.
  Qed.

  Lemma all_threads c : (forall s, (K <= s)%nat -> (s < c)%nat -> Z.of_nat s >= n) -> forall m s, (s + m = c)%nat ->
    exists es, sruns (l_s (Nat.min s K)) (map (map_thread i (a_esz a) j (a_esz b) g) (seq s m)) = Some es /\ length es = m /\
      last (map e_end es) (l_s (Nat.min s K)) = l_s (Nat.min c K) /\ forall t e, nth_error es t = Some e -> run_of (s + t) e.
  Proof.
    intros Hidle. induction m as [|m IH]; intros s Hm; cbn [seq map sruns].
    - exists []. split; [reflexivity|]. split; [reflexivity|]. split; [cbn; f_equal; lia|]. intros [|t] e; discriminate.
    - assert (One : exists e, srun (l_s (Nat.min s K)) (map_thread i (a_esz a) j (a_esz b) g s) = Some e /\ e_end e = l_s (Nat.min (S s) K) /\ run_of s e).
      { destruct (Nat.lt_ge_cases s K) as [H|H].
        - destruct (one_thread s H) as (e & E1 & E2 & E3). exists e. replace (Nat.min s K) with s by lia. replace (Nat.min (S s) K) with (S s) by lia. split; [exact E1|]. split; [exact E2|exact E3].
        - replace (Nat.min s K) with K by lia. replace (Nat.min (S s) K) with K by lia. eexists. split; [apply idle_thread; [apply Hidle; lia|exact H]|].
          split; [reflexivity|]. unfold run_of. cbn [e_steps e_reads e_writes]. split; [lia|]. split; [lia|]. intros _. split; reflexivity. }
      destruct One as (e & E1 & E2 & E3). rewrite E1. rewrite E2. destruct (IH (S s) ltac:(lia)) as (es & S1 & S2 & S3 & S4). rewrite S1. exists (e :: es).
      split; [reflexivity|]. split; [cbn; congruence|]. split.
      + rewrite <- S3, <- E2. cbn [map]. clear. generalize (e_end e). generalize (map e_end es). intros l0. generalize (l_s (Nat.min s K)). induction l0 as [|y l0 IH]; intros d x; [reflexivity|].
        cbn [last] in *. destruct l0; [reflexivity|]. apply (IH d x).
      + intros [|t] e' He'; cbn [nth_error] in He'; [injection He' as <-; rewrite Nat.add_0_r; exact E3|]. replace (s + S t)%nat with (S s + t)%nat by lia. exact (S4 t e' He').
  Qed.
End Map.

Theorem map_kernel l i j a b n nb g nthr sched el : let k := Nat.min nthr (Z.to_nat n) in
  nth_error l i = Some (Some a) -> nth_error l j = Some (Some b) -> a_num a = Some n -> a_num b = Some nb -> 0 <= n -> 0 < a_esz a -> 0 < a_esz b ->
  n * a_esz a <= Z.of_nat (length (a_bytes a)) -> nb * a_esz b <= Z.of_nat (length (a_bytes b)) -> Z.of_nat k <= nb ->
  (forall t, (t < k)%nat -> a_elem a t = Some (el t) /\ Z.of_nat (length (g (el t))) = a_esz b) ->
  (forall t, (t < nthr)%nat -> 1 + a_esz a + a_esz b <= Z.of_nat (count_occ Nat.eq_dec sched t)) ->
  ejudge l (ELaunch (map (map_thread i (a_esz a) j (a_esz b) g) (seq 0 nthr)) sched) (RHost RDone) =
    Good (upd l j (Some (mkA (a_esz b) (a_cap b) (a_size b) (map Some (concat (map (fun t => g (el t)) (seq 0 k))) ++ skipn (k * Z.to_nat (a_esz b)) (a_bytes b))))).
Proof.
  intros k Ha Hb Hn Hnb H0 Hp1 Hp2 Hfa Hfb HKb Hel HS. apply alive_some in Ha, Hb. subst k. set (k := Nat.min nthr (Z.to_nat n)) in *.
  destruct (all_threads l i j a b n nb g k el Ha Hb Hn Hnb (conj Hp1 Hp2) Hfa Hfb ltac:(lia) HKb Hel nthr ltac:(intros s Hs1 Hs2; lia) nthr 0 eq_refl) as (es & E1 & E2 & E3 & E4).
  change (Nat.min 0 k) with 0%nat in E1, E3. assert (L0 : l_s l j b g el 0 = l) by (eapply l_0; [eassumption|eassumption|exact (conj Hp1 Hp2)|eassumption|eassumption]). rewrite L0 in E1, E3. cbn [ejudge]. rewrite E1.
  replace (independent es) with true.
  - replace (forallb _ _) with true; [rewrite E3; replace (Nat.min nthr k) with k by lia; reflexivity|].
    symmetry. apply forallb_forall. intros t Ht. apply in_seq in Ht. apply Nat.leb_le. destruct (E4 t (nth t es no_run)) as (HT & _); [apply nth_error_nth'; lia|].
    specialize (HS t ltac:(lia)). lia.
  - symmetry. apply independent_make. intros t u e e' x D Ht Hu Hx. destruct (E4 t e Ht) as (_ & T1 & T2). destruct (E4 u e' Hu) as (_ & U1 & U2). cbn [Nat.add] in *.
    destruct (Nat.lt_ge_cases t k) as [Lt|Lt]; [|destruct (T2 Lt) as (_ & W); rewrite W in Hx; contradiction].
    destruct (Nat.lt_ge_cases u k) as [Lu|Lu]; [|destruct (U2 Lu) as (-> & ->); split; exact (fun F => F)].
    destruct (T1 Lt) as (_ & W). destruct (U1 Lu) as (R' & W'). rewrite W in Hx. apply locs_in in Hx. destruct Hx as (X1 & X2). rewrite R', W'. split; intros Hy; apply locs_in in Hy; destruct Hy as (Y1 & Y2).
    + assert (Eab : a = b) by congruence. rewrite Eab in Y2. nia.
    + nia.
Qed.
