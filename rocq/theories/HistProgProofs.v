(** Proofs for HistProg.v: atomic additions of several threads add up. *)
From Verif Require Import Races RacesProofs.
From Verif Require Import Base BaseLemmas Copy CopyProofs BufProg BufProgProofs KernProg KernProgProofs ElemProg ElemProgProofs ElemMapProofs HistProg.
From Coq Require Import ZArith List Bool Lia Permutation.
Import ListNotations.
Local Open Scope Z_scope.

(** ** Words in a list of bytes *)
Definition put4 (k : nat) (w : list Z) (l : list (option Z)) : list (option Z) := firstn k l ++ map Some w ++ skipn (k + 4) l.
Lemma put4_length k w l : length w = 4%nat -> (k + 4 <= length l)%nat -> length (put4 k w l) = length l.
Proof. intros Hw H. unfold put4. rewrite !app_length, map_length, firstn_length_le, skipn_length by lia. lia. Qed.
Lemma put4_nth k w l r : length w = 4%nat -> (k + 4 <= length l)%nat ->
  nth_error (put4 k w l) r = if Nat.leb k r && Nat.ltb r (k + 4) then nth_error (map Some w) (r - k) else nth_error l r.
Proof.
  intros Hw H. unfold put4. destruct (Nat.leb_spec k r) as [Hr|Hr]; cbn [andb].
  - rewrite nth_error_app2; rewrite firstn_length_le by lia; [|lia]. destruct (Nat.ltb_spec r (k + 4)) as [Hr4|Hr4].
    + rewrite nth_error_app1 by (rewrite map_length; lia). reflexivity.
    + rewrite nth_error_app2 by (rewrite map_length; lia). rewrite nth_skip, map_length. f_equal. lia.
  - rewrite nth_error_app1 by (rewrite firstn_length_le; lia). rewrite <- (firstn_skipn k l) at 2. rewrite nth_error_app1 by (rewrite firstn_length_le; lia). reflexivity.
Qed.
Lemma get4_nth {A} k (l : list A) r : nth_error (firstn 4 (skipn k l)) r = if Nat.ltb r 4 then nth_error l (k + r) else None.
Proof.
  destruct (Nat.ltb_spec r 4) as [H|H].
  - rewrite <- nth_skip. generalize (skipn k l). clear -H. intros x. destruct x as [|a [|b [|c [|d x]]]]; destruct r as [|[|[|[|r]]]]; try reflexivity; lia.
  - apply nth_error_None. rewrite firstn_length. lia.
Qed.
Lemma get4_put4_same k w l : length w = 4%nat -> (k + 4 <= length l)%nat -> firstn 4 (skipn k (put4 k w l)) = map Some w.
Proof.
  intros Hw H. apply nth_ext_e. intros r. rewrite get4_nth. destruct (Nat.ltb_spec r 4) as [Hr|Hr].
  - rewrite put4_nth by assumption. replace (Nat.leb k (k + r) && Nat.ltb (k + r) (k + 4)) with true; [f_equal; lia|].
    symmetry. apply andb_true_intro. split; [apply Nat.leb_le; lia|apply Nat.ltb_lt; lia].
  - symmetry. apply nth_error_None. rewrite map_length. lia.
Qed.
Lemma get4_put4_other k k' w l : length w = 4%nat -> (k + 4 <= length l)%nat -> (k + 4 <= k' \/ k' + 4 <= k)%nat ->
  firstn 4 (skipn k' (put4 k w l)) = firstn 4 (skipn k' l).
Proof.
  intros Hw H D. apply nth_ext_e. intros r. rewrite !get4_nth. destruct (Nat.ltb_spec r 4) as [Hr|Hr]; [|reflexivity].
  rewrite put4_nth by assumption. replace (Nat.leb k (k' + r) && Nat.ltb (k' + r) (k + 4)) with false; [reflexivity|].
  symmetry. apply andb_false_iff. destruct D; [right; apply Nat.ltb_ge; lia|left; apply Nat.leb_gt; lia].
Qed.
Lemma put4_put4_same k w w' l : length w = 4%nat -> length w' = 4%nat -> (k + 4 <= length l)%nat -> put4 k w' (put4 k w l) = put4 k w' l.
Proof.
  intros Hw Hw' H. apply nth_ext_e. intros r. rewrite !put4_nth; rewrite ?put4_length; try assumption. destruct (_ && _); reflexivity.
Qed.
Lemma put4_comm k k' w w' l : length w = 4%nat -> length w' = 4%nat -> (k + 4 <= length l)%nat -> (k' + 4 <= length l)%nat -> (k + 4 <= k' \/ k' + 4 <= k)%nat ->
  put4 k' w' (put4 k w l) = put4 k w (put4 k' w' l).
Proof.
  intros Hw Hw' H H' D. apply nth_ext_e. intros r. rewrite !put4_nth; rewrite ?put4_length; try assumption.
  destruct (Nat.leb_spec k r), (Nat.ltb_spec r (k + 4)), (Nat.leb_spec k' r), (Nat.ltb_spec r (k' + 4)); cbn [andb]; try reflexivity; lia.
Qed.

Lemma le32_length n : length (le32 n) = 4%nat. Proof. reflexivity. Qed.
Lemma all_known_map bs : all_known (map Some bs) = Some bs.
Proof. induction bs as [|c bs IH]; [reflexivity|]. cbn [map all_known fold_right]. fold (all_known (map Some bs)). rewrite IH. reflexivity. Qed.

(** Additions at existing indices. *)
Definition inr (L : nat) (p : Z * Z) : Prop := 0 <= fst p /\ (Z.to_nat (fst p) * 4 + 4 <= L)%nat.
Lemma add_word_eq l p : add_word l p = match word_at l (fst p) with Some bs => put4 (Z.to_nat (fst p) * 4) (le32 ((unle32 bs + snd p) mod 2 ^ 32)) l | None => l end.
Proof. reflexivity. Qed.
Lemma add_word_length l p : inr (length l) p -> length (add_word l p) = length l.
Proof. intros (H1 & H2). rewrite add_word_eq. destruct (word_at l (fst p)); [apply put4_length; [apply le32_length|exact H2]|reflexivity]. Qed.
Lemma word_add l p idx : inr (length l) p -> 0 <= idx -> word_at (add_word l p) idx =
  if fst p =? idx then match word_at l idx with Some bs => Some (le32 ((unle32 bs + snd p) mod 2 ^ 32)) | None => None end else word_at l idx.
Proof.
  intros (H1 & H2) Hi. rewrite add_word_eq. destruct (Z.eqb_spec (fst p) idx) as [E|D].
  - rewrite <- E. destruct (word_at l (fst p)) as [bs|] eqn:EW; [|exact EW]. unfold word_at. rewrite get4_put4_same by (try apply le32_length; exact H2). apply all_known_map.
  - destruct (word_at l (fst p)) as [bs|] eqn:EW; [|reflexivity]. unfold word_at at 1. rewrite get4_put4_other; [reflexivity|apply le32_length|exact H2|nia].
Qed.
Lemma add_comm l p q : inr (length l) p -> inr (length l) q -> add_word (add_word l p) q = add_word (add_word l q) p.
Proof.
  intros Hp Hq. pose proof Hp as (Hp1 & Hp2). pose proof Hq as (Hq1 & Hq2).
  rewrite (add_word_eq (add_word l p) q), (add_word_eq (add_word l q) p). rewrite !word_add by assumption. rewrite !(Z.eqb_sym (fst q) (fst p)).
  destruct (Z.eqb_spec (fst p) (fst q)) as [E|D].
  - rewrite E. rewrite (add_word_eq l p), (add_word_eq l q), E. destruct (word_at l (fst q)) as [bs|]; [|reflexivity].
    rewrite !put4_put4_same; try apply le32_length; try exact Hq2. f_equal. rewrite !unle32_le32 by (apply Z.mod_pos_bound; lia). f_equal.
    rewrite !Zplus_mod_idemp_l. f_equal. lia.
  - rewrite (add_word_eq l p), (add_word_eq l q). destruct (word_at l (fst p)) as [bs|], (word_at l (fst q)) as [bs'|]; try reflexivity.
    apply put4_comm; try apply le32_length; try assumption. nia.
Qed.
Lemma fold_length ps : forall l, Forall (inr (length l)) ps -> length (fold_left add_word ps l) = length l.
Proof.
  induction ps as [|p ps IH]; intros l H; [reflexivity|]. inversion H; subst. cbn [fold_left]. rewrite IH; [apply add_word_length; assumption|]. rewrite add_word_length by assumption. assumption.
Qed.
Lemma fold_perm ps qs : Permutation ps qs -> forall l, Forall (inr (length l)) ps -> fold_left add_word ps l = fold_left add_word qs l.
Proof.
  induction 1 as [|p ps qs HP IH|p q ps|ps qs rs H1 IH1 H2 IH2]; intros l HF.
  - reflexivity.
  - inversion HF; subst. cbn [fold_left]. apply IH. rewrite add_word_length by assumption. assumption.
  - inversion HF as [|? ? Hq HF']; subst. inversion HF'; subst. cbn [fold_left]. rewrite add_comm by assumption. reflexivity.
  - rewrite (IH1 l HF). apply IH2. rewrite <- H1. exact HF.
Qed.
(** A word after additions. *)
Lemma word_fold ps : forall l idx bs, Forall (inr (length l)) ps -> 0 <= idx -> word_at l idx = Some bs ->
  exists bs', word_at (fold_left add_word ps l) idx = Some bs' /\
    (unle32 bs' mod 2 ^ 32 = (unle32 bs + fold_right Z.add 0 (map snd (filter (fun p => fst p =? idx) ps))) mod 2 ^ 32) /\
    ((forall p, In p ps -> fst p <> idx) -> bs' = bs).
Proof.
  induction ps as [|p ps IH]; intros l idx bs HF Hi HW; cbn [fold_left filter map fold_right].
  - exists bs. split; [exact HW|]. split; [f_equal; lia|reflexivity].
  - inversion HF as [|? ? Hp HF']; subst. pose proof (word_add l p idx Hp Hi) as HA. rewrite HW in HA.
    assert (HF1 : Forall (inr (length (add_word l p))) ps) by (rewrite add_word_length by assumption; assumption).
    destruct (Z.eqb_spec (fst p) idx) as [E|D].
    + destruct (IH (add_word l p) idx _ HF1 Hi HA) as (bs' & B1 & B2 & _). exists bs'. split; [exact B1|]. split.
      * rewrite B2. rewrite unle32_le32 by (apply Z.mod_pos_bound; lia). rewrite Zplus_mod_idemp_l. cbn [map fold_right]. f_equal. lia.
      * intros H. exfalso. apply (H p); [left; reflexivity|exact E].
    + destruct (IH (add_word l p) idx bs HF1 Hi HA) as (bs' & B1 & B2 & B3). exists bs'. split; [exact B1|]. split; [exact B2|].
      intros H. apply B3. intros q Hq. apply H. right. exact Hq.
Qed.

(** ** A write of a word *)
Lemma put4_inv w m h l j f b k ws : Inv w m h l -> nth_error h j = Some (Some f) -> nth_error l j = Some (Some b) -> length ws = 4%nat -> (k + 4 <= length (a_bytes b))%nat ->
  Inv w (put_bytes m (v_ptr (f_view f) + Z.of_nat k) ws) h (upd l j (Some (mkA (a_esz b) (a_cap b) (a_size b) (put4 k ws (a_bytes b))))).
Proof.
  intros HI Hf Hb Hw Hk. destruct (alive_buf _ _ _ _ _ _ HI Hb) as (f' & Hf' & R). rewrite Hf in Hf'. injection Hf' as <-.
  pose proof R as (H1 & H2 & H3 & H4 & H5 & H6). set (m' := put_bytes m (v_ptr (f_view f) + Z.of_nat k) ws).
  assert (HM : forall x, m_byte m' x = if (v_ptr (f_view f) + Z.of_nat k <=? x) && (x <? v_ptr (f_view f) + Z.of_nat k + 4) then nth_error ws (Z.to_nat (x - (v_ptr (f_view f) + Z.of_nat k))) else m_byte m x).
  { intros x. unfold m', put_bytes. cbn [m_byte]. rewrite Hw. reflexivity. }
  assert (Out : forall x, ~ within (v_ptr (f_view f)) (a_cap b * a_esz b) x -> m_byte m' x = m_byte m x).
  { intros x Hx. rewrite HM. destruct (_ && _) eqn:E; [|reflexivity]. exfalso. apply Hx. unfold within. lia. }
  apply (Inv_write w m m' h l j f b); try assumption.
  - intros x Hx. apply Out. intros Hin. apply Hx. exact (Rb_region_bytes _ _ _ _ R Hin).
  - reflexivity.
  - apply (Rb_bytes m m' f b); try assumption.
    + intros x Hx. rewrite HM. destruct (_ && _) eqn:E; [|apply (Rb_acc _ _ _ R); exact Hx]. apply nth_error_Some. lia.
    + apply put4_length; assumption.
    + intros q c Hq. rewrite put4_nth in Hq by assumption. rewrite HM. destruct (Nat.leb_spec k q) as [A|A]; cbn [andb] in Hq.
      * destruct (Nat.ltb_spec q (k + 4)) as [B|B].
        -- replace ((v_ptr (f_view f) + Z.of_nat k <=? v_ptr (f_view f) + Z.of_nat q) && (v_ptr (f_view f) + Z.of_nat q <? v_ptr (f_view f) + Z.of_nat k + 4)) with true by lia.
           replace (Z.to_nat (v_ptr (f_view f) + Z.of_nat q - (v_ptr (f_view f) + Z.of_nat k))) with (q - k)%nat by lia.
           rewrite nth_error_map in Hq. destruct (nth_error ws (q - k)); [injection Hq as ->; reflexivity|discriminate].
        -- replace ((v_ptr (f_view f) + Z.of_nat k <=? v_ptr (f_view f) + Z.of_nat q) && (v_ptr (f_view f) + Z.of_nat q <? v_ptr (f_view f) + Z.of_nat k + 4)) with false by lia.
           exact (Rb_known _ _ _ _ _ R Hq).
      * replace ((v_ptr (f_view f) + Z.of_nat k <=? v_ptr (f_view f) + Z.of_nat q) && (v_ptr (f_view f) + Z.of_nat q <? v_ptr (f_view f) + Z.of_nat k + 4)) with false by lia.
        exact (Rb_known _ _ _ _ _ R Hq).
Qed.

Lemma flat_upd {A B} (f : A -> list B) (l : list A) i x y : nth_error l i = Some x -> Permutation (f y ++ flat_map f l) (f x ++ flat_map f (upd l i y)).
Proof.
  revert i. induction l as [|z l IH]; intros [|i] H; try discriminate; cbn [nth_error upd flat_map] in *.
  - injection H as ->. apply Permutation_app_swap_app.
  - specialize (IH i H). rewrite Permutation_app_swap_app. rewrite (Permutation_app_swap_app (f x)). apply Permutation_app_head. exact IH.
Qed.

Lemma h_step_length esz vin vout g m thr t m' thr' : h_step esz vin vout g (m, thr) t = Ret (m', thr') -> length thr' = length thr.
Proof.
  unfold h_step, assert. destruct (nth_error thr t) as [[s|s|[|[idx v] r]]|].
  - destruct (dev_size vin m); [|discriminate]. intros H. injection H as _ <-. apply upd_length.
  - destruct (dev_size vin m); [|discriminate]. destruct (_ <? _); [|discriminate]. destruct (get_bytes _ _ _); [|discriminate]. intros H. injection H as _ <-. apply upd_length.
  - intros H. injection H as _ <-. reflexivity.
  - destruct (dev_size vout m); [|discriminate]. destruct (_ && _); [|discriminate]. destruct (get_bytes _ _ _); [|discriminate]. intros H. injection H as _ <-. apply upd_length.
  - intros H. injection H as _ <-. reflexivity.
Qed.
Lemma h_run_length esz vin vout g sched : forall m thr m' thr', h_run esz vin vout g (m, thr) sched = Ret (m', thr') -> length thr' = length thr.
Proof.
  induction sched as [|t sched IH]; intros m thr m' thr'; cbn [h_run]; [intros H; injection H as _ <-; reflexivity|].
  destruct (h_step esz vin vout g (m, thr) t) as [[m1 thr1]| |] eqn:E; cbn [bind]; try discriminate. intros H. rewrite (IH _ _ _ _ H). exact (h_step_length _ _ _ _ _ _ _ _ _ E).
Qed.

(** ** The threads of a launch *)
Section Hist.
  Variables (w : world) (h : list (option buf)) (l0 : list (option abuf)) (i j : nat) (f u : buf) (a b : abuf) (n nb : Z) (g : list Z -> list (Z * Z)) (nthr : nat).
  Hypothesis Hf : nth_error h i = Some (Some f).
  Hypothesis Hu : nth_error h j = Some (Some u).
  Hypothesis Ha : nth_error l0 i = Some (Some a).
  Hypothesis Hb : nth_error l0 j = Some (Some b).
  Hypothesis Hij : i <> j.
  Hypothesis Hn : a_num a = Some n.
  Hypothesis Hnb : a_num b = Some nb.
  Hypothesis Hz : a_esz b = 4.
  Hypothesis Hfit : nb * 4 <= Z.of_nat (length (a_bytes b)).
  Hypothesis Hel : forall t, (t < nthr)%nat -> Z.of_nat t < n -> a_elem a t <> None.
  Let adds := flat_map (adds_of a n g) (seq 0 nthr).
  Hypothesis Hadds : forall p, In p adds -> 0 <= fst p < nb /\ word_at (a_bytes b) (fst p) <> None.

  Definition cur (don : list (Z * Z)) : list (option abuf) := upd l0 j (Some (mkA (a_esz b) (a_cap b) (a_size b) (fold_left add_word don (a_bytes b)))).
  Definition rem (x : hthr) : list (Z * Z) := match x with HSize t | HRead t => adds_of a n g t | HAdd r => r end.
  Definition todo (x : hthr) : nat := match x with HSize t => 2 + length (adds_of a n g t) | HRead t => 1 + length (adds_of a n g t) | HAdd r => length r end.
  Definition fine (x : hthr) : Prop := match x with HSize t => (t < nthr)%nat | HRead t => (t < nthr)%nat /\ Z.of_nat t < n | HAdd _ => True end.
  Record G (l : list (option abuf)) (thr : list hthr) (cnt : nat -> nat) : Prop := mkG {
    g_done : exists don, l = cur don /\ Permutation (don ++ flat_map rem thr) adds;
    g_fine : forall t x, nth_error thr t = Some x -> fine x /\ (todo x <= cnt t)%nat }.

  Lemma add_inr p : In p adds -> inr (length (a_bytes b)) p.
  Proof. intros H. destruct (Hadds p H) as (A & _). split; [lia|]. nia. Qed.

  Lemma G_move l thr cnt t x x' : G l thr cnt -> nth_error thr t = Some x -> fine x' -> (todo x' < todo x)%nat -> rem x' = rem x ->
    G l (upd thr t x') (fun v => if Nat.eqb v t then pred (cnt v) else cnt v).
  Proof.
    intros [(don & D1 & D2) HF] Hx Hx' HT HR. constructor.
    - exists don. split; [exact D1|]. rewrite <- D2. apply Permutation_app_head. symmetry. pose proof (flat_upd rem thr t x x' Hx) as HP. rewrite HR in HP. apply (Permutation_app_inv_l (rem x)). exact HP.
    - intros v y Hy. rewrite nth_upd, (Nat.eqb_sym t v) in Hy. destruct (Nat.eqb_spec v t) as [->|D]; [|exact (HF v y Hy)].
      rewrite Hx in Hy. injection Hy as <-. split; [exact Hx'|]. pose proof (proj2 (HF t x Hx)). lia.
  Qed.
  Lemma cur_i don : nth_error (cur don) i = Some (Some a).
  Proof. unfold cur. rewrite nth_upd. replace (Nat.eqb j i) with false by (symmetry; apply Nat.eqb_neq; congruence). exact Ha. Qed.
  Lemma cur_j don : nth_error (cur don) j = Some (Some (mkA (a_esz b) (a_cap b) (a_size b) (fold_left add_word don (a_bytes b)))).
  Proof. unfold cur. rewrite nth_upd, Nat.eqb_refl, Hb. reflexivity. Qed.
  Lemma input_ok m l thr cnt : Inv w m h l -> G l thr cnt -> Rb m f a.
  Proof.
    intros HI [(don & -> & _) _]. destruct (alive_buf _ _ _ _ _ _ HI (cur_i don)) as (f' & Hf' & R). rewrite Hf in Hf'. injection Hf' as <-. exact R.
  Qed.

  Lemma G_step m l thr cnt t : Inv w m h l -> G l thr cnt ->
    exists m1 thr1 l1, h_step (f_esz f) (f_view f) (f_view u) g (m, thr) t = Ret (m1, thr1) /\ Inv w m1 h l1 /\ G l1 thr1 (fun v => if Nat.eqb v t then pred (cnt v) else cnt v).
  Proof.
    intros HI HG. pose proof (input_ok m l thr cnt HI HG) as Rf. pose proof Rf as (Ez & _). unfold h_step. destruct (nth_error thr t) as [x|] eqn:Hx.
    2: { exists m, thr, l. split; [reflexivity|]. split; [exact HI|]. destruct HG as [G1 G2]. constructor; [exact G1|]. intros v y Hy.
         destruct (Nat.eqb_spec v t) as [->|_]; [congruence|exact (G2 v y Hy)]. }
    pose proof (g_fine _ _ _ HG t x Hx) as (Fx & Cx). destruct x as [s|s|[|[idx v] r]]; cbn [fine] in Fx.
    - rewrite (dev_size_ok _ _ _ _ Rf Hn). exists m. eexists. exists l. split; [reflexivity|]. split; [exact HI|].
      destruct (Z.ltb_spec (Z.of_nat s) n) as [HL|HL].
      + apply (G_move l thr cnt t (HSize s)); try assumption; [split; assumption|cbn [todo]; lia|reflexivity].
      + apply (G_move l thr cnt t (HSize s)); try assumption; [exact I|cbn; lia|]. cbn [rem]. unfold adds_of. replace (Z.of_nat s <? n) with false by lia. reflexivity.
    - destruct Fx as (F1 & F2). rewrite (dev_size_ok _ _ _ _ Rf Hn). replace (Z.of_nat s <? n) with true by lia. cbn [assert]. rewrite Ez.
      destruct (a_elem a s) as [e|] eqn:Ee; [|exfalso; exact (Hel s F1 F2 Ee)]. pose proof (a_num_range _ _ _ _ Rf Hn) as Hr.
      rewrite (elem_get m f a s e Rf ltac:(lia) Ee). exists m. eexists. exists l. split; [reflexivity|]. split; [exact HI|].
      assert (EA : adds_of a n g s = g e) by (unfold adds_of; replace (Z.of_nat s <? n) with true by lia; rewrite Ee; reflexivity).
      apply (G_move l thr cnt t (HRead s)); try assumption; [exact I|cbn [todo]; rewrite EA; lia|cbn [rem]; congruence].
    - exists m, thr, l. split; [reflexivity|]. split; [exact HI|]. destruct HG as [G1 G2]. constructor; [exact G1|]. intros v y Hy.
      destruct (Nat.eqb_spec v t) as [->|_]; [|exact (G2 v y Hy)]. rewrite Hx in Hy. injection Hy as <-. split; [exact I|cbn; lia].
    - destruct HG as [(don & -> & DP) HF].
      assert (HP : Permutation (flat_map rem thr) ((idx, v) :: flat_map rem (upd thr t (HAdd r)))).
      { pose proof (flat_upd rem thr t (HAdd ((idx, v) :: r)) (HAdd r) Hx) as HP. cbn [rem] in HP. change (((idx, v) :: r) ++ flat_map rem (upd thr t (HAdd r))) with ((idx, v) :: (r ++ flat_map rem (upd thr t (HAdd r)))) in HP.
        apply (Permutation_app_inv_l r). rewrite HP. apply Permutation_middle. }
      assert (DP2 : Permutation ((don ++ [(idx, v)]) ++ flat_map rem (upd thr t (HAdd r))) adds).
      { rewrite <- DP, <- app_assoc. apply Permutation_app_head. symmetry. exact HP. }
      assert (Hall : forall p, In p (don ++ [(idx, v)]) -> In p adds) by (intros p Hp; apply (Permutation_in _ DP2); apply in_or_app; left; exact Hp).
      assert (Hin : In (idx, v) adds) by (apply Hall; apply in_or_app; right; left; reflexivity).
      destruct (Hadds _ Hin) as (Hr & HW). cbn [fst] in Hr, HW.
      assert (FD : Forall (inr (length (a_bytes b))) don) by (apply Forall_forall; intros p Hp; apply add_inr, Hall, in_or_app; left; exact Hp).
      destruct (word_at (a_bytes b) idx) as [bs|] eqn:EW; [|contradiction]. destruct (word_fold don (a_bytes b) idx bs FD ltac:(lia) EW) as (bs' & W1 & _ & _).
      set (b' := mkA (a_esz b) (a_cap b) (a_size b) (fold_left add_word don (a_bytes b))) in *.
      pose proof (cur_j don) as Hj. fold b' in Hj. destruct (alive_buf _ _ _ _ _ _ HI Hj) as (u' & Hu' & Ru). rewrite Hu in Hu'. injection Hu' as <-.
      assert (Hnb' : a_num b' = Some nb) by exact Hnb. rewrite (dev_size_ok _ _ _ _ Ru Hnb'). replace ((0 <=? idx) && (idx <? nb)) with true by lia. cbn [assert].
      pose proof (a_num_range _ _ _ _ Ru Hnb') as Hrn.
      assert (EG : get_bytes m (v_ptr (f_view u) + idx * 4) 4 = Some bs').
      { pose proof (elem_get m u b' (Z.to_nat idx) bs' Ru ltac:(lia)) as EG. assert (Ez' : a_esz b' = 4) by exact Hz. unfold a_elem in EG. rewrite Ez' in EG. rewrite Z2Nat.id in EG by lia. apply EG. exact W1. }
      rewrite EG. exists (put_bytes m (v_ptr (f_view u) + idx * 4) (le32 ((unle32 bs' + v) mod 2 ^ 32))), (upd thr t (HAdd r)), (cur (don ++ [(idx, v)])). split; [reflexivity|]. split.
      + pose proof (put4_inv w m h (cur don) j u b' (Z.to_nat idx * 4) (le32 ((unle32 bs' + v) mod 2 ^ 32)) HI Hu Hj (le32_length _)) as HP4.
        replace (cur (don ++ [(idx, v)])) with (upd (cur don) j (Some (mkA (a_esz b') (a_cap b') (a_size b') (put4 (Z.to_nat idx * 4) (le32 ((unle32 bs' + v) mod 2 ^ 32)) (a_bytes b'))))).
        * replace (idx * 4) with (Z.of_nat (Z.to_nat idx * 4)) by lia. apply HP4. unfold b'. cbn [a_bytes]. rewrite fold_length by exact FD. nia.
        * unfold cur. rewrite upd_upd. do 2 f_equal. unfold b'. cbn [a_esz a_cap a_size a_bytes]. f_equal. rewrite fold_left_app. cbn [fold_left]. rewrite add_word_eq. cbn [fst snd]. rewrite W1. reflexivity.
      + constructor.
        * exists (don ++ [(idx, v)]). split; [reflexivity|exact DP2].
        * intros q y Hy. rewrite nth_upd, (Nat.eqb_sym t q) in Hy. destruct (Nat.eqb_spec q t) as [->|D]; [|exact (HF q y Hy)].
          rewrite Hx in Hy. injection Hy as <-. split; [exact I|]. cbn [todo length] in *. lia.
  Qed.

  Lemma G_cnt l thr c c' : (forall t, c t = c' t) -> G l thr c -> G l thr c'.
  Proof. intros H [H1 H2]. constructor; [exact H1|]. intros t x Hx. rewrite <- H. exact (H2 t x Hx). Qed.
  Lemma G_run sched : forall m l thr cnt, Inv w m h l -> G l thr cnt ->
    exists m1 thr1 l1, h_run (f_esz f) (f_view f) (f_view u) g (m, thr) sched = Ret (m1, thr1) /\ Inv w m1 h l1 /\ G l1 thr1 (fun v => (cnt v - count_occ Nat.eq_dec sched v)%nat).
  Proof.
    induction sched as [|t sched IH]; intros m l thr cnt HI HG; cbn [h_run].
    - exists m, thr, l. split; [reflexivity|]. split; [exact HI|]. apply (G_cnt _ _ _ _ (fun t => eq_sym (Nat.sub_0_r (cnt t))) HG).
    - destruct (G_step m l thr cnt t HI HG) as (m1 & thr1 & l1 & E & HI1 & HG1). rewrite E. cbn [bind].
      destruct (IH m1 l1 thr1 _ HI1 HG1) as (m2 & thr2 & l2 & E2 & HI2 & HG2). exists m2, thr2, l2. split; [exact E2|]. split; [exact HI2|].
      apply (G_cnt _ _ _ _) with (2 := HG2). intros v. cbn [count_occ]. destruct (Nat.eq_dec t v) as [<-|D].
      + rewrite Nat.eqb_refl. lia.
      + replace (Nat.eqb v t) with false by (symmetry; apply Nat.eqb_neq; congruence). reflexivity.
  Qed.
  Lemma flat_seq : flat_map rem (map HSize (seq 0 nthr)) = adds.
  Proof. unfold adds. rewrite !flat_map_concat_map, map_map. reflexivity. Qed.
  Lemma G_init : G l0 (map HSize (seq 0 nthr)) (fun t => (2 + length (adds_of a n g t))%nat).
  Proof.
    constructor.
    - exists []. split.
      + unfold cur. cbn [fold_left]. replace (mkA _ _ _ _) with b by (destruct b; reflexivity). symmetry. apply upd_id. exact Hb.
      + cbn [app]. rewrite flat_seq. reflexivity.
    - intros t x Hx. assert (Hlt : (t < length (map HSize (seq 0 nthr)))%nat) by (apply nth_error_Some; rewrite Hx; discriminate). rewrite map_length, seq_length in Hlt.
      rewrite (map_nth_error HSize t (seq 0 nthr) (d := t)) in Hx by (rewrite (nth_error_nth' _ O); [rewrite seq_nth by lia; reflexivity|rewrite seq_length; lia]).
      injection Hx as <-. split; [exact Hlt|cbn [todo]; lia].
  Qed.
  Lemma G_final l thr cnt : G l thr cnt -> (forall t, (t < length thr)%nat -> cnt t = O) ->
    forallb (fun t => match t with HAdd [] => true | _ => false end) thr = true /\ l = cur adds.
  Proof.
    intros [(don & -> & DP) HF] HC.
    assert (All : forall x, In x thr -> x = HAdd []).
    { intros x Hx. apply In_nth_error in Hx. destruct Hx as (t & Hx). destruct (HF t x Hx) as (_ & HT). rewrite HC in HT by (apply nth_error_Some; rewrite Hx; discriminate).
      destruct x as [s|s|[|p r]]; cbn [todo length] in HT; try lia. reflexivity. }
    split.
    - apply forallb_forall. intros x Hx. rewrite (All x Hx). reflexivity.
    - assert (E : flat_map rem thr = []). { clear -All. induction thr as [|x thr IH]; [reflexivity|]. cbn [flat_map]. rewrite (All x (or_introl eq_refl)), IH; [reflexivity|]. intros y Hy. apply All. right. exact Hy. }
      rewrite E, app_nil_r in DP. unfold cur. do 3 f_equal. apply (fold_perm don adds DP). apply Forall_forall. intros p Hp. apply add_inr. apply (Permutation_in _ DP Hp).
  Qed.

  Lemma size_access_region m v b0 k ac : Rb m v b0 -> In ac (size_access (f_view v) k) -> a_how ac = k /\ forall x, a_ptr ac <= x < a_ptr ac + a_len ac -> region v x.
  Proof.
    intros R Hin. unfold size_access in Hin. destruct (Z.eqb_spec (v_sizep (f_view v)) 0) as [|Hs]; [contradiction|]. destruct Hin as [<-|[]]. split; [reflexivity|].
    cbn [a_ptr a_len]. intros x Hx. apply (Rb_region_size m v b0 x R (sizep_fixed m v b0 R Hs)). unfold within. lia.
  Qed.
  Lemma h_access_facts m l thr cnt t x ac : Inv w m h l -> G l thr cnt -> nth_error thr t = Some x -> In ac (h_access (f_esz f) (f_view f) (f_view u) x) ->
    ((forall y, a_ptr ac <= y < a_ptr ac + a_len ac -> region f y) /\ (a_how ac = plain_read \/ a_how ac = atomic_load)) \/
    ((forall y, a_ptr ac <= y < a_ptr ac + a_len ac -> region u y) /\ (a_how ac = atomic_load \/ a_how ac = atomic_add)).
  Proof.
    intros HI HG Hx Hin. pose proof (input_ok m l thr cnt HI HG) as Rf. pose proof Rf as (Ez & Hpos & _). pose proof (g_fine _ _ _ HG t x Hx) as (Fx & _).
    destruct x as [s|s|[|[idx v] r]]; cbn [h_access fine] in *.
    - left. destruct (size_access_region m f a plain_read ac Rf Hin) as (A & B). split; [exact B|left; exact A].
    - apply in_app_or in Hin. destruct Hin as [Hin|[<-|[]]].
      + left. destruct (size_access_region m f a atomic_load ac Rf Hin) as (A & B). split; [exact B|right; exact A].
      + left. split; [|left; reflexivity]. cbn [a_ptr a_len]. intros y Hy. destruct Fx as (_ & Fx). pose proof (a_num_range _ _ _ _ Rf Hn) as Hr.
        apply (Rb_region_bytes m f a y Rf). unfold within. rewrite Ez in Hy. nia.
    - contradiction.
    - destruct HG as [(don & -> & DP) HF].
      assert (Hadd : In (idx, v) adds).
      { apply (Permutation_in _ DP). apply in_or_app. right. apply in_flat_map. exists (HAdd ((idx, v) :: r)). split; [apply nth_error_In in Hx; exact Hx|left; reflexivity]. }
      destruct (Hadds _ Hadd) as (Hr & _). cbn [fst] in Hr. destruct (alive_buf _ _ _ _ _ _ HI (cur_j don)) as (u' & Hu' & Ru). rewrite Hu in Hu'. injection Hu' as <-.
      apply in_app_or in Hin. destruct Hin as [Hin|[<-|[]]].
      + right. destruct (size_access_region m u _ atomic_load ac Ru Hin) as (A & B). split; [exact B|left; exact A].
      + right. split; [|right; reflexivity]. cbn [a_ptr a_len]. intros y Hy. assert (Hnb' : a_num (mkA (a_esz b) (a_cap b) (a_size b) (fold_left add_word don (a_bytes b))) = Some nb) by exact Hnb.
        pose proof (a_num_range _ _ _ _ Ru Hnb') as Hrn. cbn [a_cap] in Hrn. apply (Rb_region_bytes m u _ y Ru). unfold within. cbn [a_cap a_esz]. rewrite Hz. nia.
  Qed.
End Hist.

(** ** Programs *)
Lemma hlog_grows st o : exists n, ulog (b_w (snd (hstep st o))) = n ++ ulog (b_w st).
Proof.
  destruct o as [o|i j g n sched]; cbn [hstep]; [apply elog_grows|]. exists []. destruct (get_buf st i); [|reflexivity]. destruct (get_buf st j); [|reflexivity].
  destruct (h_run _ _ _ _ _ _) as [[m thr]| |]; reflexivity.
Qed.
Lemma hlogs_grow ops : forall st, exists n, ulog (b_w (snd (hruns st ops))) = n ++ ulog (b_w st).
Proof.
  induction ops as [|o ops IH]; intros st; cbn [hruns snd]; [exists []; reflexivity|].
  destruct (hlog_grows st o) as (n1 & H1). destruct (IH (snd (hstep st o))) as (n2 & H2). exists (n2 ++ n1). rewrite H2, H1. apply app_assoc.
Qed.

(** What a legal launch gives for the section above. *)
Lemma h_legal w m h l i j g nthr sched r : Inv w m h l -> hjudge l (HLaunch i j g nthr sched) r <> Illegal ->
  exists f u a b n nb, nth_error h i = Some (Some f) /\ nth_error h j = Some (Some u) /\ nth_error l i = Some (Some a) /\ nth_error l j = Some (Some b) /\ i <> j /\
    a_num a = Some n /\ a_num b = Some nb /\ a_esz b = 4 /\ nb * 4 <= Z.of_nat (length (a_bytes b)) /\
    (forall t, (t < nthr)%nat -> Z.of_nat t < n -> a_elem a t <> None) /\
    (forall p, In p (flat_map (adds_of a n g) (seq 0 nthr)) -> 0 <= fst p < nb /\ word_at (a_bytes b) (fst p) <> None) /\
    (forall t, (t < nthr)%nat -> (2 + length (adds_of a n g t) <= count_occ Nat.eq_dec sched t)%nat) /\
    hjudge l (HLaunch i j g nthr sched) r =
      match r with RHost RDone => Good (upd l j (Some (mkA (a_esz b) (a_cap b) (a_size b) (fold_left add_word (flat_map (adds_of a n g) (seq 0 nthr)) (a_bytes b))))) | _ => Wrong end.
Proof.
  intros HI. cbn [hjudge]. destruct (alive l i) as [a|] eqn:Ea; [|contradiction]. destruct (alive l j) as [b|] eqn:Eb; [|contradiction].
  destruct (a_num a) as [n|] eqn:En; [|contradiction]. destruct (a_num b) as [nb|] eqn:Enb; [|contradiction]. cbv zeta.
  destruct (negb (Nat.eqb i j) && _ && _ && _ && _) eqn:L; [|contradiction]. intros _.
  apply andb_prop in L. destruct L as (L & L5). apply andb_prop in L. destruct L as (L & L4). apply andb_prop in L. destruct L as (L & L3). apply andb_prop in L. destruct L as (L1 & L2).
  pose proof (Inv_fits _ _ _ _ HI j b nb Eb Enb) as HF. apply alive_some in Ea, Eb.
  destruct (alive_buf _ _ _ _ _ _ HI Ea) as (f & Hf & _). destruct (alive_buf _ _ _ _ _ _ HI Eb) as (u & Hu & _).
  exists f, u, a, b, n, nb. repeat (split; [assumption|]). split; [apply Nat.eqb_neq; destruct (Nat.eqb i j); [discriminate|reflexivity]|]. split; [exact En|]. split; [exact Enb|].
  apply Z.eqb_eq in L2. rewrite L2 in HF. split; [exact L2|]. split; [exact HF|]. split.
  { intros t Ht Htn. rewrite forallb_forall in L3. specialize (L3 t ltac:(apply in_seq; lia)). destruct (a_elem a t); [discriminate|].
    replace (Z.of_nat t <? n) with true in L3 by lia. discriminate. }
  split. { intros p Hp. rewrite forallb_forall in L4. specialize (L4 p Hp). destruct (word_at (a_bytes b) (fst p)); [split; [lia|discriminate]|]. rewrite andb_false_r in L4. discriminate. }
  split; [|reflexivity]. intros t Ht. rewrite forallb_forall in L5. specialize (L5 t ltac:(apply in_seq; lia)). apply Nat.leb_le in L5. exact L5.
Qed.

Lemma hstep_ok st l o : Inv (b_w st) (b_m st) (b_h st) l -> upstream_ok (ulog (b_w (snd (hstep st o)))) ->
  match hjudge l o (fst (hstep st o)) with Good l' => Inv (b_w (snd (hstep st o))) (b_m (snd (hstep st o))) (b_h (snd (hstep st o))) l' | Illegal => True | Wrong => False end.
Proof.
  intros HI HU. destruct o as [o|i j g nthr sched]; [exact (estep_ok st l o HI HU)|].
  destruct (hjudge l (HLaunch i j g nthr sched) (fst (hstep st (HLaunch i j g nthr sched)))) eqn:EJ; [| exact I |];
  (destruct (h_legal (b_w st) (b_m st) (b_h st) l i j g nthr sched (fst (hstep st (HLaunch i j g nthr sched))) HI ltac:(congruence)) as
    (f & u & a & b & n & nb & Hf & Hu & Ha & Hb & Hij & Hn & Hnb & Hz & Hfit & Hel & Hadds & Hs & EJ'); rewrite EJ in EJ');
  pose proof (proj2 (get_buf_some st i f) Hf) as Gf; pose proof (proj2 (get_buf_some st j u) Hu) as Gu;
  (destruct (G_run (b_w st) (b_h st) l i j f u a b n nb g nthr Hf Hu Ha Hb Hij Hn Hnb Hz Hfit Hel Hadds sched (b_m st) l _ _ HI (G_init l i j a b n nb g nthr Hb Hij Hnb Hz Hfit Hel Hadds)) as (m1 & thr1 & l1 & E1 & I1 & G1));
  (assert (HLen : length thr1 = nthr) by (clear -E1; rewrite (h_run_length _ _ _ _ _ _ _ _ _ E1), map_length, seq_length; reflexivity));
  (destruct (G_final l i j a b n nb g nthr Hij Hfit Hel Hadds _ _ _ G1) as (F1 & F2); [intros t Ht; specialize (Hs t ltac:(lia)); lia|]);
  cbn [hstep] in *; rewrite Gf, Gu, E1, F1 in *; cbn [fst snd b_w b_m b_h] in *.
  - injection EJ' as ->. rewrite F2 in I1. exact I1.
  - discriminate.
Qed.
Lemma hruns_ok ops : forall st l, Inv (b_w st) (b_m st) (b_h st) l -> upstream_ok (ulog (b_w (snd (hruns st ops)))) ->
  match hjudge_all l ops (fst (hruns st ops)) with
  | Good l' => Inv (b_w (snd (hruns st ops))) (b_m (snd (hruns st ops))) (b_h (snd (hruns st ops))) l' | Illegal => True | Wrong => False end.
Proof.
  induction ops as [|o ops IH]; intros st l HI; cbn [hruns hjudge_all fst snd].
  - intros _. exact HI.
  - intros HU. destruct (hlogs_grow ops (snd (hstep st o))) as (n & Hn). pose proof HU as HU1. rewrite Hn in HU1. apply upstream_ok_app in HU1.
    pose proof (hstep_ok st l o HI HU1) as HS. destruct (hjudge l o (fst (hstep st o))) as [l'| |]; [|exact I|exact HS].
    exact (IH _ l' HS HU).
Qed.
Theorem hprograms orc ops rs st : hruns (bst0 orc) ops = (rs, st) -> upstream_ok (ulog (b_w st)) ->
  match hjudge_all [] ops rs with
  | Good l => frees_ok (ulog (b_w st)) /\
      length (ulive (ulog (b_w st))) = length (filter (fun o => match o with Some a => negb (a_cap a =? 0) | None => false end) l)
  | Illegal => True
  | Wrong => False
  end.
Proof.
  intros E HU. pose proof (hruns_ok ops (bst0 orc) [] (inv0 orc)) as H. rewrite E in H. cbn [fst snd] in H. specialize (H HU).
  destruct (hjudge_all [] ops rs) as [l| |]; [|exact I|exact H].
  split; [exact (i_frees _ _ _ _ H)|]. rewrite (Permutation_length (i_perm _ _ _ _ H)). exact (blks_count _ _ _ _ H).
Qed.

Theorem hprogram_launch orc ops rs st l i j g nthr sched r f u : hruns (bst0 orc) ops = (rs, st) -> upstream_ok (ulog (b_w st)) -> hjudge_all [] ops rs = Good l ->
  hjudge l (HLaunch i j g nthr sched) r <> Illegal -> get_buf st i = Some f -> get_buf st j = Some u ->
  (forall any, exists m' thr', h_run (f_esz f) (f_view f) (f_view u) g (b_m st, map HSize (seq 0 nthr)) any = Ret (m', thr')) /\
  forall before mid m1 thr1 m2 thr2 p q tp tq a b,
    h_run (f_esz f) (f_view f) (f_view u) g (b_m st, map HSize (seq 0 nthr)) before = Ret (m1, thr1) -> h_run (f_esz f) (f_view f) (f_view u) g (m1, thr1) mid = Ret (m2, thr2) ->
    nth_error thr1 p = Some tp -> nth_error thr2 q = Some tq -> In a (h_access (f_esz f) (f_view f) (f_view u) tp) -> In b (h_access (f_esz f) (f_view f) (f_view u) tq) -> ~ conflict a b.
Proof.
  intros E HU EJ EL Gf Gu. pose proof (hruns_ok ops (bst0 orc) [] (inv0 orc)) as HI. rewrite E in HI. cbn [fst snd] in HI. specialize (HI HU). rewrite EJ in HI.
  destruct (h_legal _ _ _ _ _ _ _ _ _ _ HI EL) as (f' & u' & a & b & n & nb & Hf & Hu & Ha & Hb & Hij & Hn & Hnb & Hz & Hfit & Hel & Hadds & _ & _).
  apply get_buf_some in Gf, Gu. rewrite Hf in Gf. injection Gf as ->. rewrite Hu in Gu. injection Gu as ->.
  pose proof (G_init l i j a b n nb g nthr Hb Hij Hnb Hz Hfit Hel Hadds) as G0.
  assert (RUN := fun sched m l1 thr cnt => G_run (b_w st) (b_h st) l i j f u a b n nb g nthr Hf Hu Ha Hb Hij Hn Hnb Hz Hfit Hel Hadds sched m l1 thr cnt). split.
  - intros any. destruct (RUN any (b_m st) l _ _ HI G0) as (m1 & thr1 & l1 & R1 & _). exists m1, thr1. exact R1.
  - intros before mid m1 thr1 m2 thr2 p q tp tq x y R1 R2 Hp Hq Hx Hy (Share & Write & NAtom).
    destruct (RUN before (b_m st) l _ _ HI G0) as (m1' & thr1' & l1 & R1' & I1 & G1). rewrite R1 in R1'. injection R1' as <- <-.
    destruct (RUN mid m1 l1 thr1 _ I1 G1) as (m2' & thr2' & l2 & R2' & I2 & G2). rewrite R2 in R2'. injection R2' as <- <-.
    assert (FA := h_access_facts (b_w st) (b_h st) l i j f u a b n nb g nthr Hf Hu Ha Hb Hij Hn Hnb Hz Hel Hadds m1 l1 thr1 _ p tp x I1 G1 Hp Hx).
    assert (FB := h_access_facts (b_w st) (b_h st) l i j f u a b n nb g nthr Hf Hu Ha Hb Hij Hn Hnb Hz Hel Hadds m2 l2 thr2 _ q tq y I2 G2 Hq Hy).
    destruct Share as (z & Z1 & Z2). unfold writes, is_atomic in *.
    destruct FA as [(A1 & A2)|(A1 & A2)]; destruct FB as [(B1 & B2)|(B1 & B2)].
    + destruct A2 as [A2|A2], B2 as [B2|B2]; rewrite A2, B2 in Write; discriminate.
    + exact (i_sep _ _ _ _ I1 i j f u z Hij Hf Hu (A1 z Z1) (B1 z Z2)).
    + exact (i_sep _ _ _ _ I1 i j f u z Hij Hf Hu (B1 z Z2) (A1 z Z1)).
    + destruct A2 as [A2|A2], B2 as [B2|B2]; rewrite A2, B2 in NAtom; discriminate.
Qed.

Lemma all_known_inv l : forall bs, all_known l = Some bs -> l = map Some bs.
Proof.
  induction l as [|[c|] l IH]; intros bs; cbn [all_known fold_right].
  - intros H. injection H as <-. reflexivity.
  - fold (all_known l). destruct (all_known l) as [x|]; [|discriminate]. intros H. injection H as <-. cbn [map]. f_equal. apply IH. reflexivity.
  - discriminate.
Qed.
Lemma fold_other ps : forall l idx, Forall (inr (length l)) ps -> 0 <= idx -> (forall p, In p ps -> fst p <> idx) ->
  firstn 4 (skipn (Z.to_nat idx * 4) (fold_left add_word ps l)) = firstn 4 (skipn (Z.to_nat idx * 4) l).
Proof.
  induction ps as [|p ps IH]; intros l idx FI Hi H; [reflexivity|]. inversion FI as [|? ? Hp FI']; subst. cbn [fold_left].
  rewrite IH; [|rewrite add_word_length by exact Hp; exact FI'|exact Hi|intros q Hq; apply H; right; exact Hq].
  rewrite add_word_eq. destruct (word_at l (fst p)); [|reflexivity]. destruct Hp as (A & B). pose proof (H p (or_introl eq_refl)) as D.
  apply get4_put4_other; [reflexivity|exact B|lia].
Qed.
Lemma sum_flat {A} (f : A -> list Z) (xs : list A) : fold_right Z.add 0 (flat_map f xs) = fold_right Z.add 0 (map (fun x => fold_right Z.add 0 (f x)) xs).
Proof.
  induction xs as [|x xs IH]; [reflexivity|]. cbn [flat_map map fold_right]. rewrite <- IH. clear IH. generalize (flat_map f xs). intros r. induction (f x) as [|z l IH]; [cbn; lia|].
  cbn [app fold_right]. rewrite IH. lia.
Qed.
Lemma map_filter_flat {A B C} (h : B -> C) q (f : A -> list B) xs : map h (filter q (flat_map f xs)) = flat_map (fun x => map h (filter q (f x))) xs.
Proof. induction xs as [|x xs IH]; [reflexivity|]. cbn [flat_map]. rewrite filter_app, map_app, IH. reflexivity. Qed.

Theorem hprogram_sums orc ops rs st l i j g nthr sched r l' : hruns (bst0 orc) ops = (rs, st) -> upstream_ok (ulog (b_w st)) -> hjudge_all [] ops rs = Good l ->
  hjudge l (HLaunch i j g nthr sched) r = Good l' ->
  exists a b n bytes el, r = RHost RDone /\ nth_error l i = Some (Some a) /\ nth_error l j = Some (Some b) /\ i <> j /\ a_num a = Some n /\
    (forall t, (t < nthr)%nat -> Z.of_nat t < n -> firstn (Z.to_nat (a_esz a)) (skipn (t * Z.to_nat (a_esz a)) (a_bytes a)) = map Some (el t)) /\
    l' = upd l j (Some (mkA (a_esz b) (a_cap b) (a_size b) bytes)) /\ length bytes = length (a_bytes b) /\
    forall idx, 0 <= idx ->
      (forall old, firstn 4 (skipn (Z.to_nat idx * 4) (a_bytes b)) = map Some old ->
         exists new, firstn 4 (skipn (Z.to_nat idx * 4) bytes) = map Some new /\
           unle32 new mod 2 ^ 32 = (unle32 old + fold_right Z.add 0 (map (fun t => if Z.of_nat t <? n then fold_right Z.add 0 (map snd (filter (fun p => fst p =? idx) (g (el t)))) else 0) (seq 0 nthr))) mod 2 ^ 32) /\
      ((forall t p, (t < nthr)%nat -> Z.of_nat t < n -> In p (g (el t)) -> fst p <> idx) -> firstn 4 (skipn (Z.to_nat idx * 4) bytes) = firstn 4 (skipn (Z.to_nat idx * 4) (a_bytes b))).
Proof.
  intros E HU EJ EL. pose proof (hruns_ok ops (bst0 orc) [] (inv0 orc)) as HI. rewrite E in HI. cbn [fst snd] in HI. specialize (HI HU). rewrite EJ in HI.
  destruct (h_legal _ _ _ _ i j g nthr sched r HI ltac:(rewrite EL; discriminate)) as (f & u & a & b & n & nb & _ & _ & Ha & Hb & Hij & Hn & Hnb & Hz & Hfit & Hel & Hadds & _ & EQ).
  rewrite EL in EQ. destruct r as [[]| |]; try discriminate. injection EQ as ->. set (adds := flat_map (adds_of a n g) (seq 0 nthr)) in *.
  assert (FI : Forall (inr (length (a_bytes b))) adds). { apply Forall_forall. intros p Hp. destruct (Hadds p Hp) as (A & _). split; [lia|nia]. }
  set (el := fun t => match a_elem a t with Some e => e | None => [] end). exists a, b, n, (fold_left add_word adds (a_bytes b)), el.
  assert (EE : forall t, (t < nthr)%nat -> Z.of_nat t < n -> a_elem a t = Some (el t)).
  { intros t Ht Htn. unfold el. specialize (Hel t Ht Htn). destruct (a_elem a t); [reflexivity|contradiction]. }
  split; [reflexivity|]. split; [exact Ha|]. split; [exact Hb|]. split; [exact Hij|]. split; [exact Hn|].
  split. { intros t Ht Htn. apply all_known_inv. exact (EE t Ht Htn). }
  split; [reflexivity|]. split; [apply fold_length; exact FI|]. intros idx Hi. split.
  - intros old HO. assert (EW : word_at (a_bytes b) idx = Some old) by (unfold word_at; rewrite HO; apply all_known_map).
    destruct (word_fold adds (a_bytes b) idx old FI Hi EW) as (new & W1 & W2 & _). exists new. split; [apply all_known_inv; exact W1|]. rewrite W2. f_equal. f_equal.
    unfold adds. rewrite map_filter_flat, sum_flat. f_equal. apply map_ext_in. intros t Ht. apply in_seq in Ht. unfold adds_of. destruct (Z.of_nat t <? n) eqn:El; [|reflexivity].
    rewrite EE by lia. reflexivity.
  - intros H. apply fold_other; [exact FI|exact Hi|]. intros p Hp. unfold adds in Hp. apply in_flat_map in Hp. destruct Hp as (t & Ht & Hp). apply in_seq in Ht. unfold adds_of in Hp.
    destruct (Z.of_nat t <? n) eqn:El; [|destruct Hp]. rewrite EE in Hp by lia. apply (H t p); [lia|lia|exact Hp].
Qed.
