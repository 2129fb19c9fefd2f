(** Proofs for BufProg.v: every variable of a program with vector buffers is an independent bounded list. *)
From Verif Require Import Base BaseLemmas Copy CopyProofs BufProg.
From Verif Require Placement PlacementProofs.
From Coq Require Import ZArith List Bool Lia Permutation.
Import ListNotations.
Local Open Scope Z_scope.

Definition region (f : buf) (x : Z) : Prop := match f_block f with Some b => in_block x b | None => False end.

Definition Rb (m : cmem) (f : buf) (a : abuf) : Prop :=
  let v := f_view f in
  f_esz f = a_esz a /\ 0 < a_esz a /\ v_cap v = a_cap a /\ 0 <= a_cap a < 2 ^ 32 /\
  Z.of_nat (length (a_bytes a)) = a_cap a * a_esz a /\
  match f_block f with
  | None => a_cap a = 0 /\ v_sizep v = 0 /\ a_size a = Fixed
  | Some b =>
      0 < a_cap a /\ 0 < bptr b /\ v_ptr v <> 0 /\ (forall x, within (v_ptr v) (a_cap a * a_esz a) x -> in_block x b) /\
      0 < v_ptr v /\ acc m (v_ptr v) (a_cap a * a_esz a) /\
      (forall k c, nth_error (a_bytes a) k = Some (Some c) -> m_byte m (v_ptr v + Z.of_nat k) = Some c) /\
      (a_size a = Fixed -> v_sizep v = 0) /\
      (a_size a <> Fixed -> v_sizep v <> 0 /\ (forall x, within (v_sizep v) 4 x -> in_block x b) /\
         apart (v_sizep v) 4 (v_ptr v) (a_cap a * a_esz a) /\ acc m (v_sizep v) 4) /\
      (forall n, a_size a = Sized n -> 0 <= n <= a_cap a /\ get_bytes m (v_sizep v) 4 = Some (le32 n))
  end.

Definition own (o : option buf) : list block := match o with Some f => match f_block f with Some b => [b] | None => [] end | None => [] end.
Definition blks (h : list (option buf)) : list block := flat_map own h.

Record Inv (w : world) (m : cmem) (h : list (option buf)) (l : list (option abuf)) : Prop := mkInv {
  i_rel : forall i, match nth_error h i, nth_error l i with
                    | Some (Some f), Some (Some a) => Rb m f a
                    | Some None, Some None => True
                    | None, None => True
                    | _, _ => False
                    end;
  i_sep : forall i j f g x, i <> j -> nth_error h i = Some (Some f) -> nth_error h j = Some (Some g) -> region f x -> region g x -> False;
  i_perm : Permutation (ulive (ulog w)) (blks h);
  i_frees : frees_ok (ulog w);
  i_dev : forall x, m_dev m x = false }.

Lemma Rb_frame m m' f a : (forall x, region f x -> m_byte m' x = m_byte m x) -> Rb m f a -> Rb m' f a.
Proof.
  unfold Rb, region. intros H (H1 & H2 & H3 & H4 & H5 & H6). repeat (split; [assumption|]).
  destruct (f_block f) as [b|]; [|exact H6]. destruct H6 as (K1 & K2 & K3 & K4 & K5 & K6 & K7 & K8 & K9 & K10).
  repeat (split; [assumption|]).
  split. { intros x Hx. rewrite H; [apply K6; exact Hx|]. apply K4. exact Hx. }
  split. { intros k c Hk. rewrite H; [exact (K7 k c Hk)|]. apply K4. unfold within.
    assert (Hl : (k < length (a_bytes a))%nat) by (apply nth_error_Some; rewrite Hk; discriminate). lia. }
  split; [exact K8|]. split.
  - intros Hs. destruct (K9 Hs) as (L1 & L2 & L3 & L4). repeat (split; [assumption|]). intros x Hx. rewrite H; [apply L4; exact Hx|]. apply L2. exact Hx.
  - intros n Hn. destruct (K10 n Hn) as (L1 & L2). split; [exact L1|]. rewrite <- L2. apply get_bytes_ext. intros i Hi. apply H.
    destruct (K9 ltac:(rewrite Hn; discriminate)) as (M1 & M2 & _). apply M2. unfold within. lia.
Qed.

Lemma alive_some l i a : alive l i = Some a <-> nth_error l i = Some (Some a).
Proof. unfold alive. destruct (nth_error l i) as [[b|]|]; split; intros H; try discriminate H; congruence. Qed.
Lemma get_buf_some st i f : get_buf st i = Some f <-> nth_error (b_h st) i = Some (Some f).
Proof. unfold get_buf. destruct (nth_error (b_h st) i) as [[b|]|]; split; intros H; try discriminate H; congruence. Qed.

Lemma nth_upd {A} (l : list A) i j x : nth_error (upd l i x) j = if Nat.eqb i j then match nth_error l j with Some _ => Some x | None => None end else nth_error l j.
Proof.
  revert i j. induction l as [|y l IH]; intros [|i] [|j]; cbn [upd nth_error Nat.eqb]; try reflexivity.
  - destruct (Nat.eqb i j); reflexivity.
  - apply IH.
Qed.

Lemma alive_buf w m h l i a : Inv w m h l -> nth_error l i = Some (Some a) -> exists f, nth_error h i = Some (Some f) /\ Rb m f a.
Proof.
  intros HI Ha. pose proof (i_rel _ _ _ _ HI i) as R. rewrite Ha in R. destruct (nth_error h i) as [[f|]|]; try contradiction. exists f. split; [reflexivity|exact R].
Qed.

(** A change of the memory in the region of one variable. *)
Lemma Inv_write w m m' h l i f a a' : Inv w m h l -> nth_error h i = Some (Some f) -> nth_error l i = Some (Some a) ->
  (forall x, ~ region f x -> m_byte m' x = m_byte m x) -> m_dev m' = m_dev m -> Rb m' f a' -> Inv w m' h (upd l i (Some a')).
Proof.
  intros HI Hf Ha HC HD HR. constructor.
  - intros j. rewrite nth_upd. destruct (Nat.eqb i j) eqn:E.
    + apply Nat.eqb_eq in E. subst j. rewrite Hf, Ha. exact HR.
    + pose proof (i_rel _ _ _ _ HI j) as R. destruct (nth_error h j) as [[g|]|] eqn:Eg; [|exact R|exact R].
      destruct (nth_error l j) as [[b|]|]; try exact R. eapply Rb_frame; [|exact R]. intros x Hx. apply HC. intros Hy.
      apply Nat.eqb_neq in E. exact (i_sep _ _ _ _ HI i j f g x E Hf Eg Hy Hx).
  - exact (i_sep _ _ _ _ HI).
  - exact (i_perm _ _ _ _ HI).
  - exact (i_frees _ _ _ _ HI).
  - intros x. rewrite HD. exact (i_dev _ _ _ _ HI x).
Qed.

Lemma upd_id {A} (l : list A) i x : nth_error l i = Some x -> upd l i x = l.
Proof. revert i. induction l as [|y l IH]; intros [|i] H; cbn in *; try discriminate; [congruence|]. f_equal. apply IH. exact H. Qed.

(** Setting up. *)
Lemma setup_step w m h l i f a : Inv w m h l -> nth_error h i = Some (Some f) -> nth_error l i = Some (Some a) ->
  exists m', setup_vector (f_view f) m = (Ret tt, m') /\ Inv w m' h (upd l i (Some (mkA (a_esz a) (a_cap a) (resized (a_size a) 0) (a_bytes a)))).
Proof.
  intros HI Hf Ha. destruct (alive_buf _ _ _ _ _ _ HI Ha) as (f' & Hf' & R). rewrite Hf in Hf'. injection Hf' as <-.
  pose proof R as R0. unfold Rb in R. destruct R as (H1 & H2 & H3 & H4 & H5 & H6).
  destruct (f_block f) as [b|] eqn:Eb.
  - destruct H6 as (K1 & K2 & K3 & K4 & K5 & K6 & K7 & K8 & K9 & K10).
    destruct (setup_vector_thm (f_view f) m) as (m' & G & C & V & N).
    + rewrite H3. exact H4.
    + intros Hs. destruct (a_size a) eqn:Es; [exfalso; apply Hs, K8; reflexivity| |]; apply K9; discriminate.
    + exists m'. split; [exact G|]. destruct (a_size a) eqn:Es.
      * rewrite (N (K8 eq_refl)). cbn [resized]. rewrite upd_id; [exact HI|]. rewrite Ha. rewrite <- Es. destruct a; reflexivity.
      * destruct (K9 ltac:(discriminate)) as (M1 & M2 & M3 & M4). destruct C as (C1 & C2 & C3).
        apply (Inv_write w m m' h l i f a); try assumption.
        -- intros x Hx. apply C1. intros (_ & Hw). apply Hx. unfold region. rewrite Eb. apply M2. exact Hw.
        -- destruct (V M1 ltac:(lia)) as (V1 & V2 & V3). replace (v_sizep (f_view f) =? 0) with false in V3 by lia.
           unfold Rb. cbn [a_esz a_cap a_size a_bytes resized]. rewrite Eb. repeat (split; [assumption|]).
           split. { intros x Hx. rewrite C1; [apply K6; exact Hx|]. intros (_ & Hw). exact (M3 x (conj Hw Hx)). }
           split. { intros k c Hk. rewrite C1; [exact (K7 k c Hk)|]. intros (_ & Hw). apply (M3 (v_ptr (f_view f) + Z.of_nat k)). split; [exact Hw|].
             assert (Hl : (k < length (a_bytes a))%nat) by (apply nth_error_Some; rewrite Hk; discriminate). lia. }
           split; [discriminate|]. split.
           ++ intros _. repeat (split; [assumption|]). apply (proj1 (get_bytes_acc 4 m' _)). exists (le32 0). exact V3.
           ++ intros n Hn. injection Hn as <-. split; [lia|exact V3].
      * destruct (K9 ltac:(discriminate)) as (M1 & M2 & M3 & M4). destruct C as (C1 & C2 & C3).
        apply (Inv_write w m m' h l i f a); try assumption.
        -- intros x Hx. apply C1. intros (_ & Hw). apply Hx. unfold region. rewrite Eb. apply M2. exact Hw.
        -- destruct (V M1 ltac:(lia)) as (V1 & V2 & V3). replace (v_sizep (f_view f) =? 0) with false in V3 by lia.
           unfold Rb. cbn [a_esz a_cap a_size a_bytes resized]. rewrite Eb. repeat (split; [assumption|]).
           split. { intros x Hx. rewrite C1; [apply K6; exact Hx|]. intros (_ & Hw). exact (M3 x (conj Hw Hx)). }
           split. { intros k c Hk. rewrite C1; [exact (K7 k c Hk)|]. intros (_ & Hw). apply (M3 (v_ptr (f_view f) + Z.of_nat k)). split; [exact Hw|].
             assert (Hl : (k < length (a_bytes a))%nat) by (apply nth_error_Some; rewrite Hk; discriminate). lia. }
           split; [discriminate|]. split.
           ++ intros _. repeat (split; [assumption|]). apply (proj1 (get_bytes_acc 4 m' _)). exists (le32 0). exact V3.
           ++ intros k Hk. injection Hk as <-. split; [lia|exact V3].
  - destruct H6 as (K1 & K2 & K3). exists m. unfold setup_vector. rewrite K2. cbn [Z.eqb orb]. split; [reflexivity|].
    rewrite K3. cbn [resized]. rewrite upd_id; [exact HI|]. rewrite Ha, <- K3. destruct a; reflexivity.
Qed.

Lemma Rb_size m m' f a n : Rb m f a -> a_size a <> Fixed -> (forall x, ~ within (v_sizep (f_view f)) 4 x -> m_byte m' x = m_byte m x) ->
  get_bytes m' (v_sizep (f_view f)) 4 = Some (le32 n) -> 0 <= n <= a_cap a ->
  Rb m' f (mkA (a_esz a) (a_cap a) (Sized n) (a_bytes a)).
Proof.
  intros (H1 & H2 & H3 & H4 & H5 & H6) Hs HC HG Hn. unfold Rb. cbn [a_esz a_cap a_size a_bytes]. repeat (split; [assumption|]).
  destruct (f_block f) as [b|].
  - destruct H6 as (K1 & K2 & K3 & K4 & K5 & K6 & K7 & K8 & K9 & K10). destruct (K9 Hs) as (M1 & M2 & M3 & M4). repeat (split; [assumption|]).
    split. { intros x Hx. rewrite HC; [apply K6; exact Hx|]. intros Hw. exact (M3 x (conj Hw Hx)). }
    split. { intros k c Hk. rewrite HC; [exact (K7 k c Hk)|]. intros Hw. apply (M3 (v_ptr (f_view f) + Z.of_nat k)). split; [exact Hw|].
      assert (Hl : (k < length (a_bytes a))%nat) by (apply nth_error_Some; rewrite Hk; discriminate). lia. }
    split; [discriminate|]. split.
    + intros _. repeat (split; [assumption|]). apply (proj1 (get_bytes_acc 4 m' _)). exists (le32 n). exact HG.
    + intros k Hk. injection Hk as <-. split; [lia|exact HG].
  - destruct H6 as (_ & _ & H6). contradiction.
Qed.

Lemma Rb_bytes m m' f a bs : Rb m f a -> (forall x, ~ within (v_ptr (f_view f)) (a_cap a * a_esz a) x -> m_byte m' x = m_byte m x) ->
  acc m' (v_ptr (f_view f)) (a_cap a * a_esz a) -> length bs = length (a_bytes a) ->
  (forall k c, nth_error bs k = Some (Some c) -> m_byte m' (v_ptr (f_view f) + Z.of_nat k) = Some c) ->
  Rb m' f (mkA (a_esz a) (a_cap a) (a_size a) bs).
Proof.
  intros (H1 & H2 & H3 & H4 & H5 & H6) HC HA HL HB. unfold Rb. cbn [a_esz a_cap a_size a_bytes]. rewrite HL. repeat (split; [assumption|]).
  destruct (f_block f) as [b|]; [|exact H6].
  destruct H6 as (K1 & K2 & K3 & K4 & K5 & K6 & K7 & K8 & K9 & K10). repeat (split; [assumption|]). split.
  - intros Hs. destruct (K9 Hs) as (M1 & M2 & M3 & M4). repeat (split; [assumption|]). intros x Hx. rewrite HC; [apply M4; exact Hx|].
    intros Hw. exact (M3 x (conj Hx Hw)).
  - intros n Hn. destruct (K10 n Hn) as (L1 & L2). split; [exact L1|]. rewrite <- L2. apply get_bytes_ext. intros i Hi. apply HC. intros Hw.
    destruct (K9 ltac:(rewrite Hn; discriminate)) as (_ & _ & M3 & _). apply (M3 (v_sizep (f_view f) + i)). split; [lia|exact Hw].
Qed.

Lemma Rb_region_bytes m f a x : Rb m f a -> within (v_ptr (f_view f)) (a_cap a * a_esz a) x -> region f x.
Proof.
  intros (H1 & H2 & H3 & H4 & H5 & H6) Hx. unfold region. destruct (f_block f) as [b|]; [destruct H6 as (K1 & K2 & K3 & K4 & K5 & K6 & K7 & K8 & K9 & K10); exact (K4 x Hx)|].
  destruct H6 as (H6 & _). rewrite H6 in Hx. unfold within in Hx. lia.
Qed.
Lemma Rb_region_size m f a x : Rb m f a -> a_size a <> Fixed -> within (v_sizep (f_view f)) 4 x -> region f x.
Proof.
  intros (H1 & H2 & H3 & H4 & H5 & H6) Hs Hx. unfold region. destruct (f_block f) as [b|]; [destruct H6 as (K1 & K2 & K3 & K4 & K5 & K6 & K7 & K8 & K9 & K10); destruct (K9 Hs) as (_ & M2 & _); exact (M2 x Hx)|].
  destruct H6 as (_ & _ & H6). contradiction.
Qed.
Lemma Rb_acc m f a : Rb m f a -> acc m (v_ptr (f_view f)) (a_cap a * a_esz a).
Proof.
  intros (H1 & H2 & H3 & H4 & H5 & H6). destruct (f_block f) as [b|]; [destruct H6 as (K1 & K2 & K3 & K4 & K5 & K6 & K7 & K8 & K9 & K10); exact K6|]. destruct H6 as (H6 & _). intros x Hx. rewrite H6 in Hx. lia.
Qed.
Lemma Rb_ptr m f a : Rb m f a -> 0 < a_cap a -> 0 < v_ptr (f_view f).
Proof. intros (H1 & H2 & H3 & H4 & H5 & H6) Hc. destruct (f_block f) as [b|]; [destruct H6 as (K1 & K2 & K3 & K4 & K5 & K6 & K7 & K8 & K9 & K10); exact K5|lia]. Qed.
Lemma Rb_view_size m f a n : Rb m f a -> a_num a = Some n -> view_size m (f_view f) n.
Proof.
  intros (H1 & H2 & H3 & H4 & H5 & H6) Hn. unfold view_size, a_num in *. rewrite H3. destruct (f_block f) as [b|].
  - destruct H6 as (K1 & K2 & K3 & K4 & K5 & K6 & K7 & K8 & K9 & K10). destruct (a_size a) as [| |k] eqn:Es; [|discriminate|]; injection Hn as <-.
    + rewrite (K8 eq_refl). cbn [Z.eqb]. split; [lia|]. split; [lia|reflexivity].
    + destruct (K10 k eq_refl) as (L1 & L2). destruct (K9 ltac:(discriminate)) as (M1 & _). replace (v_sizep (f_view f) =? 0) with false by lia.
      split; [lia|]. split; [lia|exact L2].
  - destruct H6 as (K1 & K2 & K3). rewrite K3 in Hn. injection Hn as <-. rewrite K2. cbn [Z.eqb]. split; [lia|]. split; [lia|reflexivity].
Qed.

Lemma nth_repeat {A} (x y : A) n k : nth_error (repeat x n) k = Some y -> y = x.
Proof. intros H. apply nth_error_In in H. exact (repeat_spec _ _ _ H). Qed.

Lemma memset_step w m h l i f a value : Inv w m h l -> nth_error h i = Some (Some f) -> nth_error l i = Some (Some a) ->
  exists m', memset_vector (f_esz f) (f_view f) value m = (Ret tt, m') /\
    Inv w m' h (upd l i (Some (mkA (a_esz a) (a_cap a) (a_size a) (repeat (Some (value mod 256)) (length (a_bytes a)))))).
Proof.
  intros HI Hf Ha. destruct (alive_buf _ _ _ _ _ _ HI Ha) as (f' & Hf' & R). rewrite Hf in Hf'. injection Hf' as <-.
  pose proof R as (H1 & H2 & H3 & H4 & H5 & _). destruct (memset_vector_thm (f_esz f) (f_view f) value m) as (m' & G & (C1 & C2 & C3) & B).
  - rewrite H1. exact H2.
  - rewrite H3. lia.
  - rewrite H3. intros Hc. pose proof (Rb_ptr _ _ _ R Hc). lia.
  - rewrite H1, H3. exact (Rb_acc _ _ _ R).
  - rewrite H1, H3 in *. exists m'. split; [exact G|]. apply (Inv_write w m m' h l i f a); try assumption.
    + intros x Hx. apply C1. intros Hw. apply Hx. exact (Rb_region_bytes _ _ _ _ R Hw).
    + apply (Rb_bytes m m' f a); try assumption.
      * intros x Hx. rewrite B; [discriminate|exact Hx].
      * apply repeat_length.
      * intros k c Hk. assert (Hl : (k < length (a_bytes a))%nat) by (rewrite <- (repeat_length (Some (value mod 256)) (length (a_bytes a))); apply nth_error_Some; rewrite Hk; discriminate).
        apply nth_repeat in Hk. injection Hk as ->. apply B. unfold within. lia.
Qed.

Lemma kind_unknown m s d : kind_check m type_unknown s d = true.
Proof. unfold kind_check. cbn [kind_ok]. apply orb_true_r. Qed.

Lemma put_step w m h l i f a k value : Inv w m h l -> nth_error h i = Some (Some f) -> nth_error l i = Some (Some a) -> 0 <= k < a_cap a * a_esz a ->
  exists m', do_copy_in type_unknown [value] (v_ptr (f_view f) + k) m = (Ret tt, m') /\
    Inv w m' h (upd l i (Some (mkA (a_esz a) (a_cap a) (a_size a) (upd (a_bytes a) (Z.to_nat k) (Some value))))).
Proof.
  intros HI Hf Ha Hk. destruct (alive_buf _ _ _ _ _ _ HI Ha) as (f' & Hf' & R). rewrite Hf in Hf'. injection Hf' as <-.
  pose proof R as (H1 & H2 & H3 & H4 & H5 & H6). pose proof (Rb_ptr _ _ _ R ltac:(nia)) as Hp.
  destruct (do_copy_in_ok type_unknown [value] (v_ptr (f_view f) + k) m) as (m' & G & (C1 & C2 & C3) & S & B).
  - discriminate.
  - lia.
  - apply kind_unknown.
  - intros x Hx. cbn in Hx. apply (Rb_acc _ _ _ R). lia.
  - cbn [length] in *. exists m'. split; [exact G|]. pose proof (get_bytes_nth 1 m' _ _ 0 B ltac:(lia)) as B0. cbn in B0. rewrite Z.add_0_r in B0.
    apply (Inv_write w m m' h l i f a); try assumption.
    + intros x Hx. apply C1. intros Hw. apply Hx. apply (Rb_region_bytes _ _ _ _ R). unfold within in *. lia.
    + apply (Rb_bytes m m' f a); try assumption.
      * intros x Hx. apply C1. intros Hw. apply Hx. unfold within in *. lia.
      * intros x Hx. destruct (Z.eq_dec x (v_ptr (f_view f) + k)) as [->|Hne]; [rewrite B0; discriminate|].
        rewrite C1; [apply (Rb_acc _ _ _ R); exact Hx|]. unfold within. lia.
      * apply upd_length.
      * intros q c Hq. rewrite nth_upd in Hq. destruct (Nat.eqb (Z.to_nat k) q) eqn:E.
        -- apply Nat.eqb_eq in E. destruct (nth_error (a_bytes a) q); [|discriminate]. injection Hq as <-. rewrite <- B0. f_equal. lia.
        -- apply Nat.eqb_neq in E. assert (Hl : (q < length (a_bytes a))%nat) by (apply nth_error_Some; rewrite Hq; discriminate).
           rewrite C1; [|unfold within; lia]. destruct (f_block f) as [b|]; [destruct H6 as (K1 & K2 & K3 & K4 & K5 & K6 & K7 & K8 & K9 & K10); exact (K7 _ _ Hq)|]. destruct H6 as (H6 & _). rewrite H6 in Hk. lia.
Qed.

Lemma get_step w m h l i f a k v : Inv w m h l -> nth_error h i = Some (Some f) -> nth_error l i = Some (Some a) -> 0 <= k ->
  nth_error (a_bytes a) (Z.to_nat k) = Some (Some v) -> do_copy_out type_unknown 1 (v_ptr (f_view f) + k) m = (Ret [v], m).
Proof.
  intros HI Hf Ha Hk Hv. destruct (alive_buf _ _ _ _ _ _ HI Ha) as (f' & Hf' & R). rewrite Hf in Hf'. injection Hf' as <-.
  pose proof R as (H1 & H2 & H3 & H4 & H5 & H6). assert (Hl : (Z.to_nat k < length (a_bytes a))%nat) by (apply nth_error_Some; rewrite Hv; discriminate).
  pose proof (Rb_ptr _ _ _ R ltac:(nia)) as Hp. apply do_copy_out_ok; [lia|]. change (Z.to_nat 1) with 1%nat. cbn [get_bytes].
  destruct (f_block f) as [b|]; [|lia]. destruct H6 as (K1 & K2 & K3 & K4 & K5 & K6 & K7 & _). pose proof (K7 _ _ Hv) as E. rewrite Z2Nat.id in E by exact Hk. rewrite E. reflexivity.
Qed.

Lemma setsize_step w m h l i f a n : Inv w m h l -> nth_error h i = Some (Some f) -> nth_error l i = Some (Some a) -> a_size a <> Fixed -> 0 <= n <= a_cap a ->
  exists m', do_copy_in type_unknown (le32 n) (v_sizep (f_view f)) m = (Ret tt, m') /\
    Inv w m' h (upd l i (Some (mkA (a_esz a) (a_cap a) (Sized n) (a_bytes a)))).
Proof.
  intros HI Hf Ha Hs Hn. destruct (alive_buf _ _ _ _ _ _ HI Ha) as (f' & Hf' & R). rewrite Hf in Hf'. injection Hf' as <-.
  pose proof R as (H1 & H2 & H3 & H4 & H5 & H6). destruct (f_block f) as [b|]; [|destruct H6 as (_ & _ & H6); contradiction].
  destruct H6 as (K1 & K2 & K3 & K4 & K5 & K6 & K7 & K8 & K9 & K10). destruct (K9 Hs) as (M1 & M2 & M3 & M4).
  destruct (do_copy_in_ok type_unknown (le32 n) (v_sizep (f_view f)) m) as (m' & G & (C1 & C2 & C3) & S & B).
  - discriminate.
  - exact M1.
  - apply kind_unknown.
  - exact M4.
  - change (length (le32 n)) with 4%nat in *. exists m'. split; [exact G|]. apply (Inv_write w m m' h l i f a); try assumption.
    + intros x Hx. apply C1. intros Hw. apply Hx. exact (Rb_region_size _ _ _ _ R Hs Hw).
    + apply (Rb_size m m' f a n R Hs); assumption.
Qed.

Lemma copy_step w m h l i j f g a b n : Inv w m h l -> nth_error h i = Some (Some f) -> nth_error h j = Some (Some g) ->
  nth_error l i = Some (Some a) -> nth_error l j = Some (Some b) -> i <> j -> a_esz a = a_esz b -> a_num a = Some n -> 0 < n <= a_cap b ->
  let k := Z.to_nat (n * a_esz a) in
  exists m', copy_vector (f_esz f) type_unknown (f_view f) (f_view g) m = (Ret true, m') /\
    Inv w m' h (upd l j (Some (mkA (a_esz b) (a_cap b) (resized (a_size b) n) (firstn k (a_bytes a) ++ skipn k (a_bytes b))))).
Proof.
  intros HI Hf Hg Ha Hb Hij He Hn Hc k.
  destruct (alive_buf _ _ _ _ _ _ HI Ha) as (f' & Hf' & R). rewrite Hf in Hf'. injection Hf' as <-.
  destruct (alive_buf _ _ _ _ _ _ HI Hb) as (g' & Hg' & Q). rewrite Hg in Hg'. injection Hg' as <-.
  pose proof R as (H1 & H2 & H3 & H4 & H5 & H6). pose proof Q as (J1 & J2 & J3 & J4 & J5 & J6).
  pose proof (Rb_view_size _ _ _ _ R Hn) as VS. assert (Hna : n <= a_cap a) by (destruct VS as (V & _); rewrite H3 in V; lia).
  pose proof (Rb_ptr _ _ _ R ltac:(lia)) as Pf. pose proof (Rb_ptr _ _ _ Q ltac:(lia)) as Pg.
  assert (Af : acc m (v_ptr (f_view f)) (n * a_esz a)) by (apply (acc_sub m _ _ _ _ (Rb_acc _ _ _ R)); nia).
  assert (Ag : acc m (v_ptr (f_view g)) (n * a_esz a)) by (apply (acc_sub m _ _ _ _ (Rb_acc _ _ _ Q)); nia).
  destruct (acc_get m (v_ptr (f_view f)) (n * a_esz a) ltac:(nia) Af) as (data & Ed).
  assert (Wf : forall x, within (v_ptr (f_view f)) (n * a_esz a) x -> region f x) by (intros x Hx; apply (Rb_region_bytes _ _ _ _ R); unfold within in *; nia).
  assert (Wg : forall x, within (v_ptr (f_view g)) (n * a_esz a) x -> region g x) by (intros x Hx; apply (Rb_region_bytes _ _ _ _ Q); unfold within in *; nia).
  assert (Sep : forall x, region f x -> region g x -> False) by (intros x; exact (i_sep _ _ _ _ HI i j f g x Hij Hf Hg)).
  assert (SZ : v_sizep (f_view g) <> 0 -> a_size b <> Fixed).
  { intros Hs Hx. destruct (f_block g) as [c|]; [destruct J6 as (_ & _ & _ & _ & _ & _ & _ & J6 & _); exact (Hs (J6 Hx))|destruct J6 as (_ & J6 & _); contradiction]. }
  assert (SA : a_size b <> Fixed -> v_sizep (f_view g) <> 0 /\ acc m (v_sizep (f_view g)) 4 /\ apart (v_sizep (f_view g)) 4 (v_ptr (f_view g)) (a_cap b * a_esz b)).
  { intros Hx. destruct (f_block g) as [c|]; [|destruct J6 as (_ & _ & J6); contradiction]. destruct J6 as (_ & _ & _ & _ & _ & _ & _ & _ & J6 & _).
    destruct (J6 Hx) as (L1 & L2 & L3 & L4). auto. }
  destruct (copy_vector_thm (f_esz f) type_unknown (f_view f) (f_view g) m n data) as (m' & G & D & V & (C1 & C2 & C3)).
  - rewrite H1. exact H2.
  - exact VS.
  - rewrite J3. exact Hc.
  - rewrite J3. lia.
  - lia.
  - lia.
  - rewrite H1. exact Ed.
  - rewrite H1. exact Ag.
  - rewrite H1. intros x (Hx & Hy). exact (Sep x (Wf x Hx) (Wg x Hy)).
  - apply kind_unknown.
  - intros Hs. pose proof (SZ Hs) as Hx. destruct (SA Hx) as (_ & L2 & L3). split; [exact L2|]. split; [rewrite !(i_dev _ _ _ _ HI); reflexivity|].
    rewrite H1. split.
    + intros x (Hw & Hy). exact (Sep x (Wf x Hy) (Rb_region_size _ _ _ _ Q Hx Hw)).
    + intros x (Hw & Hy). apply (L3 x). split; [exact Hw|]. nia.
  - rewrite H1 in *. exists m'. split; [exact G|].
    assert (Out : forall x, ~ region g x -> m_byte m' x = m_byte m x).
    { intros x Hx. apply C1. intros [Hw|(Hs & Hw)]; apply Hx; [exact (Wg x Hw)|exact (Rb_region_size _ _ _ _ Q (SZ Hs) Hw)]. }
    apply (Inv_write w m m' h l j g b); try assumption.
    (* the size, then the elements *)
    set (m1 := mkM (fun x => if negb (v_sizep (f_view g) =? 0) && (v_sizep (f_view g) <=? x) && (x <? v_sizep (f_view g) + 4) then m_byte m' x else m_byte m x) (m_dev m) (m_strict m)).
    assert (Q1 : Rb m1 g (mkA (a_esz b) (a_cap b) (resized (a_size b) n) (a_bytes b))).
    { destruct (a_size b) eqn:Es.
      - cbn [resized]. rewrite <- Es. replace (mkA (a_esz b) (a_cap b) (a_size b) (a_bytes b)) with b by (destruct b; reflexivity).
        apply (Rb_frame m m1 g b); [|exact Q]. intros x _. unfold m1. cbn [m_byte].
        replace (v_sizep (f_view g) =? 0) with true; [reflexivity|]. destruct (Z.eqb_spec (v_sizep (f_view g)) 0) as [E0|E0]; [reflexivity|]. exfalso. exact (SZ E0 eq_refl).
      - assert (Hx : a_size b <> Fixed) by (rewrite Es; discriminate). destruct (SA ltac:(discriminate)) as (L1 & L2 & L3). destruct (V L1) as (V1 & V2 & V3).
        replace (v_sizep (f_view g) =? 0) with false in V3 by lia. cbn [resized]. apply (Rb_size m m1 g b n Q Hx).
        + intros x Hw. unfold m1. cbn [m_byte]. unfold within in Hw. destruct (negb (v_sizep (f_view g) =? 0) && (v_sizep (f_view g) <=? x) && (x <? v_sizep (f_view g) + 4)) eqn:E; [lia|reflexivity].
        + rewrite <- V3. apply get_bytes_ext. intros q Hq. unfold m1. cbn [m_byte].
          destruct (negb (v_sizep (f_view g) =? 0) && (v_sizep (f_view g) <=? v_sizep (f_view g) + q) && (v_sizep (f_view g) + q <? v_sizep (f_view g) + 4)) eqn:E; [reflexivity|lia].
        + lia.
      - assert (Hx : a_size b <> Fixed) by (rewrite Es; discriminate). destruct (SA ltac:(discriminate)) as (L1 & L2 & L3). destruct (V L1) as (V1 & V2 & V3).
        replace (v_sizep (f_view g) =? 0) with false in V3 by lia. cbn [resized]. apply (Rb_size m m1 g b n Q Hx).
        + intros x Hw. unfold m1. cbn [m_byte]. unfold within in Hw. destruct (negb (v_sizep (f_view g) =? 0) && (v_sizep (f_view g) <=? x) && (x <? v_sizep (f_view g) + 4)) eqn:E; [lia|reflexivity].
        + rewrite <- V3. apply get_bytes_ext. intros q Hq. unfold m1. cbn [m_byte].
          destruct (negb (v_sizep (f_view g) =? 0) && (v_sizep (f_view g) <=? v_sizep (f_view g) + q) && (v_sizep (f_view g) + q <? v_sizep (f_view g) + 4)) eqn:E; [reflexivity|lia].
        + lia. }
    assert (Hk : Z.of_nat k = n * a_esz a) by (subst k; nia).
    assert (Ka : (k <= length (a_bytes a))%nat) by nia. assert (Kb : (k <= length (a_bytes b))%nat) by nia.
    assert (B' : forall q, (q < k)%nat -> m_byte m' (v_ptr (f_view g) + Z.of_nat q) = m_byte m (v_ptr (f_view f) + Z.of_nat q)).
    { intros q Hq. fold k in D, Ed. rewrite (get_bytes_nth k m' _ _ (Z.of_nat q) D ltac:(lia)), (get_bytes_nth k m _ _ (Z.of_nat q) Ed ltac:(lia)). reflexivity. }
    assert (Same : forall x, within (v_ptr (f_view g)) (a_cap b * a_esz b) x -> ~ within (v_ptr (f_view g)) (n * a_esz a) x -> m_byte m' x = m_byte m x).
    { intros x Hx Hy. apply C1. intros [Hw|(Hs & Hw)]; [contradiction|]. destruct (SA (SZ Hs)) as (_ & _ & L3). exact (L3 x (conj Hw Hx)). }
    apply (Rb_bytes m1 m' g (mkA (a_esz b) (a_cap b) (resized (a_size b) n) (a_bytes b))); cbn [a_esz a_cap a_size a_bytes].
    + exact Q1.
    + intros x Hx. unfold m1. cbn [m_byte]. destruct (negb (v_sizep (f_view g) =? 0) && (v_sizep (f_view g) <=? x) && (x <? v_sizep (f_view g) + 4)) eqn:E; [reflexivity|].
      apply C1. intros [Hw|(Hs & Hw)]; [apply Hx; unfold within in *; nia|unfold within in Hw; lia].
    + intros x Hx. destruct (Z_lt_dec x (v_ptr (f_view g) + n * a_esz a)) as [Hlt|Hge].
      * replace x with (v_ptr (f_view g) + Z.of_nat (Z.to_nat (x - v_ptr (f_view g)))) by lia. rewrite B' by lia. apply Af. lia.
      * rewrite Same; [apply (Rb_acc _ _ _ Q); exact Hx|exact Hx|]. unfold within. lia.
    + rewrite app_length, firstn_length, skipn_length. lia.
    + intros q c Hq. destruct (Nat.lt_ge_cases q k) as [Hlt|Hge].
      * rewrite nth_error_app1 in Hq by (rewrite firstn_length; lia). rewrite B' by exact Hlt.
        assert (Hq' : nth_error (a_bytes a) q = Some (Some c)).
        { rewrite <- (firstn_skipn k (a_bytes a)). rewrite nth_error_app1 by (rewrite firstn_length; lia). exact Hq. }
        destruct (f_block f) as [c'|]; [destruct H6 as (K1 & K2 & K3 & K4 & K5 & K6 & K7 & K8 & K9 & K10); exact (K7 _ _ Hq')|lia].
      * assert (Hq' : nth_error (a_bytes b) q = Some (Some c)).
        { rewrite <- (firstn_skipn k (a_bytes b)). rewrite nth_error_app2 in * by (rewrite firstn_length; lia). rewrite firstn_length in *.
          replace (Nat.min k (length (a_bytes a))) with k in Hq by lia. replace (Nat.min k (length (a_bytes b))) with k by lia. exact Hq. }
        assert (Hl : (q < length (a_bytes b))%nat) by (apply nth_error_Some; rewrite Hq'; discriminate).
        rewrite Same; [|unfold within; lia|unfold within; lia]. destruct (f_block g) as [c'|]; [destruct J6 as (K1 & K2 & K3 & K4 & K5 & K6 & K7 & K8 & K9 & K10); exact (K7 _ _ Hq')|lia].
Qed.

Lemma blks_upd h i o o' : nth_error h i = Some o -> Permutation (own o' ++ blks h) (own o ++ blks (upd h i o')).
Proof.
  revert i. induction h as [|c h IH]; intros [|i] H; cbn in *; try discriminate.
  - injection H as <-. apply Permutation_app_swap_app.
  - specialize (IH i H). unfold blks in *. transitivity (own c ++ own o' ++ flat_map own h); [apply Permutation_app_swap_app|].
    transitivity (own c ++ own o ++ flat_map own (upd h i o')); [apply Permutation_app_head; exact IH|apply Permutation_app_swap_app].
Qed.

Lemma release_inv st l i f a : Inv (b_w st) (b_m st) (b_h st) l -> nth_error (b_h st) i = Some (Some f) -> nth_error l i = Some (Some a) ->
  Inv (b_w (release (f_block f) st)) (b_m (release (f_block f) st)) (upd (b_h st) i None) (upd l i None).
Proof.
  intros HI Hf Ha. destruct st as [w m h]. cbn [b_w b_m b_h] in *.
  destruct (alive_buf _ _ _ _ _ _ HI Ha) as (f' & Hf' & R). rewrite Hf in Hf'. injection Hf' as <-.
  pose proof (blks_upd h i (Some f) None Hf) as P. cbn [own app] in P.
  assert (HS : forall p q f0 g x, p <> q -> nth_error (upd h i None) p = Some (Some f0) -> nth_error (upd h i None) q = Some (Some g) -> region f0 x -> region g x -> False).
  { intros p q f0 g x Hpq Hp Hq. rewrite nth_upd in Hp, Hq. destruct (Nat.eqb i p); [destruct (nth_error h p); discriminate|].
    destruct (Nat.eqb i q); [destruct (nth_error h q); discriminate|]. exact (i_sep _ _ _ _ HI p q f0 g x Hpq Hp Hq). }
  pose proof R as (H1 & H2 & H3 & H4 & H5 & H6). destruct (f_block f) as [b|] eqn:Eb; cbn [release b_w b_m b_h].
  - destruct H6 as (_ & K2 & _). unfold Placement.free_bytes. replace (bptr b =? 0) with false by lia. cbn [up_free ulog].
    assert (HE : mkBlock (bptr b) (bsize b) (balign b) = b) by (destruct b; reflexivity).
    assert (HIn : In b (ulive (ulog w))) by (apply (Permutation_in b (Permutation_sym (i_perm _ _ _ _ HI))), (Permutation_in b (Permutation_sym P)); left; reflexivity).
    constructor; cbn [ulog].
    + intros j. rewrite !nth_upd. pose proof (i_rel _ _ _ _ HI j) as Rj. destruct (Nat.eqb i j) eqn:E.
      * destruct (nth_error h j) as [[g|]|], (nth_error l j) as [[c|]|]; try contradiction; exact I.
      * destruct (nth_error h j) as [[g|]|] eqn:Eg; [|exact Rj|exact Rj]. destruct (nth_error l j) as [[c|]|]; try exact Rj.
        apply (Rb_frame m); [|exact Rj]. intros x Hx. unfold lose. cbn [m_byte]. destruct ((bptr b <=? x) && (x <? bptr b + bsize b)) eqn:Ex; [|reflexivity].
        exfalso. apply Nat.eqb_neq in E. apply (i_sep _ _ _ _ HI i j f g x E Hf Eg); [|exact Hx]. unfold region. rewrite Eb. unfold in_block. lia.
    + exact HS.
    + unfold up_free. cbn [ulog ulive]. rewrite HE. apply Permutation_cons_inv with (a := b). rewrite <- (remove1_perm b (ulive (ulog w)) HIn). rewrite (i_perm _ _ _ _ HI). exact P.
    + unfold up_free. cbn [ulog frees_ok]. rewrite HE. split; [exact HIn|exact (i_frees _ _ _ _ HI)].
    + exact (i_dev _ _ _ _ HI).
  - constructor.
    + intros j. rewrite !nth_upd. pose proof (i_rel _ _ _ _ HI j) as Rj. destruct (Nat.eqb i j) eqn:E.
      * destruct (nth_error h j) as [[g|]|], (nth_error l j) as [[c|]|]; try contradiction; exact I.
      * exact Rj.
    + exact HS.
    + rewrite (i_perm _ _ _ _ HI). exact P.
    + exact (i_frees _ _ _ _ HI).
    + exact (i_dev _ _ _ _ HI).
Qed.

Lemma move_inv w m h l i j f a : Inv w m h l -> nth_error h i = Some (Some f) -> nth_error l i = Some (Some a) -> nth_error h j = Some None -> i <> j ->
  Inv w m (upd (upd h j (Some f)) i None) (upd (upd l j (Some a)) i None).
Proof.
  intros HI Hf Ha Hj Hij. destruct (alive_buf _ _ _ _ _ _ HI Ha) as (f' & Hf' & R). rewrite Hf in Hf'. injection Hf' as <-.
  assert (Hij' : Nat.eqb j i = false) by (apply Nat.eqb_neq; congruence).
  constructor.
  - intros p. rewrite !nth_upd. pose proof (i_rel _ _ _ _ HI p) as Rp. destruct (Nat.eqb i p) eqn:E.
    + apply Nat.eqb_eq in E. subst p. rewrite Hij', Hf, Ha. exact I.
    + destruct (Nat.eqb j p) eqn:E'; [|exact Rp]. apply Nat.eqb_eq in E'. subst p. rewrite Hj in *. destruct (nth_error l j) as [[c|]|]; try contradiction. exact R.
  - intros p q f0 g x Hpq Hp Hq. rewrite !nth_upd in Hp, Hq.
    destruct (Nat.eqb_spec i p) as [E1|E1]; [destruct (if Nat.eqb j p then _ else _); discriminate|].
    destruct (Nat.eqb_spec i q) as [E2|E2]; [destruct (if Nat.eqb j q then _ else _); discriminate|].
    destruct (Nat.eqb_spec j p) as [E3|E3], (Nat.eqb_spec j q) as [E4|E4].
    + congruence.
    + subst p. rewrite Hj in Hp. injection Hp as <-. exact (i_sep _ _ _ _ HI i q f g x E2 Hf Hq).
    + subst q. rewrite Hj in Hq. injection Hq as <-. exact (i_sep _ _ _ _ HI p i f0 f x ltac:(congruence) Hp Hf).
    + exact (i_sep _ _ _ _ HI p q f0 g x Hpq Hp Hq).
  - rewrite (i_perm _ _ _ _ HI). pose proof (blks_upd h j None (Some f) Hj) as P1.
    assert (Hi' : nth_error (upd h j (Some f)) i = Some (Some f)) by (rewrite nth_upd, Hij'; exact Hf).
    pose proof (blks_upd (upd h j (Some f)) i (Some f) None Hi') as P2. apply (Permutation_app_inv_l (own (Some f))).
    rewrite P1. exact P2.
  - exact (i_frees _ _ _ _ HI).
  - exact (i_dev _ _ _ _ HI).
Qed.

Lemma vector_buffer_log esz eal cap rs w r w' : Placement.vector_buffer esz eal cap rs w = (r, w') ->
  w' = w \/ exists s a q, ulog w' = UAlloc s a q :: ulog w.
Proof.
  unfold Placement.vector_buffer. destruct (cap =? 0); [intros E; injection E as _ <-; left; reflexivity|].
  unfold Placement.placement, Placement.alloc_bytes. destruct (Placement.placement_bytes _ =? 0).
  - match goal with |- context [Placement.placement_helper ?p ?q ?t] => destruct (Placement.placement_helper p q t) as [[|s [|d [|]]]|e|] end;
      intros E; injection E as _ <-; left; reflexivity.
  - unfold up_alloc. destruct (uorc w (length (ulog w))) as [p|]; [|intros E; injection E as _ <-; right; eexists _, _, _; reflexivity].
    match goal with |- context [Placement.placement_helper ?p ?q ?t] => destruct (Placement.placement_helper p q t) as [[|s [|d [|]]]|e|] end;
      intros E; injection E as _ <-; right; eexists _, _, _; reflexivity.
Qed.

Lemma Inv_none w w' m h l : Inv w m h l -> ulive (ulog w') = ulive (ulog w) -> frees_ok (ulog w') -> Inv w' m (h ++ [None]) (l ++ [None]).
Proof.
  intros HI HL HF. assert (Hlen : length h = length l).
  { destruct (Nat.lt_trichotomy (length h) (length l)) as [H|[H|H]]; [|exact H|]; exfalso.
    - pose proof (i_rel _ _ _ _ HI (length h)) as R. rewrite (proj2 (nth_error_None h (length h))) in R by lia.
      destruct (nth_error l (length h)) as [[c|]|] eqn:E; try contradiction. apply nth_error_None in E. lia.
    - pose proof (i_rel _ _ _ _ HI (length l)) as R. rewrite (proj2 (nth_error_None l (length l))) in R by lia.
      destruct (nth_error h (length l)) as [[c|]|] eqn:E; try contradiction. apply nth_error_None in E. lia. }
  constructor.
  - intros i. destruct (Nat.lt_ge_cases i (length h)) as [Hi|Hi].
    + rewrite !nth_error_app1 by lia. exact (i_rel _ _ _ _ HI i).
    + rewrite !nth_error_app2 by lia. rewrite Hlen. destruct (i - length l)%nat as [|[|]]; cbn; exact I.
  - assert (K : forall i f, nth_error (h ++ [None]) i = Some (Some f) -> nth_error h i = Some (Some f)).
    { intros i f H. destruct (Nat.lt_ge_cases i (length h)) as [Hi|Hi]; [rewrite nth_error_app1 in H by lia; exact H|].
      rewrite nth_error_app2 in H by lia. destruct (i - length h)%nat as [|[|]]; discriminate. }
    intros i j f g x Hij Hi Hj. exact (i_sep _ _ _ _ HI i j f g x Hij (K _ _ Hi) (K _ _ Hj)).
  - rewrite HL, (i_perm _ _ _ _ HI). unfold blks. rewrite flat_map_app. cbn. rewrite app_nil_r. apply Permutation_refl.
  - exact HF.
  - exact (i_dev _ _ _ _ HI).
Qed.

(** A new variable: the memory of the others is not touched. *)
Lemma Inv_new w w' m m' h l f a : Inv w m h l -> (forall i g x, nth_error h i = Some (Some g) -> region g x -> region f x -> False) ->
  (forall x, ~ region f x -> m_byte m' x = m_byte m x) -> m_dev m' = m_dev m -> Rb m' f a ->
  Permutation (ulive (ulog w')) (own (Some f) ++ ulive (ulog w)) -> frees_ok (ulog w') -> Inv w' m' (h ++ [Some f]) (l ++ [Some a]).
Proof.
  intros HI HS HC HD HR HP HF. assert (Hlen : length h = length l).
  { destruct (Nat.lt_trichotomy (length h) (length l)) as [H|[H|H]]; [|exact H|]; exfalso.
    - pose proof (i_rel _ _ _ _ HI (length h)) as R. rewrite (proj2 (nth_error_None h (length h))) in R by lia.
      destruct (nth_error l (length h)) as [[c|]|] eqn:E; try contradiction. apply nth_error_None in E. lia.
    - pose proof (i_rel _ _ _ _ HI (length l)) as R. rewrite (proj2 (nth_error_None l (length l))) in R by lia.
      destruct (nth_error h (length l)) as [[c|]|] eqn:E; try contradiction. apply nth_error_None in E. lia. }
  constructor.
  - intros i. destruct (Nat.lt_ge_cases i (length h)) as [Hi|Hi].
    + rewrite !nth_error_app1 by lia. pose proof (i_rel _ _ _ _ HI i) as R. destruct (nth_error h i) as [[g|]|] eqn:Eg; [|exact R|exact R].
      destruct (nth_error l i) as [[c|]|]; try exact R. apply (Rb_frame m); [|exact R]. intros x Hx. apply HC. intros Hy. exact (HS i g x Eg Hx Hy).
    + rewrite !nth_error_app2 by lia. rewrite Hlen. destruct (i - length l)%nat as [|[|]]; cbn; [exact HR|exact I|exact I].
  - assert (K : forall i g, nth_error (h ++ [Some f]) i = Some (Some g) -> nth_error h i = Some (Some g) \/ i = length h /\ g = f).
    { intros i g H. destruct (Nat.lt_ge_cases i (length h)) as [Hi|Hi]; [rewrite nth_error_app1 in H by lia; left; exact H|].
      rewrite nth_error_app2 in H by lia. destruct (i - length h)%nat as [|[|]] eqn:E; try discriminate. cbn in H. injection H as <-. right. split; [lia|reflexivity]. }
    intros i j f0 g x Hij Hi Hj H1 H2. destruct (K _ _ Hi) as [Hi'|(-> & ->)], (K _ _ Hj) as [Hj'|(-> & ->)].
    + exact (i_sep _ _ _ _ HI i j f0 g x Hij Hi' Hj' H1 H2).
    + exact (HS _ _ _ Hi' H1 H2).
    + exact (HS _ _ _ Hj' H2 H1).
    + congruence.
  - rewrite HP. unfold blks. rewrite flat_map_app. cbn [flat_map]. rewrite app_nil_r. rewrite (i_perm _ _ _ _ HI). apply Permutation_app_comm.
  - exact HF.
  - intros x. rewrite HD. exact (i_dev _ _ _ _ HI x).
Qed.

Lemma log_grows st o r st' : bstep st o = (r, st') -> exists n, ulog (b_w st') = n ++ ulog (b_w st).
Proof.
  assert (RL : forall ob s, exists n, ulog (b_w (release ob s)) = n ++ ulog (b_w s)).
  { intros [b|] s; cbn [release b_w]; [|exists []; reflexivity]. unfold Placement.free_bytes. destruct (bptr b =? 0); [exists []; reflexivity|]. eexists [_]. reflexivity. }
  destruct o as [esz eal cap rs g|i|i j|i|i v|i j|i k v|i k|i n|i]; cbn [bstep].
  - destruct (Placement.vector_buffer esz eal cap rs (b_w st)) as [q w] eqn:E. apply vector_buffer_log in E.
    assert (HW : exists n, ulog w = n ++ ulog (b_w st)) by (destruct E as [->|(s & a & x & ->)]; [exists []|eexists [_]]; reflexivity).
    destruct q as [[v ob]|e|]; intros H; injection H as _ <-; exact HW.
  - destruct (get_buf st i) as [f|]; intros H; injection H as _ <-; [exact (RL _ _)|exists []; reflexivity].
  - destruct (get_buf st i) as [f|]; intros H; injection H as _ <-; [|exists []; reflexivity]. cbn [with_h b_w]. destruct (get_buf st j) as [g|]; [exact (RL _ _)|exists []; reflexivity].
  - destruct (get_buf st i) as [f|]; intros H; injection H as _ <-; exists []; reflexivity.
  - destruct (get_buf st i) as [f|]; intros H; injection H as _ <-; exists []; reflexivity.
  - destruct (get_buf st i) as [f|]; [destruct (get_buf st j) as [g|]|]; intros H; injection H as _ <-; exists []; reflexivity.
  - destruct (get_buf st i) as [f|]; intros H; injection H as _ <-; exists []; reflexivity.
  - destruct (get_buf st i) as [f|]; intros H; injection H as _ <-; exists []; reflexivity.
  - destruct (get_buf st i) as [f|]; intros H; injection H as _ <-; exists []; reflexivity.
  - destruct (get_buf st i) as [f|]; intros H; injection H as _ <-; exists []; reflexivity.
Qed.

Lemma new_step st l esz eal cap rs g r st' : Inv (b_w st) (b_m st) (b_h st) l ->
  (0 <? esz) && (0 <? eal) && (2 ^ Z.log2 eal =? eal) && (0 <=? cap) && (cap <? 2 ^ 32) && (4 + cap * esz + 2 * Z.max 4 eal <? 2 ^ 64) = true ->
  bstep st (ONew esz eal cap rs g) = (r, st') -> upstream_ok (ulog (b_w st')) ->
  exists o, Inv (b_w st') (b_m st') (b_h st') (l ++ [o]) /\
    (r = RDone /\ o = Some (mkA esz cap (if rs && negb (cap =? 0) then Unset else Fixed) (repeat None (Z.to_nat (cap * esz)))) \/
     r = RExn bad_alloc /\ cap <> 0 /\ o = None).
Proof.
  intros HI HB E HU. rewrite !andb_true_iff in HB. destruct HB as (((((B1 & B2) & B3) & B4) & B5) & B6). destruct st as [w m h]. cbn [b_w b_m b_h bstep] in *.
  assert (HN : forall k c, nth_error (repeat (@None Z) (Z.to_nat (cap * esz))) k = Some (Some c) -> False) by (intros k c Hk; apply nth_repeat in Hk; discriminate).
  destruct (Z.eqb_spec cap 0) as [E0|E0].
  - subst cap. rewrite PlacementProofs.vector_buffer_zero in E. injection E as <- <-. cbn [b_w b_m b_h] in *. eexists. split; [|left; split; reflexivity].
    rewrite andb_false_r. cbn [negb]. apply (Inv_new w w m m h l); try assumption.
    + intros i f x _ _ Hx. exact Hx.
    + reflexivity.
    + reflexivity.
    + unfold Rb. cbn. repeat split; try lia.
    + apply Permutation_refl.
    + exact (i_frees _ _ _ _ HI).
  - assert (Hp : pow2 eal) by (exists (Z.log2 eal); split; [apply Z.log2_nonneg|lia]).
    destruct (Placement.vector_buffer esz eal cap rs w) as [q w1] eqn:EV.
    assert (Hw : b_w st' = w1) by (destruct q as [[v ob]|e|]; injection E as <- <-; reflexivity). rewrite Hw in HU.
    assert (HF : frees_ok (ulog w1)) by (destruct (vector_buffer_log _ _ _ _ _ _ _ EV) as [->|(s & a & y & ->)]; exact (i_frees _ _ _ _ HI)).
    destruct (PlacementProofs.vector_buffer_thm esz eal cap rs w q w1 ltac:(lia) Hp ltac:(lia) ltac:(lia) EV HU) as [(-> & HL)|(v & b & -> & HL & V1 & V2 & V3 & V4 & V5 & V6)].
    + injection E as <- <-. cbn [b_w b_m b_h] in *. exists None. split; [|right; auto]. exact (Inv_none w w1 m h l HI HL HF).
    + injection E as <- <-. cbn [b_w b_m b_h] in *. eexists. split; [|left; split; reflexivity]. cbn [negb]. rewrite andb_true_r.
      pose proof (ulive_props _ b HU ltac:(rewrite HL; left; reflexivity)) as (P1 & P2 & _).
      assert (W : forall x, within (Placement.v_ptr v) (cap * esz) x -> in_block x b) by (intros x Hx; apply V4; exact Hx).
      assert (G : forall x, in_block x b -> m_byte (gain b g m) x = Some (g x)).
      { intros x Hx. unfold gain, in_block in *. cbn [m_byte]. replace ((bptr b <=? x) && (x <? bptr b + bsize b)) with true by lia. reflexivity. }
      apply (Inv_new w w1 m (gain b g m) h l); try assumption.
      * intros i f x Hi Hx Hy. unfold region in Hx, Hy. cbn [f_block] in Hy. destruct (f_block f) as [c|] eqn:Ec; [|exact Hx].
        pose proof (ulive_disjoint _ HU) as HD. rewrite HL in HD. destruct HD as (HD & _). apply (HD c); [|exists x; split; assumption].
        apply (Permutation_in c (Permutation_sym (i_perm _ _ _ _ HI))). unfold blks. apply in_flat_map. exists (Some f).
        split; [exact (nth_error_In _ _ Hi)|]. cbn [own]. rewrite Ec. left. reflexivity.
      * intros x Hx. unfold region in Hx. cbn [f_block] in Hx. unfold gain, in_block in *. cbn [m_byte].
        destruct ((bptr b <=? x) && (x <? bptr b + bsize b)) eqn:Ex; [exfalso; apply Hx; lia|reflexivity].
      * reflexivity.
      * unfold Rb. cbn [f_esz f_view f_block a_esz a_cap a_size a_bytes v_cap v_sizep v_ptr]. rewrite repeat_length.
        split; [reflexivity|]. split; [lia|]. split; [exact V1|]. split; [lia|]. split; [nia|]. split; [lia|]. split; [exact P1|]. split; [lia|].
        split; [exact W|]. split; [exact V2|]. split; [intros x Hx; rewrite G; [discriminate|apply W; exact Hx]|].
        split; [intros k c Hk; destruct (HN k c Hk)|]. split.
        { destruct rs; [discriminate|]. intros _. apply V5. reflexivity. } split.
        { destruct rs; [|intros HX; exfalso; apply HX; reflexivity]. intros _. destruct (V6 eq_refl) as (X1 & X2 & X3 & X4). split; [lia|].
          split; [intros x Hx; apply X3; exact Hx|]. split; [intros x Hx; apply X4; exists x; exact Hx|].
          intros x Hx. rewrite G; [discriminate|apply X3; exact Hx]. }
        destruct rs; discriminate.
      * rewrite HL. apply Permutation_refl.
Qed.

Lemma step_ok st l o r st' : Inv (b_w st) (b_m st) (b_h st) l -> bstep st o = (r, st') -> upstream_ok (ulog (b_w st')) ->
  match judge l o r with Good l' => Inv (b_w st') (b_m st') (b_h st') l' | Illegal => True | Wrong => False end.
Proof.
  intros HI E HU.
  assert (AB : forall i a, alive l i = Some a -> exists f, get_buf st i = Some f /\ nth_error (b_h st) i = Some (Some f) /\ nth_error l i = Some (Some a)).
  { intros i a Ha. apply alive_some in Ha. destruct (alive_buf _ _ _ _ _ _ HI Ha) as (f & Hf & _). exists f. split; [apply get_buf_some; exact Hf|auto]. }
  destruct o as [esz eal cap rs g|i|i j|i|i v|i j|i k v|i k|i n|i]; cbn [judge].
  - destruct ((0 <? esz) && _ && _ && _ && _ && _) eqn:EB; [|exact I].
    destruct (new_step st l esz eal cap rs g r st' HI EB E HU) as (o & HI' & [(-> & ->)|(-> & Hc & ->)]); [exact HI'|].
    replace (cap =? 0) with false by lia. exact HI'.
  - destruct (alive l i) as [a|] eqn:Ea; [|exact I]. destruct (AB i a Ea) as (f & Hg & Hf & Hl). cbn [bstep] in E. rewrite Hg in E. injection E as <- <-.
    exact (release_inv st l i f a HI Hf Hl).
  - destruct (alive l i) as [a|] eqn:Ea; [|exact I]. destruct (nth_error l j) as [oj|] eqn:Ej; [|exact I]. destruct (Nat.eqb_spec i j) as [|Hij]; [exact I|].
    destruct (AB i a Ea) as (f & Hg & Hf & Hl). cbn [bstep] in E. rewrite Hg in E. injection E as <- <-. cbn [expect with_h b_w b_m b_h].
    pose proof (i_rel _ _ _ _ HI j) as Rj. rewrite Ej in Rj. destruct oj as [b|].
    + destruct (nth_error (b_h st) j) as [[g|]|] eqn:Eg; try contradiction. unfold get_buf at 1 2. rewrite Eg.
      pose proof (release_inv st l j g b HI Eg Ej) as H1.
      assert (N1 : nth_error (upd (b_h st) j None) i = Some (Some f)) by (rewrite nth_upd; replace (Nat.eqb j i) with false by (symmetry; apply Nat.eqb_neq; congruence); exact Hf).
      assert (N2 : nth_error (upd l j None) i = Some (Some a)) by (rewrite nth_upd; replace (Nat.eqb j i) with false by (symmetry; apply Nat.eqb_neq; congruence); exact Hl).
      assert (N3 : nth_error (upd (b_h st) j None) j = Some None) by (rewrite nth_upd, Nat.eqb_refl, Eg; reflexivity).
      pose proof (move_inv _ _ _ _ i j f a H1 N1 N2 N3 Hij) as H2. rewrite !upd_upd in H2. exact H2.
    + destruct (nth_error (b_h st) j) as [[g|]|] eqn:Eg; try contradiction. unfold get_buf at 1 2. rewrite Eg.
      exact (move_inv _ _ _ _ i j f a HI Hf Hl Eg Hij).
  - destruct (alive l i) as [a|] eqn:Ea; [|exact I]. destruct (AB i a Ea) as (f & Hg & Hf & Hl). cbn [bstep] in E. rewrite Hg in E.
    destruct (setup_step _ _ _ _ i f a HI Hf Hl) as (m' & G & HI'). rewrite G in E. injection E as <- <-. exact HI'.
  - destruct (alive l i) as [a|] eqn:Ea; [|exact I]. destruct (AB i a Ea) as (f & Hg & Hf & Hl). cbn [bstep] in E. rewrite Hg in E.
    destruct (memset_step _ _ _ _ i f a v HI Hf Hl) as (m' & G & HI'). rewrite G in E. injection E as <- <-. exact HI'.
  - destruct (alive l i) as [a|] eqn:Ea; [|exact I]. destruct (alive l j) as [b|] eqn:Eb; [|exact I]. destruct (a_num a) as [n|] eqn:En; [|exact I].
    destruct (AB i a Ea) as (f & Hg & Hf & Hl). destruct (AB j b Eb) as (g & Hg' & Hf' & Hl'). cbn [bstep] in E. rewrite Hg, Hg' in E.
    destruct (Nat.eqb_spec i j) as [|Hij]; [exact I|]. destruct (Z.eqb_spec (a_esz a) (a_esz b)) as [He|]; [|exact I]. cbn [orb negb].
    destruct (alive_buf _ _ _ _ _ _ HI Hl) as (f1 & F1 & R). rewrite Hf in F1. injection F1 as <-.
    destruct (alive_buf _ _ _ _ _ _ HI Hl') as (g1 & G1 & Q). rewrite Hf' in G1. injection G1 as <-.
    pose proof (Rb_view_size _ _ _ _ R En) as VS. pose proof Q as (J1 & J2 & J3 & J4 & _).
    destruct (Z.eqb_spec n 0) as [Hn|Hn].
    + unfold copy_vector in E. rewrite (get_size_ok _ _ _ VS) in E. cbn [cbind] in E. subst n. cbn [Z.eqb] in E. injection E as <- <-. destruct st; exact HI.
    + destruct (Z.ltb_spec (a_cap b) n) as [Hc|Hc].
      * rewrite (copy_vector_too_large (f_esz f) type_unknown (f_view f) (f_view g) (b_m st) n VS) in E by lia. injection E as <- <-. destruct st; exact HI.
      * assert (Hn0 : 0 < n) by (destruct VS; lia).
        destruct (copy_step _ _ _ _ i j f g a b n HI Hf Hf' Hl Hl' Hij He En ltac:(lia)) as (m' & G & HI'). rewrite G in E. injection E as <- <-. exact HI'.
  - destruct (alive l i) as [a|] eqn:Ea; [|exact I]. destruct (AB i a Ea) as (f & Hg & Hf & Hl). cbn [bstep] in E. rewrite Hg in E.
    destruct ((0 <=? k) && (k <? a_cap a * a_esz a)) eqn:Ek; [|exact I].
    destruct (put_step _ _ _ _ i f a k v HI Hf Hl ltac:(lia)) as (m' & G & HI'). rewrite G in E. injection E as <- <-. exact HI'.
  - destruct (alive l i) as [a|] eqn:Ea; [|exact I]. destruct (AB i a Ea) as (f & Hg & Hf & Hl). cbn [bstep] in E. rewrite Hg in E.
    destruct (0 <=? k) eqn:Ek; [|exact I]. destruct (nth_error (a_bytes a) (Z.to_nat k)) as [[v|]|] eqn:Ev; try exact I.
    rewrite (get_step _ _ _ _ i f a k v HI Hf Hl ltac:(lia) Ev) in E. injection E as <- <-. cbn [expect hd]. rewrite Z.eqb_refl. destruct st; exact HI.
  - destruct (alive l i) as [a|] eqn:Ea; [|exact I]. destruct (AB i a Ea) as (f & Hg & Hf & Hl). cbn [bstep] in E. rewrite Hg in E.
    assert (K : a_size a <> Fixed -> (0 <=? n) && (n <=? a_cap a) = true ->
      match expect r RDone (upd l i (Some (mkA (a_esz a) (a_cap a) (Sized n) (a_bytes a)))) with Good l' => Inv (b_w st') (b_m st') (b_h st') l' | Illegal => True | Wrong => False end).
    { intros Hs Hb. destruct (setsize_step _ _ _ _ i f a n HI Hf Hl Hs ltac:(lia)) as (m' & G & HI'). rewrite G in E. injection E as <- <-. exact HI'. }
    destruct (a_size a); [exact I| |]; (destruct ((0 <=? n) && (n <=? a_cap a)) eqn:En; [apply K; [discriminate|reflexivity]|exact I]).
  - destruct (alive l i) as [a|] eqn:Ea; [|exact I]. destruct (AB i a Ea) as (f & Hg & Hf & Hl). cbn [bstep] in E. rewrite Hg in E.
    destruct (a_num a) as [n|] eqn:En; [|exact I]. destruct (alive_buf _ _ _ _ _ _ HI Hl) as (f1 & F1 & R). rewrite Hf in F1. injection F1 as <-.
    rewrite (get_size_ok _ _ _ (Rb_view_size _ _ _ _ R En)) in E. injection E as <- <-. cbn [expect]. rewrite Z.eqb_refl. destruct st; exact HI.
Qed.

Lemma upstream_ok_app n l : upstream_ok (n ++ l) -> upstream_ok l.
Proof. induction n as [|e n IH]; [auto|]. intros H. apply IH. exact (upstream_ok_tail e _ H). Qed.

Lemma logs_grow ops : forall st rs st', bruns st ops = (rs, st') -> exists n, ulog (b_w st') = n ++ ulog (b_w st).
Proof.
  induction ops as [|o ops IH]; intros st rs st'; cbn [bruns]; [intros E; injection E as _ <-; exists []; reflexivity|].
  destruct (bstep st o) as [r st1] eqn:E1. destruct (bruns st1 ops) as [rs1 st2] eqn:E2. intros E. injection E as _ <-.
  destruct (log_grows _ _ _ _ E1) as (n1 & H1). destruct (IH _ _ _ E2) as (n2 & H2). exists (n2 ++ n1). rewrite H2, H1. apply app_assoc.
Qed.

Lemma runs_ok ops : forall st l rs st', Inv (b_w st) (b_m st) (b_h st) l -> bruns st ops = (rs, st') -> upstream_ok (ulog (b_w st')) ->
  match judge_all l ops rs with Good l' => Inv (b_w st') (b_m st') (b_h st') l' | Illegal => True | Wrong => False end.
Proof.
  induction ops as [|o ops IH]; intros st l rs st' HI; cbn [bruns judge_all].
  - intros E _. injection E as <- <-. exact HI.
  - destruct (bstep st o) as [r st1] eqn:E1. destruct (bruns st1 ops) as [rs1 st2] eqn:E2. intros E HU. injection E as <- <-. cbn [judge_all].
    destruct (logs_grow _ _ _ _ E2) as (n & Hn). pose proof HU as HU1. rewrite Hn in HU1. apply upstream_ok_app in HU1.
    pose proof (step_ok st l o r st1 HI E1 HU1) as HS. destruct (judge l o r) as [l'| |]; [|exact I|destruct HS].
    exact (IH st1 l' rs1 st2 HS E2 HU).
Qed.

Lemma inv0 orc : Inv (b_w (bst0 orc)) (b_m (bst0 orc)) (b_h (bst0 orc)) [].
Proof.
  constructor; cbn.
  - intros [|i]; exact I.
  - intros [|i] j f g x _ H; discriminate H.
  - constructor.
  - exact I.
  - reflexivity.
Qed.

Lemma blks_count w m h l : Inv w m h l -> length (blks h) = length (filter (fun o => match o with Some a => negb (a_cap a =? 0) | None => false end) l).
Proof.
  intros HI. pose proof (i_rel _ _ _ _ HI) as R. clear HI. revert l R. induction h as [|o h IH]; intros [|c l] R.
  - reflexivity.
  - specialize (R 0%nat). destruct R.
  - specialize (R 0%nat). cbn in R. destruct o; destruct R.
  - pose proof (R 0%nat) as R0. cbn in R0. cbn [blks flat_map filter]. rewrite app_length.
    fold (blks h). rewrite (IH l) by (intros i; exact (R (S i))). destruct o as [f|], c as [a|]; try contradiction; [|reflexivity].
    destruct R0 as (H1 & H2 & H3 & H4 & H5 & H6). cbn [own]. destruct (f_block f) as [b|].
    + destruct H6 as (K1 & _). replace (a_cap a =? 0) with false by lia. reflexivity.
    + destruct H6 as (K1 & _). rewrite K1. reflexivity.
Qed.

Theorem programs orc ops rs st : bruns (bst0 orc) ops = (rs, st) -> upstream_ok (ulog (b_w st)) ->
  match judge_all [] ops rs with
  | Good l => frees_ok (ulog (b_w st)) /\
      length (ulive (ulog (b_w st))) = length (filter (fun o => match o with Some a => negb (a_cap a =? 0) | None => false end) l)
  | Illegal => True
  | Wrong => False
  end.
Proof.
  intros E HU. pose proof (runs_ok ops _ _ _ _ (inv0 orc) E HU) as H. destruct (judge_all [] ops rs) as [l| |]; [|exact I|exact H].
  split; [exact (i_frees _ _ _ _ H)|]. rewrite (Permutation_length (i_perm _ _ _ _ H)). exact (blks_count _ _ _ _ H).
Qed.

Lemma expect_good r r' l l' : expect r r' l = Good l' -> l' = l /\ r = r'.
Proof.
  destruct r as [|v|n|c|e|], r' as [|v'|n'|c'|e'|]; cbn [expect]; try discriminate; try (destruct e; discriminate).
  - intros H. injection H as <-. auto.
  - destruct (Z.eqb_spec v v'); [|discriminate]. intros H. injection H as <-. subst. auto.
  - destruct (Z.eqb_spec n n'); [|discriminate]. intros H. injection H as <-. subst. auto.
  - destruct (Bool.eqb_spec c c'); [|discriminate]. intros H. injection H as <-. subst. auto.
  - destruct e, e'; try discriminate. intros H. injection H as <-. auto.
Qed.

(** What a legal operation, other than a construction, has to answer and leave. *)
Lemma judge_expect l o : (exists esz eal cap rs g, o = ONew esz eal cap rs g) \/ (forall r, judge l o r = Illegal) \/
  exists r' l', r' <> RUB /\ (forall r, judge l o r = expect r r' l') /\
    forall k, (k < length l)%nat ->
    ~ In k (match o with
            | ODestroy i | OSetup i | OMemset i _ | OPut i _ _ | OSetSize i _ => [i]
            | OMove i j => [i; j]
            | OCopy _ j => [j]
            | ONew _ _ _ _ _ | OGet _ _ | OSize _ => []
            end) ->
    nth_error l' k = nth_error l k.
Proof.
  assert (U : forall i x k, ~ In k [i] -> nth_error (upd l i x) k = nth_error l k).
  { intros i x k Hk. rewrite nth_upd. destruct (Nat.eqb_spec i k) as [->|]; [exfalso; apply Hk; left; reflexivity|reflexivity]. }
  destruct o as [esz eal cap rs g|i|i j|i|i v|i j|i k v|i k|i n|i]; [left; eexists _, _, _, _, _; reflexivity|..]; right; cbn [judge].
  - destruct (alive l i); [|left; reflexivity]. right. eexists RDone, _. split; [discriminate|]. split; [reflexivity|]. intros q _ Hq. apply U. exact Hq.
  - destruct (alive l i); [|left; reflexivity]. destruct (nth_error l j); [|left; reflexivity]. destruct (Nat.eqb i j); [left; reflexivity|].
    right. eexists RDone, _. split; [discriminate|]. split; [reflexivity|]. intros q _ Hq. rewrite !nth_upd. destruct (Nat.eqb_spec i q) as [->|]; [exfalso; apply Hq; left; reflexivity|].
    destruct (Nat.eqb_spec j q) as [->|]; [exfalso; apply Hq; right; left; reflexivity|reflexivity].
  - destruct (alive l i); [|left; reflexivity]. right. eexists RDone, _. split; [discriminate|]. split; [reflexivity|]. intros q _ Hq. apply U. exact Hq.
  - destruct (alive l i); [|left; reflexivity]. right. eexists RDone, _. split; [discriminate|]. split; [reflexivity|]. intros q _ Hq. apply U. exact Hq.
  - destruct (alive l i) as [a|]; [|left; reflexivity]. destruct (alive l j) as [b|]; [|left; reflexivity]. destruct (a_num a) as [n|]; [|left; reflexivity].
    destruct (Nat.eqb i j || negb (a_esz a =? a_esz b)); [left; reflexivity|]. right.
    destruct (n =? 0); [eexists (RCopied false), _; split; [discriminate|]; split; reflexivity|].
    destruct (a_cap b <? n); [eexists (RExn length_error), _; split; [discriminate|]; split; reflexivity|].
    eexists (RCopied true), _. split; [discriminate|]. split; [reflexivity|]. intros q _ Hq. apply U. exact Hq.
  - destruct (alive l i) as [a|]; [|left; reflexivity]. destruct ((0 <=? k) && (k <? a_cap a * a_esz a)); [|left; reflexivity].
    right. eexists RDone, _. split; [discriminate|]. split; [reflexivity|]. intros q _ Hq. apply U. exact Hq.
  - destruct (alive l i) as [a|]; [|left; reflexivity]. destruct (0 <=? k); [|left; reflexivity]. destruct (nth_error (a_bytes a) (Z.to_nat k)) as [[v|]|]; [|left; reflexivity|left; reflexivity].
    right. eexists (RByte v), _. split; [discriminate|]. split; reflexivity.
  - destruct (alive l i) as [a|]; [|left; reflexivity]. destruct (a_size a); [left; reflexivity| |];
      (destruct ((0 <=? n) && (n <=? a_cap a)); [|left; reflexivity]; right; eexists RDone, _; split; [discriminate|]; split; [reflexivity|]; intros q _ Hq; apply U; exact Hq).
  - destruct (alive l i) as [a|]; [|left; reflexivity]. destruct (a_num a) as [n|]; [|left; reflexivity].
    right. eexists (RNum n), _. split; [discriminate|]. split; reflexivity.
Qed.

Lemma judge_new l esz eal cap rs g r l' : judge l (ONew esz eal cap rs g) r = Good l' ->
  (exists x, l' = l ++ [x]) /\ (r = RDone \/ r = RExn bad_alloc /\ cap <> 0).
Proof.
  cbn [judge]. destruct ((0 <? esz) && _ && _ && _ && _ && _); [|discriminate].
  destruct r as [|v|n|c|[]|]; try discriminate.
  - intros H. injection H as <-. split; [eexists; reflexivity|auto].
  - destruct (Z.eqb_spec cap 0); [discriminate|]. intros H. injection H as <-. split; [eexists; reflexivity|auto].
Qed.

Lemma judge_independent : forall l o r l', judge l o r = Good l' ->
  forall k, (k < length l)%nat ->
    ~ In k (match o with
            | ODestroy i | OSetup i | OMemset i _ | OPut i _ _ | OSetSize i _ => [i]
            | OMove i j => [i; j]
            | OCopy _ j => [j]
            | ONew _ _ _ _ _ | OGet _ _ | OSize _ => []
            end) ->
    nth_error l' k = nth_error l k.
Proof.
  intros l o r l' H k Hk Hn. destruct (judge_expect l o) as [(esz & eal & cap & rs & g & ->)|[HX|(r' & l1 & _ & HX & HK)]].
  - destruct (judge_new _ _ _ _ _ _ _ _ H) as ((x & ->) & _). apply nth_error_app1. exact Hk.
  - rewrite HX in H. discriminate.
  - rewrite HX in H. apply expect_good in H. destruct H as (-> & _). exact (HK k Hk Hn).
Qed.

Lemma judge_determined : forall l o r r' l1 l2, judge l o r = Good l1 -> judge l o r' = Good l2 ->
  (r = r' /\ l1 = l2) \/ (exists esz eal cap rs g, o = ONew esz eal cap rs g /\ cap <> 0 /\ In r [RDone; RExn bad_alloc] /\ In r' [RDone; RExn bad_alloc]).
Proof.
  intros l o r r' l1 l2 H1 H2. destruct (judge_expect l o) as [(esz & eal & cap & rs & g & ->)|[HX|(q & l' & _ & HX & _)]].
  - destruct (Z.eq_dec cap 0) as [E|E].
    + left. pose proof (judge_new _ _ _ _ _ _ _ _ H1) as (_ & [->|(_ & K)]); [|contradiction].
      pose proof (judge_new _ _ _ _ _ _ _ _ H2) as (_ & [->|(_ & K)]); [|contradiction]. split; [reflexivity|congruence].
    + right. exists esz, eal, cap, rs, g. split; [reflexivity|]. split; [exact E|].
      pose proof (judge_new _ _ _ _ _ _ _ _ H1) as (_ & [->|(-> & K)]); pose proof (judge_new _ _ _ _ _ _ _ _ H2) as (_ & [->|(-> & K')]); cbn; auto.
  - rewrite HX in H1. discriminate.
  - rewrite HX in H1, H2. apply expect_good in H1, H2. left. destruct H1 as (-> & ->), H2 as (-> & ->). auto.
Qed.

Lemma judge_defined : forall l o l', judge l o RUB <> Good l'.
Proof.
  intros l o l' H. destruct (judge_expect l o) as [(esz & eal & cap & rs & g & ->)|[HX|(q & l1 & HU & HX & _)]].
  - destruct (judge_new _ _ _ _ _ _ _ _ H) as (_ & [K|(K & _)]); discriminate.
  - rewrite HX in H. discriminate.
  - rewrite HX in H. apply expect_good in H. destruct H as (_ & H). congruence.
Qed.
