(** Proofs for ElemProg.v: threads that do not write what others access behave as one after another. *)
From Verif Require Import Races RacesProofs.
From Verif Require Import Base BaseLemmas Copy CopyProofs BufProg BufProgProofs KernProg KernProgProofs ElemProg.
From Coq Require Import ZArith List Bool Lia Permutation.
Import ListNotations.
Local Open Scope Z_scope.

(** ** The lists as a memory of bytes *)
Definition erase (l : list (option abuf)) : list (option abuf) :=
  map (option_map (fun a => mkA (a_esz a) (a_cap a) (a_size a) (map (fun _ => None) (a_bytes a)))) l.
Definition byte (l : list (option abuf)) (x : nat * Z) : option (option Z) :=
  match alive l (fst x) with Some a => if 0 <=? snd x then nth_error (a_bytes a) (Z.to_nat (snd x)) else None | None => None end.

Lemma nth_ext_e {B} (x y : list B) : (forall i, nth_error x i = nth_error y i) -> x = y.
Proof.
  revert y. induction x as [|a x IH]; intros [|b y] H; try reflexivity.
  - specialize (H O). discriminate.
  - specialize (H O). discriminate.
  - pose proof (H O) as H0. cbn in H0. injection H0 as ->. f_equal. apply IH. intros i. exact (H (S i)).
Qed.
Lemma erase_nth l i : nth_error (erase l) i =
  option_map (option_map (fun a => mkA (a_esz a) (a_cap a) (a_size a) (map (fun _ => None) (a_bytes a)))) (nth_error l i).
Proof. unfold erase. apply nth_error_map. Qed.
Lemma map_none_length {A B} (l : list A) (l' : list B) : map (fun _ => @None Z) l = map (fun _ => None) l' -> length l = length l'.
Proof. intros H. apply (f_equal (@length _)) in H. rewrite !map_length in H. exact H. Qed.
Lemma erase_alive l l' i a : erase l = erase l' -> alive l i = Some a ->
  exists a', alive l' i = Some a' /\ a_esz a' = a_esz a /\ a_cap a' = a_cap a /\ a_size a' = a_size a /\ length (a_bytes a') = length (a_bytes a).
Proof.
  intros E H. apply alive_some in H. apply (f_equal (fun z => nth_error z i)) in E. rewrite !erase_nth, H in E. cbn [option_map] in E.
  destruct (nth_error l' i) as [[a'|]|] eqn:E'; cbn [option_map] in E; try discriminate. injection E as E1 E2 E3 E4.
  exists a'. split; [apply alive_some; exact E'|]. symmetry in E1, E2, E3. repeat (split; [assumption|]). symmetry. apply (map_none_length _ _ E4).
Qed.
Lemma erase_num l l' i a n : erase l = erase l' -> alive l i = Some a -> a_num a = Some n ->
  exists a', alive l' i = Some a' /\ a_num a' = Some n /\ a_esz a' = a_esz a /\ length (a_bytes a') = length (a_bytes a).
Proof.
  intros E H Hn. destruct (erase_alive l l' i a E H) as (a' & H1 & H2 & H3 & H4 & H5). exists a'. split; [exact H1|]. split; [|split; assumption].
  unfold a_num in *. rewrite H4, H3. exact Hn.
Qed.
Lemma lists_ext l l' : erase l = erase l' -> (forall x, byte l x = byte l' x) -> l = l'.
Proof.
  intros E H. apply nth_ext_e. intros i. pose proof (f_equal (fun z => nth_error z i) E) as Ei. cbv beta in Ei. rewrite !erase_nth in Ei.
  destruct (nth_error l i) as [[a|]|] eqn:E1; destruct (nth_error l' i) as [[b|]|] eqn:E2; cbn [option_map] in Ei; try discriminate; try reflexivity.
  injection Ei as F1 F2 F3 F4. do 2 f_equal. destruct a as [e c s bs], b as [e' c' s' bs']. cbn [a_esz a_cap a_size a_bytes] in *. subst. f_equal.
  apply nth_ext_e. intros k. specialize (H (i, Z.of_nat k)). unfold byte, alive in H. cbn [fst snd] in H. rewrite E1, E2 in H. cbn [a_bytes] in H.
  replace (0 <=? Z.of_nat k) with true in H by lia. rewrite Nat2Z.id in H. exact H.
Qed.

Lemma map_upd_none {A} (l : list A) k x : map (fun _ => @None Z) (upd l k x) = map (fun _ => None) l.
Proof. revert k. induction l as [|y l IH]; intros [|k]; cbn; try reflexivity. f_equal. apply IH. Qed.
Lemma erase_put l i a k v : alive l i = Some a -> erase (upd l i (Some (a_put a k v))) = erase l.
Proof.
  intros H. apply alive_some in H. apply nth_ext_e. intros j. rewrite !erase_nth, nth_upd. destruct (Nat.eqb_spec i j) as [<-|D]; [|reflexivity].
  rewrite H. cbn [option_map]. unfold a_put. cbn [a_esz a_cap a_size a_bytes]. rewrite map_upd_none. reflexivity.
Qed.
Lemma loc_eqb_spec x y : reflect (x = y) (loc_eqb x y).
Proof.
  unfold loc_eqb. destruct x as [i k], y as [j n]. cbn [fst snd]. destruct (Nat.eqb_spec i j) as [->|D]; [|constructor; congruence].
  destruct (Z.eqb_spec k n) as [->|D]; constructor; congruence.
Qed.
Lemma byte_put l i a k v y : alive l i = Some a -> 0 <= k < Z.of_nat (length (a_bytes a)) ->
  byte (upd l i (Some (a_put a k v))) y = if loc_eqb (i, k) y then Some (Some v) else byte l y.
Proof.
  intros H Hk. pose proof H as H'. apply alive_some in H'. destruct y as [j q]. unfold byte. cbn [fst snd]. unfold alive at 1. rewrite nth_upd.
  destruct (loc_eqb_spec (i, k) (j, q)) as [E|D].
  - injection E as <- <-. rewrite Nat.eqb_refl, H'. replace (0 <=? k) with true by lia. unfold a_put. cbn [a_bytes]. rewrite nth_upd, Nat.eqb_refl.
    destruct (nth_error (a_bytes a) (Z.to_nat k)) eqn:E; [reflexivity|]. apply nth_error_None in E. lia.
  - destruct (Nat.eqb_spec i j) as [<-|Dj]; [|reflexivity]. rewrite H', H. destruct (Z.leb_spec 0 q) as [Hq|Hq]; [|reflexivity].
    unfold a_put. cbn [a_bytes]. rewrite nth_upd. destruct (Nat.eqb_spec (Z.to_nat k) (Z.to_nat q)) as [E|_]; [|reflexivity]. exfalso. apply D. f_equal. lia.
Qed.

(** ** One step on the lists *)
Definition astep (l : list (option abuf)) (p : kp) : option (list (option abuf) * kp) :=
  match p with
  | PEnd => None
  | PSize i next => match alive l i with Some a => match a_num a with Some n => Some (l, next n) | None => None end | None => None end
  | PGet i k next =>
      match alive l i with
      | Some a => match a_num a with
                  | Some n => if (0 <=? k) && (k <? n * a_esz a)
                              then match nth_error (a_bytes a) (Z.to_nat k) with Some (Some c) => Some (l, next c) | _ => None end else None
                  | None => None end
      | None => None
      end
  | PPut i k v next =>
      match alive l i with
      | Some a => match a_num a with
                  | Some n => if (0 <=? k) && (k <? n * a_esz a) then Some (upd l i (Some (a_put a k v)), next) else None
                  | None => None end
      | None => None
      end
  end.
(** The lists have room for their elements. *)
Definition fits (l : list (option abuf)) : Prop := forall i a n, alive l i = Some a -> a_num a = Some n -> n * a_esz a <= Z.of_nat (length (a_bytes a)).
Lemma fits_erase l l' : erase l = erase l' -> fits l -> fits l'.
Proof.
  intros E H i a n Ha Hn. destruct (erase_num l' l i a n (eq_sym E) Ha Hn) as (b & Hb & Hbn & Hz & HL). specialize (H i b n Hb Hbn). rewrite Hz, HL in H. exact H.
Qed.

Definition written (l l1 : list (option abuf)) (wr : option ((nat * Z) * Z)) : Prop :=
  match wr with
  | None => l1 = l
  | Some (x, v) => erase l1 = erase l /\ forall y, byte l1 y = if loc_eqb x y then Some (Some v) else byte l y
  end.
Lemma written_erase l l1 wr : written l l1 wr -> erase l1 = erase l.
Proof. destruct wr as [[x v]|]; cbn; [intros (H & _); exact H|intros ->; reflexivity]. Qed.

Lemma transfer g p e l : srun g p = Some e -> p <> PEnd -> erase l = erase g -> fits g ->
  (forall x, In x (e_reads e) \/ In x (e_writes e) -> byte l x = byte g x) ->
  exists l1 g1 p1 e1 wr, astep l p = Some (l1, p1) /\ srun g1 p1 = Some e1 /\ e_end e1 = e_end e /\
    incl (e_reads e1) (e_reads e) /\ incl (e_writes e1) (e_writes e) /\ e_steps e = S (e_steps e1) /\
    written l l1 wr /\ written g g1 wr /\ (forall x v, wr = Some (x, v) -> In x (e_writes e)).
Proof.
  intros HS HP HE HF HB. destruct p as [|i next|i k next|i k v next]; [contradiction| | |]; cbn [srun] in HS.
  - destruct (alive g i) as [a|] eqn:Ea; [|discriminate]. destruct (a_num a) as [n|] eqn:En; [|discriminate].
    destruct (erase_num g l i a n (eq_sym HE) Ea En) as (b & Eb & Ebn & _).
    destruct (srun g (next n)) as [e1|] eqn:E1; [|discriminate]. injection HS as <-. exists l, g, (next n), e1, None. cbn [e_end e_reads e_writes e_steps app written astep].
    rewrite Eb, Ebn. repeat (split; [try reflexivity; try assumption; try apply incl_refl|]). discriminate.
  - destruct (alive g i) as [a|] eqn:Ea; [|discriminate]. destruct (a_num a) as [n|] eqn:En; [|discriminate].
    destruct ((0 <=? k) && (k <? n * a_esz a)) eqn:EK; [|discriminate]. destruct (nth_error (a_bytes a) (Z.to_nat k)) as [[c|]|] eqn:Ec; try discriminate.
    destruct (srun g (next c)) as [e1|] eqn:E1; [|discriminate]. injection HS as <-. cbn [e_end e_reads e_writes e_steps app] in *.
    destruct (erase_num g l i a n (eq_sym HE) Ea En) as (b & Eb & Ebn & Ez & _).
    assert (Ecl : nth_error (a_bytes b) (Z.to_nat k) = Some (Some c)).
    { specialize (HB (i, k) ltac:(left; left; reflexivity)). unfold byte in HB. cbn [fst snd] in HB. rewrite Ea, Eb in HB. replace (0 <=? k) with true in HB by lia. congruence. }
    exists l, g, (next c), e1, None. cbn [written astep]. rewrite Eb, Ebn, Ez, EK, Ecl.
    split; [reflexivity|]. split; [exact E1|]. split; [reflexivity|]. split; [apply incl_tl, incl_refl|]. split; [apply incl_refl|]. repeat (split; [reflexivity|]). discriminate.
  - destruct (alive g i) as [a|] eqn:Ea; [|discriminate]. destruct (a_num a) as [n|] eqn:En; [|discriminate].
    destruct ((0 <=? k) && (k <? n * a_esz a)) eqn:EK; [|discriminate].
    destruct (srun (upd g i (Some (a_put a k v))) next) as [e1|] eqn:E1; [|discriminate]. injection HS as <-. cbn [e_end e_reads e_writes e_steps app] in *.
    destruct (erase_num g l i a n (eq_sym HE) Ea En) as (b & Eb & Ebn & Ez & Elen). pose proof (HF i a n Ea En) as HN.
    exists (upd l i (Some (a_put b k v))), (upd g i (Some (a_put a k v))), next, e1, (Some ((i, k), v)). cbn [written astep]. rewrite Eb, Ebn, Ez, EK.
    split; [reflexivity|]. split; [exact E1|]. split; [reflexivity|]. split; [apply incl_refl|]. split; [apply incl_tl, incl_refl|]. split; [reflexivity|].
    split. { split; [apply erase_put; exact Eb|]. intros y. apply byte_put; [exact Eb|lia]. }
    split. { split; [apply erase_put; exact Ea|]. intros y. apply byte_put; [exact Ea|lia]. }
    intros x u Hx. injection Hx as <- <-. left. reflexivity.
Qed.

(** ** One thread after another *)
Lemma srun_frame p : forall l e, srun l p = Some e -> fits l -> erase (e_end e) = erase l /\ forall x, ~ In x (e_writes e) -> byte (e_end e) x = byte l x.
Proof.
  induction p as [|i next IH|i k next IH|i k v next IH]; intros l e; cbn [srun].
  - intros H _. injection H as <-. split; [reflexivity|]. intros x _. reflexivity.
  - destruct (alive l i) as [a|]; [|discriminate]. destruct (a_num a) as [n|]; [|discriminate]. destruct (srun l (next n)) as [e1|] eqn:E; [|discriminate].
    intros H HF. injection H as <-. exact (IH n l e1 E HF).
  - destruct (alive l i) as [a|]; [|discriminate]. destruct (a_num a) as [n|]; [|discriminate]. destruct (_ && _); [|discriminate].
    destruct (nth_error _ _) as [[c|]|]; try discriminate. destruct (srun l (next c)) as [e1|] eqn:E; [|discriminate].
    intros H HF. injection H as <-. exact (IH c l e1 E HF).
  - destruct (alive l i) as [a|] eqn:Ea; [|discriminate]. destruct (a_num a) as [n|] eqn:En; [|discriminate]. destruct ((0 <=? k) && (k <? n * a_esz a)) eqn:EK; [|discriminate].
    destruct (srun _ next) as [e1|] eqn:E; [|discriminate]. intros H HF. injection H as <-. cbn [e_end e_writes app].
    pose proof (erase_put l i a k v Ea) as HP. destruct (IH _ e1 E (fits_erase _ _ (eq_sym HP) HF)) as (H1 & H2). split; [rewrite H1; exact HP|].
    intros x Hx. rewrite H2; [|intros Hy; apply Hx; right; exact Hy]. rewrite byte_put; [|exact Ea|pose proof (HF i a n Ea En); lia].
    destruct (loc_eqb_spec (i, k) x) as [<-|_]; [|reflexivity]. exfalso. apply Hx. left. reflexivity.
Qed.

Lemma sruns_frame ps : forall l es, sruns l ps = Some es -> fits l ->
  length es = length ps /\ erase (last (map e_end es) l) = erase l /\
  (forall x, (forall t e, nth_error es t = Some e -> ~ In x (e_writes e)) -> byte (last (map e_end es) l) x = byte l x) /\
  forall t e, nth_error es t = Some e -> exists g p, nth_error ps t = Some p /\ srun g p = Some e /\ erase g = erase l /\
    (forall x, (forall u e', (u < t)%nat -> nth_error es u = Some e' -> ~ In x (e_writes e')) -> byte g x = byte l x) /\
    (forall x, (forall u e', (t < u)%nat -> nth_error es u = Some e' -> ~ In x (e_writes e')) -> byte (last (map e_end es) l) x = byte (e_end e) x).
Proof.
  induction ps as [|p ps IH]; intros l es; cbn [sruns].
  - intros H _. injection H as <-. cbn. repeat (split; [reflexivity|]). intros [|t] e He; discriminate.
  - destruct (srun l p) as [e0|] eqn:E0; [|discriminate]. destruct (sruns (e_end e0) ps) as [es'|] eqn:E1; [|discriminate]. intros H HF. injection H as <-.
    destruct (srun_frame p l e0 E0 HF) as (F1 & F2). pose proof (fits_erase _ _ (eq_sym F1) HF) as HF1.
    destruct (IH (e_end e0) es' E1 HF1) as (I1 & I2 & I3 & I4).
    assert (EL : last (map e_end (e0 :: es')) l = last (map e_end es') (e_end e0)).
    { cbn [map]. clear. generalize (e_end e0). generalize (map e_end es'). induction l0 as [|y l0 IH]; intros x; [reflexivity|]. cbn [last] in *. destruct l0; [reflexivity|]. apply (IH x). }
    rewrite EL. split; [cbn; congruence|]. split; [rewrite I2; exact F1|]. split.
    { intros x Hx. rewrite I3; [apply F2; exact (Hx O e0 eq_refl)|]. intros t e He. exact (Hx (S t) e He). }
    intros [|t] e He; cbn [nth_error] in He.
    + injection He as <-. exists l, p. split; [reflexivity|]. split; [exact E0|]. split; [reflexivity|]. split; [reflexivity|].
      intros x Hx. apply I3. intros t e He. apply (Hx (S t) e); [lia|exact He].
    + destruct (I4 t e He) as (g & q & G1 & G2 & G3 & G4 & G5). exists g, q. split; [exact G1|]. split; [exact G2|]. split; [congruence|]. split.
      * intros x Hx. rewrite G4; [apply F2; apply (Hx O e0); [lia|reflexivity]|]. intros u e' Hu He'. apply (Hx (S u) e'); [lia|exact He'].
      * intros x Hx. apply G5. intros u e' Hu He'. apply (Hx (S u) e'); [lia|exact He'].
Qed.

(** ** A step on the memory *)
Lemma a_num_range m f a n : Rb m f a -> a_num a = Some n -> 0 <= n <= a_cap a.
Proof.
  intros (H1 & H2 & H3 & H4 & H5 & H6) Hn. unfold a_num in Hn. destruct (a_size a) as [| |k] eqn:E; try discriminate; injection Hn as <-; [lia|].
  destruct (f_block f) as [b|]; [|destruct H6 as (_ & _ & H6); discriminate]. destruct H6 as (_ & _ & _ & _ & _ & _ & _ & _ & _ & K10). exact (proj1 (K10 _ eq_refl)).
Qed.
Lemma dev_size_ok m f a n : Rb m f a -> a_num a = Some n -> dev_size (f_view f) m = Some n.
Proof.
  intros R Hn. pose proof (a_num_range m f a n R Hn) as Hr. destruct R as (H1 & H2 & H3 & H4 & H5 & H6). unfold a_num in Hn. unfold dev_size. destruct (a_size a) as [| |k] eqn:E; try discriminate; injection Hn as <-.
  - replace (v_sizep (f_view f)) with 0; [cbn; congruence|]. destruct (f_block f) as [b|]; [destruct H6 as (_ & _ & _ & _ & _ & _ & _ & K8 & _); symmetry; exact (K8 eq_refl)|destruct H6 as (_ & H6 & _); congruence].
  - destruct (f_block f) as [b|]; [|destruct H6 as (_ & _ & H6); discriminate]. destruct H6 as (_ & _ & _ & _ & _ & _ & _ & _ & K9 & K10).
    destruct (K9 ltac:(discriminate)) as (M1 & _). replace (v_sizep (f_view f) =? 0) with false by lia. rewrite (proj2 (K10 _ eq_refl)). cbn [option_map]. rewrite unle32_le32 by lia. reflexivity.
Qed.
Lemma Inv_fits w m h l : Inv w m h l -> fits l.
Proof.
  intros HI i a n Ha Hn. apply alive_some in Ha. destruct (alive_buf _ _ _ _ _ _ HI Ha) as (f & _ & R). pose proof (a_num_range _ _ _ _ R Hn) as Hr.
  destruct R as (H1 & H2 & H3 & H4 & H5 & _). rewrite H5. nia.
Qed.

Lemma conc w m h l p l1 p1 thr t : Inv w m h l -> nth_error thr t = Some p -> astep l p = Some (l1, p1) ->
  exists m1, e_step h (m, thr) t = Ret (m1, upd thr t p1) /\ Inv w m1 h l1.
Proof.
  intros HI Ht HA. unfold e_step. rewrite Ht. destruct p as [|i next|i k next|i k v next]; cbn [astep] in HA; [discriminate| | |];
    (destruct (alive l i) as [a|] eqn:Ea; [|discriminate]); (destruct (a_num a) as [n|] eqn:En; [|discriminate]);
    apply alive_some in Ea; destruct (alive_buf _ _ _ _ _ _ HI Ea) as (f & Hf & R);
    pose proof (dev_size_ok _ _ _ _ R En) as HD; pose proof (a_num_range _ _ _ _ R En) as Hr; unfold buf_of; rewrite Hf, HD.
  - injection HA as <- <-. exists m. split; [reflexivity|exact HI].
  - destruct ((0 <=? k) && (k <? n * a_esz a)) eqn:EK; [|discriminate]. destruct (nth_error (a_bytes a) (Z.to_nat k)) as [[c|]|] eqn:Ec; try discriminate.
    injection HA as <- <-. pose proof R as (H1 & H2 & _). rewrite H1.
    replace ((0 <=? k) && (k / a_esz a <? n)) with true by (pose proof (Z.div_lt_upper_bound k (a_esz a) n ltac:(lia) ltac:(nia)); lia).
    pose proof (Rb_known _ _ _ _ _ R Ec) as HB. rewrite Z2Nat.id in HB by lia. cbn [assert]. rewrite HB. exists m. split; [reflexivity|exact HI].
  - destruct ((0 <=? k) && (k <? n * a_esz a)) eqn:EK; [|discriminate]. injection HA as <- <-. pose proof R as (H1 & H2 & _). rewrite H1.
    replace ((0 <=? k) && (k / a_esz a <? n)) with true by (pose proof (Z.div_lt_upper_bound k (a_esz a) n ltac:(lia) ltac:(nia)); lia). cbn [assert].
    destruct (put_step _ _ _ _ i f a k v HI Hf Ea ltac:(nia)) as (m' & G & HI'). unfold do_copy_in in G. cbn [length get_bytes] in G.
    destruct (v_ptr (f_view f) + k =? 0); [discriminate|]. destruct (m_byte m (v_ptr (f_view f) + k)) as [c|]; [|discriminate]. rewrite kind_unknown in G. injection G as <-.
    exists (put_bytes m (v_ptr (f_view f) + k) [v]). split; [reflexivity|exact HI'].
Qed.

(** ** The threads of a launch *)
Definition indep (es : list erun) : Prop := forall t u e e' x, t <> u -> nth_error es t = Some e -> nth_error es u = Some e' ->
  In x (e_writes e) -> ~ In x (e_reads e') /\ ~ In x (e_writes e').
Lemma independent_spec es : independent es = true -> indep es.
Proof.
  unfold independent. intros H t u e e' x D Ht Hu Hx. rewrite forallb_forall in H.
  assert (Lt : (t < length es)%nat) by (apply nth_error_Some; rewrite Ht; discriminate). assert (Lu : (u < length es)%nat) by (apply nth_error_Some; rewrite Hu; discriminate).
  specialize (H t ltac:(apply in_seq; lia)). rewrite forallb_forall in H. specialize (H u ltac:(apply in_seq; lia)).
  replace (Nat.eqb t u) with false in H by (symmetry; apply Nat.eqb_neq; exact D). cbn [orb] in H.
  rewrite (nth_error_nth _ _ no_run Ht), (nth_error_nth _ _ no_run Hu) in H. rewrite forallb_forall in H. specialize (H x Hx).
  assert (K : ~ In x (e_reads e' ++ e_writes e')).
  { intros K. apply negb_true_iff in H. apply not_true_iff_false in H. apply H. apply existsb_exists. exists x. split; [exact K|]. destruct (loc_eqb_spec x x); [reflexivity|contradiction]. }
  split; intros K'; apply K; apply in_or_app; [left|right]; exact K'.
Qed.
Definition unowned (es : list erun) (x : nat * Z) : Prop := forall t e, nth_error es t = Some e -> ~ In x (e_writes e).

Definition thread_ok (es : list erun) (l0 l : list (option abuf)) (e : erun) (p : kp) (c : nat) : Prop :=
  exists g e', srun g p = Some e' /\ e_end e' = e_end e /\ incl (e_reads e') (e_reads e) /\ incl (e_writes e') (e_writes e) /\ (e_steps e' <= c)%nat /\
    erase g = erase l0 /\ (forall x, In x (e_writes e) -> byte l x = byte g x) /\ (forall x, unowned es x -> byte g x = byte l0 x).
Record J (es : list erun) (l0 l : list (option abuf)) (thr : list kp) (cnt : nat -> nat) : Prop := mkJ' {
  j_len : length thr = length es;
  j_erase : erase l = erase l0;
  j_thr : forall t p e, nth_error thr t = Some p -> nth_error es t = Some e -> thread_ok es l0 l e p (cnt t);
  j_rest : forall x, unowned es x -> byte l x = byte l0 x }.

Lemma in_dec_loc (x : nat * Z) l : {In x l} + {~ In x l}.
Proof. apply in_dec. intros a b. destruct (loc_eqb_spec a b); [left|right]; assumption. Qed.

Lemma J_step w m h es l0 l thr cnt t : indep es -> fits l0 -> Inv w m h l -> J es l0 l thr cnt ->
  exists m1 thr1 l1, e_step h (m, thr) t = Ret (m1, thr1) /\ Inv w m1 h l1 /\ J es l0 l1 thr1 (fun u => if Nat.eqb u t then pred (cnt u) else cnt u).
Proof.
  intros ID HF HI HJ. destruct HJ as [HL HE HT HR].
  assert (Stay : forall p, nth_error thr t = Some p -> p = PEnd -> J es l0 l thr (fun u => if Nat.eqb u t then pred (cnt u) else cnt u)).
  { intros p Hp ->. constructor; try assumption. intros u q e Hq He. destruct (HT u q e Hq He) as (g & e' & G1 & G2 & G3 & G4 & G5 & G6 & G7 & G8).
    exists g, e'. repeat (split; [assumption|]). split; [|repeat (split; [assumption|]); assumption].
    destruct (Nat.eqb_spec u t) as [->|_]; [|exact G5]. rewrite Hp in Hq. injection Hq as <-. cbn [srun] in G1. injection G1 as <-. cbn [e_steps]. lia. }
  destruct (nth_error thr t) as [p|] eqn:Hp.
  2: { exists m, thr, l. split; [unfold e_step; rewrite Hp; reflexivity|]. split; [exact HI|]. constructor; try assumption.
       intros u q e Hq He. destruct (Nat.eqb_spec u t) as [->|_]; [congruence|]. exact (HT u q e Hq He). }
  destruct (match p with PEnd => true | _ => false end) eqn:EP.
  { exists m, thr, l. destruct p; try discriminate. split; [unfold e_step; rewrite Hp; reflexivity|]. split; [exact HI|]. exact (Stay PEnd eq_refl eq_refl). }
  assert (NP : p <> PEnd) by (intros ->; discriminate). clear Stay EP.
  destruct (nth_error es t) as [e|] eqn:He; [|apply nth_error_None in He; assert (Hlt : (t < length thr)%nat) by (apply nth_error_Some; rewrite Hp; discriminate); lia].
  destruct (HT t p e Hp He) as (g & e' & G1 & G2 & G3 & G4 & G5 & G6 & G7 & G8).
  destruct (transfer g p e' l G1 NP) as (l1 & g1 & p1 & e1 & wr & T1 & T2 & T3 & T4 & T5 & T6 & T7 & T8 & T9).
  - congruence.
  - exact (fits_erase _ _ (eq_sym G6) HF).
  - intros x Hx. destruct (in_dec_loc x (e_writes e)) as [Hw|Hw]; [exact (G7 x Hw)|].
    assert (U : unowned es x).
    { intros u e2 Hu Hin. destruct (Nat.eq_dec u t) as [->|D]; [congruence|]. destruct (ID u t e2 e x D Hu He Hin) as (A & B).
      destruct Hx as [Hx|Hx]; [apply A; apply G3; exact Hx|apply B; apply G4; exact Hx]. }
    rewrite (HR x U), (G8 x U). reflexivity.
  - destruct (conc w m h l p l1 p1 thr t HI Hp T1) as (m1 & S1 & HI1). exists m1, (upd thr t p1), l1. split; [exact S1|]. split; [exact HI1|].
    assert (Same : forall y, ~ In y (e_writes e) -> byte l1 y = byte l y).
    { intros y Hy. destruct wr as [[x v]|]; cbn [written] in T7; [|subst; reflexivity]. destruct T7 as (_ & T7). rewrite T7. destruct (loc_eqb_spec x y) as [<-|_]; [|reflexivity].
      exfalso. apply Hy. apply G4. exact (T9 x v eq_refl). }
    assert (SameG : forall y, ~ In y (e_writes e) -> byte g1 y = byte g y).
    { intros y Hy. destruct wr as [[x v]|]; cbn [written] in T8; [|subst; reflexivity]. destruct T8 as (_ & T8). rewrite T8. destruct (loc_eqb_spec x y) as [<-|_]; [|reflexivity].
      exfalso. apply Hy. apply G4. exact (T9 x v eq_refl). }
    constructor.
    + rewrite upd_length. exact HL.
    + rewrite (written_erase _ _ _ T7). exact HE.
    + intros u q e2 Hq He2. rewrite nth_upd in Hq. rewrite (Nat.eqb_sym t u) in Hq. destruct (Nat.eqb_spec u t) as [->|D].
      * rewrite Hp in Hq. injection Hq as <-. rewrite He in He2. injection He2 as <-. exists g1, e1. split; [exact T2|]. split; [congruence|].
        split; [exact (incl_tran T4 G3)|]. split; [exact (incl_tran T5 G4)|]. split; [lia|]. split; [rewrite (written_erase _ _ _ T8); exact G6|]. split.
        -- intros x Hx. destruct wr as [[y v]|]; cbn [written] in T7, T8; [|subst; exact (G7 x Hx)]. destruct T7 as (_ & T7). destruct T8 as (_ & T8). rewrite T7, T8.
           destruct (loc_eqb y x); [reflexivity|exact (G7 x Hx)].
        -- intros x Hx. rewrite SameG; [exact (G8 x Hx)|exact (Hx t e He)].
      * destruct (HT u q e2 Hq He2) as (g2 & e2' & K1 & K2 & K3 & K4 & K5 & K6 & K7 & K8). exists g2, e2'. repeat (split; [assumption|]). split; [|exact K8].
        intros x Hx. rewrite Same; [exact (K7 x Hx)|]. destruct (ID u t e2 e x D He2 He Hx) as (_ & B). exact B.
    + intros x Hx. rewrite Same; [exact (HR x Hx)|exact (Hx t e He)].
Qed.

Lemma J_cnt es l0 l thr c c' : (forall t, c t = c' t) -> J es l0 l thr c -> J es l0 l thr c'.
Proof. intros H [H1 H2 H3 H4]. constructor; try assumption. intros t p e Hp He. rewrite <- H. exact (H3 t p e Hp He). Qed.

Lemma J_run w h es l0 : indep es -> fits l0 -> forall sched m l thr cnt, Inv w m h l -> J es l0 l thr cnt ->
  exists m1 thr1 l1, e_run h (m, thr) sched = Ret (m1, thr1) /\ Inv w m1 h l1 /\ J es l0 l1 thr1 (fun u => (cnt u - count_occ Nat.eq_dec sched u)%nat).
Proof.
  intros ID HF. induction sched as [|t sched IH]; intros m l thr cnt HI HJ; cbn [e_run].
  - exists m, thr, l. split; [reflexivity|]. split; [exact HI|]. apply (J_cnt _ _ _ _ _ _ (fun t => eq_sym (Nat.sub_0_r (cnt t))) HJ).
  - destruct (J_step w m h es l0 l thr cnt t ID HF HI HJ) as (m1 & thr1 & l1 & E & HI1 & HJ1). rewrite E. cbn [bind].
    destruct (IH m1 l1 thr1 _ HI1 HJ1) as (m2 & thr2 & l2 & E2 & HI2 & HJ2). exists m2, thr2, l2. split; [exact E2|]. split; [exact HI2|].
    apply (J_cnt _ _ _ _ _ _) with (2 := HJ2). intros u. cbn [count_occ]. destruct (Nat.eq_dec t u) as [<-|D].
    + rewrite Nat.eqb_refl. lia.
    + replace (Nat.eqb u t) with false by (symmetry; apply Nat.eqb_neq; congruence). reflexivity.
Qed.

Lemma J_init l ps es : sruns l ps = Some es -> indep es -> fits l -> J es l l ps (fun t => e_steps (nth t es no_run)).
Proof.
  intros HS ID HF. destruct (sruns_frame ps l es HS HF) as (S1 & S2 & S3 & S4). constructor.
  - congruence.
  - reflexivity.
  - intros t p e Hp He. destruct (S4 t e He) as (g & q & G1 & G2 & G3 & G4 & G5). rewrite Hp in G1. injection G1 as <-. exists g, e.
    split; [exact G2|]. split; [reflexivity|]. split; [apply incl_refl|]. split; [apply incl_refl|]. split; [rewrite (nth_error_nth _ _ no_run He); lia|]. split; [exact G3|]. split.
    + intros x Hx. symmetry. apply G4. intros u e' Hu He'. exact (proj2 (ID t u e e' x ltac:(lia) He He' Hx)).
    + intros x Hx. apply G4. intros u e' _ He'. exact (Hx u e' He').
  - reflexivity.
Qed.

Lemma J_final l ps es l1 thr cnt : sruns l ps = Some es -> indep es -> fits l -> J es l l1 thr cnt -> (forall t, (t < length es)%nat -> cnt t = O) ->
  forallb (fun p => match p with PEnd => true | _ => false end) thr = true /\ l1 = last (map e_end es) l.
Proof.
  intros HS ID HF HJ HC. destruct (sruns_frame ps l es HS HF) as (S1 & S2 & S3 & S4). destruct HJ as [HL HE HT HR].
  assert (Done : forall t p e, nth_error thr t = Some p -> nth_error es t = Some e -> p = PEnd /\ forall x, In x (e_writes e) -> byte l1 x = byte (e_end e) x).
  { intros t p e Hp He. destruct (HT t p e Hp He) as (g & e' & G1 & G2 & G3 & G4 & G5 & G6 & G7 & G8).
    rewrite HC in G5 by (apply nth_error_Some; rewrite He; discriminate). destruct (match p with PEnd => true | _ => false end) eqn:EP.
    - destruct p; try discriminate. split; [reflexivity|]. cbn [srun] in G1. injection G1 as <-. cbn [e_end] in G2. subst g. exact G7.
    - exfalso. destruct (transfer g p e' g G1) as (l2 & g1 & p1 & e1 & wr & T1 & T2 & T3 & T4 & T5 & T6 & _).
      + intros ->. discriminate.
      + reflexivity.
      + exact (fits_erase _ _ (eq_sym G6) HF).
      + reflexivity.
      + lia. }
  split.
  - apply forallb_forall. intros p Hp. apply In_nth_error in Hp. destruct Hp as (t & Hp). destruct (nth_error es t) as [e|] eqn:He.
    + destruct (Done t p e Hp He) as (-> & _). reflexivity.
    + apply nth_error_None in He. assert (Hlt : (t < length thr)%nat) by (apply nth_error_Some; rewrite Hp; discriminate). lia.
  - apply lists_ext; [congruence|]. intros x.
    destruct (existsb (fun e => existsb (loc_eqb x) (e_writes e)) es) eqn:Ex.
    + apply existsb_exists in Ex. destruct Ex as (e & He & Hx). apply existsb_exists in Hx. destruct Hx as (y & Hy & Hxy).
      destruct (loc_eqb_spec x y) as [<-|]; [|discriminate]. apply In_nth_error in He. destruct He as (t & He).
      destruct (nth_error thr t) as [p|] eqn:Hp.
      * destruct (Done t p e Hp He) as (_ & D). rewrite (D x Hy). symmetry. destruct (S4 t e He) as (g & q & G1 & G2 & G3 & G4 & G5). apply G5.
        intros u e' Hu He'. exact (proj2 (ID t u e e' x ltac:(lia) He He' Hy)).
      * apply nth_error_None in Hp. assert (Hlt : (t < length es)%nat) by (apply nth_error_Some; rewrite He; discriminate). lia.
    + assert (U : unowned es x).
      { intros t e He Hin. apply not_true_iff_false in Ex. apply Ex. apply existsb_exists. exists e. split; [apply nth_error_In in He; exact He|].
        apply existsb_exists. exists x. split; [exact Hin|]. destruct (loc_eqb_spec x x); [reflexivity|contradiction]. }
      rewrite (HR x U). symmetry. apply S3. exact U.
Qed.

(** ** Programs *)
Lemma elog_grows st o : exists n, ulog (b_w (snd (estep st o))) = n ++ ulog (b_w st).
Proof.
  destruct o as [o|ps sched]; cbn [estep]; [apply klog_grows|]. exists []. destruct (e_run _ _ _) as [[m thr]| |]; reflexivity.
Qed.
Lemma elogs_grow ops : forall st, exists n, ulog (b_w (snd (eruns st ops))) = n ++ ulog (b_w st).
Proof.
  induction ops as [|o ops IH]; intros st; cbn [eruns snd]; [exists []; reflexivity|].
  destruct (elog_grows st o) as (n1 & H1). destruct (IH (snd (estep st o))) as (n2 & H2). exists (n2 ++ n1). rewrite H2, H1. apply app_assoc.
Qed.
Lemma estep_ok st l o : Inv (b_w st) (b_m st) (b_h st) l -> upstream_ok (ulog (b_w (snd (estep st o)))) ->
  match ejudge l o (fst (estep st o)) with Good l' => Inv (b_w (snd (estep st o))) (b_m (snd (estep st o))) (b_h (snd (estep st o))) l' | Illegal => True | Wrong => False end.
Proof.
  intros HI HU. destruct o as [o|ps sched]; [exact (kstep_ok st l o HI HU)|]. cbn [ejudge]. destruct (sruns l ps) as [es|] eqn:ES; [|exact I].
  destruct (independent es && _) eqn:EC; [|exact I]. apply andb_prop in EC. destruct EC as (EI & EC). apply independent_spec in EI. pose proof (Inv_fits _ _ _ _ HI) as HF.
  destruct (J_run (b_w st) (b_h st) es l EI HF sched (b_m st) l ps _ HI (J_init l ps es ES EI HF)) as (m1 & thr1 & l1 & R1 & HI1 & HJ1).
  destruct (J_final l ps es l1 thr1 _ ES EI HF HJ1) as (F1 & F2).
  { intros t Ht. rewrite forallb_forall in EC. specialize (EC t ltac:(apply in_seq; lia)). apply Nat.leb_le in EC. lia. }
  cbn [estep]. rewrite R1, F1. cbn [fst snd b_w b_m b_h]. rewrite <- F2. exact HI1.
Qed.
Lemma eruns_ok ops : forall st l, Inv (b_w st) (b_m st) (b_h st) l -> upstream_ok (ulog (b_w (snd (eruns st ops)))) ->
  match ejudge_all l ops (fst (eruns st ops)) with
  | Good l' => Inv (b_w (snd (eruns st ops))) (b_m (snd (eruns st ops))) (b_h (snd (eruns st ops))) l' | Illegal => True | Wrong => False end.
Proof.
  induction ops as [|o ops IH]; intros st l HI; cbn [eruns ejudge_all fst snd].
  - intros _. exact HI.
  - intros HU. destruct (elogs_grow ops (snd (estep st o))) as (n & Hn). pose proof HU as HU1. rewrite Hn in HU1. apply upstream_ok_app in HU1.
    pose proof (estep_ok st l o HI HU1) as HS. destruct (ejudge l o (fst (estep st o))) as [l'| |]; [|exact I|exact HS].
    exact (IH _ l' HS HU).
Qed.
Theorem eprograms orc ops rs st : eruns (bst0 orc) ops = (rs, st) -> upstream_ok (ulog (b_w st)) ->
  match ejudge_all [] ops rs with
  | Good l => frees_ok (ulog (b_w st)) /\
      length (ulive (ulog (b_w st))) = length (filter (fun o => match o with Some a => negb (a_cap a =? 0) | None => false end) l)
  | Illegal => True
  | Wrong => False
  end.
Proof.
  intros E HU. pose proof (eruns_ok ops (bst0 orc) [] (inv0 orc)) as H. rewrite E in H. cbn [fst snd] in H. specialize (H HU).
  destruct (ejudge_all [] ops rs) as [l| |]; [|exact I|exact H].
  split; [exact (i_frees _ _ _ _ H)|]. rewrite (Permutation_length (i_perm _ _ _ _ H)). exact (blks_count _ _ _ _ H).
Qed.

(** ** Races *)
Lemma sizep_fixed m f a : Rb m f a -> v_sizep (f_view f) <> 0 -> a_size a <> Fixed.
Proof.
  intros (_ & _ & _ & _ & _ & H6) H E. destruct (f_block f) as [b|]; [destruct H6 as (_ & _ & _ & _ & _ & _ & _ & K8 & _); exact (H (K8 E))|destruct H6 as (_ & H6 & _); exact (H H6)].
Qed.
Lemma access_facts w m h es l0 l thr cnt t p e a : Inv w m h l -> J es l0 l thr cnt -> nth_error thr t = Some p -> nth_error es t = Some e -> In a (p_access h p) ->
  exists i f b, nth_error h i = Some (Some f) /\ nth_error l i = Some (Some b) /\ Rb m f b /\
    ((a_size b <> Fixed /\ a_ptr a = v_sizep (f_view f) /\ a_len a = 4 /\ writes a = false) \/
     exists k, 0 <= k < a_cap b * a_esz b /\ a_ptr a = v_ptr (f_view f) + k /\ a_len a = 1 /\
       ((writes a = true /\ In (i, k) (e_writes e)) \/ (writes a = false /\ In (i, k) (e_reads e)))).
Proof.
  intros HI HJ Hp He Ha. destruct HJ as [HL HE HT HR]. destruct (HT t p e Hp He) as (g & e' & G1 & G2 & G3 & G4 & G5 & G6 & G7 & G8).
  assert (EL : erase g = erase l) by congruence.
  assert (Load : forall i f b k, nth_error h i = Some (Some f) -> nth_error l i = Some (Some b) -> Rb m f b -> In a (load_size f k) -> k = plain_read \/ k = atomic_load ->
    a_size b <> Fixed /\ a_ptr a = v_sizep (f_view f) /\ a_len a = 4 /\ writes a = false).
  { intros i f b k Hf Hb R Hin Hk. unfold load_size in Hin. destruct (Z.eqb_spec (v_sizep (f_view f)) 0) as [|Hz]; [contradiction|]. destruct Hin as [<-|[]].
    split; [exact (sizep_fixed m f b R Hz)|]. split; [reflexivity|]. split; [reflexivity|]. unfold writes. cbn [a_how]. destruct Hk as [->| ->]; reflexivity. }
  destruct p as [|i next|i k next|i k v next]; cbn [p_access] in Ha; [contradiction| | |]; cbn [srun] in G1;
    (destruct (alive g i) as [ga|] eqn:Eg; [|discriminate]); (destruct (a_num ga) as [n|] eqn:En; [|discriminate]);
    destruct (erase_num g l i ga n EL Eg En) as (b & Eb & Ebn & Ez & _); apply alive_some in Eb; destruct (alive_buf _ _ _ _ _ _ HI Eb) as (f & Hf & R);
    unfold buf_of in Ha; rewrite Hf in Ha; exists i, f, b; split; try exact Hf; split; try exact Eb; split; try exact R.
  - left. exact (Load i f b plain_read Hf Eb R Ha (or_introl eq_refl)).
  - destruct ((0 <=? k) && (k <? n * a_esz ga)) eqn:EK; [|discriminate]. destruct (nth_error (a_bytes ga) (Z.to_nat k)) as [[c|]|]; try discriminate.
    destruct (srun g (next c)) as [e1|]; [|discriminate]. injection G1 as <-. cbn [e_reads app] in G3. pose proof (a_num_range _ _ _ _ R Ebn) as Hr. pose proof R as (_ & Hz & _).
    apply in_app_or in Ha. destruct Ha as [Ha|[<-|[]]]; [left; exact (Load i f b atomic_load Hf Eb R Ha (or_intror eq_refl))|]. right. exists k. split; [rewrite <- Ez in EK; nia|].
    split; [reflexivity|]. split; [reflexivity|]. right. split; [reflexivity|]. apply G3. left. reflexivity.
  - destruct ((0 <=? k) && (k <? n * a_esz ga)) eqn:EK; [|discriminate].
    destruct (srun _ next) as [e1|]; [|discriminate]. injection G1 as <-. cbn [e_writes app] in G4. pose proof (a_num_range _ _ _ _ R Ebn) as Hr. pose proof R as (_ & Hz & _).
    apply in_app_or in Ha. destruct Ha as [Ha|[<-|[]]]; [left; exact (Load i f b atomic_load Hf Eb R Ha (or_intror eq_refl))|]. right. exists k. split; [rewrite <- Ez in EK; nia|].
    split; [reflexivity|]. split; [reflexivity|]. left. split; [reflexivity|]. apply G4. left. reflexivity.
Qed.

Lemma no_race w m1 m2 h es l0 l1 l2 thr1 thr2 c1 c2 t u p q a b : indep es -> Inv w m1 h l1 -> J es l0 l1 thr1 c1 -> Inv w m2 h l2 -> J es l0 l2 thr2 c2 -> t <> u ->
  nth_error thr1 t = Some p -> nth_error thr2 u = Some q -> In a (p_access h p) -> In b (p_access h q) ->
  (exists x, a_ptr a <= x < a_ptr a + a_len a /\ a_ptr b <= x < a_ptr b + a_len b) -> writes a = false /\ writes b = false.
Proof.
  intros ID I1 J1 I2 J2 D Hp Hq Ha Hb (x & Xa & Xb).
  assert (Et : exists e, nth_error es t = Some e).
  { destruct (nth_error es t) as [e|] eqn:E; [exists e; reflexivity|]. apply nth_error_None in E. rewrite <- (j_len _ _ _ _ _ J1) in E. apply nth_error_None in E. congruence. }
  assert (Eu : exists e, nth_error es u = Some e).
  { destruct (nth_error es u) as [e|] eqn:E; [exists e; reflexivity|]. apply nth_error_None in E. rewrite <- (j_len _ _ _ _ _ J2) in E. apply nth_error_None in E. congruence. }
  destruct Et as (e & He). destruct Eu as (e' & He').
  destruct (access_facts w m1 h es l0 l1 thr1 c1 t p e a I1 J1 Hp He Ha) as (i & f & ba & Hf & Hba & R1 & C1).
  destruct (access_facts w m2 h es l0 l2 thr2 c2 u q e' b I2 J2 Hq He' Hb) as (j & g & bb & Hg & Hbb & R2 & C2).
  assert (Ra : region f x).
  { destruct C1 as [(F & P & L & _)|(k & K & P & L & _)]; rewrite P, L in Xa; [apply (Rb_region_size m1 f ba x R1 F)|apply (Rb_region_bytes m1 f ba x R1)]; unfold within; lia. }
  assert (Rg : region g x).
  { destruct C2 as [(F & P & L & _)|(k & K & P & L & _)]; rewrite P, L in Xb; [apply (Rb_region_size m2 g bb x R2 F)|apply (Rb_region_bytes m2 g bb x R2)]; unfold within; lia. }
  destruct (Nat.eq_dec i j) as [<-|Dij]; [|exfalso; exact (i_sep _ _ _ _ I1 i j f g x Dij Hf Hg Ra Rg)].
  rewrite Hf in Hg. injection Hg as <-.
  assert (Apart : forall m bf, Rb m f bf -> a_size bf <> Fixed -> within (v_sizep (f_view f)) 4 x -> within (v_ptr (f_view f)) (a_cap bf * a_esz bf) x -> False).
  { intros m bf (_ & _ & _ & _ & _ & H6) F W1 W2. destruct (f_block f) as [blk|]; [|destruct H6 as (_ & _ & H6); exact (F H6)].
    destruct H6 as (_ & _ & _ & _ & _ & _ & _ & _ & K9 & _). destruct (K9 F) as (_ & _ & M3 & _). exact (M3 x (conj W1 W2)). }
  assert (Same : a_cap ba = a_cap bb /\ a_esz ba = a_esz bb).
  { destruct R1 as (Z1 & _ & Z2 & _). destruct R2 as (Z3 & _ & Z4 & _). split; congruence. }
  destruct Same as (Sc & Sz).
  destruct C1 as [(F & P & L & W)|(k & K & P & L & C1)]; destruct C2 as [(F' & P' & L' & W')|(k' & K' & P' & L' & C2)].
  - split; assumption.
  - exfalso. apply (Apart m1 ba R1 F); unfold within; [lia|]. rewrite Sc, Sz. lia.
  - exfalso. apply (Apart m2 bb R2 F'); unfold within; [lia|]. rewrite <- Sc, <- Sz. lia.
  - assert (k = k') by lia. subst k'.
    destruct C1 as [(W & In1)|(W & In1)]; destruct C2 as [(W' & In2)|(W' & In2)].
    + destruct (ID t u e e' (i, k) D He He' In1) as (_ & B). contradiction.
    + destruct (ID t u e e' (i, k) D He He' In1) as (B & _). contradiction.
    + destruct (ID u t e' e (i, k) (not_eq_sym D) He' He In2) as (B & _). contradiction.
    + split; assumption.
Qed.

Theorem eprogram_launch orc ops rs st l ps sched r : eruns (bst0 orc) ops = (rs, st) -> upstream_ok (ulog (b_w st)) -> ejudge_all [] ops rs = Good l ->
  ejudge l (ELaunch ps sched) r <> Illegal ->
  (forall any, exists m' thr', e_run (b_h st) (b_m st, ps) any = Ret (m', thr')) /\
  forall before mid m1 thr1 m2 thr2 t u p q a b, e_run (b_h st) (b_m st, ps) before = Ret (m1, thr1) -> e_run (b_h st) (m1, thr1) mid = Ret (m2, thr2) -> t <> u ->
    nth_error thr1 t = Some p -> nth_error thr2 u = Some q -> In a (p_access (b_h st) p) -> In b (p_access (b_h st) q) ->
    (exists x, a_ptr a <= x < a_ptr a + a_len a /\ a_ptr b <= x < a_ptr b + a_len b) -> writes a = false /\ writes b = false.
Proof.
  intros E HU EJ EL. pose proof (eruns_ok ops (bst0 orc) [] (inv0 orc)) as HI. rewrite E in HI. cbn [fst snd] in HI. specialize (HI HU). rewrite EJ in HI.
  cbn [ejudge] in EL. destruct (sruns l ps) as [es|] eqn:ES; [|contradiction]. destruct (independent es && _) eqn:EC; [|contradiction].
  apply andb_prop in EC. destruct EC as (EI & _). apply independent_spec in EI. pose proof (Inv_fits _ _ _ _ HI) as HF. pose proof (J_init l ps es ES EI HF) as J0. split.
  - intros any. destruct (J_run (b_w st) (b_h st) es l EI HF any (b_m st) l ps _ HI J0) as (m1 & thr1 & l1 & R1 & _). exists m1, thr1. exact R1.
  - intros before mid m1 thr1 m2 thr2 t u p q a b R1 R2 D Hp Hq Ha Hb HX.
    destruct (J_run (b_w st) (b_h st) es l EI HF before (b_m st) l ps _ HI J0) as (m1' & thr1' & l1 & R1' & I1 & J1). rewrite R1 in R1'. injection R1' as <- <-.
    destruct (J_run (b_w st) (b_h st) es l EI HF mid m1 l1 thr1 _ I1 J1) as (m2' & thr2' & l2 & R2' & I2 & J2). rewrite R2 in R2'. injection R2' as <- <-.
    exact (no_race (b_w st) m1 m2 (b_h st) es l l1 l2 thr1 thr2 _ _ t u p q a b EI I1 J1 I2 J2 D Hp Hq Ha Hb HX).
Qed.
