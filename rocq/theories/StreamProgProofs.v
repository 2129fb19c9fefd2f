(** Proofs for StreamProg.v: once the stream is finished, memory is what it would be with synchronous copies. *)
From Verif Require Import Base BaseLemmas Copy CopyProofs BufProg BufProgProofs StreamProg.
From Verif Require Placement PlacementProofs.
From Coq Require Import ZArith List Bool Lia Permutation Sorting.Sorted.
Import ListNotations.
Local Open Scope Z_scope.

(** The bytes that an operation touches. *)
Definition foot (a : act) (x : Z) : Prop := match a with QSet n d _ => within d n x | QCopy n s d => within s n x \/ within d n x end.

Lemma put_in m a bs x : within a (Z.of_nat (length bs)) x -> m_byte (put_bytes m a bs) x = nth_error bs (Z.to_nat (x - a)).
Proof. unfold within, put_bytes. cbn [m_byte]. intros H. replace ((a <=? x) && (x <? a + Z.of_nat (length bs))) with true by lia. reflexivity. Qed.
Lemma put_out m a bs x : ~ within a (Z.of_nat (length bs)) x -> m_byte (put_bytes m a bs) x = m_byte m x.
Proof. unfold within, put_bytes. cbn [m_byte]. intros H. replace ((a <=? x) && (x <? a + Z.of_nat (length bs))) with false by lia. reflexivity. Qed.
Lemma within_dec a n x : within a n x \/ ~ within a n x.
Proof. unfold within. lia. Qed.
Lemma get_len m n : forall a bs, get_bytes m a n = Some bs -> length bs = n.
Proof.
  induction n as [|n IH]; intros a bs; cbn [get_bytes]; [intros H; injection H as <-; reflexivity|].
  destruct (m_byte m a); [|discriminate]. destruct (get_bytes m (a + 1) n) eqn:E; [|discriminate]. intros H. injection H as <-. cbn [length]. rewrite (IH _ _ E). reflexivity.
Qed.
Lemma get_same m m1 a n : (forall x, within a n x -> m_byte m1 x = m_byte m x) -> get_bytes m1 a (Z.to_nat n) = get_bytes m a (Z.to_nat n).
Proof. intros H. apply get_bytes_ext. intros i Hi. apply H. unfold within. lia. Qed.

(** What is written is determined by the bytes that are touched; nothing else changes. *)
Lemma put_frame (P : Z -> Prop) m m1 d bs : (forall x, within d (Z.of_nat (length bs)) x -> P x) -> (forall x, P x -> m_byte m1 x = m_byte m x) ->
  (forall x, P x -> m_byte (put_bytes m1 d bs) x = m_byte (put_bytes m d bs) x).
Proof. intros HP H x Hx. destruct (within_dec d (Z.of_nat (length bs)) x) as [W|W]; [rewrite !put_in by exact W; reflexivity|rewrite !put_out by exact W; auto]. Qed.
Lemma act_frame (P : Z -> Prop) a m m' m1 : act_run a m = (Ret tt, m') -> (forall x, foot a x -> P x) -> (forall x, P x -> m_byte m1 x = m_byte m x) ->
  exists m1', act_run a m1 = (Ret tt, m1') /\ (forall x, P x -> m_byte m1' x = m_byte m' x) /\ (forall x, ~ foot a x -> m_byte m1' x = m_byte m1 x) /\ m_dev m1' = m_dev m1.
Proof.
  intros E HP H. destruct a as [n d v|n s d]; cbn [act_run foot] in *.
  - unfold do_memset in *. destruct (n =? 0) eqn:En; [injection E as <-; exists m1; auto|]. destruct (d =? 0); [discriminate|].
    rewrite (get_same m m1 d n) by (intros x Hx; apply H, HP; exact Hx). destruct (get_bytes m d (Z.to_nat n)); [|discriminate]. injection E as <-.
    eexists. split; [reflexivity|].
    assert (W : forall x, within d (Z.of_nat (length (repeat (v mod 256) (Z.to_nat n)))) x -> within d n x) by (intros x; rewrite repeat_length; unfold within; lia).
    split; [|split; [|reflexivity]].
    + apply put_frame; [intros x Hx; apply HP, W; exact Hx|exact H].
    + intros x Hx. apply put_out. intros K. apply Hx, W, K.
  - unfold do_copy in *. destruct (n =? 0) eqn:En; [injection E as <-; exists m1; auto|]. destruct ((s =? 0) || (d =? 0)); [discriminate|].
    rewrite (get_same m m1 s n) by (intros x Hx; apply H, HP; left; exact Hx). rewrite (get_same m m1 d n) by (intros x Hx; apply H, HP; right; exact Hx).
    destruct (get_bytes m s (Z.to_nat n)) as [bs|] eqn:Eb; [|discriminate]. destruct (get_bytes m d (Z.to_nat n)); [|discriminate].
    destruct ((s <? d + n) && (d <? s + n)); [discriminate|]. rewrite kind_unknown in *. injection E as <-. apply get_len in Eb.
    eexists. split; [reflexivity|].
    assert (W : forall x, within d (Z.of_nat (length bs)) x -> within d n x) by (intros x; rewrite Eb; unfold within; lia).
    split; [|split; [|reflexivity]].
    + apply put_frame; [intros x Hx; apply HP; right; apply W; exact Hx|exact H].
    + intros x Hx. apply put_out. intros K. apply Hx. right. apply W, K.
Qed.
Lemma q_frame (P : Z -> Prop) q : forall m m' m1, q_run q m = Some m' -> (forall t a x, In (t, a) q -> foot a x -> P x) -> (forall x, P x -> m_byte m1 x = m_byte m x) ->
  exists m1', q_run q m1 = Some m1' /\ (forall x, P x -> m_byte m1' x = m_byte m' x) /\ (forall x, (forall t a, In (t, a) q -> ~ foot a x) -> m_byte m1' x = m_byte m1 x) /\ m_dev m1' = m_dev m1.
Proof.
  induction q as [|[t a] q IH]; intros m m' m1; cbn [q_run].
  - intros H _ HE. injection H as <-. exists m1. auto.
  - destruct (act_run a m) as [[[]| |] m2] eqn:E; try discriminate. intros H HP HE.
    destruct (act_frame P a m m2 m1 E (fun x Hx => HP t a x (or_introl eq_refl) Hx) HE) as (m3 & R3 & A3 & B3 & D3). rewrite R3.
    destruct (IH m2 m' m3 H (fun t' a' x Hi Hx => HP t' a' x (or_intror Hi) Hx) A3) as (m1' & R & A & B & D).
    exists m1'. split; [exact R|]. split; [exact A|]. split; [|congruence]. intros x Hx. rewrite B by (intros t' a' Hi; apply (Hx t' a'); right; exact Hi). apply B3. apply (Hx t a). left. reflexivity.
Qed.
Lemma q_app q1 : forall q2 m, q_run (q1 ++ q2) m = match q_run q1 m with Some m1 => q_run q2 m1 | None => None end.
Proof. induction q1 as [|[t a] q1 IH]; intros q2 m; cbn [app q_run]; [reflexivity|]. destruct (act_run a m) as [[]]; auto. Qed.
(** The host changes [R], which the stream does not touch. *)
Lemma host_change (R : Z -> Prop) q m m' m1 m2 : q_run q m = Some m' -> (forall x, R x \/ ~ R x) -> (forall t a x, In (t, a) q -> foot a x -> ~ R x) ->
  (forall x, ~ R x -> m_byte m1 x = m_byte m x) -> (forall x, ~ R x -> m_byte m2 x = m_byte m' x) -> (forall x, R x -> m_byte m1 x = m_byte m2 x) ->
  exists m1', q_run q m1 = Some m1' /\ (forall x, m_byte m1' x = m_byte m2 x) /\ m_dev m1' = m_dev m1.
Proof.
  intros HQ Dec HF H1 H2 H3. destruct (q_frame (fun x => ~ R x) q m m' m1 HQ HF H1) as (m1' & Q & A & B & D). exists m1'. split; [exact Q|]. split; [|exact D].
  intros x. destruct (Dec x) as [Hx|Hx].
  - rewrite B; [apply H3; exact Hx|]. intros t a Hi Hf. exact (HF t a x Hi Hf Hx).
  - rewrite A by exact Hx. rewrite H2 by exact Hx. reflexivity.
Qed.
Lemma Inv_ext w m m' h l : Inv w m h l -> (forall x, m_byte m' x = m_byte m x) -> (forall x, m_dev m' x = false) -> Inv w m' h l.
Proof.
  intros HI HE HD. constructor; [|exact (i_sep _ _ _ _ HI)|exact (i_perm _ _ _ _ HI)|exact (i_frees _ _ _ _ HI)|exact HD].
  intros i. pose proof (i_rel _ _ _ _ HI i) as H. destruct (nth_error h i) as [[f|]|]; [|exact H|exact H]. destruct (nth_error l i) as [[a|]|]; try exact H.
  apply (Rb_frame m); [intros x _; apply HE|exact H].
Qed.

(** ** The invariant *)
Definition sorted (q : list (nat * act)) : Prop := StronglySorted le (map fst q).
Record J (st : qst) (s : sst) (m' : cmem) : Prop := mkJ {
  j_run : q_run (q_q st) (b_m (q_b st)) = Some m';
  j_inv : Inv (b_w (q_b st)) m' (b_h (q_b st)) (s_l s);
  j_dev : forall x, m_dev (b_m (q_b st)) x = false;
  j_foot : forall t a, In (t, a) (q_q st) -> exists bs, In (t, bs) (s_pend s) /\
             forall x, foot a x -> exists i f, In i bs /\ nth_error (b_h (q_b st)) i = Some (Some f) /\ region f x;
  j_evs : forall t bs, In (t, bs) (s_pend s) -> In t (q_evs st) /\ (t < q_n st)%nat;
  j_sort : sorted (q_q st);
  j_n : q_n st = s_n s }.

Lemma sorted_skip n : forall q, sorted q -> sorted (skipn n q).
Proof.
  induction n as [|n IH]; intros q H; [exact H|]. destruct q as [|e q]; [exact H|]. cbn [skipn]. apply IH. inversion H; assumption.
Qed.
Lemma in_skip {A} n : forall (q : list A) e, In e (skipn n q) -> In e q.
Proof. induction n as [|n IH]; intros [|x q] e H; cbn [skipn] in H; try exact H. right. apply IH, H. Qed.
Lemma advance_J n st s m' : J st s m' -> exists st', advance n st = Some st' /\ J st' s m' /\ q_q st' = skipn n (q_q st) /\ b_w (q_b st') = b_w (q_b st) /\ b_h (q_b st') = b_h (q_b st) /\ q_n st' = q_n st /\ q_evs st' = q_evs st.
Proof.
  intros HJ. pose proof (j_run _ _ _ HJ) as R. rewrite <- (firstn_skipn n (q_q st)), q_app in R. unfold advance. destruct (q_run (firstn n (q_q st)) (b_m (q_b st))) as [m1|] eqn:E; [|discriminate].
  eexists. split; [reflexivity|]. split; [|repeat split; reflexivity]. constructor; cbn [q_q q_b b_w b_m b_h q_evs q_n].
  - exact R.
  - exact (j_inv _ _ _ HJ).
  - destruct (q_frame (fun _ => True) _ _ _ (b_m (q_b st)) E (fun _ _ _ _ _ => I) (fun _ _ => eq_refl)) as (m1' & E' & _ & _ & D). rewrite E in E'. injection E' as <-. rewrite D. exact (j_dev _ _ _ HJ).
  - intros t a Hi. exact (j_foot _ _ _ HJ t a (in_skip _ _ _ Hi)).
  - exact (j_evs _ _ _ HJ).
  - apply sorted_skip. exact (j_sort _ _ _ HJ).
  - exact (j_n _ _ _ HJ).
Qed.
Lemma drain_J st s m' : J st s m' -> exists st', advance (length (q_q st)) st = Some st' /\ J st' s m' /\ q_q st' = [] /\ b_m (q_b st') = m' /\ b_w (q_b st') = b_w (q_b st) /\ b_h (q_b st') = b_h (q_b st).
Proof.
  intros HJ. destruct (advance_J (length (q_q st)) st s m' HJ) as (st' & E & HJ' & Hq & Hw & Hh & _). rewrite skipn_all in Hq. exists st'. split; [exact E|]. split; [exact HJ'|]. split; [exact Hq|].
  split; [|split; assumption]. pose proof (j_run _ _ _ HJ') as R. rewrite Hq in R. injection R as R. exact R.
Qed.

Lemma upto_above k : forall q t a, sorted q -> In (t, a) (skipn (upto k q) q) -> (k < t)%nat.
Proof.
  induction q as [|[t0 a0] q IH]; intros t a HS; cbn [upto skipn]; [intros []|]. destruct (Nat.leb_spec t0 k) as [Hk|Hk]; cbn [skipn].
  - apply IH. inversion HS; assumption.
  - intros Hi. cbn [map fst] in HS. inversion HS as [|? ? _ HF]; subst. destruct Hi as [E|Hi]; [injection E as <- _; exact Hk|].
    rewrite Forall_forall in HF. specialize (HF t (in_map fst _ (t, a) Hi)). cbn in HF. lia.
Qed.

Lemma tick_ok st s m' n : J st s m' -> match qjudge s (QTick n) (fst (qstep st (QTick n))) with QGood s' => exists m2, J (snd (qstep st (QTick n))) s' m2 | QIllegal => True | QWrong => False end.
Proof. intros HJ. cbn [qstep]. destruct (advance_J n st s m' HJ) as (st' & -> & HJ' & _). cbn [fst snd qjudge]. exists m'. exact HJ'. Qed.
Lemma wait_ok st s m' k : J st s m' -> match qjudge s (QWait k) (fst (qstep st (QWait k))) with QGood s' => exists m2, J (snd (qstep st (QWait k))) s' m2 | QIllegal => True | QWrong => False end.
Proof.
  intros HJ. cbn [qstep qjudge]. destruct (existsb (fun e => Nat.eqb k (fst e)) (s_pend s)) eqn:EP.
  - apply existsb_exists in EP. destruct EP as ([t bs] & Hi & Et). apply Nat.eqb_eq in Et. cbn [fst] in Et. subst t. destruct (j_evs _ _ _ HJ k bs Hi) as (HE & _).
    assert (EX : existsb (Nat.eqb k) (q_evs st) = true) by (apply existsb_exists; exists k; split; [exact HE|apply Nat.eqb_refl]). rewrite EX.
    destruct (advance_J (upto k (q_q st)) st s m' HJ) as (st' & -> & HJ' & Hq & Hw & Hh & Hn & Hev). cbn [fst snd]. exists m'. destruct HJ' as [K1 K2 K3 K4 K5 K6 K7]. constructor; cbn [s_l s_pend s_n]; try assumption.
    + intros t a Hta. destruct (K4 t a Hta) as (bs' & Hb & HF). exists bs'. split; [|exact HF]. apply filter_In. split; [exact Hb|]. cbn [fst]. apply Nat.ltb_lt.
      rewrite Hq in Hta. exact (upto_above k _ t a (j_sort _ _ _ HJ) Hta).
    + intros t bs' Hb. apply filter_In in Hb. exact (K5 t bs' (proj1 Hb)).
  - destruct (existsb (Nat.eqb k) (q_evs st)).
    + destruct (advance_J (upto k (q_q st)) st s m' HJ) as (st' & -> & HJ' & _). cbn [fst snd]. exists m'. destruct s; exact HJ'.
    + cbn [fst snd]. exists m'. destruct s; exact HJ.
Qed.

(** ** Calls of the host *)
Lemma not_busy pend i t bs : busy pend i = false -> In (t, bs) pend -> ~ In i bs.
Proof.
  intros H Hi Hb. assert (K : busy pend i = true); [|congruence]. apply existsb_exists. exists (t, bs). split; [exact Hi|]. apply existsb_exists. exists i. split; [exact Hb|apply Nat.eqb_refl].
Qed.
Lemma region_dec f x : region f x \/ ~ region f x.
Proof. unfold region. destruct (f_block f); [unfold in_block; lia|tauto]. Qed.
Lemma untouched st s m' i f : J st s m' -> busy (s_pend s) i = false -> nth_error (b_h (q_b st)) i = Some (Some f) -> forall t a x, In (t, a) (q_q st) -> foot a x -> ~ region f x.
Proof.
  intros HJ HB Hf t a x Hi Hx Hr. destruct (j_foot _ _ _ HJ t a Hi) as (bs & Hb & HF). destruct (HF x Hx) as (k & g & Hk & Hg & Hrg).
  assert (D : k <> i) by (intros ->; exact (not_busy _ _ _ _ HB Hb Hk)). exact (i_sep _ _ _ _ (j_inv _ _ _ HJ) k i g f x D Hg Hf Hrg Hr).
Qed.
(** Where the stream touches nothing, memory is already what it will be. *)
Lemma settled st s m' x : J st s m' -> (forall t a, In (t, a) (q_q st) -> ~ foot a x) -> m_byte m' x = m_byte (b_m (q_b st)) x.
Proof.
  intros HJ HN. destruct (q_frame (fun _ => True) _ _ _ (b_m (q_b st)) (j_run _ _ _ HJ) (fun _ _ _ _ _ => I) (fun _ _ => eq_refl)) as (m1 & E & _ & B & _).
  rewrite (j_run _ _ _ HJ) in E. injection E as <-. exact (B x HN).
Qed.
Lemma settled_region st s m' i f x : J st s m' -> busy (s_pend s) i = false -> nth_error (b_h (q_b st)) i = Some (Some f) -> region f x -> m_byte m' x = m_byte (b_m (q_b st)) x.
Proof. intros HJ HB Hf Hr. apply (settled st s m' x HJ). intros t a Hi Hx. exact (untouched st s m' i f HJ HB Hf t a x Hi Hx Hr). Qed.

Lemma host_J (R : Z -> Prop) st s m' b1 m2 l' pend' : J st s m' -> (forall x, R x \/ ~ R x) -> (forall t a x, In (t, a) (q_q st) -> foot a x -> ~ R x) ->
  (forall x, ~ R x -> m_byte (b_m b1) x = m_byte (b_m (q_b st)) x) -> (forall x, ~ R x -> m_byte m2 x = m_byte m' x) -> (forall x, R x -> m_byte (b_m b1) x = m_byte m2 x) ->
  (forall x, m_dev (b_m b1) x = false) -> Inv (b_w b1) m2 (b_h b1) l' ->
  (forall t a, In (t, a) (q_q st) -> exists bs, In (t, bs) pend' /\ forall x, foot a x -> exists i f, In i bs /\ nth_error (b_h b1) i = Some (Some f) /\ region f x) ->
  (forall t bs, In (t, bs) pend' -> exists bs', In (t, bs') (s_pend s)) ->
  exists m3, J (next (with_b st b1)) (mkS l' pend' (S (s_n s))) m3.
Proof.
  intros HJ Dec HF H1 H2 H3 HD HI HF' HP. destruct (host_change R _ _ m' (b_m b1) m2 (j_run _ _ _ HJ) Dec HF H1 H2 H3) as (m3 & Q & E & D).
  exists m3. constructor; cbn [next with_b q_b q_q q_evs q_n s_l s_pend s_n].
  - exact Q.
  - apply (Inv_ext _ m2); [exact HI|exact E|]. rewrite D. exact HD.
  - exact HD.
  - exact HF'.
  - intros t bs Hb. destruct (HP t bs Hb) as (bs' & Hb'). destruct (j_evs _ _ _ HJ t bs' Hb'). split; [assumption|lia].
  - exact (j_sort _ _ _ HJ).
  - rewrite (j_n _ _ _ HJ). reflexivity.
Qed.

Definition ok (st : qst) (s : sst) (o : bop) : Prop :=
  match qjudge s (QOp o) (fst (qstep st (QOp o))) with QGood s' => exists m2, J (snd (qstep st (QOp o))) s' m2 | QIllegal => True | QWrong => False end.
Definition sync (st : qst) (m' : cmem) : bst := mkBst (b_w (q_b st)) m' (b_h (q_b st)).
Lemma sync_ok st s m' o : J st s m' -> upstream_ok (ulog (b_w (snd (bstep (sync st m') o)))) ->
  match judge (s_l s) o (fst (bstep (sync st m') o)) with
  | Good l' => Inv (b_w (snd (bstep (sync st m') o))) (b_m (snd (bstep (sync st m') o))) (b_h (snd (bstep (sync st m') o))) l' | Illegal => True | Wrong => False end.
Proof.
  intros HJ HU. apply (step_ok (sync st m') (s_l s) o); [exact (j_inv _ _ _ HJ)| |exact HU]. destruct (bstep (sync st m') o); reflexivity.
Qed.

Lemma new_ok st s m' esz eal cap rs g : J st s m' -> upstream_ok (ulog (b_w (q_b (snd (qstep st (QOp (ONew esz eal cap rs g))))))) -> ok st s (ONew esz eal cap rs g).
Proof.
  intros HJ HU. pose proof (sync_ok st s m' (ONew esz eal cap rs g) HJ) as HS. unfold ok. cbn [qjudge host_uses existsb renamed starts]. rewrite app_nil_r.
  cbn [qstep fst snd next with_b q_b] in HU. cbn [qstep fst snd]. cbn [bstep sync b_w b_m b_h] in *.
  destruct (Placement.vector_buffer esz eal cap rs (b_w (q_b st))) as [[[v ob]|e|] w1]; cbn [fst snd b_w b_m b_h] in *; specialize (HS HU).
  - destruct (judge (s_l s) _ RDone) as [l'| |]; [|exact I|exact HS].
    assert (SEP : forall t a x, In (t, a) (q_q st) -> foot a x -> ~ match ob with Some b => in_block x b | None => False end).
    { intros t a x Hi Hx Hr. destruct (j_foot _ _ _ HJ t a Hi) as (bs & _ & HF). destruct (HF x Hx) as (k & f & _ & Hf & Hrf).
      assert (Hk : (k < length (b_h (q_b st)))%nat) by (apply nth_error_Some; rewrite Hf; discriminate).
      refine (i_sep _ _ _ _ HS k (length (b_h (q_b st))) f _ x ltac:(lia) _ _ Hrf _); [rewrite nth_error_app1 by exact Hk; exact Hf|rewrite nth_error_app2 by lia; rewrite Nat.sub_diag; reflexivity|exact Hr]. }
    match goal with |- exists m2, J (next (with_b _ ?bb)) _ _ => refine (host_J (fun x => match ob with Some b => in_block x b | None => False end) st s m' bb _ l' (s_pend s) HJ _ SEP _ _ _ _ HS _ _) end; cbn [with_h b_m b_h].
    + intros x. destruct ob; [unfold in_block; lia|tauto].
    + intros x Hx. destruct ob as [b|]; [|reflexivity]. unfold gain, in_block in *. cbn [m_byte]. replace ((bptr b <=? x) && (x <? bptr b + bsize b)) with false by lia. reflexivity.
    + intros x Hx. destruct ob as [b|]; [|reflexivity]. unfold gain, in_block in *. cbn [m_byte]. replace ((bptr b <=? x) && (x <? bptr b + bsize b)) with false by lia. reflexivity.
    + intros x Hx. destruct ob as [b|]; [|contradiction]. unfold gain, in_block in *. cbn [m_byte]. replace ((bptr b <=? x) && (x <? bptr b + bsize b)) with true by lia. reflexivity.
    + intros x. destruct ob; exact (j_dev _ _ _ HJ x).
    + intros t a Hi. destruct (j_foot _ _ _ HJ t a Hi) as (bs & Hb & HF). exists bs. split; [exact Hb|]. intros x Hx. destruct (HF x Hx) as (k & f & Hk & Hf & Hr). exists k, f. split; [exact Hk|]. split; [|exact Hr].
      rewrite nth_error_app1; [exact Hf|]. apply nth_error_Some. rewrite Hf. discriminate.
    + intros t bs Hb. exists bs. exact Hb.
  - destruct (judge (s_l s) _ (RExn e)) as [l'| |]; [|exact I|exact HS].
    match goal with |- exists m2, J (next (with_b _ ?bb)) _ _ => refine (host_J (fun _ => False) st s m' bb _ l' (s_pend s) HJ _ _ _ _ _ _ HS _ _) end; cbn [with_h b_m b_h]; try tauto.
    + intros x. exact (j_dev _ _ _ HJ x).
    + intros t a Hi. destruct (j_foot _ _ _ HJ t a Hi) as (bs & Hb & HF). exists bs. split; [exact Hb|]. intros x Hx. destruct (HF x Hx) as (k & f & Hk & Hf & Hr). exists k, f. split; [exact Hk|]. split; [|exact Hr].
      rewrite nth_error_app1; [exact Hf|]. apply nth_error_Some. rewrite Hf. discriminate.
    + intros t bs Hb. exists bs. exact Hb.
  - cbn [judge] in *. destruct ((0 <? esz) && _ && _ && _ && _ && _); [exact HS|exact I].
Qed.

Lemma lose_out b m x : ~ in_block x b -> m_byte (lose b m) x = m_byte m x.
Proof. unfold lose, in_block. cbn [m_byte]. intros H. replace ((bptr b <=? x) && (x <? bptr b + bsize b)) with false by lia. reflexivity. Qed.
Lemma lose_in b m x : in_block x b -> m_byte (lose b m) x = None.
Proof. unfold lose, in_block. cbn [m_byte]. intros H. replace ((bptr b <=? x) && (x <? bptr b + bsize b)) with true by lia. reflexivity. Qed.
Lemma release_out o st x : ~ match o with Some b => in_block x b | None => False end -> m_byte (b_m (release o st)) x = m_byte (b_m st) x.
Proof. destruct o as [b|]; [apply lose_out|reflexivity]. Qed.
Lemma release_in o st st' x : match o with Some b => in_block x b | None => False end -> m_byte (b_m (release o st)) x = m_byte (b_m (release o st')) x.
Proof. destruct o as [b|]; [|contradiction]. intros H. cbn [release b_m]. rewrite !lose_in by exact H. reflexivity. Qed.
Lemma release_w o st st' : b_w st = b_w st' -> b_w (release o st) = b_w (release o st').
Proof. destruct o; cbn [release b_w]; congruence. Qed.
Lemma release_dev o st x : m_dev (b_m (release o st)) x = m_dev (b_m st) x.
Proof. destruct o; reflexivity. Qed.

Lemma destroy_ok st s m' i : J st s m' -> upstream_ok (ulog (b_w (q_b (snd (qstep st (QOp (ODestroy i))))))) -> ok st s (ODestroy i).
Proof.
  intros HJ HU. pose proof (sync_ok st s m' (ODestroy i) HJ) as HS. unfold ok. cbn [qjudge host_uses existsb renamed starts]. rewrite app_nil_r, orb_false_r.
  destruct (busy (s_pend s) i) eqn:EB; [exact I|].
  cbn [qstep fst snd next with_b q_b] in HU. cbn [qstep fst snd]. cbn [bstep] in *. change (get_buf (sync st m') i) with (get_buf (q_b st) i) in HS.
  destruct (get_buf (q_b st) i) as [f|] eqn:Ef; cbn [fst snd with_h b_w b_m b_h] in *.
  - rewrite (release_w (f_block f) (sync st m') (q_b st) eq_refl) in HS. specialize (HS HU). destruct (judge (s_l s) _ RDone) as [l'| |]; [|exact I|exact HS]. apply get_buf_some in Ef.
    match goal with |- exists m2, J (next (with_b _ ?bb)) _ _ => refine (host_J (region f) st s m' bb _ l' (s_pend s) HJ (region_dec f) (untouched st s m' i f HJ EB Ef) _ _ _ _ HS _ _) end; cbn [with_h b_m b_h].
    + intros x Hx. apply release_out. exact Hx.
    + intros x Hx. apply release_out. exact Hx.
    + intros x Hx. apply release_in. exact Hx.
    + intros x. rewrite release_dev. exact (j_dev _ _ _ HJ x).
    + intros t a Hi. destruct (j_foot _ _ _ HJ t a Hi) as (bs & Hb & HF). exists bs. split; [exact Hb|]. intros x Hx. destruct (HF x Hx) as (k & g & Hk & Hg & Hr). exists k, g. split; [exact Hk|]. split; [|exact Hr].
      rewrite nth_upd. replace (Nat.eqb i k) with false; [exact Hg|]. symmetry. apply Nat.eqb_neq. intros ->. exact (not_busy _ _ _ _ EB Hb Hk).
    + intros t bs Hb. exists bs. exact Hb.
  - specialize (HS HU). destruct (judge (s_l s) (ODestroy i) RUB) as [l'| |] eqn:EJ; [|exact I|exact HS]. exfalso. exact (judge_defined _ _ _ EJ).
Qed.

Lemma move_ok st s m' i j : J st s m' -> upstream_ok (ulog (b_w (q_b (snd (qstep st (QOp (OMove i j))))))) -> ok st s (OMove i j).
Proof.
  intros HJ HU. pose proof (sync_ok st s m' (OMove i j) HJ) as HS. unfold ok. cbn [qjudge host_uses existsb starts]. rewrite app_nil_r, orb_false_r.
  destruct (busy (s_pend s) j) eqn:EB; [exact I|].
  cbn [qstep fst snd next with_b q_b] in HU. cbn [qstep fst snd]. cbn [bstep] in *. change (get_buf (sync st m') i) with (get_buf (q_b st) i) in HS. change (get_buf (sync st m') j) with (get_buf (q_b st) j) in HS.
  destruct (get_buf (q_b st) i) as [f|] eqn:Ef; cbn [fst snd with_h b_w b_m b_h] in *.
  2: { specialize (HS HU). destruct (judge (s_l s) (OMove i j) RUB) as [l'| |] eqn:EJ; [|exact I|exact HS]. exfalso. exact (judge_defined _ _ _ EJ). }
  assert (Hij : judge (s_l s) (OMove i j) RDone <> Illegal -> i <> j /\ exists o, nth_error (b_h (q_b st)) j = Some o).
  { cbn [judge]. destruct (alive (s_l s) i); [|contradiction]. destruct (nth_error (s_l s) j) as [o|] eqn:Ej; [|contradiction]. destruct (Nat.eqb_spec i j); [contradiction|]. intros _. split; [assumption|].
    pose proof (i_rel _ _ _ _ (j_inv _ _ _ HJ) j) as Rj. rewrite Ej in Rj. destruct (nth_error (b_h (q_b st)) j) as [o'|]; [exists o'; reflexivity|destruct o; contradiction]. }
  apply get_buf_some in Ef.
  set (og := get_buf (q_b st) j) in *. set (R := fun x => match og with Some g => region g x | None => False end).
  assert (EW : b_w (match og with Some g => release (f_block g) (sync st m') | None => sync st m' end) = b_w (match og with Some g => release (f_block g) (q_b st) | None => q_b st end)).
  { destruct og; [apply release_w; reflexivity|reflexivity]. }
  rewrite EW in HS. specialize (HS HU). destruct (judge (s_l s) _ RDone) as [l'| |] eqn:EJ; [|exact I|exact HS]. destruct (Hij ltac:(discriminate)) as (D & oj & Hoj).
  assert (FT : forall t a, In (t, a) (q_q st) -> exists bs, In (t, bs) (renamed (OMove i j) (s_pend s)) /\
      forall x, foot a x -> exists k g, In k bs /\ nth_error (upd (upd (b_h (q_b st)) j (Some f)) i None) k = Some (Some g) /\ region g x).
  { intros t a Hi. destruct (j_foot _ _ _ HJ t a Hi) as (bs & Hb & HF). exists (map (fun x => if Nat.eqb x i then j else x) bs). split.
    { cbn [renamed]. apply in_map_iff. exists (t, bs). split; [reflexivity|exact Hb]. }
    intros x Hx. destruct (HF x Hx) as (k & g & Hk & Hg & Hr). assert (Hkj : k <> j) by (intros ->; exact (not_busy _ _ _ _ EB Hb Hk)).
    exists (if Nat.eqb k i then j else k), g. split; [apply in_map_iff; exists k; split; [reflexivity|exact Hk]|]. split; [|exact Hr]. rewrite !nth_upd.
    destruct (Nat.eqb_spec k i) as [->|Hki].
    - replace (Nat.eqb i j) with false by (symmetry; apply Nat.eqb_neq; exact D). rewrite Nat.eqb_refl, Hoj. congruence.
    - replace (Nat.eqb i k) with false by (symmetry; apply Nat.eqb_neq; congruence). replace (Nat.eqb j k) with false by (symmetry; apply Nat.eqb_neq; congruence). exact Hg. }
  assert (PR : forall t bs, In (t, bs) (renamed (OMove i j) (s_pend s)) -> exists bs', In (t, bs') (s_pend s)).
  { intros t bs Hb. cbn [renamed] in Hb. apply in_map_iff in Hb. destruct Hb as ([t' bs'] & E & Hb). injection E as <- _. exists bs'. exact Hb. }
  assert (HB1 : b_w (with_h (match og with Some g => release (f_block g) (q_b st) | None => q_b st end) (upd (upd (b_h (q_b st)) j (Some f)) i None)) = b_w (match og with Some g => release (f_block g) (q_b st) | None => q_b st end)) by reflexivity.
  match goal with |- exists m2, J (next (with_b _ ?bb)) _ _ => refine (host_J R st s m' bb _ l' (renamed (OMove i j) (s_pend s)) HJ _ _ _ _ _ _ HS FT PR) end; cbn [with_h b_m b_h].
  - intros x. unfold R. destruct og; [apply region_dec|tauto].
  - intros t a x Hi Hx. unfold R. destruct og as [g|] eqn:Eg; [|tauto]. unfold og in Eg. apply get_buf_some in Eg. exact (untouched st s m' j g HJ EB Eg t a x Hi Hx).
  - intros x Hx. unfold R in Hx. destruct og as [g|]; [apply release_out; exact Hx|reflexivity].
  - intros x Hx. unfold R in Hx. destruct og as [g|]; [apply release_out; exact Hx|reflexivity].
  - intros x Hx. unfold R in Hx. destruct og as [g|]; [apply release_in; exact Hx|contradiction].
  - intros x. destruct og as [g|]; [rewrite release_dev|]; exact (j_dev _ _ _ HJ x).
Qed.

Lemma copy_in_changes bs dst m m1 : do_copy_in type_unknown bs dst m = (Ret tt, m1) -> m1 = put_bytes m dst bs \/ m1 = m.
Proof.
  unfold do_copy_in. destruct bs as [|c bs]; [intros H; injection H as <-; right; reflexivity|]. destruct (dst =? 0); [discriminate|]. destruct (get_bytes _ _ _); [|discriminate].
  rewrite kind_unknown. intros H. injection H as <-. left. reflexivity.
Qed.
(** The host writes bytes of a buffer. *)
Lemma poke_ok st s m' i o bs dst : J st s m' -> bs <> [] -> host_uses o = [i] -> (forall p, renamed o p = p) -> (forall l r, starts l o r = []) ->
  (forall b, bstep b o = match get_buf b i with Some f => call b (do_copy_in type_unknown bs (dst f) (b_m b)) (fun _ => RDone) | None => (RUB, b) end) ->
  qstep st (QOp o) = (fst (bstep (q_b st) o), next (with_b st (snd (bstep (q_b st) o)))) ->
  (forall r, judge (s_l s) o r = Illegal) \/ (forall f, nth_error (b_h (q_b st)) i = Some (Some f) -> forall x, within (dst f) (Z.of_nat (length bs)) x -> region f x) ->
  upstream_ok (ulog (b_w (q_b (snd (qstep st (QOp o)))))) -> ok st s o.
Proof.
  intros HJ Hbs Hu Hr Hs Hb Hq Hleg HU. pose proof (sync_ok st s m' o HJ) as HS. unfold ok. cbn [qjudge]. rewrite Hu, Hr, Hs, app_nil_r. cbn [existsb]. rewrite orb_false_r.
  destruct Hleg as [Hleg|Hleg]; [destruct (busy (s_pend s) i); [exact I|]; rewrite Hleg; exact I|].
  destruct (busy (s_pend s) i) eqn:EB; [exact I|]. rewrite Hq in HU |- *. cbn [fst snd next with_b q_b] in HU. cbn [fst snd]. rewrite Hb in *. change (get_buf (sync st m') i) with (get_buf (q_b st) i) in HS.
  destruct (get_buf (q_b st) i) as [f|] eqn:Ef; cbn [fst snd call b_w b_m b_h] in *.
  2: { specialize (HS HU). destruct (judge (s_l s) o RUB) as [l'| |] eqn:EJ; [|exact I|exact HS]. exfalso. exact (judge_defined _ _ _ EJ). }
  specialize (HS HU). apply get_buf_some in Ef. pose proof (Hleg f Ef) as HR.
  assert (SET : forall x, region f x -> m_byte m' x = m_byte (b_m (q_b st)) x) by (intros x Hx; exact (settled_region st s m' i f x HJ EB Ef Hx)).
  assert (GE : get_bytes m' (dst f) (length bs) = get_bytes (b_m (q_b st)) (dst f) (length bs)) by (apply get_bytes_ext; intros k Hk; apply SET, HR; unfold within; lia).
  assert (DI : forall m, do_copy_in type_unknown bs (dst f) m = if dst f =? 0 then (UB, m) else match get_bytes m (dst f) (length bs) with Some _ => (Ret tt, put_bytes m (dst f) bs) | None => (UB, m) end).
  { intros m. unfold do_copy_in. destruct bs; [contradiction|]. rewrite kind_unknown. reflexivity. }
  rewrite DI in *. cbn [sync b_m b_w b_h] in HS. rewrite GE in HS. destruct (dst f =? 0); cbn [fst snd] in *.
  { destruct (judge (s_l s) o RUB) as [l'| |] eqn:EJ; [|exact I|exact HS]. exfalso. exact (judge_defined _ _ _ EJ). }
  destruct (get_bytes (b_m (q_b st)) (dst f) (length bs)); cbn [fst snd] in *.
  2: { destruct (judge (s_l s) o RUB) as [l'| |] eqn:EJ; [|exact I|exact HS]. exfalso. exact (judge_defined _ _ _ EJ). }
  destruct (judge (s_l s) o RDone) as [l'| |]; [|exact I|exact HS].
  match goal with |- exists m2, J (next (with_b _ ?bb)) _ _ => refine (host_J (region f) st s m' bb _ l' (s_pend s) HJ (region_dec f) (untouched st s m' i f HJ EB Ef) _ _ _ _ HS _ _) end; cbn [b_m b_h].
  - intros x Hx. apply put_out. intros W. exact (Hx (HR x W)).
  - intros x Hx. apply put_out. intros W. exact (Hx (HR x W)).
  - intros x Hx. destruct (within_dec (dst f) (Z.of_nat (length bs)) x) as [W|W]; [rewrite !put_in by exact W; reflexivity|rewrite !put_out by exact W; symmetry; exact (SET x Hx)].
  - intros x. exact (j_dev _ _ _ HJ x).
  - exact (j_foot _ _ _ HJ).
  - intros t bs' Hb'. exists bs'. exact Hb'.
Qed.
Lemma alive_none_illegal l i o r : alive l i = None -> match o with OPut k _ _ | OSetSize k _ | OGet k _ => k = i | _ => False end -> judge l o r = Illegal.
Proof. intros H. destruct o; try contradiction; intros ->; cbn [judge]; rewrite H; reflexivity. Qed.
Lemma alive_Rb st s m' i a f : J st s m' -> alive (s_l s) i = Some a -> nth_error (b_h (q_b st)) i = Some (Some f) -> Rb m' f a.
Proof. intros HJ Ha Hf. apply alive_some in Ha. destruct (alive_buf _ _ _ _ _ _ (j_inv _ _ _ HJ) Ha) as (f' & Hf' & R). rewrite Hf in Hf'. injection Hf' as <-. exact R. Qed.

Lemma put_ok st s m' i k v : J st s m' -> upstream_ok (ulog (b_w (q_b (snd (qstep st (QOp (OPut i k v))))))) -> ok st s (OPut i k v).
Proof.
  intros HJ HU. apply (poke_ok st s m' i (OPut i k v) [v] (fun f => v_ptr (f_view f) + k) HJ ltac:(discriminate)); try reflexivity; [|exact HU].
  destruct (alive (s_l s) i) as [a|] eqn:Ea; [|left; intros r; apply (alive_none_illegal _ i); [exact Ea|reflexivity]].
  destruct ((0 <=? k) && (k <? a_cap a * a_esz a)) eqn:Ek; [right|left; intros r; cbn [judge]; rewrite Ea, Ek; reflexivity].
  intros f Hf x Hx. apply (Rb_region_bytes m' f a x (alive_Rb _ _ _ _ _ _ HJ Ea Hf)). unfold within in *. cbn [length] in Hx. lia.
Qed.
Lemma setsize_ok st s m' i n : J st s m' -> upstream_ok (ulog (b_w (q_b (snd (qstep st (QOp (OSetSize i n))))))) -> ok st s (OSetSize i n).
Proof.
  intros HJ HU. apply (poke_ok st s m' i (OSetSize i n) (le32 n) (fun f => v_sizep (f_view f)) HJ ltac:(discriminate)); try reflexivity; [|exact HU].
  destruct (alive (s_l s) i) as [a|] eqn:Ea; [|left; intros r; apply (alive_none_illegal _ i); [exact Ea|reflexivity]].
  assert (K : a_size a = Fixed \/ a_size a <> Fixed) by (destruct (a_size a); auto; right; discriminate).
  destruct K as [K|K]; [left; intros r; cbn [judge]; rewrite Ea, K; reflexivity|right].
  intros f Hf x Hx. exact (Rb_region_size m' f a x (alive_Rb _ _ _ _ _ _ HJ Ea Hf) K Hx).
Qed.
Lemma next_J st s m' : J st s m' -> J (next st) (mkS (s_l s) (s_pend s) (S (s_n s))) m'.
Proof. intros [K1 K2 K3 K4 K5 K6 K7]. constructor; cbn [next q_b q_q q_evs q_n s_l s_pend s_n]; try assumption; [|congruence]. intros t bs Hb. destruct (K5 t bs Hb). split; [assumption|lia]. Qed.
Lemma get_ok st s m' i k : J st s m' -> upstream_ok (ulog (b_w (q_b (snd (qstep st (QOp (OGet i k))))))) -> ok st s (OGet i k).
Proof.
  intros HJ HU. pose proof (sync_ok st s m' (OGet i k) HJ) as HS. unfold ok. cbn [qjudge host_uses existsb renamed starts]. rewrite app_nil_r, orb_false_r.
  destruct (busy (s_pend s) i) eqn:EB; [exact I|].
  cbn [qstep fst snd next with_b q_b] in HU. cbn [qstep fst snd]. cbn [bstep] in *. change (get_buf (sync st m') i) with (get_buf (q_b st) i) in HS.
  destruct (get_buf (q_b st) i) as [f|] eqn:Ef; cbn [fst snd call b_w b_m b_h] in *.
  2: { specialize (HS HU). destruct (judge (s_l s) _ RUB) as [l'| |] eqn:EJ; [|exact I|exact HS]. exfalso. exact (judge_defined _ _ _ EJ). }
  specialize (HS HU). apply get_buf_some in Ef. cbn [judge] in *.
  destruct (alive (s_l s) i) as [a|] eqn:Ea; [|exact I]. destruct (0 <=? k) eqn:Ek; [|exact I]. destruct (nth_error (a_bytes a) (Z.to_nat k)) as [[v|]|] eqn:Ev; try exact I.
  pose proof (alive_Rb _ _ _ _ _ _ HJ Ea Ef) as R. assert (Hl : (Z.to_nat k < length (a_bytes a))%nat) by (apply nth_error_Some; rewrite Ev; discriminate).
  assert (GE : get_bytes m' (v_ptr (f_view f) + k) (Z.to_nat 1) = get_bytes (b_m (q_b st)) (v_ptr (f_view f) + k) (Z.to_nat 1)).
  { apply get_bytes_ext. intros y Hy. apply (settled_region st s m' i f _ HJ EB Ef). apply (Rb_region_bytes m' f a _ R). destruct R as (_ & _ & _ & _ & L & _). unfold within. lia. }
  assert (DO : forall m, do_copy_out type_unknown 1 (v_ptr (f_view f) + k) m = if v_ptr (f_view f) + k =? 0 then (UB, m) else match get_bytes m (v_ptr (f_view f) + k) (Z.to_nat 1) with Some bs => (Ret bs, m) | None => (UB, m) end).
  { intros m. unfold do_copy_out. rewrite kind_unknown. reflexivity. }
  rewrite DO in *. cbn [sync b_m b_w b_h] in HS. rewrite GE in HS. destruct (v_ptr (f_view f) + k =? 0); cbn [fst snd expect] in *; [exact HS|].
  destruct (get_bytes (b_m (q_b st)) (v_ptr (f_view f) + k) (Z.to_nat 1)) as [bs|]; cbn [fst snd expect] in *; [|exact HS].
  destruct (hd 0 bs =? v); [|exact HS]. exists m'. replace (next (with_b st _)) with (next st) by (destruct st as [[] ? ? ?]; reflexivity). apply next_J. exact HJ.
Qed.

(** ** Calls that use the stream *)
Lemma sorted_end q n a : sorted q -> (forall t b, In (t, b) q -> (t <= n)%nat) -> sorted (q ++ [(n, a)]).
Proof.
  unfold sorted. rewrite map_app. cbn [map fst]. induction q as [|[t b] q IH]; intros HS H; cbn [map app fst].
  - constructor; constructor.
  - cbn [map fst] in HS. inversion HS as [|? ? HS' HF]; subst. constructor.
    + apply IH; [exact HS'|]. intros t' b' Hi. apply (H t' b'). right. exact Hi.
    + apply Forall_app. split; [exact HF|]. constructor; [|constructor]. apply (H t b). left. reflexivity.
Qed.
Lemma enqueue_J st l pend n a mq m3 l' bs : q_run (q_q st) (b_m (q_b st)) = Some mq -> act_run a mq = (Ret tt, m3) -> Inv (b_w (q_b st)) m3 (b_h (q_b st)) l' ->
  (forall x, m_dev (b_m (q_b st)) x = false) ->
  (forall t a, In (t, a) (q_q st) -> exists bs, In (t, bs) (s_pend (mkS l pend n)) /\ forall x, foot a x -> exists i f, In i bs /\ nth_error (b_h (q_b st)) i = Some (Some f) /\ region f x) ->
  (forall t bs, In (t, bs) pend -> In t (q_evs st) /\ (t < q_n st)%nat) -> sorted (q_q st) -> q_n st = n ->
  (forall x, foot a x -> exists i f, In i bs /\ nth_error (b_h (q_b st)) i = Some (Some f) /\ region f x) ->
  J (enqueue st a) (mkS l' (pend ++ [(n, bs)]) (S n)) m3.
Proof.
  intros HQ HA HI HD HF HE HS HN Ha. cbn [s_pend] in HF. constructor; cbn [enqueue q_b q_q q_evs q_n s_l s_pend s_n].
  - rewrite q_app, HQ. cbn [q_run]. rewrite HA. reflexivity.
  - exact HI.
  - exact HD.
  - intros t b Hi. apply in_app_or in Hi. destruct Hi as [Hi|[E|[]]].
    + destruct (HF t b Hi) as (bs' & Hb & HX). exists bs'. split; [apply in_or_app; left; exact Hb|exact HX].
    + injection E as <- <-. exists bs. split; [apply in_or_app; right; left; congruence|exact Ha].
  - intros t b Hi. apply in_app_or in Hi. destruct Hi as [Hi|[E|[]]].
    + destruct (HE t b Hi). split; [right; assumption|lia].
    + injection E as <- <-. split; [left; exact HN|lia].
  - apply sorted_end; [exact HS|]. intros t b Hi. destruct (HF t b Hi) as (bs' & Hb & _). destruct (HE t bs' Hb). lia.
  - congruence.
Qed.

Lemma fixed_dec (z : asize) : z = Fixed \/ z <> Fixed.
Proof. destruct z; auto; right; discriminate. Qed.
Lemma Rb_sizep m f a : Rb m f a -> (a_size a = Fixed -> v_sizep (f_view f) = 0) /\ (a_size a <> Fixed -> v_sizep (f_view f) <> 0 /\ v_cap (f_view f) <> 0).
Proof.
  intros (H1 & H2 & H3 & H4 & H5 & H6). destruct (f_block f) as [b|].
  - destruct H6 as (K1 & _ & _ & _ & _ & _ & _ & K8 & K9 & _). split; [exact K8|]. intros H. destruct (K9 H) as (L & _). split; [exact L|lia].
  - destruct H6 as (_ & K2 & K3). split; [intros _; exact K2|]. intros H. contradiction.
Qed.
Lemma setup_ok st s m' i : J st s m' -> upstream_ok (ulog (b_w (q_b (snd (qstep st (QOp (OSetup i))))))) -> ok st s (OSetup i).
Proof.
  intros HJ HU. pose proof (sync_ok st s m' (OSetup i) HJ) as HS. unfold ok. cbn [qjudge host_uses existsb renamed starts].
  cbn [qstep] in HU |- *. cbn [bstep] in HS. change (get_buf (sync st m') i) with (get_buf (q_b st) i) in HS. cbn [judge] in *.
  destruct (alive (s_l s) i) as [a|] eqn:Ea; [|exact I].
  assert (GB : exists f, nth_error (b_h (q_b st)) i = Some (Some f)). { pose proof Ea as Ea'. apply alive_some in Ea'. destruct (alive_buf _ _ _ _ _ _ (j_inv _ _ _ HJ) Ea') as (f & Hf & _). exists f. exact Hf. }
  destruct GB as (f & Hf). assert (Gf : get_buf (q_b st) i = Some f) by (apply get_buf_some; exact Hf). rewrite Gf in *. pose proof (alive_Rb _ _ _ _ _ _ HJ Ea Hf) as R. destruct (Rb_sizep _ _ _ R) as (S1 & S2).
  cbn [call fst snd sync b_w b_m b_h] in *. unfold setup_vector in HS.
  destruct (fixed_dec (a_size a)) as [F|F].
  - rewrite (S1 F) in *. cbn [Z.eqb orb fst snd expect] in *. rewrite F in *. cbn [resized] in *. rewrite app_nil_r. exists m'.
    replace (upd (s_l s) i _) with (s_l s); [apply next_J; exact HJ|]. symmetry. apply alive_some in Ea. apply upd_id. rewrite Ea. destruct a. cbn in *. congruence.
  - destruct (S2 F) as (N1 & N2). replace ((v_sizep (f_view f) =? 0) || (v_cap (f_view f) =? 0)) with false in * by lia. cbn [fst snd] in *.
    assert (HU' : upstream_ok (ulog (b_w (q_b st)))) by exact HU. specialize (HS HU').
    destruct (do_memset 4 (v_sizep (f_view f)) 0 m') as [[[]|e|] m2] eqn:EM; cbn [fst snd expect] in *; [|destruct e; contradiction|contradiction].
    exists m2. replace (match a_size a with Fixed => [] | _ => [i] end) with [i] by (destruct (a_size a); [contradiction|reflexivity|reflexivity]).
    apply (enqueue_J st (s_l s) (s_pend s) (s_n s) _ m' m2); [exact (j_run _ _ _ HJ)|exact EM|exact HS|exact (j_dev _ _ _ HJ)|exact (j_foot _ _ _ HJ)|exact (j_evs _ _ _ HJ)|exact (j_sort _ _ _ HJ)|exact (j_n _ _ _ HJ)|].
    intros x Hx. exists i, f. split; [left; reflexivity|]. split; [exact Hf|]. exact (Rb_region_size _ _ _ _ R F Hx).
Qed.
Lemma memset_ok st s m' i v : J st s m' -> upstream_ok (ulog (b_w (q_b (snd (qstep st (QOp (OMemset i v))))))) -> ok st s (OMemset i v).
Proof.
  intros HJ HU. pose proof (sync_ok st s m' (OMemset i v) HJ) as HS. unfold ok. cbn [qjudge host_uses existsb renamed starts].
  cbn [qstep] in HU |- *. cbn [bstep] in HS. change (get_buf (sync st m') i) with (get_buf (q_b st) i) in HS. cbn [judge] in *.
  destruct (alive (s_l s) i) as [a|] eqn:Ea; [|exact I].
  assert (GB : exists f, nth_error (b_h (q_b st)) i = Some (Some f)). { pose proof Ea as Ea'. apply alive_some in Ea'. destruct (alive_buf _ _ _ _ _ _ (j_inv _ _ _ HJ) Ea') as (f & Hf & _). exists f. exact Hf. }
  destruct GB as (f & Hf). assert (Gf : get_buf (q_b st) i = Some f) by (apply get_buf_some; exact Hf). rewrite Gf in *. pose proof (alive_Rb _ _ _ _ _ _ HJ Ea Hf) as R. pose proof R as (R1 & R2 & R3 & R4 & R5 & _).
  cbn [call fst snd sync b_w b_m b_h] in *. unfold memset_vector in HS. rewrite R3, R1 in *.
  destruct (a_cap a =? 0) eqn:Ec.
  - cbn [fst snd expect] in *. rewrite app_nil_r. exists m'. replace (upd (s_l s) i _) with (s_l s); [apply next_J; exact HJ|]. symmetry. apply alive_some in Ea. apply upd_id. rewrite Ea.
    assert (a_bytes a = []) by (destruct (a_bytes a); [reflexivity|cbn [length] in R5; nia]). destruct a. cbn in *. subst. reflexivity.
  - assert (HU' : upstream_ok (ulog (b_w (q_b st)))) by exact HU. specialize (HS HU').
    destruct (do_memset (a_cap a * a_esz a) (v_ptr (f_view f)) v m') as [[[]|e|] m2] eqn:EM; cbn [fst snd expect] in *; [|destruct e; contradiction|contradiction].
    exists m2. apply (enqueue_J st (s_l s) (s_pend s) (s_n s) _ m' m2); [exact (j_run _ _ _ HJ)|exact EM|exact HS|exact (j_dev _ _ _ HJ)|exact (j_foot _ _ _ HJ)|exact (j_evs _ _ _ HJ)|exact (j_sort _ _ _ HJ)|exact (j_n _ _ _ HJ)|].
    intros x Hx. exists i, f. split; [left; reflexivity|]. split; [exact Hf|]. exact (Rb_region_bytes _ _ _ _ R Hx).
Qed.

Lemma q_size_J st s m' f n : J st s m' -> view_size m' (f_view f) n -> exists st1, q_size f st = Some (n, st1) /\ J st1 s m' /\ b_w (q_b st1) = b_w (q_b st) /\ b_h (q_b st1) = b_h (q_b st).
Proof.
  intros HJ VS. pose proof (get_size_ok _ _ _ VS) as G. unfold q_size. destruct (v_sizep (f_view f) =? 0) eqn:E.
  - unfold get_size in G. rewrite E in G. injection G as ->. exists st. auto.
  - destruct (drain_J st s m' HJ) as (st1 & -> & HJ1 & _ & Hm & Hw & Hh). rewrite Hm, G. exists st1. auto.
Qed.
Lemma size_ok st s m' i : J st s m' -> upstream_ok (ulog (b_w (q_b (snd (qstep st (QOp (OSize i))))))) -> ok st s (OSize i).
Proof.
  intros HJ HU. unfold ok. cbn [qjudge host_uses existsb renamed starts]. rewrite app_nil_r. cbn [qstep] in HU |- *. cbn [judge].
  destruct (alive (s_l s) i) as [a|] eqn:Ea; [|exact I]. destruct (a_num a) as [n|] eqn:En; [|exact I].
  assert (GB : exists f, nth_error (b_h (q_b st)) i = Some (Some f)). { pose proof Ea as Ea'. apply alive_some in Ea'. destruct (alive_buf _ _ _ _ _ _ (j_inv _ _ _ HJ) Ea') as (f & Hf & _). exists f. exact Hf. }
  destruct GB as (f & Hf). assert (Gf : get_buf (q_b st) i = Some f) by (apply get_buf_some; exact Hf). rewrite Gf in *. pose proof (alive_Rb _ _ _ _ _ _ HJ Ea Hf) as R.
  destruct (q_size_J st s m' f n HJ (Rb_view_size _ _ _ _ R En)) as (st1 & -> & HJ1 & _). cbn [fst snd expect]. rewrite Z.eqb_refl. exists m'. apply next_J. exact HJ1.
Qed.
Lemma copy_ok st s m' i j : J st s m' -> upstream_ok (ulog (b_w (q_b (snd (qstep st (QOp (OCopy i j))))))) -> ok st s (OCopy i j).
Proof.
  intros HJ HU. pose proof (sync_ok st s m' (OCopy i j) HJ) as HS. unfold ok. cbn [qjudge host_uses existsb renamed starts].
  cbn [bstep] in HS. change (get_buf (sync st m') i) with (get_buf (q_b st) i) in HS. change (get_buf (sync st m') j) with (get_buf (q_b st) j) in HS. cbn [judge] in *.
  destruct (alive (s_l s) i) as [a|] eqn:Ea; [|exact I]. destruct (alive (s_l s) j) as [b|] eqn:Eb; [|exact I]. destruct (a_num a) as [n|] eqn:En; [|exact I].
  destruct (Nat.eqb i j || negb (a_esz a =? a_esz b)) eqn:EL; [exact I|].
  assert (GB : forall k c, alive (s_l s) k = Some c -> exists f, nth_error (b_h (q_b st)) k = Some (Some f)). { intros k c Ec. apply alive_some in Ec. destruct (alive_buf _ _ _ _ _ _ (j_inv _ _ _ HJ) Ec) as (f & Hf & _). exists f. exact Hf. }
  destruct (GB i a Ea) as (f & Hf). assert (Gf : get_buf (q_b st) i = Some f) by (apply get_buf_some; exact Hf). rewrite Gf in *. pose proof (alive_Rb _ _ _ _ _ _ HJ Ea Hf) as R.
  destruct (GB j b Eb) as (g & Hg). assert (Gg : get_buf (q_b st) j = Some g) by (apply get_buf_some; exact Hg). rewrite Gg in *. pose proof (alive_Rb _ _ _ _ _ _ HJ Eb Hg) as Q.
  pose proof (Rb_view_size _ _ _ _ R En) as VS. pose proof R as (R1 & R2 & R3 & R4 & _). pose proof Q as (Q1 & Q2 & Q3 & Q4 & _).
  cbn [qstep] in HU |- *. rewrite Gf, Gg in *. destruct (q_size_J st s m' f n HJ VS) as (st1 & E1 & HJ1 & Hw1 & Hh1). rewrite E1 in *. pose proof VS as (V1 & V2 & _).
  cbn [call fst snd sync b_w b_m b_h] in *. unfold copy_vector in HS. rewrite (get_size_ok _ _ _ VS) in HS. cbn [cbind] in HS. rewrite Q3 in *.
  destruct (n =? 0) eqn:E0; cbn [fst snd expect Bool.eqb] in *; [rewrite app_nil_r; exists m'; apply next_J; exact HJ1|].
  destruct (a_cap b <? n) eqn:Ec; cbn [fst snd expect] in *; [rewrite app_nil_r; exists m'; apply next_J; exact HJ1|].
  assert (FT : forall x, foot (QCopy (n * f_esz f) (v_ptr (f_view f)) (v_ptr (f_view g))) x -> exists k c, In k [i; j] /\ nth_error (b_h (q_b st)) k = Some (Some c) /\ region c x).
  { assert (EZ : a_esz a = a_esz b) by (destruct (Z.eqb_spec (a_esz a) (a_esz b)); [assumption|rewrite orb_true_r in EL; discriminate]).
    intros x [W|W]; [exists i, f|exists j, g]; (split; [cbn; tauto|]); (split; [assumption|]).
    - apply (Rb_region_bytes m' f a x R). rewrite R1 in W. unfold within in *. nia.
    - apply (Rb_region_bytes m' g b x Q). rewrite R1, EZ in W. unfold within in *. nia. }
  unfold q_set_size in *. destruct (v_sizep (f_view g) =? 0) eqn:EG; cbn [cbind fst snd] in *.
  - cbn [enqueue q_b] in HU. rewrite Hw1 in HU. specialize (HS HU).
    destruct (do_copy type_unknown (n * f_esz f) (v_ptr (f_view f)) (v_ptr (f_view g)) m') as [[[]|e|] m3] eqn:ED; cbn [cbind fst snd expect Bool.eqb] in *; [|destruct e; contradiction|contradiction].
    exists m3. apply (enqueue_J st1 (s_l s) (s_pend s) (s_n s) _ m' m3); [exact (j_run _ _ _ HJ1)|exact ED|rewrite Hw1, Hh1; exact HS|exact (j_dev _ _ _ HJ1)|exact (j_foot _ _ _ HJ1)|exact (j_evs _ _ _ HJ1)|exact (j_sort _ _ _ HJ1)|exact (j_n _ _ _ HJ1)|].
    rewrite Hh1. exact FT.
  - destruct (drain_J st1 s m' HJ1) as (st2 & E2 & HJ2 & Hq2 & Hm2 & Hw2 & Hh2). rewrite E2 in *. rewrite Hm2 in *. cbn [size_cptype] in HS.
    destruct (do_copy_in type_unknown (le32 n) (v_sizep (f_view g)) m') as [[[]|e|] m2] eqn:EI; cbn [cbind fst snd] in *.
    + cbn [enqueue with_m with_b q_b b_w] in HU. rewrite Hw2, Hw1 in HU. specialize (HS HU).
      destruct (do_copy type_unknown (n * f_esz f) (v_ptr (f_view f)) (v_ptr (f_view g)) m2) as [[[]|e|] m3] eqn:ED; cbn [cbind fst snd expect Bool.eqb] in *; [|destruct e; contradiction|contradiction].
      exists m3. apply (enqueue_J (with_m st2 m2) (s_l s) (s_pend s) (s_n s) _ m2 m3); cbn [with_m with_b q_b q_q q_evs q_n b_w b_m b_h].
      * rewrite Hq2. reflexivity.
      * exact ED.
      * rewrite Hw2, Hw1, Hh2, Hh1. exact HS.
      * intros x. pose proof (j_dev _ _ _ HJ2 x) as D. rewrite Hm2 in D. destruct (copy_in_changes _ _ _ _ EI) as [->| ->]; exact D.
      * rewrite Hq2. intros t c [].
      * exact (j_evs _ _ _ HJ2).
      * rewrite Hq2. constructor.
      * exact (j_n _ _ _ HJ2).
      * rewrite Hh2, Hh1. exact FT.
    + exfalso. clear -EI. unfold do_copy_in, le32 in EI. destruct (_ =? 0); [discriminate|]. destruct (get_bytes _ _ _); [|discriminate]. rewrite kind_unknown in EI. discriminate.
    + specialize (HS HU). exact HS.
Qed.

Lemma qop_ok st s m' o : J st s m' -> upstream_ok (ulog (b_w (q_b (snd (qstep st (QOp o)))))) -> ok st s o.
Proof.
  intros HJ HU. destruct o; [eapply new_ok|eapply destroy_ok|eapply move_ok|eapply setup_ok|eapply memset_ok|eapply copy_ok|eapply put_ok|eapply get_ok|eapply setsize_ok|eapply size_ok]; eassumption.
Qed.
Lemma qstep_ok st s o : (exists m', J st s m') -> upstream_ok (ulog (b_w (q_b (snd (qstep st o))))) ->
  match qjudge s o (fst (qstep st o)) with QGood s' => exists m', J (snd (qstep st o)) s' m' | QIllegal => True | QWrong => False end.
Proof. intros (m' & HJ) HU. destruct o as [o|k|n]; [exact (qop_ok st s m' o HJ HU)|exact (wait_ok st s m' k HJ)|exact (tick_ok st s m' n HJ)]. Qed.

Lemma advance_w n st st' : advance n st = Some st' -> b_w (q_b st') = b_w (q_b st).
Proof. unfold advance. destruct (q_run _ _); [|discriminate]. intros H. injection H as <-. reflexivity. Qed.
Lemma q_size_w f st n st' : q_size f st = Some (n, st') -> b_w (q_b st') = b_w (q_b st).
Proof.
  unfold q_size. destruct (_ =? 0); [intros H; injection H as <- <-; reflexivity|]. destruct (advance _ st) as [st1|] eqn:E; [|discriminate]. destruct (get_size _ _) as [[]]; try discriminate.
  intros H. injection H as <- <-. exact (advance_w _ _ _ E).
Qed.
Lemma q_set_size_w g n st st' : q_set_size g n st = Some st' -> b_w (q_b st') = b_w (q_b st).
Proof.
  unfold q_set_size. destruct (_ =? 0); [intros H; injection H as <-; reflexivity|]. destruct (advance _ st) as [st1|] eqn:E; [|discriminate]. destruct (do_copy_in _ _ _ _) as [[]]; try discriminate.
  intros H. injection H as <-. exact (advance_w _ _ _ E).
Qed.
Lemma qlog_grows st o : exists n, ulog (b_w (q_b (snd (qstep st o)))) = n ++ ulog (b_w (q_b st)).
Proof.
  assert (SAME : forall st', b_w (q_b st') = b_w (q_b st) -> exists n, ulog (b_w (q_b st')) = n ++ ulog (b_w (q_b st))) by (intros st' ->; exists []; reflexivity).
  assert (HOST : forall o, exists n, ulog (b_w (q_b (next (with_b st (snd (bstep (q_b st) o)))))) = n ++ ulog (b_w (q_b st))).
  { intros o'. cbn [next with_b q_b]. destruct (bstep (q_b st) o') as [r b1] eqn:E. exact (log_grows _ _ _ _ E). }
  destruct o as [o|k|n].
  - destruct o as [esz eal cap rs g|i|i j|i|i v|i j|i k v|i k|i n|i]; try exact (HOST _); cbn [qstep].
    + destruct (get_buf _ i); [|apply SAME; reflexivity]. cbn [snd]. destruct (_ || _); apply SAME; reflexivity.
    + destruct (get_buf _ i); [|apply SAME; reflexivity]. cbn [snd]. destruct (_ =? 0); apply SAME; reflexivity.
    + destruct (get_buf _ i) as [f|]; [|apply SAME; reflexivity]. destruct (get_buf _ j) as [g|]; [|apply SAME; reflexivity]. destruct (q_size f st) as [[n st1]|] eqn:E1; [|apply SAME; reflexivity].
      pose proof (q_size_w _ _ _ _ E1) as W1. destruct (n =? 0); [apply SAME; exact W1|]. destruct (_ <? n); [apply SAME; exact W1|]. destruct (q_set_size g n st1) as [st2|] eqn:E2; [|apply SAME; reflexivity].
      apply SAME. cbn [snd enqueue q_b]. rewrite (q_set_size_w _ _ _ _ E2). exact W1.
    + destruct (get_buf _ i) as [f|]; [|apply SAME; reflexivity]. destruct (q_size f st) as [[n st1]|] eqn:E1; [|apply SAME; reflexivity]. apply SAME. exact (q_size_w _ _ _ _ E1).
  - cbn [qstep]. destruct (existsb _ _); [|apply SAME; reflexivity]. destruct (advance _ st) as [st1|] eqn:E; [|apply SAME; reflexivity]. apply SAME. exact (advance_w _ _ _ E).
  - cbn [qstep]. destruct (advance _ st) as [st1|] eqn:E; [|apply SAME; reflexivity]. apply SAME. exact (advance_w _ _ _ E).
Qed.
Lemma qlogs_grow ops : forall st, exists n, ulog (b_w (q_b (snd (qruns st ops)))) = n ++ ulog (b_w (q_b st)).
Proof.
  induction ops as [|o ops IH]; intros st; cbn [qruns snd]; [exists []; reflexivity|]. destruct (qlog_grows st o) as (n1 & H1). destruct (IH (snd (qstep st o))) as (n2 & H2).
  exists (n2 ++ n1). rewrite H2, H1, app_assoc. reflexivity.
Qed.
Lemma qruns_ok ops : forall st s, (exists m', J st s m') -> upstream_ok (ulog (b_w (q_b (snd (qruns st ops))))) ->
  match qjudge_all s ops (fst (qruns st ops)) with QGood s' => exists m', J (snd (qruns st ops)) s' m' | QIllegal => True | QWrong => False end.
Proof.
  induction ops as [|o ops IH]; intros st s HJ; cbn [qruns qjudge_all fst snd].
  - intros _. exact HJ.
  - intros HU. destruct (qlogs_grow ops (snd (qstep st o))) as (n & Hn). pose proof HU as HU1. rewrite Hn in HU1. apply upstream_ok_app in HU1.
    pose proof (qstep_ok st s o HJ HU1) as HS. destruct (qjudge s o (fst (qstep st o))) as [s'| |]; [|exact I|exact HS]. exact (IH _ s' HS HU).
Qed.
Lemma J0 orc : J (qst0 orc) (mkS [] [] 0) (b_m (bst0 orc)).
Proof.
  constructor; cbn [qst0 q_b q_q q_evs q_n s_l s_pend s_n]; try reflexivity; [exact (inv0 orc)|intros t a []|intros t bs []|constructor].
Qed.
Theorem qprograms orc ops rs st : qruns (qst0 orc) ops = (rs, st) -> upstream_ok (ulog (b_w (q_b st))) ->
  match qjudge_all (mkS [] [] 0) ops rs with
  | QGood s => frees_ok (ulog (b_w (q_b st))) /\
      length (ulive (ulog (b_w (q_b st)))) = length (filter (fun o => match o with Some a => negb (a_cap a =? 0) | None => false end) (s_l s)) /\
      (s_pend s = [] -> q_q st = [])
  | QIllegal => True
  | QWrong => False
  end.
Proof.
  intros E HU. pose proof (qruns_ok ops (qst0 orc) (mkS [] [] 0) (ex_intro _ _ (J0 orc))) as H. rewrite E in H. cbn [fst snd] in H. specialize (H HU).
  destruct (qjudge_all (mkS [] [] 0) ops rs) as [s| |]; [|exact I|exact H]. destruct H as (m' & HJ). pose proof (j_inv _ _ _ HJ) as HI.
  split; [exact (i_frees _ _ _ _ HI)|]. split; [rewrite (Permutation_length (i_perm _ _ _ _ HI)); exact (blks_count _ _ _ _ HI)|].
  intros HP. destruct (q_q st) as [|[t a] q] eqn:Eq; [reflexivity|]. destruct (j_foot _ _ _ HJ t a ltac:(rewrite Eq; left; reflexivity)) as (bs & Hb & _). rewrite HP in Hb. destruct Hb.
Qed.

Lemma calls_judged ops : forall rs s s', qjudge_all s ops rs = QGood s' -> judge_all (s_l s) (fst (calls ops rs)) (snd (calls ops rs)) = Good (s_l s').
Proof.
  induction ops as [|o ops IH]; intros [|r rs] s s'; cbn [qjudge_all calls fst snd judge_all]; try discriminate.
  - intros H. injection H as <-. reflexivity.
  - destruct (qjudge s o r) as [s1| |] eqn:E; try discriminate. intros H. specialize (IH rs s1 s' H). destruct o as [o|k|n]; cbn [qjudge] in E.
    + destruct (existsb _ (host_uses o)); [discriminate|]. destruct (judge (s_l s) o r) as [l'| |] eqn:EJ; try discriminate. injection E as <-. cbn [fst snd judge_all s_l] in *. rewrite EJ. exact IH.
    + destruct r; try discriminate. injection E as <-. exact IH.
    + destruct r; try discriminate. injection E as <-. exact IH.
Qed.

(** What the stream touches is only in buffers that are busy. *)
Theorem qprogram_busy orc ops rs st s : qruns (qst0 orc) ops = (rs, st) -> upstream_ok (ulog (b_w (q_b st))) -> qjudge_all (mkS [] [] 0) ops rs = QGood s ->
  (exists m', q_run (q_q st) (b_m (q_b st)) = Some m') /\
  forall t a x, In (t, a) (q_q st) -> foot a x -> exists i f b bs, nth_error (b_h (q_b st)) i = Some (Some f) /\ f_block f = Some b /\ in_block x b /\ In (t, bs) (s_pend s) /\ In i bs.
Proof.
  intros E HU EJ. pose proof (qruns_ok ops (qst0 orc) (mkS [] [] 0) (ex_intro _ _ (J0 orc))) as H. rewrite E in H. cbn [fst snd] in H. specialize (H HU). rewrite EJ in H. destruct H as (m' & HJ).
  split; [exists m'; exact (j_run _ _ _ HJ)|]. intros t a x Hi Hx. destruct (j_foot _ _ _ HJ t a Hi) as (bs & Hb & HF). destruct (HF x Hx) as (i & f & Hk & Hf & Hr).
  unfold region in Hr. destruct (f_block f) as [b|] eqn:Eb; [|contradiction]. exists i, f, b, bs. auto.
Qed.

Theorem last_event orc ops rs st s o : qruns (qst0 orc) ops = (rs, st) -> upstream_ok (ulog (b_w (q_b (snd (qstep st (QOp o)))))) -> qjudge_all (mkS [] [] 0) ops rs = QGood s ->
  forall s1, qjudge s (QOp o) (fst (qstep st (QOp o))) = QGood s1 -> starts (s_l s) o (fst (qstep st (QOp o))) <> [] ->
  fst (qstep (snd (qstep st (QOp o))) (QWait (s_n s))) = RDone /\ q_q (snd (qstep (snd (qstep st (QOp o))) (QWait (s_n s)))) = [].
Proof.
  intros E HU EJ s1 E1 HN. destruct (qlog_grows st (QOp o)) as (n & Hn). assert (HU0 : upstream_ok (ulog (b_w (q_b st)))) by (rewrite Hn in HU; exact (upstream_ok_app _ _ HU)).
  pose proof (qruns_ok ops (qst0 orc) (mkS [] [] 0) (ex_intro _ _ (J0 orc))) as H. rewrite E in H. cbn [fst snd] in H. specialize (H HU0). rewrite EJ in H.
  pose proof (qstep_ok st s (QOp o) H HU) as HS. rewrite E1 in HS. destruct HS as (m' & HJ). set (st1 := snd (qstep st (QOp o))) in *.
  assert (S1 : exists bs, In (s_n s, bs) (s_pend s1) /\ s_n s1 = S (s_n s)).
  { cbn [qjudge] in E1. destruct (existsb _ _); [discriminate|]. destruct (judge _ _ _); try discriminate. injection E1 as <-. cbn [s_pend s_n]. destruct (starts _ _ _) as [|b bs]; [contradiction|].
    exists (b :: bs). split; [apply in_or_app; right; left; reflexivity|reflexivity]. }
  destruct S1 as (bs & Hb & Hn1). destruct (j_evs _ _ _ HJ _ _ Hb) as (HE & _). cbn [qstep].
  replace (existsb (Nat.eqb (s_n s)) (q_evs st1)) with true by (symmetry; apply existsb_exists; exists (s_n s); split; [exact HE|apply Nat.eqb_refl]).
  destruct (advance_J (upto (s_n s) (q_q st1)) st1 s1 m' HJ) as (st2 & -> & HJ2 & Hq & _ & _ & Hn2 & _). cbn [fst snd]. split; [reflexivity|].
  destruct (q_q st2) as [|[t a] q] eqn:Eq; [reflexivity|exfalso].
  assert (Hi : In (t, a) (q_q st2)) by (rewrite Eq; left; reflexivity). destruct (j_foot _ _ _ HJ2 t a Hi) as (bs' & Hb' & _). destruct (j_evs _ _ _ HJ2 t bs' Hb') as (_ & Ht).
  assert (K : (s_n s < t)%nat) by (apply (upto_above (s_n s) (q_q st1) t a (j_sort _ _ _ HJ)); rewrite <- Hq; left; reflexivity). pose proof (j_n _ _ _ HJ2). lia.
Qed.
