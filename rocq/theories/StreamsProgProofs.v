(** Proofs for StreamsProg.v: what operations of one stream write is not touched by those of others, so their order does not matter. *)
From Verif Require Import Base BaseLemmas Copy CopyProofs BufProg BufProgProofs StreamProg StreamProgProofs StreamsProg.
From Coq Require Import ZArith List Bool Lia Permutation Sorting.Sorted.
Import ListNotations.
Local Open Scope Z_scope.

(** The bytes that an operation writes. *)
Definition wr (a : act) (x : Z) : Prop := match a with QSet n d _ => within d n x | QCopy n _ d => within d n x end.
Lemma wr_foot a x : wr a x -> foot a x.
Proof. destruct a; cbn [wr foot]; auto. Qed.
Lemma wr_dec a x : wr a x \/ ~ wr a x.
Proof. destruct a as [n d v|n s d]; cbn [wr]; unfold within; lia. Qed.
Lemma act_writes a m m' x : act_run a m = (Ret tt, m') -> ~ wr a x -> m_byte m' x = m_byte m x.
Proof.
  intros H HW. destruct a as [n d v|n s d]; cbn [act_run wr] in *.
  - unfold do_memset in H. destruct (n =? 0); [injection H as <-; reflexivity|]. destruct (d =? 0); [discriminate H|]. destruct (get_bytes _ _ _) as [bs|] eqn:E; [|discriminate H].
    injection H as <-. apply put_out. intros Hw. apply HW. revert Hw. rewrite repeat_length. unfold within. lia.
  - unfold do_copy in H. destruct (n =? 0); [injection H as <-; reflexivity|]. destruct (_ || _); [discriminate H|]. destruct (get_bytes m s _) as [bs|] eqn:E; [|discriminate H].
    destruct (get_bytes m d _); [|discriminate H]. destruct (_ && _); [discriminate H|]. destruct (kind_check _ _ _ _); [|discriminate H].
    injection H as <-. apply put_out. intros Hw. apply HW. revert Hw. rewrite (get_len _ _ _ _ E). unfold within. lia.
Qed.
Lemma q_writes q : forall m m' x, q_run q m = Some m' -> (forall t a, In (t, a) q -> ~ wr a x) -> m_byte m' x = m_byte m x.
Proof.
  induction q as [|[t a] q IH]; intros m m' x; cbn [q_run]; [intros H; injection H as <-; reflexivity|]. destruct (act_run a m) as [[[]| |] m1] eqn:E; try discriminate.
  intros H W. rewrite (IH m1 m' x H (fun t' a' Hi => W t' a' (or_intror Hi))). exact (act_writes a m m1 x E (W t a (or_introl eq_refl))).
Qed.
Lemma q_ext q m m' m1 : q_run q m = Some m' -> (forall x, m_byte m1 x = m_byte m x) -> exists m1', q_run q m1 = Some m1' /\ (forall x, m_byte m1' x = m_byte m' x) /\ m_dev m1' = m_dev m1.
Proof. intros H E. destruct (q_frame (fun _ => True) q m m' m1 H (fun _ _ _ _ _ => I) (fun x _ => E x)) as (m1' & R & A & _ & D). exists m1'. auto. Qed.
(** An operation can be performed after others that do not write what it touches and do not touch what it writes. *)
Lemma swap e S m ma m1 : act_run e m = (Ret tt, ma) -> q_run S ma = Some m1 -> (forall t a x, In (t, a) S -> foot a x -> ~ wr e x) -> (forall t a x, In (t, a) S -> wr a x -> ~ foot e x) ->
  exists m2 m3, q_run S m = Some m2 /\ act_run e m2 = (Ret tt, m3) /\ (forall x, m_byte m3 x = m_byte m1 x).
Proof.
  intros HE HS H1 H2. destruct (q_frame (fun x => ~ wr e x) S ma m1 m HS H1 (fun x Hx => eq_sym (act_writes e m ma x HE Hx))) as (m2 & R2 & A2 & _ & _).
  assert (ON2 : forall x, foot e x -> m_byte m2 x = m_byte m x) by (intros x Hx; apply (q_writes S m m2 x R2); intros t a Hi Hw; exact (H2 t a x Hi Hw Hx)).
  destruct (act_frame (foot e) e m ma m2 HE (fun x H => H) ON2) as (m3 & R3 & A3 & _). exists m2, m3. split; [exact R2|]. split; [exact R3|].
  intros x. destruct (wr_dec e x) as [Hx|Hx].
  - rewrite A3 by exact (wr_foot e x Hx). symmetry. apply (q_writes S ma m1 x HS). intros t a Hi Hw. exact (H2 t a x Hi Hw (wr_foot e x Hx)).
  - rewrite (act_writes e m2 m3 x R3 Hx). exact (A2 x Hx).
Qed.
Lemma reorder (p : nat -> bool) q : forall m m', q_run q m = Some m' ->
  (forall t a t' a' x, In (t, a) q -> In (t', a') q -> p t = true -> p t' = false -> (t' <= t)%nat -> (foot a x -> ~ wr a' x) /\ (wr a x -> ~ foot a' x)) -> sorted q ->
  exists m1 m2, q_run (filter (fun e => p (fst e)) q) m = Some m1 /\ q_run (filter (fun e => negb (p (fst e))) q) m1 = Some m2 /\ (forall x, m_byte m2 x = m_byte m' x).
Proof.
  induction q as [|[t e] q IH]; intros m m'; cbn [q_run filter fst].
  - intros H _ _. injection H as <-. exists m, m. auto.
  - destruct (act_run e m) as [[[]| |] ma] eqn:HE; try discriminate. intros H HD HS. cbn [map fst sorted] in HS. inversion HS as [|? ? HS' HF]; subst.
    destruct (IH ma m' H (fun t1 a1 t2 a2 x H1 H2 => HD t1 a1 t2 a2 x (or_intror H1) (or_intror H2)) HS') as (m1 & m2 & R1 & R2 & E2).
    destruct (p t) eqn:Ep; cbn [negb q_run].
    + rewrite HE. exists m1, m2. auto.
    + destruct (swap e _ m ma m1 HE R1) as (m3 & m4 & R3 & R4 & E4).
      { intros t' a' x Hi Hx. apply filter_In in Hi. destruct Hi as (Hi & Hp). cbn [fst] in Hp. rewrite Forall_forall in HF.
        exact (proj1 (HD t' a' t e x (or_intror Hi) (or_introl eq_refl) Hp Ep (HF t' (in_map fst _ (t', a') Hi))) Hx). }
      { intros t' a' x Hi Hx. apply filter_In in Hi. destruct Hi as (Hi & Hp). cbn [fst] in Hp. rewrite Forall_forall in HF.
        exact (proj2 (HD t' a' t e x (or_intror Hi) (or_introl eq_refl) Hp Ep (HF t' (in_map fst _ (t', a') Hi))) Hx). }
      destruct (q_ext _ m1 m2 m4 R2 E4) as (m5 & R5 & E5 & _). exists m3, m5. split; [exact R3|]. rewrite R4. split; [exact R5|]. intros x. rewrite E5. apply E2.
Qed.

(** ** The invariant *)
Definition apart (str : list nat) (s : sst) : Prop :=
  forall t bs t' bs' i, In (t, bs) (s_pend s) -> In (t', bs') (s_pend s) -> stream str t <> stream str t' -> In i (written bs) -> In i bs' -> False.
Definition W (st : qst) (s : sst) : Prop :=
  forall t a x, In (t, a) (q_q st) -> wr a x -> exists bs i f, In (t, bs) (s_pend s) /\ In i (written bs) /\ nth_error (b_h (q_b st)) i = Some (Some f) /\ region f x.
Record K (st : rst) (s : sst) (m' : cmem) : Prop := mkK {
  k_J : J (r_st st) s m';
  k_len : length (r_str st) = s_n s;
  k_sep : apart (r_str st) s;
  k_wr : W (r_st st) s }.
Lemma written_in bs i : In i (written bs) -> In i bs.
Proof. unfold written. intros H. apply in_rev. destruct (rev bs) as [|x l]; cbn [firstn] in H; [destruct H|]. destruct H as [->|[]]. left. reflexivity. Qed.
Lemma written_map f bs : written (map f bs) = map f (written bs).
Proof. unfold written. rewrite <- map_rev, firstn_map. reflexivity. Qed.
(** Operations of different streams. *)
Lemma streams_apart str st s m' t a t' a' x : J st s m' -> apart str s -> W st s -> In (t, a) (q_q st) -> In (t', a') (q_q st) -> stream str t <> stream str t' -> wr a x -> ~ foot a' x.
Proof.
  intros HJ SEP HW Hi Hi' D Hx Hx'. destruct (HW t a x Hi Hx) as (bs & i & f & Hb & Hbi & Hf & Hr). destruct (j_foot _ _ _ HJ t' a' Hi') as (bs' & Hb' & HF').
  destruct (HF' x Hx') as (i' & f' & Hbi' & Hf' & Hr').
  assert (N : i <> i') by (intros <-; exact (SEP t bs t' bs' i Hb Hb' D Hbi Hbi')). exact (i_sep _ _ _ _ (j_inv _ _ _ HJ) i i' f f' x N Hf Hf' Hr Hr').
Qed.

Lemma sorted_filter g q : sorted q -> sorted (filter g q).
Proof.
  induction q as [|e q IH]; intros H; [exact H|]. cbn [filter]. cbn [map sorted] in H. inversion H as [|? ? H' HF]; subst. destruct (g e); [|exact (IH H')].
  unfold sorted. cbn [map]. constructor; [exact (IH H')|]. apply Forall_forall. intros t Ht. apply in_map_iff in Ht. destruct Ht as (x & <- & Hx). apply filter_In in Hx.
  rewrite Forall_forall in HF. apply HF. apply in_map. exact (proj1 Hx).
Qed.
(** The operations in [p] are performed, if those before them which are not in [p] are on other streams. *)
Lemma go_J p str st s m' : J st s m' ->
  apart str s -> W st s ->
  (forall t t', p t = true -> p t' = false -> (t' <= t)%nat -> stream str t <> stream str t') ->
  exists st' m2, go p st = Some st' /\ J st' s m2 /\ W st' s /\ (forall x, m_byte m2 x = m_byte m' x) /\ q_q st' = filter (fun e => negb (p (fst e))) (q_q st) /\
    b_w (q_b st') = b_w (q_b st) /\ b_h (q_b st') = b_h (q_b st) /\ q_n st' = q_n st /\ q_evs st' = q_evs st.
Proof.
  intros HJ SEP HW HP. destruct (reorder p (q_q st) _ m' (j_run _ _ _ HJ)) as (m1 & m2 & R1 & R2 & E2); [|exact (j_sort _ _ _ HJ)|].
  { intros t a t' a' x Hi Hi' Hp Hp' Hle. pose proof (HP t t' Hp Hp' Hle) as D. split.
    - intros Hx Hx'. exact (streams_apart str st s m' t' a' t a x HJ SEP HW Hi' Hi (fun e => D (eq_sym e)) Hx' Hx).
    - exact (streams_apart str st s m' t a t' a' x HJ SEP HW Hi Hi' D). }
  assert (D1 : m_dev m1 = m_dev (b_m (q_b st))).
  { destruct (q_frame (fun _ => True) _ _ _ (b_m (q_b st)) R1 (fun _ _ _ _ _ => I) (fun _ _ => eq_refl)) as (z & Z & _ & _ & D). rewrite R1 in Z. injection Z as <-. exact D. }
  assert (D2 : m_dev m2 = m_dev m1).
  { destruct (q_frame (fun _ => True) _ _ _ m1 R2 (fun _ _ _ _ _ => I) (fun _ _ => eq_refl)) as (z & Z & _ & _ & D). rewrite R2 in Z. injection Z as <-. exact D. }
  unfold go. rewrite R1. eexists _, m2. split; [reflexivity|]. split; [|split; [intros t a x Hi; cbn [q_q q_b b_h] in *; apply filter_In in Hi; exact (HW t a x (proj1 Hi))|repeat split; auto]].
  constructor; cbn [q_q q_b b_w b_m b_h q_evs q_n].
  - exact R2.
  - apply (Inv_ext _ m'); [exact (j_inv _ _ _ HJ)|exact E2|]. intros x. rewrite D2, D1. exact (j_dev _ _ _ HJ x).
  - intros x. rewrite D1. exact (j_dev _ _ _ HJ x).
  - intros t a Hi. apply filter_In in Hi. exact (j_foot _ _ _ HJ t a (proj1 Hi)).
  - exact (j_evs _ _ _ HJ).
  - apply sorted_filter. exact (j_sort _ _ _ HJ).
  - exact (j_n _ _ _ HJ).
Qed.
Lemma covers_sep str k t t' : covers str k t = true -> covers str k t' = false -> (t' <= t)%nat -> stream str t <> stream str t'.
Proof. unfold covers. intros H1 H2 Hle E. apply andb_prop in H1. destruct H1 as (A & B). rewrite <- E, A in H2. cbn [andb] in H2. apply Nat.leb_le in B. apply Nat.leb_gt in H2. lia. Qed.
Lemma on_sep str c t t' : on str c t = true -> on str c t' = false -> (t' <= t)%nat -> stream str t <> stream str t'.
Proof. unfold on. intros H1 H2 _ E. rewrite E in H1. congruence. Qed.

Definition good (st : rst) (s : sst) (o : rop) : Prop :=
  match rjudge s (r_str st) o (fst (rstep st o)) with RGood s' str' => r_str (snd (rstep st o)) = str' /\ exists m2, K (snd (rstep st o)) s' m2 | RIllegal => True | RWrong => False end.
Lemma rtick_ok st s m' k : K st s m' -> good st s (RTick k).
Proof.
  intros HK. unfold good. cbn [rstep]. destruct (go_J _ (r_str st) _ _ _ (k_J _ _ _ HK) (k_sep _ _ _ HK) (k_wr _ _ _ HK) (covers_sep (r_str st) k)) as (st' & m2 & -> & HJ & HW & _). cbn [fst snd rjudge r_str].
  split; [reflexivity|]. exists m2. constructor; [exact HJ|exact (k_len _ _ _ HK)|exact (k_sep _ _ _ HK)|exact HW].
Qed.
Lemma rwait_ok st s m' k : K st s m' -> good st s (RWait k).
Proof.
  intros HK. unfold good. cbn [rstep rjudge]. destruct (go_J _ (r_str st) _ _ _ (k_J _ _ _ HK) (k_sep _ _ _ HK) (k_wr _ _ _ HK) (covers_sep (r_str st) k)) as (st' & m2 & EG & HJ & HW & _ & Hq & _). rewrite EG.
  destruct (existsb (fun e => Nat.eqb k (fst e)) (s_pend s)) eqn:EP.
  - apply existsb_exists in EP. destruct EP as ([t bs] & Hi & Et). apply Nat.eqb_eq in Et. cbn [fst] in Et. subst t. destruct (j_evs _ _ _ (k_J _ _ _ HK) k bs Hi) as (HE & _).
    replace (existsb (Nat.eqb k) (q_evs (r_st st))) with true by (symmetry; apply existsb_exists; exists k; split; [exact HE|apply Nat.eqb_refl]). cbn [fst snd r_str]. split; [reflexivity|].
    exists m2. constructor; cbn [r_st r_str s_l s_pend s_n].
    + destruct HJ as [K1 K2 K3 K4 K5 K6 K7]. constructor; cbn [s_l s_pend s_n]; try assumption.
      * intros t a Hta. destruct (K4 t a Hta) as (bs' & Hb & HF). exists bs'. split; [|exact HF]. apply filter_In. split; [exact Hb|]. cbn [fst]. rewrite Hq in Hta. apply filter_In in Hta. exact (proj2 Hta).
      * intros t bs' Hb. apply filter_In in Hb. exact (K5 t bs' (proj1 Hb)).
    + exact (k_len _ _ _ HK).
    + intros t1 b1 t2 b2 i H1 H2. apply filter_In in H1, H2. exact (k_sep _ _ _ HK t1 b1 t2 b2 i (proj1 H1) (proj1 H2)).
    + intros t a x Hta Hx. destruct (HW t a x Hta Hx) as (bs' & i & f & Hb & Hrest). exists bs', i, f. split; [|exact Hrest]. apply filter_In. split; [exact Hb|]. cbn [fst]. rewrite Hq in Hta. apply filter_In in Hta. exact (proj2 Hta).
  - destruct (existsb (Nat.eqb k) (q_evs (r_st st))); cbn [fst snd r_str]; (split; [reflexivity|]).
    + exists m2. destruct s. constructor; [exact HJ|exact (k_len _ _ _ HK)|exact (k_sep _ _ _ HK)|exact HW].
    + exists m'. destruct s. exact HK.
Qed.

(** ** Calls *)
Lemma in_others str c pend t bs : In (t, bs) pend -> stream str t <> c -> In (t, bs) (others str c pend).
Proof. intros Hi D. apply filter_In. split; [exact Hi|]. cbn [fst]. destruct (Nat.eqb_spec (stream str t) c); [contradiction|reflexivity]. Qed.
Lemma not_busy_on str c pend i t bs : busy_on_other str c pend i = false -> In (t, bs) pend -> stream str t <> c -> ~ In i bs.
Proof. intros H Hi D. exact (not_busy _ i t bs H (in_others str c pend t bs Hi D)). Qed.
Lemma not_written_on str c pend i t bs : written_on_other str c pend i = false -> In (t, bs) pend -> stream str t <> c -> ~ In i (written bs).
Proof. intros H Hi D. apply (not_busy _ i t (written bs) H). apply in_map_iff. exists (t, bs). split; [reflexivity|]. exact (in_others str c pend t bs Hi D). Qed.
Lemma no_clash str c pend o : clash str c pend o = false -> (forall i, In i (reads o) -> written_on_other str c pend i = false) /\ (forall i, In i (writes o) -> busy_on_other str c pend i = false).
Proof.
  intros H. apply orb_false_elim in H. destruct H as (H1 & H2). split; intros i Hi.
  - destruct (written_on_other str c pend i) eqn:E; [|reflexivity]. rewrite <- H1. symmetry. apply existsb_exists. exists i. auto.
  - destruct (busy_on_other str c pend i) eqn:E; [|reflexivity]. rewrite <- H2. symmetry. apply existsb_exists. exists i. auto.
Qed.
Lemma stream_app str c t : (t < length str)%nat -> stream (str ++ [c]) t = stream str t.
Proof. intros H. unfold stream. apply app_nth1. exact H. Qed.
Lemma stream_new str c : stream (str ++ [c]) (length str) = c.
Proof. unfold stream. rewrite app_nth2 by lia. rewrite Nat.sub_diag. reflexivity. Qed.
Lemma starts_uses l o r i : In i (starts l o r) -> In i (reads o) \/ In i (writes o).
Proof.
  destruct o as [esz eal cap rs g|k|k j|k|k v|k j|k z v|k z|k n|k]; cbn [starts reads writes]; try (intros []; fail).
  - destruct (alive l k) as [a|]; [|intros []]. destruct (a_size a); [intros []|auto|auto].
  - destruct (alive l k) as [a|]; [|intros []]. destruct (a_cap a =? 0); [intros []|auto].
  - destruct r as [| | |[]| |]; try (intros []; fail). cbn [In]. tauto.
Qed.
Lemma starts_writes l o r i : In i (written (starts l o r)) -> In i (writes o).
Proof.
  destruct o as [esz eal cap rs g|k|k j|k|k v|k j|k z v|k z|k n|k]; cbn [starts writes]; try (intros []; fail).
  - destruct (alive l k) as [a|]; [|intros []]. destruct (a_size a); [intros []|auto|auto].
  - destruct (alive l k) as [a|]; [|intros []]. destruct (a_cap a =? 0); [intros []|auto].
  - destruct r as [| | |[]| |]; try (intros []; fail). cbn. tauto.
Qed.
(** A call keeps what is in use on different streams apart. *)
Lemma call_K st s c o r s' st1 m2 m' : K st s m' -> clash (r_str st) c (s_pend s) o = false -> qjudge s (QOp o) r = QGood s' ->
  J st1 s' m2 -> W st1 s' -> K (mkR st1 (r_str st ++ [c])) s' m2.
Proof.
  intros HK HB EJ HJ HW. destruct (no_clash _ _ _ _ HB) as (HBR & HBW). cbn [qjudge] in EJ. destruct (existsb (busy (s_pend s)) (host_uses o)) eqn:EH; [discriminate|]. destruct (judge (s_l s) o r) as [l'| |] eqn:EL; try discriminate. injection EJ as <-.
  assert (LT : forall t bs, In (t, bs) (s_pend s) -> (t < length (r_str st))%nat) by (intros t bs Hb; rewrite (k_len _ _ _ HK), <- (j_n _ _ _ (k_J _ _ _ HK)); exact (proj2 (j_evs _ _ _ (k_J _ _ _ HK) t bs Hb))).
  assert (OLD : forall t bs, In (t, bs) (renamed o (s_pend s)) -> (t < length (r_str st))%nat).
  { intros t bs Hb. destruct o; try exact (LT t bs Hb). cbn [renamed] in Hb. apply in_map_iff in Hb. destruct Hb as ([t0 b0] & E & Hb). injection E as <- _. exact (LT t0 b0 Hb). }
  assert (SEP : forall t bs t' bs' i, In (t, bs) (renamed o (s_pend s)) -> In (t', bs') (renamed o (s_pend s)) -> stream (r_str st) t <> stream (r_str st) t' -> In i (written bs) -> In i bs' -> False).
  { destruct o as [esz eal cap rs g|k|k j|k|k v|k j|k z v|k z|k n|k]; try exact (k_sep _ _ _ HK). cbn [renamed host_uses existsb] in *. rewrite orb_false_r in EH.
    intros t bs t' bs' i H1 H2 D I1 I2. apply in_map_iff in H1, H2. destruct H1 as ([t0 b0] & E1 & H1). destruct H2 as ([t1 b1] & E2 & H2). cbn [fst snd] in E1, E2. injection E1 as <- <-. injection E2 as <- <-.
    rewrite written_map in I1. apply in_map_iff in I1, I2. destruct I1 as (x & X1 & I1). destruct I2 as (y & Y1 & I2).
    assert (x <> j) by (intros ->; exact (not_busy _ _ _ _ EH H1 (written_in _ _ I1))). assert (y <> j) by (intros ->; exact (not_busy _ _ _ _ EH H2 I2)).
    assert (x = y) by (destruct (Nat.eqb_spec x k), (Nat.eqb_spec y k); congruence). subst y. exact (k_sep _ _ _ HK t0 b0 t1 b1 x H1 H2 D I1 I2). }
  assert (NEW1 : forall t bs i, In (t, bs) (s_pend s) -> stream (r_str st) t <> c -> In i bs -> In i (written (starts (s_l s) o r)) -> False).
  { intros t bs i Hb D I1 I2. apply starts_writes in I2. exact (not_busy_on _ _ _ _ _ _ (HBW i I2) Hb D I1). }
  assert (NEW2 : forall t bs i, In (t, bs) (s_pend s) -> stream (r_str st) t <> c -> In i (written bs) -> In i (starts (s_l s) o r) -> False).
  { intros t bs i Hb D I1 I2. apply starts_uses in I2. destruct I2 as [I2|I2]; [exact (not_written_on _ _ _ _ _ _ (HBR i I2) Hb D I1)|exact (not_busy_on _ _ _ _ _ _ (HBW i I2) Hb D (written_in _ _ I1))]. }
  assert (REN : starts (s_l s) o r <> [] -> renamed o (s_pend s) = s_pend s) by (destruct o; try reflexivity; cbn [starts]; contradiction).
  constructor; cbn [r_st r_str s_pend s_n]; [exact HJ|rewrite app_length, (k_len _ _ _ HK); cbn [length]; lia| |exact HW].
  assert (ST : forall t bs, In (t, bs) (renamed o (s_pend s)) -> stream (r_str st ++ [c]) t = stream (r_str st) t) by (intros t bs Hb; apply stream_app; exact (OLD t bs Hb)).
  assert (SN : stream (r_str st ++ [c]) (s_n s) = c) by (rewrite <- (k_len _ _ _ HK); apply stream_new).
  intros t bs t' bs' i H1 H2 D I1 I2. cbn [s_pend] in H1, H2. apply in_app_or in H1, H2.
  destruct (starts (s_l s) o r) as [|z zs] eqn:ES.
  - destruct H1 as [H1|[]], H2 as [H2|[]]. rewrite (ST _ _ H1), (ST _ _ H2) in D. exact (SEP t bs t' bs' i H1 H2 D I1 I2).
  - specialize (REN ltac:(discriminate)). destruct H1 as [H1|[E1|[]]], H2 as [H2|[E2|[]]].
    + rewrite (ST _ _ H1), (ST _ _ H2) in D. exact (SEP t bs t' bs' i H1 H2 D I1 I2).
    + injection E2 as <- <-. rewrite (ST _ _ H1), SN in D. rewrite REN in H1. exact (NEW2 t bs i H1 D I1 I2).
    + injection E1 as <- <-. rewrite (ST _ _ H2), SN in D. rewrite REN in H2. exact (NEW1 t' bs' i H2 (fun e => D (eq_sym e)) I2 I1).
    + injection E1 as <- <-. injection E2 as <- <-. apply D. reflexivity.
Qed.

(** ** What pending operations write *)
Lemma W_next st s l n : W st s -> W (next st) (mkS l (s_pend s) n).
Proof. intros H. exact H. Qed.
(** The host changes variables of which no pending call writes the buffer. *)
Lemma W_host st s b1 l n : W st s -> (forall i f t bs, In (t, bs) (s_pend s) -> In i bs -> nth_error (b_h (q_b st)) i = Some (Some f) -> nth_error (b_h b1) i = Some (Some f)) -> W (next (with_b st b1)) (mkS l (s_pend s) n).
Proof.
  intros HW H t a x Hi Hx. cbn [next with_b q_q q_b s_pend] in *. destruct (HW t a x Hi Hx) as (bs & i & f & Hb & Hbi & Hf & Hr). exists bs, i, f. split; [exact Hb|]. split; [exact Hbi|]. split; [|exact Hr].
  exact (H i f t bs Hb (written_in _ _ Hbi) Hf).
Qed.
Lemma W_enqueue st s a l l' bs i f : W st s -> q_n st = s_n s -> written bs = [i] -> nth_error (b_h (q_b st)) i = Some (Some f) -> (forall x, wr a x -> region f x) ->
  W (enqueue st a) (mkS l' (s_pend s ++ [(s_n s, bs)]) l).
Proof.
  intros HW HN Hb Hf Ha t c x Hi Hx. cbn [enqueue q_q q_b s_pend] in *. apply in_app_or in Hi. destruct Hi as [Hi|[E|[]]].
  - destruct (HW t c x Hi Hx) as (bs' & i' & f' & Hb' & Hr). exists bs', i', f'. split; [apply in_or_app; left; exact Hb'|exact Hr].
  - injection E as <- <-. exists bs, i, f. split; [apply in_or_app; right; left; rewrite HN; reflexivity|]. rewrite Hb. split; [left; reflexivity|]. split; [exact Hf|exact (Ha x Hx)].
Qed.
Lemma call_h {A} (st : bst) (r : cm A) g : b_h (snd (call st r g)) = b_h st.
Proof. unfold call. destruct r as [[]]; reflexivity. Qed.
Lemma release_h o st : b_h (release o st) = b_h st.
Proof. destruct o; reflexivity. Qed.
Lemma W_starts st st1 s l n bs m' m2 : J st s m' -> W st s -> J st1 (mkS l (s_pend s ++ match bs with [] => [] | z :: zs => [(s_n s, z :: zs)] end) n) m2 -> b_h (q_b st1) = b_h (q_b st) ->
  (forall i, In i bs -> In i (written bs)) -> (q_q st1 = q_q st \/ exists a, q_q st1 = q_q st ++ [(q_n st, a)]) -> W st1 (mkS l (s_pend s ++ match bs with [] => [] | z :: zs => [(s_n s, z :: zs)] end) n).
Proof.
  intros HJ HW HJ1 Hh Hbs Hq t a x Hi Hx. cbn [s_pend]. rewrite Hh.
  assert (OLD : In (t, a) (q_q st) -> exists bs0 i f, In (t, bs0) (s_pend s ++ match bs with [] => [] | z :: zs => [(s_n s, z :: zs)] end) /\ In i (written bs0) /\ nth_error (b_h (q_b st)) i = Some (Some f) /\ region f x).
  { intros H. destruct (HW t a x H Hx) as (bs' & i' & f' & Hb' & Hr). exists bs', i', f'. split; [apply in_or_app; left; exact Hb'|exact Hr]. }
  destruct Hq as [Hq|(c & Hq)]; rewrite Hq in Hi; [exact (OLD Hi)|]. apply in_app_or in Hi. destruct Hi as [Hi|[E|[]]]; [exact (OLD Hi)|]. injection E as <- <-.
  destruct (j_foot _ _ _ HJ1 (q_n st) c) as (b1 & Hb & HF); [rewrite Hq; apply in_or_app; right; left; reflexivity|]. destruct (HF x (wr_foot _ _ Hx)) as (i & f & Hbi & Hf & Hr). rewrite Hh in Hf.
  exists b1, i, f. split; [exact Hb|]. split; [|split; [exact Hf|exact Hr]]. cbn [s_pend] in Hb. apply in_app_or in Hb. destruct Hb as [Hb|Hb].
  - exfalso. destruct (j_evs _ _ _ HJ _ _ Hb) as (_ & K1). lia.
  - destruct bs as [|z zs]; [destruct Hb|]. destruct Hb as [E|[]]. injection E as _ <-. exact (Hbs i Hbi).
Qed.
Lemma qop_W st s s' m' m2 o : match o with OSize _ | OCopy _ _ => False | _ => True end -> J st s m' -> W st s -> qjudge s (QOp o) (fst (qstep st (QOp o))) = QGood s' -> J (snd (qstep st (QOp o))) s' m2 -> W (snd (qstep st (QOp o))) s'.
Proof.
  intros HO HJ HW EJ HJ2. cbn [qjudge] in EJ. destruct (existsb (busy (s_pend s)) (host_uses o)) eqn:EH; [discriminate|].
  destruct (judge (s_l s) o (fst (qstep st (QOp o)))) as [l'| |] eqn:EL; try discriminate. injection EJ as <-.
  assert (SAME : forall o, match o with OPut _ _ _ | OGet _ _ | OSetSize _ _ => True | _ => False end -> b_h (snd (bstep (q_b st) o)) = b_h (q_b st)).
  { intros o' Ho. destruct o'; try contradiction; cbn [bstep]; destruct (get_buf _ _); try reflexivity; apply call_h. }
  destruct o as [esz eal cap rs g|k|k j|k|k v|k j|k z v|k z|k n|k]; try contradiction; cbn [starts renamed host_uses existsb] in *; rewrite ?orb_false_r in EH.
  - rewrite app_nil_r. cbn [qstep snd]. apply W_host; [exact HW|]. intros i f t bs _ _ Hf. cbn [bstep]. assert (A : forall o, nth_error (b_h (q_b st) ++ [o]) i = Some (Some f)) by (intros o; rewrite nth_error_app1; [exact Hf|apply nth_error_Some; congruence]).
    destruct (Placement.vector_buffer _ _ _ _ _) as [[[v ob]| |] w]; apply A.
  - rewrite app_nil_r. cbn [qstep snd]. apply W_host; [exact HW|]. intros i f t bs Hb Hi Hf. cbn [bstep]. destruct (get_buf _ k); [|exact Hf]. cbn [snd with_h b_h]. rewrite nth_upd.
    destruct (Nat.eqb_spec k i) as [->|_]; [exfalso; exact (not_busy _ _ _ _ EH Hb Hi)|exact Hf].
  - rewrite app_nil_r. cbn [qstep fst snd] in *. cbn [bstep] in *. destruct (get_buf (q_b st) k) as [f0|] eqn:Ek; cbn [fst snd] in *; [|exfalso; exact (judge_defined _ _ _ EL)].
    apply get_buf_some in Ek. assert (Hkj : k <> j /\ exists o, nth_error (b_h (q_b st)) j = Some o).
    { cbn [judge] in EL. destruct (alive (s_l s) k); [|discriminate]. destruct (nth_error (s_l s) j) as [o|] eqn:Ej; [|discriminate]. destruct (Nat.eqb_spec k j); [discriminate|]. split; [assumption|].
      pose proof (i_rel _ _ _ _ (j_inv _ _ _ HJ) j) as Rj. rewrite Ej in Rj. destruct (nth_error (b_h (q_b st)) j) as [o'|]; [exists o'; reflexivity|destruct o; contradiction]. }
    destruct Hkj as (Hkj & oj & Hoj). intros t a x Hi Hx. cbn [next with_b q_q q_b s_pend with_h b_h] in *. destruct (HW t a x Hi Hx) as (bs & i & f & Hb & Hbi & Hf & Hr).
    exists (map (fun x => if Nat.eqb x k then j else x) bs), (if Nat.eqb i k then j else i), f. split; [apply in_map_iff; exists (t, bs); split; [reflexivity|exact Hb]|].
    split; [rewrite written_map; apply in_map_iff; exists i; split; [reflexivity|exact Hbi]|]. split; [|exact Hr].
    assert (Hij : i <> j) by (intros ->; exact (not_busy _ _ _ _ EH Hb (written_in _ _ Hbi))). rewrite !nth_upd. destruct (Nat.eqb_spec i k) as [->|Hik].
    + replace (Nat.eqb k j) with false by (symmetry; apply Nat.eqb_neq; exact Hkj). rewrite Nat.eqb_refl, Hoj. congruence.
    + replace (Nat.eqb k i) with false by (symmetry; apply Nat.eqb_neq; congruence). replace (Nat.eqb j i) with false by (symmetry; apply Nat.eqb_neq; congruence). exact Hf.
  - eapply W_starts; [exact HJ|exact HW|exact HJ2| | |].
    + cbn [qstep]. destruct (get_buf _ k); [|reflexivity]. cbn [snd]. destruct (_ || _); reflexivity.
    + intros i. destruct (alive (s_l s) k) as [a|]; [|intros []]. destruct (a_size a); [intros []|cbn; auto|cbn; auto].
    + cbn [qstep]. destruct (get_buf _ k); [|left; reflexivity]. cbn [snd]. destruct (_ || _); [left; reflexivity|right; eexists; reflexivity].
  - eapply W_starts; [exact HJ|exact HW|exact HJ2| | |].
    + cbn [qstep]. destruct (get_buf _ k); [|reflexivity]. cbn [snd]. destruct (_ =? 0); reflexivity.
    + intros i. destruct (alive (s_l s) k) as [a|]; [|intros []]. destruct (a_cap a =? 0); [intros []|cbn; auto].
    + cbn [qstep]. destruct (get_buf _ k); [|left; reflexivity]. cbn [snd]. destruct (_ =? 0); [left; reflexivity|right; eexists; reflexivity].
  - rewrite app_nil_r. cbn [qstep snd]. apply W_host; [exact HW|]. intros i f t bs _ _ Hf. rewrite SAME by exact I. exact Hf.
  - rewrite app_nil_r. cbn [qstep snd]. apply W_host; [exact HW|]. intros i f t bs _ _ Hf. rewrite SAME by exact I. exact Hf.
  - rewrite app_nil_r. cbn [qstep snd]. apply W_host; [exact HW|]. intros i f t bs _ _ Hf. rewrite SAME by exact I. exact Hf.
Qed.
Lemma drain_on str c st s m' : J st s m' -> apart str s -> W st s ->
  exists st1 m2, go (on str c) st = Some st1 /\ J st1 s m2 /\ W st1 s /\ (forall x, m_byte m2 x = m_byte m' x) /\ b_w (q_b st1) = b_w (q_b st) /\ b_h (q_b st1) = b_h (q_b st) /\
    (forall i f t a x, busy_on_other str c (s_pend s) i = false -> nth_error (b_h (q_b st1)) i = Some (Some f) -> In (t, a) (q_q st1) -> foot a x -> ~ region f x) /\
    (forall i f t a x, written_on_other str c (s_pend s) i = false -> nth_error (b_h (q_b st1)) i = Some (Some f) -> In (t, a) (q_q st1) -> wr a x -> ~ region f x).
Proof.
  intros HJ SEP HW. destruct (go_J _ str _ _ _ HJ SEP HW (on_sep str c)) as (st1 & m2 & E & HJ1 & HW1 & Em & Hq & Hw & Hh & _). exists st1, m2. repeat (split; [assumption|]).
  assert (NC : forall t a, In (t, a) (q_q st1) -> stream str t <> c).
  { intros t a Hi. rewrite Hq in Hi. apply filter_In in Hi. destruct Hi as (_ & Hn). cbn [fst] in Hn. unfold on in Hn. destruct (Nat.eqb_spec (stream str t) c); [discriminate|assumption]. }
  split; intros i f t a x HB Hf Hi Hx Hr.
  - destruct (j_foot _ _ _ HJ1 t a Hi) as (bs & Hb & HF). destruct (HF x Hx) as (k & g & Hk & Hg & Hrg).
    assert (D : k <> i) by (intros ->; exact (not_busy_on _ _ _ _ _ _ HB Hb (NC t a Hi) Hk)). exact (i_sep _ _ _ _ (j_inv _ _ _ HJ1) k i g f x D Hg Hf Hrg Hr).
  - destruct (HW1 t a x Hi Hx) as (bs & k & g & Hb & Hk & Hg & Hrg).
    assert (D : k <> i) by (intros ->; exact (not_written_on _ _ _ _ _ _ HB Hb (NC t a Hi) Hk)). exact (i_sep _ _ _ _ (j_inv _ _ _ HJ1) k i g f x D Hg Hf Hrg Hr).
Qed.
Lemma r_size_J str c st s m' i f a n : J st s m' -> apart str s -> W st s ->
  written_on_other str c (s_pend s) i = false -> nth_error (b_h (q_b st)) i = Some (Some f) -> Rb m' f a -> a_num a = Some n ->
  exists st1 m2, r_size str c f st = Some (n, st1) /\ J st1 s m2 /\ W st1 s /\ (forall x, m_byte m2 x = m_byte m' x) /\ b_w (q_b st1) = b_w (q_b st) /\ b_h (q_b st1) = b_h (q_b st).
Proof.
  intros HJ SEP HW HB Hf R En. unfold r_size. destruct (v_sizep (f_view f) =? 0) eqn:E.
  - pose proof (get_size_ok _ _ _ (Rb_view_size _ _ _ _ R En)) as G. unfold get_size in G. rewrite E in G. injection G as ->. exists st, m'. auto 10.
  - destruct (drain_on str c st s m' HJ SEP HW) as (st1 & m2 & -> & HJ1 & HW1 & Em & Hw & Hh & _ & HF). rewrite <- Hh in Hf.
    assert (R1 : Rb (b_m (q_b st1)) f a).
    { apply (Rb_frame m'); [|exact R]. intros x Hx. rewrite <- Em. symmetry. apply (q_writes (q_q st1) _ _ x (j_run _ _ _ HJ1)). intros t b Hi Hfx. exact (HF i f t b x HB Hf Hi Hfx Hx). }
    rewrite (get_size_ok _ _ _ (Rb_view_size _ _ _ _ R1 En)). exists st1, m2. auto 10.
Qed.
Lemma copy_in_same n d m m1 mm : do_copy_in type_unknown (le32 n) d m = (Ret tt, m1) -> (forall x, within d 4 x -> m_byte mm x = m_byte m x) ->
  do_copy_in type_unknown (le32 n) d mm = (Ret tt, put_bytes mm d (le32 n)) /\ m1 = put_bytes m d (le32 n).
Proof.
  intros H E. pose proof (get_same m mm d 4 E) as G. change (Z.to_nat 4) with (length (le32 n)) in G. unfold do_copy_in in *. change (match le32 n with [] => true | _ => false end) with false in *.
  unfold le32 at 1 in H. unfold le32 at 1. destruct (d =? 0); [discriminate|]. rewrite G. destruct (get_bytes m d (length (le32 n))); [|discriminate].
  rewrite kind_unknown in *. injection H as <-. auto.
Qed.
Definition rok (str : list nat) (c : nat) (st : qst) (s : sst) (o : bop) : Prop :=
  match qjudge s (QOp o) (fst (rcall str c st o)) with QGood s' => exists m2, J (snd (rcall str c st o)) s' m2 /\ W (snd (rcall str c st o)) s' | QIllegal => True | QWrong => False end.
Lemma rsize_ok str c st s m' i : J st s m' ->
  apart str s -> W st s ->
  written_on_other str c (s_pend s) i = false -> rok str c st s (OSize i).
Proof.
  intros HJ SEP HW HB. unfold rok. cbn [qjudge host_uses existsb renamed starts]. rewrite app_nil_r. cbn [rcall judge].
  destruct (alive (s_l s) i) as [a|] eqn:Ea; [|exact I]. destruct (a_num a) as [n|] eqn:En; [|exact I].
  assert (GB : exists f, nth_error (b_h (q_b st)) i = Some (Some f)). { pose proof Ea as Ea'. apply alive_some in Ea'. destruct (alive_buf _ _ _ _ _ _ (j_inv _ _ _ HJ) Ea') as (f & Hf & _). exists f. exact Hf. }
  destruct GB as (f & Hf). assert (Gf : get_buf (q_b st) i = Some f) by (apply get_buf_some; exact Hf). rewrite Gf in *. pose proof (alive_Rb _ _ _ _ _ _ HJ Ea Hf) as R.
  destruct (r_size_J str c st s m' i f a n HJ SEP HW HB Hf R En) as (st1 & m2 & -> & HJ1 & HW1 & _). cbn [fst snd expect]. rewrite Z.eqb_refl. exists m2. split; [apply next_J; exact HJ1|exact HW1].
Qed.
Lemma rcopy_ok str c st s m' i j : J st s m' ->
  apart str s -> W st s ->
  written_on_other str c (s_pend s) i = false -> busy_on_other str c (s_pend s) j = false ->
  upstream_ok (ulog (b_w (q_b st))) -> rok str c st s (OCopy i j).
Proof.
  intros HJ SEP HW HBi HBj HU. unfold rok. cbn [qjudge host_uses existsb renamed starts rcall judge].
  destruct (alive (s_l s) i) as [a|] eqn:Ea; [|exact I]. destruct (alive (s_l s) j) as [b|] eqn:Eb; [|exact I]. destruct (a_num a) as [n|] eqn:En; [|exact I].
  destruct (Nat.eqb i j || negb (a_esz a =? a_esz b)) eqn:EL; [exact I|].
  assert (GB : forall k c, alive (s_l s) k = Some c -> exists f, nth_error (b_h (q_b st)) k = Some (Some f)). { intros k d Ec. apply alive_some in Ec. destruct (alive_buf _ _ _ _ _ _ (j_inv _ _ _ HJ) Ec) as (f & Hf & _). exists f. exact Hf. }
  destruct (GB i a Ea) as (f & Hf). assert (Gf : get_buf (q_b st) i = Some f) by (apply get_buf_some; exact Hf). rewrite Gf.
  destruct (GB j b Eb) as (g & Hg). assert (Gg : get_buf (q_b st) j = Some g) by (apply get_buf_some; exact Hg). rewrite Gg.
  destruct (r_size_J str c st s m' i f a n HJ SEP HW HBi Hf (alive_Rb _ _ _ _ _ _ HJ Ea Hf) En) as (st1 & m1 & -> & HJ1 & HW1 & _ & Hw1 & Hh1).
  rewrite <- Hh1 in Hf, Hg. rewrite <- Hw1 in HU.
  pose proof (alive_Rb _ _ _ _ _ _ HJ1 Eb Hg) as Q. pose proof Q as (Q1 & Q2 & Q3 & Q4 & _). rewrite Q3.
  destruct (n =? 0) eqn:E0; cbn [fst snd expect Bool.eqb]; [rewrite app_nil_r; exists m1; split; [apply next_J; exact HJ1|exact HW1]|].
  destruct (a_cap b <? n) eqn:Ec; cbn [fst snd expect]; [rewrite app_nil_r; exists m1; split; [apply next_J; exact HJ1|exact HW1]|].
  (* what a synchronous copy does in a state of the stream *)
  assert (SYNC : forall st2 m2, J st2 s m2 -> b_w (q_b st2) = b_w (q_b st1) -> b_h (q_b st2) = b_h (q_b st1) ->
     exists m4 m3 l', (if v_sizep (f_view g) =? 0 then (Ret tt, m2) else do_copy_in type_unknown (le32 n) (v_sizep (f_view g)) m2) = (Ret tt, m4) /\
       act_run (QCopy (n * f_esz f) (v_ptr (f_view f)) (v_ptr (f_view g))) m4 = (Ret tt, m3) /\ judge (s_l s) (OCopy i j) (RCopied true) = Good l' /\ Inv (b_w (q_b st2)) m3 (b_h (q_b st2)) l').
  { intros st2 m2 HJ2 Hw2 Hh2. pose proof (sync_ok st2 s m2 (OCopy i j) HJ2) as HS. cbn [bstep] in HS.
    assert (Gf2 : get_buf (sync st2 m2) i = Some f) by (apply get_buf_some; cbn [sync b_h]; rewrite Hh2; exact Hf).
    assert (Gg2 : get_buf (sync st2 m2) j = Some g) by (apply get_buf_some; cbn [sync b_h]; rewrite Hh2; exact Hg). rewrite Gf2, Gg2 in HS.
    rewrite <- Hh2 in Hf. pose proof (Rb_view_size _ _ _ _ (alive_Rb _ _ _ _ _ _ HJ2 Ea Hf) En) as VS.
    cbn [judge] in *. rewrite Ea, Eb, En, EL in *. cbn [call fst snd sync b_w b_m b_h] in *. unfold copy_vector in HS. rewrite (get_size_ok _ _ _ VS) in HS. cbn [cbind] in HS. rewrite Q3, E0, Ec in *.
    rewrite <- Hw2 in HU. destruct (v_sizep (f_view g) =? 0) eqn:EG; cbn [cbind fst snd] in HS.
    - exists m2. cbn [act_run]. destruct (do_copy type_unknown (n * f_esz f) (v_ptr (f_view f)) (v_ptr (f_view g)) m2) as [[[]|e|] m3] eqn:ED; cbn [cbind fst snd expect Bool.eqb] in *; specialize (HS HU); [|destruct e; contradiction|contradiction].
      exists m3. eexists. repeat (split; [reflexivity|]). exact HS.
    - cbn [size_cptype] in HS. destruct (do_copy_in type_unknown (le32 n) (v_sizep (f_view g)) m2) as [[[]|e|] m4] eqn:EI; cbn [cbind fst snd expect] in *; [|destruct e; specialize (HS HU); contradiction|specialize (HS HU); contradiction].
      exists m4. cbn [act_run]. destruct (do_copy type_unknown (n * f_esz f) (v_ptr (f_view f)) (v_ptr (f_view g)) m4) as [[[]|e|] m3] eqn:ED; cbn [cbind fst snd expect Bool.eqb] in *; specialize (HS HU); [|destruct e; contradiction|contradiction].
      exists m3. eexists. repeat (split; [reflexivity|]). exact HS. }
  cbn [judge] in SYNC. rewrite Ea, Eb, En, EL, E0, Ec in SYNC.
  assert (FT : forall x, foot (QCopy (n * f_esz f) (v_ptr (f_view f)) (v_ptr (f_view g))) x -> exists k d, In k [i; j] /\ nth_error (b_h (q_b st1)) k = Some (Some d) /\ region d x).
  { pose proof (alive_Rb _ _ _ _ _ _ HJ1 Ea Hf) as R. pose proof (Rb_view_size _ _ _ _ R En) as (V1 & V2 & _). pose proof R as (R1 & R2 & R3 & R4 & _).
    assert (EZ : a_esz a = a_esz b) by (destruct (Z.eqb_spec (a_esz a) (a_esz b)); [assumption|rewrite orb_true_r in EL; discriminate]).
    intros x [W|W]; [exists i, f|exists j, g]; (split; [cbn; tauto|]); (split; [assumption|]).
    - apply (Rb_region_bytes m1 f a x R). rewrite R1 in W. unfold within in *. nia.
    - apply (Rb_region_bytes m1 g b x Q). rewrite R1, EZ in W. unfold within in *. nia. }
  assert (WT : forall x, wr (QCopy (n * f_esz f) (v_ptr (f_view f)) (v_ptr (f_view g))) x -> region g x).
  { pose proof (alive_Rb _ _ _ _ _ _ HJ1 Ea Hf) as R. pose proof (Rb_view_size _ _ _ _ R En) as (V1 & V2 & _). pose proof R as (R1 & R2 & R3 & R4 & _).
    assert (EZ : a_esz a = a_esz b) by (destruct (Z.eqb_spec (a_esz a) (a_esz b)); [assumption|rewrite orb_true_r in EL; discriminate]).
    intros x Hx. cbn [wr] in Hx. apply (Rb_region_bytes m1 g b x Q). rewrite R1, EZ in Hx. unfold within in *. nia. }
  unfold r_set_size. destruct (v_sizep (f_view g) =? 0) eqn:EG.
  - destruct (SYNC st1 m1 HJ1 eq_refl eq_refl) as (m4 & m3 & l' & E4 & E3 & EJ & HI). injection E4 as <-. cbn [fst snd]. rewrite EJ. exists m3. split; [|exact (W_enqueue st1 s _ _ _ [i; j] j g HW1 (j_n _ _ _ HJ1) eq_refl Hg WT)].
    apply (enqueue_J st1 (s_l s) (s_pend s) (s_n s) _ m1 m3); [exact (j_run _ _ _ HJ1)|exact E3|exact HI|exact (j_dev _ _ _ HJ1)|exact (j_foot _ _ _ HJ1)|exact (j_evs _ _ _ HJ1)|exact (j_sort _ _ _ HJ1)|exact (j_n _ _ _ HJ1)|exact FT].
  - destruct (drain_on str c st1 s m1 HJ1 SEP HW1) as (st2 & m2 & -> & HJ2 & HW2 & _ & Hw2 & Hh2 & HF & _).
    destruct (SYNC st2 m2 HJ2 Hw2 Hh2) as (m4 & m3 & l' & E4 & E3 & EJ & HI). rewrite <- Hh2 in Hg.
    assert (NF : a_size b <> Fixed) by (intros e; apply (proj1 (Rb_sizep _ _ _ Q)) in e; rewrite e in EG; discriminate).
    assert (RG : forall x, within (v_sizep (f_view g)) 4 x -> region g x) by (intros x; exact (Rb_region_size _ _ _ _ Q NF)).
    assert (UT : forall t a x, In (t, a) (q_q st2) -> foot a x -> ~ region g x) by (intros t d x Hi Hx; exact (HF j g t d x HBj Hg Hi Hx)).
    assert (SG : forall x, region g x -> m_byte (b_m (q_b st2)) x = m_byte m2 x) by (intros x Hx; symmetry; apply (settled st2 s m2 x HJ2); intros t d Hi Hfx; exact (UT t d x Hi Hfx Hx)).
    destruct (copy_in_same _ _ _ _ (b_m (q_b st2)) E4 (fun x Hx => SG x (RG x Hx))) as (-> & ->). set (mb := put_bytes (b_m (q_b st2)) (v_sizep (f_view g)) (le32 n)) in *.
    assert (OUT : forall m x, ~ region g x -> m_byte (put_bytes m (v_sizep (f_view g)) (le32 n)) x = m_byte m x) by (intros m x Hx; apply put_out; intros Hw; apply Hx, RG, Hw).
    destruct (host_change (region g) (q_q st2) (b_m (q_b st2)) m2 mb (put_bytes m2 (v_sizep (f_view g)) (le32 n)) (j_run _ _ _ HJ2) (region_dec g) UT (fun x H => OUT _ x H) (fun x H => OUT _ x H)) as (m5 & R5 & E5 & D5).
    { intros x Hx. destruct (within_dec (v_sizep (f_view g)) 4 x) as [Hw|Hw]; [unfold mb; rewrite !put_in by exact Hw; reflexivity|unfold mb; rewrite !put_out by exact Hw; exact (SG x Hx)]. }
    destruct (act_frame (fun _ => True) _ _ _ m5 E3 (fun _ _ => I) (fun x _ => E5 x)) as (m6 & R6 & E6 & _ & D6).
    cbn [fst snd]. rewrite EJ. exists m6. split; [|exact (W_enqueue (with_m st2 mb) s _ _ _ [i; j] j g HW2 (j_n _ _ _ HJ2) eq_refl Hg WT)]. apply (enqueue_J (with_m st2 mb) (s_l s) (s_pend s) (s_n s) _ m5 m6); cbn [with_m with_b q_b q_q q_evs q_n b_w b_m b_h].
    + exact R5.
    + exact R6.
    + apply (Inv_ext _ m3); [exact HI|intros x; exact (E6 x I)|]. intros x. rewrite D6, D5. exact (j_dev _ _ _ HJ2 x).
    + exact (j_dev _ _ _ HJ2).
    + exact (j_foot _ _ _ HJ2).
    + exact (j_evs _ _ _ HJ2).
    + exact (j_sort _ _ _ HJ2).
    + exact (j_n _ _ _ HJ2).
    + rewrite Hh2. exact FT.
Qed.

(** ** Programs *)
Lemma go_w p st st' : go p st = Some st' -> b_w (q_b st') = b_w (q_b st).
Proof. unfold go. destruct (q_run _ _); [|discriminate]. intros H. injection H as <-. reflexivity. Qed.
Lemma r_size_w str c f st n st' : r_size str c f st = Some (n, st') -> b_w (q_b st') = b_w (q_b st).
Proof.
  unfold r_size. destruct (_ =? 0); [intros H; injection H as <- <-; reflexivity|]. destruct (go _ st) as [st1|] eqn:E; [|discriminate]. destruct (get_size _ _) as [[]]; try discriminate.
  intros H. injection H as <- <-. exact (go_w _ _ _ E).
Qed.
Lemma r_set_size_w str c g n st st' : r_set_size str c g n st = Some st' -> b_w (q_b st') = b_w (q_b st).
Proof.
  unfold r_set_size. destruct (_ =? 0); [intros H; injection H as <-; reflexivity|]. destruct (go _ st) as [st1|] eqn:E; [|discriminate]. destruct (do_copy_in _ _ _ _) as [[]]; try discriminate.
  intros H. injection H as <-. exact (go_w _ _ _ E).
Qed.
Lemma rlog_grows st o : exists n, ulog (b_w (q_b (r_st (snd (rstep st o))))) = n ++ ulog (b_w (q_b (r_st st))).
Proof.
  assert (SAME : forall st', b_w (q_b st') = b_w (q_b (r_st st)) -> exists n, ulog (b_w (q_b st')) = n ++ ulog (b_w (q_b (r_st st)))) by (intros st' ->; exists []; reflexivity).
  destruct o as [c o|k|k]; cbn [rstep].
  - cbn [snd r_st]. destruct o as [esz eal cap rs g|i|i j|i|i v|i j|i k v|i k|i n|i]; try exact (qlog_grows (r_st st) (QOp _)); cbn [rcall].
    + destruct (get_buf _ i) as [f|]; [|apply SAME; reflexivity]. destruct (get_buf _ j) as [g|]; [|apply SAME; reflexivity]. destruct (r_size _ _ f _) as [[n st1]|] eqn:E1; [|apply SAME; reflexivity].
      pose proof (r_size_w _ _ _ _ _ _ E1) as W1. destruct (n =? 0); [apply SAME; exact W1|]. destruct (_ <? n); [apply SAME; exact W1|]. destruct (r_set_size _ _ g n st1) as [st2|] eqn:E2; [|apply SAME; reflexivity].
      apply SAME. cbn [snd enqueue q_b]. rewrite (r_set_size_w _ _ _ _ _ _ E2). exact W1.
    + destruct (get_buf _ i) as [f|]; [|apply SAME; reflexivity]. destruct (r_size _ _ f _) as [[n st1]|] eqn:E1; [|apply SAME; reflexivity]. apply SAME. exact (r_size_w _ _ _ _ _ _ E1).
  - destruct (existsb _ _); [|apply SAME; reflexivity]. destruct (go _ _) as [st1|] eqn:E; [|apply SAME; reflexivity]. apply SAME. exact (go_w _ _ _ E).
  - destruct (go _ _) as [st1|] eqn:E; [|apply SAME; reflexivity]. apply SAME. exact (go_w _ _ _ E).
Qed.
Lemma rlogs_grow ops : forall st, exists n, ulog (b_w (q_b (r_st (snd (rruns st ops))))) = n ++ ulog (b_w (q_b (r_st st))).
Proof.
  induction ops as [|o ops IH]; intros st; cbn [rruns snd]; [exists []; reflexivity|]. destruct (rlog_grows st o) as (n1 & H1). destruct (IH (snd (rstep st o))) as (n2 & H2).
  exists (n2 ++ n1). rewrite H2, H1, app_assoc. reflexivity.
Qed.
Lemma rstep_ok st s m' o : K st s m' -> upstream_ok (ulog (b_w (q_b (r_st (snd (rstep st o)))))) -> good st s o.
Proof.
  intros HK HU. destruct o as [c o|k|k]; [|exact (rwait_ok st s m' k HK)|exact (rtick_ok st s m' k HK)].
  unfold good. cbn [rjudge]. destruct (clash (r_str st) c (s_pend s) o) eqn:EB; [exact I|]. destruct (no_clash _ _ _ _ EB) as (HBR & HBW).
  assert (HU0 : upstream_ok (ulog (b_w (q_b (r_st st))))) by (destruct (rlog_grows st (ROp c o)) as (n & Hn); rewrite Hn in HU; exact (upstream_ok_app _ _ HU)).
  cbn [rstep fst snd r_st r_str] in *.
  assert (H : rok (r_str st) c (r_st st) s o).
  { pose proof (k_J _ _ _ HK) as HJ. pose proof (k_wr _ _ _ HK) as HW.
    assert (SAME : match o with OSize _ | OCopy _ _ => False | _ => True end -> rcall (r_str st) c (r_st st) o = qstep (r_st st) (QOp o)) by (destruct o; intros HO; try contradiction; reflexivity).
    assert (QOK : match o with OSize _ | OCopy _ _ => False | _ => True end -> rok (r_str st) c (r_st st) s o).
    { intros HO. unfold rok. rewrite (SAME HO) in *. pose proof (qop_ok (r_st st) s m' o HJ HU) as H. unfold ok in H. destruct (qjudge s (QOp o) (fst (qstep (r_st st) (QOp o)))) as [s'| |] eqn:EJ; [|exact I|exact H].
      destruct H as (m2 & HJ2). exists m2. split; [exact HJ2|]. exact (qop_W _ s s' m' m2 o HO HJ HW EJ HJ2). }
    destruct o as [esz eal cap rs g|i|i j|i|i v|i j|i k v|i k|i n|i]; try exact (QOK I).
    - exact (rcopy_ok _ c _ s m' i j HJ (k_sep _ _ _ HK) HW (HBR i (or_introl eq_refl)) (HBW j (or_introl eq_refl)) HU0).
    - exact (rsize_ok _ c _ s m' i HJ (k_sep _ _ _ HK) HW (HBR i (or_introl eq_refl))). }
  unfold rok in H. destruct (qjudge s (QOp o) (fst (rcall (r_str st) c (r_st st) o))) as [s'| |] eqn:EJ; [|exact I|exact H].
  split; [reflexivity|]. destruct H as (m2 & HJ & HW). exists m2. exact (call_K st s c o _ s' _ m2 m' HK EB EJ HJ HW).
Qed.
Lemma rruns_ok ops : forall st s, (exists m', K st s m') -> upstream_ok (ulog (b_w (q_b (r_st (snd (rruns st ops)))))) ->
  match rjudge_all s (r_str st) ops (fst (rruns st ops)) with RGood s' str' => r_str (snd (rruns st ops)) = str' /\ exists m', K (snd (rruns st ops)) s' m' | RIllegal => True | RWrong => False end.
Proof.
  induction ops as [|o ops IH]; intros st s HK; cbn [rruns rjudge_all fst snd].
  - intros _. auto.
  - intros HU. destruct (rlogs_grow ops (snd (rstep st o))) as (n & Hn). pose proof HU as HU1. rewrite Hn in HU1. apply upstream_ok_app in HU1.
    destruct HK as (m' & HK). pose proof (rstep_ok st s m' o HK HU1) as HS. unfold good in HS. destruct (rjudge s (r_str st) o (fst (rstep st o))) as [s' str'| |]; [|exact I|exact HS]. destruct HS as (<- & HS). exact (IH _ s' HS HU).
Qed.
Lemma K0 orc : K (rst0 orc) (mkS [] [] 0) (b_m (bst0 orc)).
Proof. constructor; [exact (J0 orc)|reflexivity|intros t bs t' bs' i []|intros t a x []]. Qed.
Theorem rprograms orc ops rs st : rruns (rst0 orc) ops = (rs, st) -> upstream_ok (ulog (b_w (q_b (r_st st)))) ->
  match rjudge_all (mkS [] [] 0) [] ops rs with
  | RGood s _ => frees_ok (ulog (b_w (q_b (r_st st)))) /\
      length (ulive (ulog (b_w (q_b (r_st st))))) = length (filter (fun o => match o with Some a => negb (a_cap a =? 0) | None => false end) (s_l s)) /\
      (s_pend s = [] -> q_q (r_st st) = [])
  | RIllegal => True
  | RWrong => False
  end.
Proof.
  intros E HU. pose proof (rruns_ok ops (rst0 orc) (mkS [] [] 0) (ex_intro _ _ (K0 orc))) as H. rewrite E in H. cbn [fst snd] in H. specialize (H HU). change (r_str (rst0 orc)) with (@nil nat) in H.
  destruct (rjudge_all (mkS [] [] 0) [] ops rs) as [s str| |]; [|exact I|exact H]. destruct H as (_ & m' & HK). pose proof (k_J _ _ _ HK) as HJ. pose proof (j_inv _ _ _ HJ) as HI.
  split; [exact (i_frees _ _ _ _ HI)|]. split; [rewrite (Permutation_length (i_perm _ _ _ _ HI)); exact (blks_count _ _ _ _ HI)|].
  intros HP. destruct (q_q (r_st st)) as [|[t a] q] eqn:Eq; [reflexivity|]. destruct (j_foot _ _ _ HJ t a ltac:(rewrite Eq; left; reflexivity)) as (bs & Hb & _). rewrite HP in Hb. destruct Hb.
Qed.
Lemma rcalls_judged ops : forall rs s str s' str', rjudge_all s str ops rs = RGood s' str' -> judge_all (s_l s) (fst (rcalls ops rs)) (snd (rcalls ops rs)) = Good (s_l s').
Proof.
  induction ops as [|o ops IH]; intros [|r rs] s str s' str'; cbn [rjudge_all rcalls fst snd judge_all]; try discriminate.
  - intros H. injection H as <- <-. reflexivity.
  - destruct (rjudge s str o r) as [s1 str1| |] eqn:E; try discriminate. intros H. specialize (IH rs s1 str1 s' str' H). destruct o as [c o|k|k]; cbn [rjudge] in E.
    + destruct (clash _ _ _ _); [discriminate|]. cbn [qjudge] in E. destruct (existsb _ (host_uses o)); [discriminate|]. destruct (judge (s_l s) o r) as [l'| |] eqn:EJ; try discriminate. injection E as <- <-.
      cbn [fst snd judge_all s_l] in *. rewrite EJ. exact IH.
    + destruct r; try discriminate. injection E as <- <-. exact IH.
    + destruct r; try discriminate. injection E as <- <-. exact IH.
Qed.
(** What an operation writes is not touched by those of other streams. *)
Theorem rprogram_apart orc ops rs st s str : rruns (rst0 orc) ops = (rs, st) -> upstream_ok (ulog (b_w (q_b (r_st st)))) -> rjudge_all (mkS [] [] 0) [] ops rs = RGood s str ->
  (forall t a t' a' x, In (t, a) (q_q (r_st st)) -> In (t', a') (q_q (r_st st)) -> stream str t <> stream str t' -> wr a x -> ~ foot a' x) /\
  forall t a x, In (t, a) (q_q (r_st st)) -> foot a x -> exists i f b bs, nth_error (b_h (q_b (r_st st))) i = Some (Some f) /\ f_block f = Some b /\ in_block x b /\ In (t, bs) (s_pend s) /\ In i bs.
Proof.
  intros E HU EJ. pose proof (rruns_ok ops (rst0 orc) (mkS [] [] 0) (ex_intro _ _ (K0 orc))) as H. rewrite E in H. cbn [fst snd] in H. specialize (H HU). change (r_str (rst0 orc)) with (@nil nat) in H. rewrite EJ in H.
  destruct H as (<- & m' & HK). pose proof (k_J _ _ _ HK) as HJ. split.
  - intros t a t' a' x Hi Hi' D. exact (streams_apart _ _ s m' t a t' a' x HJ (k_sep _ _ _ HK) (k_wr _ _ _ HK) Hi Hi' D).
  - intros t a x Hi Hx. destruct (j_foot _ _ _ HJ t a Hi) as (bs & Hb & HF). destruct (HF x Hx) as (i & f & Hk & Hf & Hr).
    unfold region in Hr. destruct (f_block f) as [b|] eqn:Eb; [|contradiction]. exists i, f, b, bs. auto.
Qed.

(** ** One stream *)
Definition one (o : rop) : qop := match o with ROp _ o => QOp o | RWait k => QWait k | RTick _ => QTick 0 end.
Lemma one_stream c ops : forall rs s str, (forall c' o, In (ROp c' o) ops -> c' = c) -> (forall t, (t < length str)%nat -> stream str t = c) -> length str = s_n s ->
  (forall t bs, In (t, bs) (s_pend s) -> (t < s_n s)%nat) ->
  qjudge_all s (map one ops) rs = match rjudge_all s str ops rs with RGood s' _ => QGood s' | RIllegal => QIllegal | RWrong => QWrong end.
Proof.
  induction ops as [|o ops IH]; intros [|r rs] s str HO HS HL HT; cbn [map qjudge_all rjudge_all]; try reflexivity.
  assert (HO' : forall c' o, In (ROp c' o) ops -> c' = c) by (intros c' o' Hi; exact (HO c' o' (or_intror Hi))).
  assert (NONE : others str c (s_pend s) = []).
  { unfold others. rewrite (filter_ext_in _ (fun _ => false)).
    - clear. induction (s_pend s) as [|e p IH]; [reflexivity|exact IH].
    - intros [t bs] Hi. cbn [fst]. rewrite HS by (rewrite HL; exact (HT t bs Hi)). rewrite Nat.eqb_refl. reflexivity. }
  destruct o as [d o|k|k]; cbn [one].
  - cbn [rjudge]. pose proof (HO d o (or_introl eq_refl)) as Hd. replace (clash str d (s_pend s) o) with false.
    2:{ rewrite Hd. unfold clash, written_on_other, busy_on_other. rewrite NONE. clear. destruct o; reflexivity. }
    destruct (qjudge s (QOp o) r) as [s'| |] eqn:E; [|reflexivity|reflexivity]. cbn [qjudge] in E. destruct (existsb _ (host_uses o)); [discriminate|]. destruct (judge (s_l s) o r) as [l'| |]; try discriminate. injection E as <-.
    apply IH; cbn [s_n s_pend].
    + exact HO'.
    + intros t Ht. rewrite app_length in Ht. cbn [length] in Ht. destruct (Nat.eq_dec t (length str)) as [->|N]; [rewrite stream_new; exact Hd|]. rewrite stream_app by lia. apply HS. lia.
    + rewrite app_length, HL. cbn [length]. lia.
    + assert (RT : forall t bs, In (t, bs) (renamed o (s_pend s)) -> (t < s_n s)%nat).
      { intros t bs Hb. destruct o; try exact (HT t bs Hb). cbn [renamed] in Hb. apply in_map_iff in Hb. destruct Hb as ([t0 b0] & E & Hb). injection E as <- _. exact (HT t0 b0 Hb). }
      intros t bs Hi. apply in_app_or in Hi. destruct Hi as [Hi|Hi]; [pose proof (RT t bs Hi); lia|]. destruct (starts _ _ _); [destruct Hi|]. destruct Hi as [E|[]]. injection E as <- _. lia.
  - cbn [rjudge qjudge]. destruct r; try reflexivity.
    assert (EF : (if existsb (fun e => Nat.eqb k (fst e)) (s_pend s) then filter (fun e => Nat.ltb k (fst e)) (s_pend s) else s_pend s) =
                 (if existsb (fun e => Nat.eqb k (fst e)) (s_pend s) then filter (fun e => negb (covers str k (fst e))) (s_pend s) else s_pend s)).
    { destruct (existsb _ (s_pend s)) eqn:EX; [|reflexivity]. apply existsb_exists in EX. destruct EX as ([k0 b0] & Hk & Ek). cbn [fst] in Ek. apply Nat.eqb_eq in Ek. subst k0.
      apply filter_ext_in. intros [t bs] Hi. cbn [fst]. unfold covers. rewrite (HS t) by (rewrite HL; exact (HT t bs Hi)). rewrite (HS k) by (rewrite HL; exact (HT k b0 Hk)). rewrite Nat.eqb_refl. cbn [andb].
      rewrite Nat.ltb_antisym. reflexivity. }
    rewrite EF. apply IH; cbn [s_n s_pend]; try assumption. intros t bs Hi. destruct (existsb _ (s_pend s)); [apply filter_In in Hi; exact (HT t bs (proj1 Hi))|exact (HT t bs Hi)].
  - cbn [rjudge qjudge]. destruct r; try reflexivity. exact (IH rs s str HO' HS HL HT).
Qed.
Theorem one_stream_ok c orc ops rs st : (forall c' o, In (ROp c' o) ops -> c' = c) -> rruns (rst0 orc) ops = (rs, st) -> upstream_ok (ulog (b_w (q_b (r_st st)))) ->
  qjudge_all (mkS [] [] 0) (map one ops) rs <> QWrong.
Proof.
  intros HO E HU. rewrite (one_stream c ops rs (mkS [] [] 0) [] HO); [|intros t Ht; cbn in Ht; lia|reflexivity|intros t bs []].
  pose proof (rprograms orc ops rs st E HU) as H. destruct (rjudge_all (mkS [] [] 0) [] ops rs); [discriminate|discriminate|contradiction].
Qed.
