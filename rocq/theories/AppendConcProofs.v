(** Concurrent appends: invariant and final state. *)
From Verif Require Import Base BaseLemmas BuddyHistory DeviceVector DeviceVectorProofs AppendConc.
From Coq Require Import Permutation.

Section Inv.
  Context {A : Type}.
  Variables (cap k : Z) (M0 : list (list (cell A))) (ops : list (cop A)).

  Definition sum_n (l : list (cop A)) : Z := fold_right (fun o z => o_n o + z) 0 l.
  Definition op_ok (o : cop A) : Prop :=
    0 <= o_n o /\ (o_bulk o = false -> o_n o = 1) /\
    (forall a off v, In (a, off, v) (o_writes o) -> 0 <= off < o_n o /\ (a < length M0)%nat) /\
    NoDup (map fst (o_writes o)).

  Hypothesis Hcap : cap < 2 ^ 32.
  Hypothesis Hk : 0 <= k.
  Hypothesis Hsum : k + sum_n ops <= cap.
  Hypothesis Hops : Forall op_ok ops.
  Hypothesis HM : Forall (fun m => Z.of_nat (length m) = cap) M0.

  Definition slot (M : list (list (cell A))) (a : nat) (p : Z) : option (cell A) :=
    match nth_error M a with Some m => nth_error m (Z.to_nat p) | None => None end.

  Definition pending (t : thread A) : Z := match t with TIdle o => o_n o | _ => 0 end.
  Definition op_of (t : thread A) : cop A := match t with TIdle o | TWrite _ o _ | TDone _ o => o end.
  Definition claim (t : thread A) : option Z := match t with TIdle _ => None | TWrite i _ _ | TDone i _ => Some i end.
  Definition todo_of (t : thread A) : list (nat * Z * A) := match t with TIdle o => o_writes o | TWrite _ _ l => l | TDone _ _ => [] end.
  Definition pend (l : list (thread A)) : Z := fold_right (fun t z => pending t + z) 0 l.

  Record inv (s : cstate A) : Prop := mkInv {
    i_cap : c_cap s = cap;
    i_ops : map op_of (c_thr s) = ops;
    i_size : k <= c_size s /\ c_size s + pend (c_thr s) = k + sum_n ops;
    i_len : length (c_mem s) = length M0 /\ Forall (fun m => Z.of_nat (length m) = cap) (c_mem s);
    i_claim : forall i t idx, nth_error (c_thr s) i = Some t -> claim t = Some idx -> k <= idx /\ idx + o_n (op_of t) <= c_size s;
    i_disj : forall i j t u x y, i <> j -> nth_error (c_thr s) i = Some t -> nth_error (c_thr s) j = Some u ->
               claim t = Some x -> claim u = Some y -> x + o_n (op_of t) <= y \/ y + o_n (op_of u) <= x;
    i_cover : forall p, k <= p < c_size s -> exists i t idx, nth_error (c_thr s) i = Some t /\ claim t = Some idx /\ idx <= p < idx + o_n (op_of t);
    i_done : forall i t idx, nth_error (c_thr s) i = Some t -> claim t = Some idx ->
               exists d, o_writes (op_of t) = d ++ todo_of t /\
                 forall a off v, In (a, off, v) d -> slot (c_mem s) a (idx + off) = Some (Val v);
    i_old : forall a p, 0 <= p -> p < k \/ c_size s <= p -> slot (c_mem s) a p = slot M0 a p }.

  Lemma pend_upd l i t u : nth_error l i = Some t -> pend (upd l i u) = pend l - pending t + pending u.
  Proof.
    revert i. induction l as [|x l IH]; intros [|i] H; cbn [nth_error] in H; try discriminate; cbn [upd pend fold_right].
    - injection H as ->. lia.
    - fold (pend (upd l i u)). fold (pend l). rewrite (IH i H). lia.
  Qed.
  Lemma pend_nonneg l : Forall op_ok (map op_of l) -> 0 <= pend l.
  Proof.
    induction l as [|t l IH]; cbn [map pend fold_right]; intros H; [lia|]. inversion H as [|? ? Hh Ht]; subst. fold (pend l).
    destruct Hh as (Hn & _). pose proof (IH Ht). destruct t; cbn [pending op_of] in *; lia.
  Qed.
  Lemma pend_ge l i t : Forall op_ok (map op_of l) -> nth_error l i = Some t -> pending t <= pend l.
  Proof.
    revert i. induction l as [|x l IH]; intros [|i] HF H; cbn [nth_error] in H; try discriminate; cbn [map pend fold_right] in *.
    - injection H as ->. inversion HF; subst. pose proof (pend_nonneg l ltac:(auto)). fold (pend l). lia.
    - inversion HF as [|? ? Hh Ht]; subst. pose proof (IH i Ht H). fold (pend l). destruct Hh as (Hn & _). destruct x; cbn [pending op_of] in *; lia.
  Qed.

  Lemma map_upd_same {B C} (f : B -> C) l i x y : nth_error l i = Some x -> f y = f x -> map f (upd l i y) = map f l.
  Proof.
    revert i. induction l as [|z l IH]; intros [|i] H E; cbn [nth_error upd map] in *; try discriminate.
    - injection H as ->. congruence.
    - f_equal. auto.
  Qed.
  Lemma nth_upd {B} (l : list B) i j x y : nth_error (upd l i x) j = Some y ->
    (i = j /\ y = x /\ (i < length l)%nat) \/ (i <> j /\ nth_error l j = Some y).
  Proof.
    revert i j. induction l as [|z l IH]; intros [|i] [|j] H; cbn [nth_error upd] in *; try discriminate; auto.
    - injection H as <-. left. cbn. split; [auto|]. split; [auto|lia].
    - destruct (IH i j H) as [(-> & -> & ?)|(? & ?)]; [left|right]; cbn; split; auto; split; auto; lia.
  Qed.
  Lemma op_in s i t : inv s -> nth_error (c_thr s) i = Some t -> op_ok (op_of t).
  Proof.
    intros HI Ht. pose proof Hops as HF. rewrite <- (i_ops _ HI) in HF. rewrite Forall_forall in HF. apply HF. apply in_map. eapply nth_error_In; eauto.
  Qed.

  Lemma slot_upd M a m m' b p : nth_error M a = Some m -> slot (upd M a m') b p = if Nat.eqb a b then nth_error m' (Z.to_nat p) else slot M b p.
  Proof.
    intros Ha. unfold slot. destruct (Nat.eqb a b) eqn:E.
    - apply Nat.eqb_eq in E. subst b. rewrite nth_error_upd_eq by (eapply nth_error_lt; eauto). reflexivity.
    - apply Nat.eqb_neq in E. rewrite nth_error_upd_ne by auto. reflexivity.
  Qed.

  Lemma write_ok s idx w : inv s -> (exists i t, nth_error (c_thr s) i = Some t /\ claim t = Some idx /\ In w (o_writes (op_of t))) ->
    exists M', c_write cap (c_mem s) idx w = Ret M' /\ length M' = length M0 /\ Forall (fun m => Z.of_nat (length m) = cap) M' /\
      forall b p, 0 <= p -> slot M' b p = if Nat.eqb (fst (fst w)) b && (idx + snd (fst w) =? p) then Some (Val (snd w)) else slot (c_mem s) b p.
  Proof.
    intros HI (i & t & Ht & Hc & Hw). destruct (op_in s i t HI Ht) as (Hn & _ & Hpos & _). destruct (i_claim s HI i t idx Ht Hc) as (C1 & C2).
    destruct (i_size s HI) as (S1 & S2). pose proof Hops as HF. rewrite <- (i_ops _ HI) in HF. pose proof (pend_nonneg _ HF) as Hp.
    destruct w as [[a off] v]. cbn [fst snd]. destruct (Hpos a off v Hw) as (P1 & P2). unfold c_write.
    destruct (i_len s HI) as (L1 & L2).
    destruct (nth_error (c_mem s) a) as [m|] eqn:Em; [|apply nth_error_None in Em; lia].
    assert (Elen : Z.of_nat (length m) = cap) by (rewrite Forall_forall in L2; apply L2; eapply nth_error_In; eauto).
    assert (Eidx : add32 idx off = idx + off) by (unfold add32; rewrite Z.mod_small; lia). rewrite Eidx.
    unfold d_construct, assert. replace (idx + off <? cap) with true by lia. cbn [arg_read bind]. unfold slot_new.
    replace ((idx + off <? 0) || (Z.of_nat (length m) <=? idx + off)) with false by lia. cbn [bind].
    eexists. split; [reflexivity|]. split; [rewrite upd_length; auto|]. split.
    { apply Forall_forall. intros x Hx. apply In_nth_error in Hx. destruct Hx as (j & Hj). apply nth_upd in Hj.
      destruct Hj as [(_ & -> & _)|(_ & Hj)]; [rewrite upd_length; auto|]. rewrite Forall_forall in L2. apply L2. eapply nth_error_In; eauto. }
    intros b p Hp0. rewrite (slot_upd _ _ m) by auto. destruct (Nat.eqb a b) eqn:Eab; cbn [andb]; [|reflexivity].
    apply Nat.eqb_eq in Eab. subst b. destruct (idx + off =? p) eqn:Ep.
    - apply Z.eqb_eq in Ep. subst p. apply nth_error_upd_eq. lia.
    - apply Z.eqb_neq in Ep. rewrite nth_error_upd_ne by lia. unfold slot. rewrite Em. reflexivity.
  Qed.

  Lemma nodup_app_key (d : list (nat * Z * A)) w l : NoDup (map fst (d ++ w :: l)) -> forall x, In x d -> fst x <> fst w.
  Proof.
    rewrite map_app. cbn [map]. intros HN x Hx E. apply NoDup_remove_2 in HN. apply HN. apply in_or_app. left. rewrite <- E. apply in_map. exact Hx.
  Qed.

  Lemma step_inv s i : inv s -> exists s', c_step s i = Ret s' /\ inv s'.
  Proof.
    intros HI. unfold c_step. destruct (nth_error (c_thr s) i) as [t|] eqn:Et; [|eauto]. pose proof (op_in s i t HI Et) as Hop.
    pose proof HI as [I1 I2 I3 I4 I5 I6 I7 I8 I9]. pose proof Hops as HF. rewrite <- I2 in HF.
    destruct t as [o|idx o [|w todo]|idx o]; [| | |eauto].
    - (* claim *) cbn [op_of] in Hop. destruct Hop as (Hn & Hb & Hpos & Hnd).
      pose proof (pend_ge _ i _ HF Et) as Hpe. cbn [pending] in Hpe. pose proof (pend_nonneg _ HF).
      assert (Eadd : add32 (c_size s) (o_n o) = c_size s + o_n o) by (unfold add32; rewrite Z.mod_small; lia).
      unfold assert. rewrite Eadd, I1.
      replace (if o_bulk o then c_size s + o_n o <=? cap else c_size s <? cap) with true.
      2:{ destruct (o_bulk o); [lia|]. specialize (Hb eq_refl). lia. }
      eexists. split; [reflexivity|]. constructor; cbn [c_cap c_size c_mem c_thr]; auto.
      + rewrite (map_upd_same op_of _ _ _ _ Et); auto.
      + split; [lia|]. rewrite (pend_upd _ _ _ _ Et). cbn [pending]. lia.
      + intros j t idx Hj Hc. apply nth_upd in Hj. destruct Hj as [(<- & -> & _)|(Hne & Hj)].
        * cbn [claim op_of] in *. injection Hc as <-. lia.
        * destruct (I5 j t idx Hj Hc). lia.
      + intros j1 j2 t u x y Hne H1 H2 Hx Hy. apply nth_upd in H1. apply nth_upd in H2.
        destruct H1 as [(<- & -> & _)|(Hn1 & H1)], H2 as [(<- & -> & _)|(Hn2 & H2)]; [congruence| | |].
        * cbn [claim op_of] in *. injection Hx as <-. destruct (I5 j2 u y H2 Hy). lia.
        * cbn [claim op_of] in *. injection Hy as <-. destruct (I5 j1 t x H1 Hx). lia.
        * eapply I6 with (i := j1) (j := j2); eauto.
      + intros p Hp. destruct (Z_lt_le_dec p (c_size s)) as [Hlt|Hge].
        * destruct (I7 p ltac:(lia)) as (j & t & idx & Hj & Hc & Hr). exists j, t, idx. split; [|auto].
          rewrite nth_error_upd_ne; auto. intros <-. replace t with (TIdle o) in Hc by congruence. discriminate.
        * exists i, (TWrite (c_size s) o (o_writes o)), (c_size s). split; [apply nth_error_upd_eq; eapply nth_error_lt; eauto|].
          split; [reflexivity|]. cbn [op_of]. lia.
      + intros j t idx Hj Hc. apply nth_upd in Hj. destruct Hj as [(<- & -> & _)|(Hne & Hj)].
        * cbn [claim op_of todo_of] in *. exists []. split; [reflexivity|]. intros a off v [].
        * exact (I8 j t idx Hj Hc).
      + intros a p Hp0 Hp. apply I9; auto. lia.
    - (* return *) eexists. split; [reflexivity|]. constructor; cbn [c_cap c_size c_mem c_thr]; auto.
      + rewrite (map_upd_same op_of _ _ _ _ Et); auto.
      + split; [lia|]. rewrite (pend_upd _ _ _ _ Et). cbn [pending]. lia.
      + intros j t x Hj Hc. apply nth_upd in Hj. destruct Hj as [(<- & -> & _)|(Hne & Hj)]; [|exact (I5 j t x Hj Hc)].
        exact (I5 i _ x Et Hc).
      + intros j1 j2 t u x y Hne H1 H2 Hx Hy. apply nth_upd in H1. apply nth_upd in H2.
        destruct H1 as [(<- & -> & _)|(Hn1 & H1)], H2 as [(<- & -> & _)|(Hn2 & H2)]; [congruence| | |eapply I6 with (i := j1) (j := j2); eauto].
        * exact (I6 i j2 _ u x y Hne Et H2 Hx Hy).
        * exact (I6 j1 i t _ x y Hne H1 Et Hx Hy).
      + intros p Hp. destruct (I7 p Hp) as (j & t & x & Hj & Hc & Hr). destruct (Nat.eq_dec i j) as [<-|Hne].
        * exists i, (TDone idx o), x. split; [apply nth_error_upd_eq; eapply nth_error_lt; eauto|].
          replace t with (TWrite idx o []) in * by congruence. auto.
        * exists j, t, x. rewrite nth_error_upd_ne by auto. auto.
      + intros j t x Hj Hc. apply nth_upd in Hj. destruct Hj as [(<- & -> & _)|(Hne & Hj)]; [|exact (I8 j t x Hj Hc)].
        exact (I8 i _ x Et Hc).
    - (* write *) destruct (I8 i _ idx Et eq_refl) as (d & Ed & Hd). cbn [op_of todo_of] in Ed, Hop.
      destruct (write_ok s idx w HI) as (M' & EM & L1 & L2 & HM').
      { exists i. eexists. split; [exact Et|]. split; [reflexivity|]. cbn [op_of]. rewrite Ed. apply in_or_app. right. left. reflexivity. }
      rewrite I1, EM. cbn [bind]. eexists. split; [reflexivity|].
      destruct Hop as (Hn & Hb & Hpos & Hnd). destruct w as [[wa woff] wv]. cbn [fst snd] in HM'.
      destruct (Hpos wa woff wv) as (W1 & W2); [rewrite Ed; apply in_or_app; right; left; reflexivity|].
      destruct (I5 i _ idx Et eq_refl) as (C1 & C2). cbn [op_of] in C2.
      constructor; cbn [c_cap c_size c_mem c_thr]; auto.
      + rewrite (map_upd_same op_of _ _ _ _ Et); auto.
      + split; [lia|]. rewrite (pend_upd _ _ _ _ Et). cbn [pending]. lia.
      + intros j t x Hj Hc. apply nth_upd in Hj. destruct Hj as [(<- & -> & _)|(Hne & Hj)]; [|exact (I5 j t x Hj Hc)].
        exact (I5 i _ x Et Hc).
      + intros j1 j2 t u x y Hne H1 H2 Hx Hy. apply nth_upd in H1. apply nth_upd in H2.
        destruct H1 as [(<- & -> & _)|(Hn1 & H1)], H2 as [(<- & -> & _)|(Hn2 & H2)]; [congruence| | |eapply I6 with (i := j1) (j := j2); eauto].
        * exact (I6 i j2 _ u x y Hne Et H2 Hx Hy).
        * exact (I6 j1 i t _ x y Hne H1 Et Hx Hy).
      + intros p Hp. destruct (I7 p Hp) as (j & t & x & Hj & Hc & Hr). destruct (Nat.eq_dec i j) as [<-|Hne].
        * exists i, (TWrite idx o todo), x. split; [apply nth_error_upd_eq; eapply nth_error_lt; eauto|].
          replace t with (TWrite idx o ((wa, woff, wv) :: todo)) in * by congruence. auto.
        * exists j, t, x. rewrite nth_error_upd_ne by auto. auto.
      + intros j t x Hj Hc. apply nth_upd in Hj. destruct Hj as [(<- & -> & _)|(Hne & Hj)].
        * cbn [claim op_of todo_of] in *. injection Hc as <-. exists (d ++ [(wa, woff, wv)]). split; [rewrite <- app_assoc; exact Ed|].
          intros a off v Hin. assert (Hin0 : In (a, off, v) (o_writes o)) by (rewrite Ed; apply in_app_or in Hin; apply in_or_app; destruct Hin as [Hin|[Hin|[]]]; [auto|right; left; auto]).
          destruct (Hpos a off v Hin0) as (Q1 & Q2). rewrite HM' by lia. apply in_app_or in Hin. destruct Hin as [Hin|[Hin|[]]].
          -- rewrite Ed in Hnd. pose proof (nodup_app_key _ _ _ Hnd _ Hin) as Hk'. cbn [fst] in Hk'.
             destruct (Nat.eqb wa a && (idx + woff =? idx + off)) eqn:E; [|apply Hd; auto].
             exfalso. apply Hk'. apply andb_prop in E. destruct E as (E1 & E2). apply Nat.eqb_eq in E1. f_equal; lia.
          -- injection Hin as <- <- <-. rewrite Nat.eqb_refl, Z.eqb_refl. reflexivity.
        * destruct (I8 j t x Hj Hc) as (d' & Ed' & Hd'). exists d'. split; [auto|]. intros a off v Hin.
          destruct (op_in s j t HI Hj) as (_ & _ & Hpos' & _). destruct (Hpos' a off v) as (Q1 & Q2); [rewrite Ed'; apply in_or_app; auto|].
          destruct (I5 j t x Hj Hc) as (D1 & D2). rewrite HM' by lia.
          pose proof (I6 i j _ t idx x Hne Et Hj eq_refl Hc) as Hdj. cbn [op_of] in Hdj.
          replace (idx + woff =? x + off) with false by lia. rewrite andb_false_r. auto.
      + intros a p Hp0 Hp. rewrite HM' by auto. replace (idx + woff =? p) with false by lia. rewrite andb_false_r. apply I9; auto.
  Qed.

  Definition init : cstate A := mkC cap k M0 (map TIdle ops).
  Lemma init_inv : inv init.
  Proof.
    unfold init. constructor; cbn [c_cap c_size c_mem c_thr]; auto.
    - rewrite map_map. cbn [op_of]. apply map_id.
    - split; [lia|]. f_equal. unfold pend, sum_n. clear. induction ops; cbn [map fold_right pending]; [reflexivity|]. f_equal. auto.
    - intros i t idx Ht. rewrite nth_error_map in Ht. destruct (nth_error ops i); [|discriminate]. injection Ht as <-. discriminate.
    - intros i j t u x y _ Ht. rewrite nth_error_map in Ht. destruct (nth_error ops i); [|discriminate]. injection Ht as <-. discriminate.
    - intros p Hp. lia.
    - intros i t idx Ht. rewrite nth_error_map in Ht. destruct (nth_error ops i); [|discriminate]. injection Ht as <-. discriminate.
  Qed.
  Lemma run_inv sched : forall s, inv s -> exists s', c_run s sched = Ret s' /\ inv s'.
  Proof.
    induction sched as [|i sched IH]; intros s HI; cbn [c_run]; [eauto|]. destruct (step_inv s i HI) as (s1 & E1 & H1). rewrite E1. cbn [bind]. auto.
  Qed.

  (** All calls have returned. *)
  Definition all_done (s : cstate A) (idxs : list Z) : Prop := c_thr s = map (fun p => TDone (fst p) (snd p)) (combine idxs ops) /\ length idxs = length ops.

  Lemma final s idxs : inv s -> all_done s idxs ->
    c_size s = k + sum_n ops /\
    (forall i o idx, nth_error ops i = Some o -> nth_error idxs i = Some idx ->
       k <= idx /\ idx + o_n o <= k + sum_n ops /\
       forall a off v, In (a, off, v) (o_writes o) -> slot (c_mem s) a (idx + off) = Some (Val v)) /\
    (forall i j o u x y, i <> j -> nth_error ops i = Some o -> nth_error ops j = Some u ->
       nth_error idxs i = Some x -> nth_error idxs j = Some y -> x + o_n o <= y \/ y + o_n u <= x) /\
    (forall p, k <= p < k + sum_n ops -> exists i o x, nth_error ops i = Some o /\ nth_error idxs i = Some x /\ x <= p < x + o_n o) /\
    (forall a p, 0 <= p -> p < k \/ k + sum_n ops <= p -> slot (c_mem s) a p = slot M0 a p).
  Proof.
    intros HI (HD & Hlen). destruct HI as [I1 I2 I3 I4 I5 I6 I7 I8 I9].
    assert (Hpend : pend (c_thr s) = 0).
    { rewrite HD. clear. generalize (combine idxs ops). intros l. induction l as [|p l IH]; cbn [map pend fold_right pending]; auto. }
    assert (Hth : forall i o idx, nth_error ops i = Some o -> nth_error idxs i = Some idx -> nth_error (c_thr s) i = Some (TDone idx o)).
    { intros i o idx Ho Hx. rewrite HD, nth_error_map. revert Ho Hx. clear. revert i idxs. induction ops as [|o' os IH]; intros [|i] [|x' xs]; cbn [nth_error combine]; try discriminate.
      - intros E1 E2. injection E1 as ->. injection E2 as ->. reflexivity.
      - intros E1 E2. apply IH; auto. }
    assert (Hth' : forall i t, nth_error (c_thr s) i = Some t -> exists o idx, nth_error ops i = Some o /\ nth_error idxs i = Some idx /\ t = TDone idx o).
    { intros i t Ht. rewrite HD, nth_error_map in Ht. revert Ht. clear. revert i idxs. induction ops as [|o' os IH]; intros [|i] [|x' xs]; cbn [nth_error combine option_map]; try discriminate.
      - intros E1. injection E1 as <-. eauto.
      - apply IH. }
    assert (Hsz : c_size s = k + sum_n ops) by lia. rewrite <- Hsz. split; [reflexivity|]. split.
    { intros i o idx Ho Hx. pose proof (Hth i o idx Ho Hx) as Ht. destruct (I5 i _ idx Ht eq_refl) as (C1 & C2). cbn [op_of] in C2.
      split; [auto|]. split; [auto|]. destruct (I8 i _ idx Ht eq_refl) as (d & Ed & Hd). cbn [op_of todo_of] in Ed. rewrite app_nil_r in Ed.
      rewrite Ed. exact Hd. }
    split.
    { intros i j o u x y Hne Ho Hu Hx Hy. exact (I6 i j _ _ x y Hne (Hth i o x Ho Hx) (Hth j u y Hu Hy) eq_refl eq_refl). }
    split; [|exact I9].
    intros p Hp. destruct (I7 p Hp) as (i & t & idx & Ht & Hc & Hr). destruct (Hth' i t Ht) as (o & x & Ho & Hx & ->).
    cbn [claim op_of] in *. injection Hc as <-. exists i, o, x. auto.
  Qed.
End Inv.

Lemma nth_error_firstn' {B} (l : list B) n i : nth_error (firstn n l) i = if (i <? n)%nat then nth_error l i else None.
Proof.
  revert n i. induction l as [|x l IH]; intros [|n] [|i]; cbn [firstn nth_error]; auto.
  - destruct (S i <? S n)%nat; reflexivity.
  - rewrite IH. reflexivity.
Qed.

Section Uses.
  Context {A : Type}.

  Lemma sum_n_ones {B} (f : B -> cop A) (l : list B) : (forall x, o_n (f x) = 1) -> sum_n (map f l) = Z.of_nat (length l).
  Proof. intros H. induction l as [|x l IH]; cbn [map sum_n fold_right length]; [reflexivity|]. fold (sum_n (map f l)). rewrite H, IH. lia. Qed.

  Lemma combine_nth_error {B C} (l : list B) (m : list C) i x y : nth_error l i = Some x -> nth_error m i = Some y -> nth_error (combine l m) i = Some (x, y).
  Proof.
    revert m i. induction l as [|x' l IH]; intros [|y' m] [|i]; cbn [nth_error combine]; try discriminate.
    - congruence.
    - apply IH.
  Qed.

  (** One slot per call: the indices are a permutation of the new range. *)
  Lemma indices_perm (ops : list (cop A)) (k : nat) idxs : (forall o, In o ops -> o_n o = 1) -> length idxs = length ops ->
    (forall i o idx, nth_error ops i = Some o -> nth_error idxs i = Some idx -> Z.of_nat k <= idx /\ idx + o_n o <= Z.of_nat k + Z.of_nat (length ops)) ->
    (forall i j o u x y, i <> j -> nth_error ops i = Some o -> nth_error ops j = Some u ->
       nth_error idxs i = Some x -> nth_error idxs j = Some y -> x + o_n o <= y \/ y + o_n u <= x) ->
    Permutation idxs (map Z.of_nat (seq k (length ops))).
  Proof.
    intros H1 Hlen HR HD.
    assert (Hop : forall i x, nth_error idxs i = Some x -> exists o, nth_error ops i = Some o /\ o_n o = 1).
    { intros i x Hx. apply nth_error_lt in Hx. destruct (nth_error ops i) as [o|] eqn:Eo; [|apply nth_error_None in Eo; lia].
      exists o. split; [reflexivity|]. apply H1. eapply nth_error_In; eauto. }
    apply NoDup_Permutation_bis.
    - apply NoDup_nth_error. intros i j Hi E. destruct (Nat.eq_dec i j) as [|Hne]; auto. exfalso.
      destruct (nth_error idxs i) as [x|] eqn:Ex; [|apply nth_error_None in Ex; lia]. symmetry in E.
      destruct (Hop i x Ex) as (o & Eo & No). destruct (Hop j x E) as (u & Eu & Nu). destruct (HD i j o u x x Hne Eo Eu Ex E); lia.
    - rewrite map_length, seq_length. lia.
    - intros x Hx. apply In_nth_error in Hx. destruct Hx as (i & Hi). destruct (Hop i x Hi) as (o & Eo & No).
      destruct (HR i o x Eo Hi). apply in_map_iff. exists (Z.to_nat x). split; [lia|]. apply in_seq. lia.
  Qed.

  Definition push_thread (a : A) : thread A := TIdle (op_push_back a).
  Definition push_returned (p : Z * A) : thread A := TDone (fst p) (op_push_back (snd p)).

  Lemma push_back_thm (s : dvec A) l vs sched : holds s l -> len l + Z.of_nat (length vs) <= d_cap s ->
    exists s', c_run (mkC (d_cap s) (len l) [d_mem s] (map push_thread vs)) sched = Ret s' /\
    forall idxs, length idxs = length vs -> c_thr s' = map push_returned (combine idxs vs) ->
      Permutation idxs (map Z.of_nat (seq (length l) (length vs))) /\
      c_size s' = len l + Z.of_nat (length vs) /\
      exists m, c_mem s' = [m] /\
        (forall i a x, nth_error vs i = Some a -> nth_error idxs i = Some x -> nth_error m (Z.to_nat x) = Some (Val a)) /\
        (forall p, (p < length l)%nat -> nth_error m p = nth_error (d_mem s) p) /\
        exists new, Permutation new vs /\ holds (mkD (d_cap s) (Some (c_size s')) m) (l ++ map Some new).
  Proof.
    intros (H1 & H2 & H3 & H4) Hfit. set (ops := map op_push_back vs).
    assert (Esum : sum_n ops = Z.of_nat (length vs)) by (apply sum_n_ones; reflexivity).
    assert (Hops : Forall (op_ok [d_mem s]) ops).
    { apply Forall_forall. intros o Ho. apply in_map_iff in Ho. destruct Ho as (a & <- & _). unfold op_ok, op_push_back. cbn [o_n o_bulk o_writes map fst].
      split; [lia|]. split; [auto|]. split; [intros b off v [E|[]]; injection E as <- <- <-; cbn [length]; lia|repeat constructor; auto]. }
    assert (Hk0 : 0 <= len l) by (unfold len; lia).
    assert (HMl : Forall (fun m => Z.of_nat (length m) = d_cap s) [d_mem s]) by (constructor; auto).
    assert (Hsum : len l + sum_n ops <= d_cap s) by (rewrite Esum; exact Hfit).
    assert (Einit : map push_thread vs = map TIdle ops) by (unfold ops; rewrite map_map; reflexivity).
    destruct (run_inv (d_cap s) (len l) [d_mem s] ops H1 Hk0 Hsum Hops sched _ (init_inv (d_cap s) (len l) [d_mem s] ops HMl)) as (s' & E & HI).
    unfold init in E. rewrite <- Einit in E. exists s'. split; [exact E|]. intros idxs Hlen HD.
    assert (HD' : all_done ops s' idxs).
    { split; [|unfold ops; rewrite map_length; auto]. rewrite HD. unfold ops. clear. revert idxs. induction vs as [|v vs IH]; intros [|x xs]; cbn [combine map]; auto. f_equal. apply IH. }
    destruct (final (d_cap s) (len l) [d_mem s] ops Hk0 s' idxs HI HD') as (F1 & F2 & F3 & F4 & F5).
    destruct (i_len _ _ _ _ _ HI) as (L1 & L2). destruct (c_mem s') as [|m [|]] eqn:Em; cbn [length] in L1; try lia.
    assert (Lm : Z.of_nat (length m) = d_cap s) by (inversion L2; auto).
    assert (HP : Permutation idxs (map Z.of_nat (seq (length l) (length vs)))).
    { replace (length vs) with (length ops) by (unfold ops; apply map_length). apply indices_perm.
      - intros o Ho. apply in_map_iff in Ho. destruct Ho as (a & <- & _). reflexivity.
      - unfold ops. rewrite map_length. auto.
      - intros i o idx Ho Hx. destruct (F2 i o idx Ho Hx) as (G1 & G2 & _). unfold len in *. unfold ops at 1. rewrite map_length. lia.
      - exact F3. }
    split; [exact HP|]. split; [lia|]. exists m. split; [reflexivity|].
    assert (HW : forall i a x, nth_error vs i = Some a -> nth_error idxs i = Some x -> nth_error m (Z.to_nat x) = Some (Val a)).
    { intros i a x Ha Hx. destruct (F2 i (op_push_back a) x) as (_ & _ & G); [unfold ops; rewrite nth_error_map, Ha; reflexivity|auto|].
      specialize (G 0%nat 0 a (or_introl eq_refl)). unfold slot in G. cbn [nth_error] in G. rewrite Z.add_0_r in G. exact G. }
    assert (HO : forall p, (p < length l)%nat -> nth_error m p = nth_error (d_mem s) p).
    { intros p Hp. specialize (F5 0%nat (Z.of_nat p) ltac:(lia) ltac:(unfold len; lia)). unfold slot in F5. cbn [nth_error] in F5. rewrite !Nat2Z.id in F5. exact F5. }
    split; [exact HW|]. split; [exact HO|].
    set (f := fun p : Z => match nth_error m (Z.to_nat p) with Some (Val a) => Some a | _ => None end).
    assert (Ef : map f idxs = map Some vs).
    { apply nth_ext with (d := None) (d' := None); [rewrite !map_length; auto|]. intros i Hi. rewrite map_length in Hi.
      destruct (nth_error vs i) as [a|] eqn:Ea; [|apply nth_error_None in Ea; lia]. destruct (nth_error idxs i) as [x|] eqn:Ex; [|apply nth_error_None in Ex; lia].
      rewrite (nth_error_nth (map f idxs) i None (x := f x)) by (rewrite nth_error_map, Ex; reflexivity).
      rewrite (nth_error_nth (map Some vs) i None (x := Some a)) by (rewrite nth_error_map, Ea; reflexivity).
      unfold f. rewrite (HW i a x Ea Ex). reflexivity. }
    assert (HPf : Permutation (map f (map Z.of_nat (seq (length l) (length vs)))) (map Some vs)).
    { rewrite <- Ef. apply Permutation_map. symmetry. exact HP. }
    destruct (Permutation_map_inv _ _ HPf) as (new & En & HPn). exists new. split; [symmetry; exact HPn|].
    assert (Lnew : length new = length vs) by (symmetry; apply Permutation_length; exact HPn).
    unfold holds. cbn [d_cap d_size d_mem]. split; [auto|]. split; [unfold len in *; rewrite app_length, map_length; f_equal; lia|]. split; [auto|].
    apply list_eq_nth. intros p. rewrite app_length, map_length, nth_error_firstn'. rewrite nth_error_map.
    assert (Old : forall q, (q < length l)%nat -> nth_error m q = option_map cell_of (nth_error l q)).
    { intros q Hq. rewrite HO by auto. rewrite <- nth_error_map, <- H4, nth_error_firstn'. replace (q <? length l)%nat with true by (symmetry; apply Nat.ltb_lt; lia). reflexivity. }
    destruct (p <? length l + length new)%nat eqn:Ep.
    - apply Nat.ltb_lt in Ep. destruct (Nat.lt_ge_cases p (length l)) as [Hlt|Hge].
      + rewrite nth_error_app1 by auto. auto.
      + rewrite nth_error_app2 by auto. rewrite nth_error_map.
        destruct (nth_error new (p - length l)) as [a|] eqn:Ea; [|apply nth_error_None in Ea; lia]. cbn [option_map cell_of].
        assert (Eq : nth_error (map f (map Z.of_nat (seq (length l) (length vs)))) (p - length l) = Some (Some a)).
        { rewrite En, nth_error_map, Ea. reflexivity. }
        rewrite map_map, nth_error_map in Eq.
        destruct (nth_error (seq (length l) (length vs)) (p - length l)) as [q|] eqn:Eqq; [|discriminate].
        assert (Hq : q = p).
        { apply nth_error_nth with (d := 0%nat) in Eqq. rewrite seq_nth in Eqq by lia. lia. }
        subst q. cbn [option_map] in Eq. injection Eq as Eq. unfold f in Eq. rewrite Nat2Z.id in Eq.
        destruct (nth_error m p) as [[| |b]|]; try discriminate. congruence.
    - apply Nat.ltb_ge in Ep. symmetry. replace (nth_error (l ++ map Some new) p) with (@None (option A)); [reflexivity|].
      symmetry. apply nth_error_None. rewrite app_length, map_length. lia.
  Qed.

  (** Any mixture of push_back, emplace_back and bulk_append calls. *)
  Definition append_call (o : cop A) : Prop :=
    (exists a, o = op_push_back a) \/ (exists n a, 0 <= n /\ o = op_bulk_append n a).
  Definition call_value (o : cop A) (a : A) : Prop := o = op_push_back a \/ exists n, o = op_bulk_append n a.

  Lemma append_call_ok (M : list (list (cell A))) o : (0 < length M)%nat -> append_call o -> op_ok M o.
  Proof.
    intros HM [(a & ->)|(n & a & Hn & ->)]; unfold op_ok, op_push_back, op_bulk_append; cbn [o_n o_bulk o_writes].
    - cbn [map fst]. split; [lia|]. split; [auto|]. split; [intros b off v [E|[]]; injection E as <- <- <-; lia|repeat constructor; auto].
    - split; [auto|]. split; [discriminate|]. split.
      + intros b off v Hin. apply in_map_iff in Hin. destruct Hin as (k & E & Hk). injection E as <- <- <-. apply in_seq in Hk. lia.
      + rewrite map_map. cbn [fst]. apply FinFun.Injective_map_NoDup; [|apply seq_NoDup]. intros x y E. injection E. lia.
  Qed.

  Lemma append_thm (s : dvec A) l ops sched : holds s l -> Forall append_call ops -> len l + sum_n ops <= d_cap s ->
    exists s', c_run (mkC (d_cap s) (len l) [d_mem s] (map TIdle ops)) sched = Ret s' /\
    forall idxs, length idxs = length ops -> c_thr s' = map (fun p => TDone (fst p) (snd p)) (combine idxs ops) ->
      c_size s' = len l + sum_n ops /\
      (forall i o x, nth_error ops i = Some o -> nth_error idxs i = Some x -> len l <= x /\ x + o_n o <= len l + sum_n ops) /\
      (forall i j o u x y, i <> j -> nth_error ops i = Some o -> nth_error ops j = Some u ->
         nth_error idxs i = Some x -> nth_error idxs j = Some y -> x + o_n o <= y \/ y + o_n u <= x) /\
      (forall p, len l <= p < len l + sum_n ops -> exists i o x, nth_error ops i = Some o /\ nth_error idxs i = Some x /\ x <= p < x + o_n o) /\
      exists m, c_mem s' = [m] /\
        (forall i o a x p, nth_error ops i = Some o -> nth_error idxs i = Some x -> call_value o a -> x <= p < x + o_n o ->
           nth_error m (Z.to_nat p) = Some (Val a)) /\
        (forall p, (p < length l)%nat -> nth_error m p = nth_error (d_mem s) p).
  Proof.
    intros (H1 & H2 & H3 & H4) Hcalls Hsum.
    assert (Hops : Forall (op_ok [d_mem s]) ops).
    { rewrite Forall_forall in *. intros o Ho. apply append_call_ok; [cbn; lia|auto]. }
    assert (Hk0 : 0 <= len l) by (unfold len; lia).
    assert (HMl : Forall (fun m => Z.of_nat (length m) = d_cap s) [d_mem s]) by (constructor; auto).
    destruct (run_inv (d_cap s) (len l) [d_mem s] ops H1 Hk0 Hsum Hops sched _ (init_inv (d_cap s) (len l) [d_mem s] ops HMl)) as (s' & E & HI).
    exists s'. split; [exact E|]. intros idxs Hlen HD.
    destruct (final (d_cap s) (len l) [d_mem s] ops Hk0 s' idxs HI (conj HD Hlen)) as (F1 & F2 & F3 & F4 & F5).
    destruct (i_len _ _ _ _ _ HI) as (L1 & L2). destruct (c_mem s') as [|m [|]] eqn:Em; cbn [length] in L1; try lia.
    split; [exact F1|]. split; [intros i o x Ho Hx; destruct (F2 i o x Ho Hx) as (G1 & G2 & _); auto|]. split; [exact F3|]. split; [exact F4|].
    exists m. split; [reflexivity|]. split.
    - intros i o a x p Ho Hx Hv Hp. destruct (F2 i o x Ho Hx) as (G1 & G2 & G3).
      assert (Hin : In (0%nat, p - x, a) (o_writes o)).
      { destruct Hv as [->|(n & ->)]; cbn [op_push_back op_bulk_append o_writes o_n] in *.
        - left. f_equal. f_equal. lia.
        - apply in_map_iff. exists (Z.to_nat (p - x)). split; [f_equal; f_equal; lia|]. apply in_seq. lia. }
      specialize (G3 _ _ _ Hin). unfold slot in G3. cbn [nth_error] in G3. rewrite <- G3. f_equal. lia.
    - intros p Hp. specialize (F5 0%nat (Z.of_nat p) ltac:(lia) ltac:(unfold len; lia)). unfold slot in F5. cbn [nth_error] in F5. rewrite !Nat2Z.id in F5. exact F5.
  Qed.

  (** push_back_default of edm::device on the arrays [M] of the vector variables. *)
  Definition edm_thread (dflts : list A) : thread A := TIdle (op_push_back_default dflts).
  Definition edm_returned (dflts : list A) (x : Z) : thread A := TDone x (op_push_back_default dflts).

  Lemma nth_seq k n i : (i < n)%nat -> nth_error (seq k n) i = Some (k + i)%nat.
  Proof. intros H. rewrite (nth_error_nth' _ 0%nat) by (rewrite seq_length; lia). rewrite seq_nth by lia. reflexivity. Qed.

  Lemma push_back_default_thm cap k n (M : list (list (cell A))) dflts sched :
    cap < 2 ^ 32 -> Z.of_nat k + Z.of_nat n <= cap -> length M = length dflts -> Forall (fun m => Z.of_nat (length m) = cap) M ->
    exists s', c_run (mkC cap (Z.of_nat k) M (repeat (edm_thread dflts) n)) sched = Ret s' /\
    forall idxs, length idxs = n -> c_thr s' = map (edm_returned dflts) idxs ->
      Permutation idxs (map Z.of_nat (seq k n)) /\ c_size s' = Z.of_nat k + Z.of_nat n /\
      length (c_mem s') = length dflts /\
      forall j m0 m d, nth_error M j = Some m0 -> nth_error (c_mem s') j = Some m -> nth_error dflts j = Some d ->
        (forall p, (k <= p < k + n)%nat -> nth_error m p = Some (Val d)) /\
        (forall p, (p < k)%nat \/ (k + n <= p)%nat -> nth_error m p = nth_error m0 p).
  Proof.
    intros H1 Hfit HL HMl. set (ops := repeat (op_push_back_default dflts) n).
    assert (Lo : length ops = n) by apply repeat_length.
    assert (Hone : forall o, In o ops -> o = op_push_back_default dflts) by (intros o Ho; eapply repeat_spec; eauto).
    assert (Esum : sum_n ops = Z.of_nat n).
    { unfold ops. clear. induction n as [|n IH]; [reflexivity|]. cbn [repeat sum_n fold_right]. fold (sum_n (repeat (op_push_back_default dflts) n)).
      rewrite IH. cbn [op_push_back_default o_n]. lia. }
    assert (Hw : forall a off v, In (a, off, v) (o_writes (op_push_back_default dflts)) <-> off = 0 /\ nth_error dflts a = Some v).
    { intros a off v. cbn [op_push_back_default o_writes]. rewrite in_map_iff. split.
      - intros ([j d] & E & Hin). cbn [fst snd] in E. injection E as -> <- ->. split; [reflexivity|].
        apply In_nth_error in Hin. destruct Hin as (q & Hq).
        assert (Hq2 : exists v0, nth_error (seq 0 (length dflts)) q = Some a /\ nth_error dflts q = Some v0 /\ v0 = v).
        { revert Hq. generalize (seq 0 (length dflts)). clear. revert q. induction dflts as [|d ds IH]; intros [|q] [|x xs]; cbn [combine nth_error]; try discriminate.
          - intros E. injection E as -> ->. eauto.
          - apply IH. }
        destruct Hq2 as (v0 & E1 & E2 & ->). assert (q < length dflts)%nat by (eapply nth_error_lt; eauto).
        rewrite nth_seq in E1 by auto. injection E1 as <-. exact E2.
      - intros (-> & Hv). exists (a, v). split; [reflexivity|]. apply nth_error_In with a.
        apply combine_nth_error; [|auto]. rewrite nth_seq; [reflexivity|]. eapply nth_error_lt; eauto. }
    assert (Hops : Forall (op_ok M) ops).
    { apply Forall_forall. intros o Ho. rewrite (Hone o Ho). unfold op_ok. split; [cbn; lia|]. split; [auto|]. split.
      - intros a off v Hin. apply Hw in Hin. destruct Hin as (-> & Hv). apply nth_error_lt in Hv. cbn [op_push_back_default o_n]. lia.
      - cbn [op_push_back_default o_writes]. rewrite map_map. cbn [fst]. rewrite <- (map_map fst (fun x => (x, 0))).
        assert (E : map fst (combine (seq 0 (length dflts)) dflts) = seq 0 (length dflts)).
        { generalize 0%nat. clear. induction dflts as [|d ds IH]; intros b; cbn [length seq combine map]; [reflexivity|]. cbn [fst]. f_equal. apply IH. }
        rewrite E. apply FinFun.Injective_map_NoDup; [|apply seq_NoDup]. intros x y Exy. injection Exy. auto. }
    assert (Hk0 : 0 <= Z.of_nat k) by lia.
    assert (Hsum : Z.of_nat k + sum_n ops <= cap) by lia.
    assert (Einit : repeat (edm_thread dflts) n = map TIdle ops).
    { unfold ops. clear. induction n as [|q IH]; cbn [repeat map]; [reflexivity|]. f_equal. exact IH. }
    destruct (run_inv cap (Z.of_nat k) M ops H1 Hk0 Hsum Hops sched _ (init_inv cap (Z.of_nat k) M ops HMl)) as (s' & E & HI).
    unfold init in E. rewrite <- Einit in E. exists s'. split; [exact E|]. intros idxs Hlen HD.
    assert (HD' : all_done ops s' idxs).
    { split; [|lia]. rewrite HD. unfold ops. rewrite <- Hlen. clear. induction idxs as [|x xs IH]; cbn [length repeat combine map]; [reflexivity|]. f_equal. exact IH. }
    destruct (final cap (Z.of_nat k) M ops Hk0 s' idxs HI HD') as (F1 & F2 & F3 & F4 & F5).
    destruct (i_len _ _ _ _ _ HI) as (L1 & L2).
    split.
    { rewrite <- Lo. apply indices_perm; auto.
      - intros o Ho. rewrite (Hone o Ho). reflexivity.
      - lia.
      - intros i o idx Ho Hx. destruct (F2 i o idx Ho Hx) as (G1 & G2 & _). lia. }
    split; [lia|]. split; [lia|]. intros j m0 m d Hm0 Hm Hd. split.
    - intros p Hp. destruct (F4 (Z.of_nat p) ltac:(lia)) as (i & o & x & Ho & Hx & Hr).
      assert (Eo : o = op_push_back_default dflts) by (apply Hone; eapply nth_error_In; eauto). subst o.
      destruct (F2 i _ x Ho Hx) as (_ & _ & G). specialize (G j 0 d (proj2 (Hw j 0 d) (conj eq_refl Hd))).
      unfold slot in G. rewrite Hm in G. rewrite <- G. f_equal. cbn [op_push_back_default o_n] in Hr. lia.
    - intros p Hp. specialize (F5 j (Z.of_nat p) ltac:(lia) ltac:(lia)). unfold slot in F5. rewrite Hm, Hm0, Nat2Z.id in F5. exact F5.
  Qed.
End Uses.
