From Verif Require Import Base BaseLemmas IntMath IntMathProofs Instrument.

(** ** Events *)

Definition ev_of (u : uevent) : mevent :=
  match u with
  | UAlloc s a r => EAlloc s a (match r with Some p => p | None => 0 end)
  | UFree p s a => EDealloc s a p
  end.

Definition nontrivial (o : iop) : bool :=
  match o with
  | IAlloc size _ => negb (size =? 0)
  | IFree p _ _ => negb (p =? 0)
  | _ => false
  end.

(** The upstream event is the call the client made. *)
Definition same_call (o : iop) (u : uevent) : Prop :=
  match o, u with
  | IAlloc s a, UAlloc s' a' _ => s = s' /\ a = a'
  | IFree p s a, UFree p' s' a' => p = p' /\ s = s' /\ a = a'
  | _, _ => False
  end.

Lemma Forall2_snoc {A B} (R : A -> B -> Prop) l m x y :
  Forall2 R l m -> R x y -> Forall2 R (l ++ [x]) (m ++ [y]).
Proof. induction 1; simpl; intros; constructor; auto. Qed.

Lemma i_step_log st w o st' w' t : i_step st w o = (st', w', t) ->
  (nontrivial o = false /\ ulog w' = ulog w /\ i_events st' = i_events st /\ t = []) \/
  (nontrivial o = true /\ exists u, ulog w' = u :: ulog w /\ same_call o u /\
     i_events st' = i_events st ++ [ev_of u]).
Proof.
  destruct o as [size align|p size align|h|h|h]; cbn [i_step nontrivial].
  - unfold i_allocate. destruct (Z.eqb_spec size 0); cbn [negb].
    + intros [= <- <- <-]. left. auto.
    + unfold up_alloc. destruct (uorc w (length (ulog w))) as [q|].
      * destruct (q =? 0); intros [= <- <- <-]; right; split; auto; eexists;
          (split; [reflexivity|]); (split; [split; reflexivity|reflexivity]).
      * cbn [Z.eqb]. intros [= <- <- <-]; right; split; auto; eexists;
          (split; [reflexivity|]); (split; [split; reflexivity|reflexivity]).
  - unfold i_deallocate. destruct (Z.eqb_spec p 0); cbn [negb].
    + intros [= <- <- <-]. left. auto.
    + intros [= <- <- <-]. right. split; auto. eexists.
      split; [reflexivity|]. split; [repeat split|reflexivity].
  - intros [= <- <- <-]. left. auto.
  - intros [= <- <- <-]. left. auto.
  - intros [= <- <- <-]. left. auto.
Qed.

Lemma i_run_events ops : forall st w tr st' w' tr' done,
  i_run ops st w tr = (st', w', tr') ->
  i_events st = map ev_of (rev (ulog w)) ->
  Forall2 same_call (filter nontrivial done) (rev (ulog w)) ->
  i_events st' = map ev_of (rev (ulog w')) /\
  Forall2 same_call (filter nontrivial (done ++ ops)) (rev (ulog w')).
Proof.
  induction ops as [|o ops IH]; cbn [i_run]; intros st w tr st' w' tr' done E HE HF.
  - injection E as <- <- <-. rewrite app_nil_r. auto.
  - destruct (i_step st w o) as [[st1 w1] t] eqn:ES.
    replace (done ++ o :: ops) with ((done ++ [o]) ++ ops) by (rewrite <- app_assoc; reflexivity).
    eapply IH; [exact E| |].
    + destruct (i_step_log _ _ _ _ _ _ ES) as [(_ & -> & -> & _)|(_ & u & -> & _ & ->)]; auto.
      simpl. rewrite map_app, HE. reflexivity.
    + rewrite filter_app. simpl.
      destruct (i_step_log _ _ _ _ _ _ ES) as [(-> & -> & _)|(-> & u & -> & HS & _)].
      * rewrite app_nil_r. auto.
      * simpl. apply Forall2_snoc; auto.
Qed.

Lemma instrument_events ops w0 st w tr : fresh w0 ->
  i_run ops i_init w0 [] = (st, w, tr) ->
  i_events st = map ev_of (rev (ulog w)) /\
  Forall2 same_call (filter nontrivial ops) (rev (ulog w)).
Proof.
  intros HF E. unfold fresh in HF.
  apply (i_run_events _ _ _ _ _ _ _ [] E); rewrite HF; simpl; auto.
Qed.

Lemma instrument_allocate st w size align : size <> 0 ->
  let r := fst (up_alloc w size align) in
  let ptr := match r with Some p => p | None => 0 end in
  exists st' w', i_allocate st w size align =
    (if ptr =? 0 then Throw bad_alloc else Ret ptr, st', w',
     map (fun h => OPre h size align) (i_pre st) ++ [OUp (UAlloc size align r)] ++
     map (fun h => OPost h size align ptr) (i_post st)) /\
  ulog w' = UAlloc size align r :: ulog w /\
  i_pre st' = i_pre st /\ i_post st' = i_post st /\ i_pred st' = i_pred st.
Proof.
  intros NZ. unfold i_allocate. rewrite (proj2 (Z.eqb_neq size 0) NZ). unfold up_alloc. cbn [fst].
  destruct (uorc w (length (ulog w))) as [p|]; cbv zeta.
  - destruct (p =? 0); eexists; eexists; (split; [reflexivity|]); repeat split.
  - eexists; eexists; (split; [reflexivity|]); repeat split.
Qed.

Lemma instrument_deallocate st w p size align : p <> 0 ->
  exists st' w', i_deallocate st w p size align =
    (Ret tt, st', w',
     map (fun h => OPreD h p size align) (i_pred st) ++ [OUp (UFree p size align)]) /\
  ulog w' = UFree p size align :: ulog w /\
  i_pre st' = i_pre st /\ i_post st' = i_post st /\ i_pred st' = i_pred st.
Proof.
  intros NZ. unfold i_deallocate. rewrite (proj2 (Z.eqb_neq p 0) NZ).
  eexists; eexists; (split; [reflexivity|]); repeat split.
Qed.

(** ** Total size of disjoint blocks *)

Definition sum_sizes (l : list block) : Z := fold_right Z.add 0 (map bsize l).

Lemma sum_sizes_remove1 b l : In b l -> sum_sizes (remove1 b l) = sum_sizes l - bsize b.
Proof.
  unfold sum_sizes. induction l as [|c l IH]; simpl; [tauto|].
  destruct (block_eq_dec b c) as [->|NE]; [intros; lia|].
  intros [->|H]; [congruence|]. simpl. rewrite IH by auto. lia.
Qed.

Lemma sum_sizes_nonneg l : (forall b, In b l -> 0 <= bsize b) -> 0 <= sum_sizes l.
Proof.
  unfold sum_sizes. induction l as [|c l IH]; simpl; [lia|]. intros H.
  pose proof (H c (or_introl eq_refl)). pose proof (IH (fun b Hb => H b (or_intror Hb))). lia.
Qed.

Lemma sum_sizes_ge b l : (forall b, In b l -> 0 <= bsize b) -> In b l -> bsize b <= sum_sizes l.
Proof.
  intros H Hin. assert (0 <= sum_sizes (remove1 b l)).
  { apply sum_sizes_nonneg. intros c Hc. apply H. eapply remove1_in; eauto. }
  rewrite sum_sizes_remove1 in H0 by auto. lia.
Qed.

Lemma sum_sizes_split f l :
  sum_sizes l = sum_sizes (filter f l) + sum_sizes (filter (fun b => negb (f b)) l).
Proof.
  unfold sum_sizes. induction l as [|c l IH]; simpl; auto.
  destruct (f c); simpl; lia.
Qed.

Lemma filter_length_le {A} (f : A -> bool) l : (length (filter f l) <= length l)%nat.
Proof. induction l as [|x l IH]; simpl; [lia|]. destruct (f x); simpl; lia. Qed.

Lemma pairwise_disjoint_filter f l : pairwise_disjoint l -> pairwise_disjoint (filter f l).
Proof.
  induction l as [|c l IH]; simpl; auto. intros [H1 H2]. destruct (f c); simpl; auto.
  split; auto. intros d Hd. apply H1. apply filter_In in Hd. tauto.
Qed.

Lemma sum_sizes_bound n : forall l lo hi, (length l <= n)%nat -> pairwise_disjoint l -> lo <= hi ->
  (forall b, In b l -> 0 < bsize b /\ lo <= bptr b /\ bptr b + bsize b <= hi) ->
  sum_sizes l <= hi - lo.
Proof.
  induction n as [|n IH]; intros l lo hi HL HP Hlh HB.
  - destruct l; simpl in HL; [unfold sum_sizes; simpl; lia|lia].
  - destruct l as [|b l]; [unfold sum_sizes; simpl; lia|].
    simpl in HL. destruct HP as [HP1 HP2].
    destruct (HB b (or_introl eq_refl)) as (B1 & B2 & B3).
    set (f := fun c => bptr c <? bptr b).
    assert (HL1 : sum_sizes (filter f l) <= bptr b - lo).
    { apply IH; [pose proof (filter_length_le f l); lia|apply pairwise_disjoint_filter; auto|lia|].
      intros c Hc. apply filter_In in Hc. destruct Hc as [Hc Hf]. unfold f in Hf.
      destruct (HB c (or_intror Hc)) as (C1 & C2 & C3).
      pose proof (proj1 (not_overlap_iff b c) (HP1 c Hc)). lia. }
    assert (HL2 : sum_sizes (filter (fun b => negb (f b)) l) <= hi - (bptr b + bsize b)).
    { apply IH; [pose proof (filter_length_le (fun b => negb (f b)) l); lia
                |apply pairwise_disjoint_filter; auto|lia|].
      intros c Hc. apply filter_In in Hc. destruct Hc as [Hc Hf]. unfold f in Hf.
      destruct (HB c (or_intror Hc)) as (C1 & C2 & C3).
      pose proof (proj1 (not_overlap_iff b c) (HP1 c Hc)). lia. }
    pose proof (sum_sizes_split f l). unfold sum_sizes in *. simpl. lia.
Qed.

Lemma ulive_sum_lt log : upstream_ok log -> (forall b, In b (ulive log) -> 0 < bsize b) ->
  0 <= sum_sizes (ulive log) < 2 ^ 64.
Proof.
  intros HU HS. split.
  - apply sum_sizes_nonneg. intros b Hb. specialize (HS b Hb). lia.
  - assert (sum_sizes (ulive log) <= 2 ^ 64 - 1 - 1); [|lia].
    apply (sum_sizes_bound (length (ulive log))); auto; [apply ulive_disjoint; auto|lia|].
    intros b Hb. destruct (ulive_props _ b HU Hb) as (H1 & H2 & _). specialize (HS b Hb). lia.
Qed.

(** ** The monitor *)

Fixpoint log_total (l : list uevent) : Z :=
  match l with
  | [] => 0
  | UAlloc s _ (Some _) :: l' => log_total l' + s
  | _ :: l' => log_total l'
  end.
Fixpoint log_count (l : list uevent) : Z :=
  match l with
  | [] => 0
  | UAlloc _ _ (Some _) :: l' => log_count l' + 1
  | _ :: l' => log_count l'
  end.
(** The largest total of live sizes at any moment of the history. *)
Fixpoint log_peak (l : list uevent) : Z :=
  match l with
  | [] => 0
  | u :: l' => Z.max (sum_sizes (ulive (u :: l'))) (log_peak l')
  end.

Lemma fold_pre k h size align : forall m,
  fold_left (mon_obs k) (map (fun x => OPre x size align) h) (Some m) = Some m.
Proof. induction h; simpl; auto. Qed.

Lemma fold_post_other k h size align p : ~ In k h -> forall m,
  fold_left (mon_obs k) (map (fun x => OPost x size align p) h) (Some m) = Some m.
Proof.
  induction h as [|x h IH]; simpl; auto. intros H m.
  destruct (Nat.eqb_spec x k); [tauto|]. apply IH. tauto.
Qed.

Lemma fold_pred_other k h size align p : ~ In k h -> forall m,
  fold_left (mon_obs k) (map (fun x => OPreD x p size align) h) (Some m) = Some m.
Proof.
  induction h as [|x h IH]; simpl; auto. intros H m.
  destruct (Nat.eqb_spec x k); [tauto|]. apply IH. tauto.
Qed.

(** [k] is registered exactly once. *)
Definition once (k : nat) (l : list nat) : Prop := exists a b, l = a ++ k :: b /\ ~ In k a /\ ~ In k b.

Lemma fold_post k h size align p m : once k h ->
  fold_left (mon_obs k) (map (fun x => OPost x size align p) h) (Some m) =
  Some (post_allocate m size p).
Proof.
  intros (a & b & -> & Ha & Hb). rewrite map_app, fold_left_app, fold_post_other by auto.
  cbn [map fold_left mon_obs]. rewrite Nat.eqb_refl. apply fold_post_other. auto.
Qed.

Lemma fold_pred k h size align p m : once k h ->
  fold_left (mon_obs k) (map (fun x => OPreD x p size align) h) (Some m) = pre_deallocate m size.
Proof.
  intros (a & b & -> & Ha & Hb). rewrite map_app, fold_left_app, fold_pred_other by auto.
  cbn [map fold_left mon_obs]. rewrite Nat.eqb_refl.
  destruct (pre_deallocate m size) as [m'|]; [apply fold_pred_other; auto|].
  clear. induction b; simpl; auto.
Qed.

Lemma mon_allocate_eq k s w size align : size <> 0 -> once k (i_post (fst s)) ->
  let r := fst (up_alloc w size align) in
  let ptr := match r with Some p => p | None => 0 end in
  exists st', mon_allocate k s w size align =
    (if ptr =? 0 then Throw bad_alloc else Ret ptr,
     (st', post_allocate (snd s) size ptr), mkWorld (UAlloc size align r :: ulog w) (uorc w)) /\
    i_post st' = i_post (fst s) /\ i_pred st' = i_pred (fst s).
Proof.
  intros NZ HO r ptr. unfold mon_allocate, i_allocate. rewrite (proj2 (Z.eqb_neq size 0) NZ).
  unfold up_alloc in *. cbn [fst] in r. fold r. cbv zeta. fold ptr.
  set (st' := add_event (fst s) (EAlloc size align ptr)).
  assert (F : fold_left (mon_obs k)
     (map (fun h => OPre h size align) (i_pre (fst s)) ++
        [OUp (UAlloc size align r)] ++ map (fun h => OPost h size align ptr) (i_post st')) (Some (snd s))
     = Some (post_allocate (snd s) size ptr)).
  { rewrite fold_left_app, fold_pre. cbn [app fold_left mon_obs]. apply fold_post. exact HO. }
  exists st'. split; [|split; reflexivity].
  destruct (ptr =? 0); rewrite F; reflexivity.
Qed.

Lemma mon_deallocate_eq k s w p size align : p <> 0 -> once k (i_pred (fst s)) ->
  exists st', i_post st' = i_post (fst s) /\ i_pred st' = i_pred (fst s) /\
  mon_deallocate k s w p size align =
    match pre_deallocate (snd s) size with
    | Some m' => (Ret tt, (st', m'), up_free w p size align)
    | None => (UB, s, w)
    end.
Proof.
  intros NZ HO. unfold mon_deallocate, i_deallocate. rewrite (proj2 (Z.eqb_neq p 0) NZ).
  exists (add_event (fst s) (EDealloc size align p)). split; [reflexivity|]. split; [reflexivity|].
  rewrite fold_left_app, fold_pred by auto. destruct (pre_deallocate (snd s) size); reflexivity.
Qed.

Definition nonneg (size align : Z) : Prop := 0 <= size.

Definition mon_inv (k : nat) (s : mstate) (w : world) (live : list block) : Prop :=
  once k (i_post (fst s)) /\ once k (i_pred (fst s)) /\ live = ulive (ulog w) /\
  (forall b, In b live -> 0 < bsize b) /\ 
  n_alloc (snd s) = log_count (ulog w) mod 2 ^ 64 /\
  total_alloc (snd s) = log_total (ulog w) mod 2 ^ 64 /\
  outstanding (snd s) = sum_sizes live /\ maximum_alloc (snd s) = log_peak (ulog w).

Lemma sum_le_peak log : sum_sizes (ulive log) <= log_peak log.
Proof. destruct log; cbn [log_peak]; [unfold sum_sizes; simpl; lia|lia]. Qed.

Lemma mon_reach_inv k st0 s w live : once k (i_post st0) -> once k (i_pred st0) ->
  reach (mon_allocate k) (mon_deallocate k) nonneg (st0, mon_init) fresh s w live ->
  upstream_ok (ulog w) -> mon_inv k s w live.
Proof.
  intros HO1 HO2. induction 1 as [w Hw|s w live size align p s' w' HR IH HL E|s w live size align e s' w' HR IH HL E
    |s w live b s' w' HR IH Hin E|s w live size align s' w' HR IH E]; intros HU.
  - unfold fresh in Hw. unfold mon_inv. rewrite Hw. simpl. split; auto. split; auto. split; auto.
    split; [intros b []|]. repeat split.
  - unfold nonneg in HL. destruct (Z.eq_dec size 0) as [->|NZ].
    { unfold mon_allocate, i_allocate in E. simpl in E. injection E as <- <- <-.
      destruct s. auto. }
    rewrite (proj2 (Z.eqb_neq size 0) NZ).
    assert (HO : once k (i_post (fst s)) /\ once k (i_pred (fst s)) \/ True) by auto.
    destruct (uorc w (length (ulog w))) as [q|] eqn:EO.
    + assert (Hlog : ulog w' = UAlloc size align (Some q) :: ulog w).
      { unfold mon_allocate, i_allocate in E. rewrite (proj2 (Z.eqb_neq size 0) NZ) in E.
        unfold up_alloc in E. rewrite EO in E. destruct (q =? 0);
          destruct (fold_left _ _ _) in E; try discriminate. injection E as <- <- <-. reflexivity. }
      pose proof HU as HU'. rewrite Hlog in HU'. destruct HU' as (U1 & U2 & U3 & U4 & U5).
      destruct (IH U5) as (I1 & I2 & I3 & I4 & I5 & I6 & I7 & I8).
      destruct (mon_allocate_eq k s w size align NZ I1) as (st' & EQ & P1 & P2).
      rewrite EQ in E. unfold up_alloc in E. cbn [fst] in E. rewrite EO in E.
      rewrite (proj2 (Z.eqb_neq q 0)) in E by lia. injection E as <- <- <-.
      unfold mon_inv. cbn [fst snd ulog].
      unfold post_allocate. rewrite (proj2 (Z.eqb_neq q 0)) by lia.
      cbn [n_alloc total_alloc outstanding maximum_alloc log_count log_total].
      assert (HS : forall b, In b (mkBlock q size align :: live) -> 0 < bsize b).
      { intros b [<-|Hb]; simpl; [lia|auto]. }
      assert (HB : 0 <= sum_sizes (ulive (ulog (mkWorld (UAlloc size align (Some q) :: ulog w) (uorc w)))) < 2 ^ 64).
      { apply ulive_sum_lt; [cbn [ulog]; simpl; tauto|]. cbn [ulog ulive]. rewrite <- I3. auto. }
      cbn [ulog ulive] in HB. rewrite <- I3 in HB.
      assert (HSum : sum_sizes (mkBlock q size align :: live) = sum_sizes live + size)
        by (unfold sum_sizes; simpl; lia).
      rewrite HSum in HB.
      assert (HW : wrap64 (outstanding (snd s) + size) = sum_sizes (mkBlock q size align :: live)).
      { rewrite I7, HSum. unfold wrap64, two64. apply Z.mod_small. lia. }
      split; [congruence|]. split; [congruence|]. split; [cbn [ulive]; congruence|].
      split; [exact HS|]. split; [|split; [|split]].
      * rewrite I5. unfold wrap64, two64. apply Zplus_mod_idemp_l.
      * rewrite I6. unfold wrap64, two64. apply Zplus_mod_idemp_l.
      * exact HW.
      * rewrite HW, I8. cbn [log_peak ulive]. rewrite <- I3. reflexivity.
    + exfalso. unfold mon_allocate, i_allocate in E. rewrite (proj2 (Z.eqb_neq size 0) NZ) in E.
      unfold up_alloc in E. rewrite EO in E. cbv zeta in E. cbn [Z.eqb] in E.
      destruct (fold_left _ _ _) in E; discriminate.
  - destruct (Z.eq_dec size 0) as [->|NZ].
    { unfold mon_allocate, i_allocate in E. simpl in E. discriminate. }
    destruct (uorc w (length (ulog w))) as [q|] eqn:EO.
    + exfalso.
      assert (Hlog : ulog w' = UAlloc size align (Some q) :: ulog w /\ q = 0).
      { unfold mon_allocate, i_allocate in E. rewrite (proj2 (Z.eqb_neq size 0) NZ) in E.
        unfold up_alloc in E. rewrite EO in E. destruct (Z.eqb_spec q 0);
          destruct (fold_left _ _ _) in E; try discriminate. injection E as <- <- <-. auto. }
      destruct Hlog as [Hlog ->]. rewrite Hlog in HU. destruct HU as (U1 & _). lia.
    + assert (Hlog : ulog w' = UAlloc size align None :: ulog w).
      { unfold mon_allocate, i_allocate in E. rewrite (proj2 (Z.eqb_neq size 0) NZ) in E.
        unfold up_alloc in E. rewrite EO in E. cbv zeta in E. cbn [Z.eqb] in E.
        destruct (fold_left _ _ _) in E; try discriminate. injection E as <- <- <-. reflexivity. }
      pose proof HU as HU'. rewrite Hlog in HU'. cbn [upstream_ok] in HU'.
      destruct (IH HU') as (I1 & I2 & I3 & I4 & I5 & I6 & I7 & I8).
      destruct (mon_allocate_eq k s w size align NZ I1) as (st' & EQ & P1 & P2).
      rewrite EQ in E. unfold up_alloc in E. cbn [fst] in E. rewrite EO in E. cbn [Z.eqb] in E.
      injection E as <- <- <-. unfold mon_inv. cbn [fst snd ulog ulive log_count log_total].
      unfold post_allocate. cbn [Z.eqb]. split; [congruence|]. split; [congruence|].
      split; [auto|]. split; [auto|]. split; [auto|]. split; [auto|]. split; [auto|].
      rewrite I8. cbn [log_peak ulive]. pose proof (sum_le_peak (ulog w)). lia.
  - assert (Hlog : upstream_ok (ulog w)).
    { unfold mon_deallocate, i_deallocate in E. destruct (bptr b =? 0).
      - simpl in E. injection E as <- <-. exact HU.
      - destruct (fold_left _ _ _) in E; try discriminate. injection E as <- <-. exact HU. }
    destruct (IH Hlog) as (I1 & I2 & I3 & I4 & I5 & I6 & I7 & I8).
    assert (NZ : bptr b <> 0).
    { rewrite I3 in Hin. destruct (ulive_props _ b Hlog Hin). lia. }
    destruct (mon_deallocate_eq k s w (bptr b) (bsize b) (balign b) NZ I2) as (st' & P1 & P2 & EQ).
    rewrite EQ in E. unfold pre_deallocate in E.
    destruct (outstanding (snd s) <? bsize b); [discriminate|]. injection E as <- <-.
    unfold mon_inv. cbn [fst snd n_alloc total_alloc outstanding maximum_alloc].
    unfold up_free. cbn [ulog ulive log_count log_total]. destruct b as [bp bs ba]. cbn [bptr bsize balign] in *.
    split; [congruence|]. split; [congruence|]. split; [congruence|].
    split; [intros c Hc; apply I4; eapply remove1_in; eauto|].
    split; [auto|]. split; [auto|].
    assert (HSum : sum_sizes (remove1 (mkBlock bp bs ba) live) = sum_sizes live - bs)
      by (rewrite sum_sizes_remove1; auto).
    split; [rewrite HSum; lia|]. rewrite I8. cbn [log_peak ulive]. rewrite <- I3, HSum.
    pose proof (sum_le_peak (ulog w)). rewrite <- I3 in H. specialize (I4 _ Hin). simpl in I4. lia.
  - unfold mon_deallocate, i_deallocate in E. simpl in E. injection E as <- <-. destruct s; auto.
Qed.

Lemma monitor_counters k st0 s w live : once k (i_post st0) -> once k (i_pred st0) ->
  reach (mon_allocate k) (mon_deallocate k) nonneg (st0, mon_init) fresh s w live ->
  upstream_ok (ulog w) ->
  live = ulive (ulog w) /\
  total_alloc (snd s) = log_total (ulog w) mod 2 ^ 64 /\
  n_alloc (snd s) = log_count (ulog w) mod 2 ^ 64 /\
  outstanding (snd s) = sum_sizes live /\ maximum_alloc (snd s) = log_peak (ulog w).
Proof.
  intros H1 H2 HR HU. destruct (mon_reach_inv _ _ _ _ _ H1 H2 HR HU) as (_ & _ & A & _ & B & C & D & E).
  auto.
Qed.

Lemma monitor_no_underflow k st0 s w live : once k (i_post st0) -> once k (i_pred st0) ->
  reach (mon_allocate k) (mon_deallocate k) nonneg (st0, mon_init) fresh s w live ->
  upstream_ok (ulog w) -> 
  (forall size align r s' w', mon_allocate k s w size align = (r, s', w') -> r <> UB) /\
  forall b, In b live -> exists s',
  mon_deallocate k s w (bptr b) (bsize b) (balign b) =
    (Ret tt, s', up_free w (bptr b) (bsize b) (balign b)).
Proof.
  intros H1 H2 HR HU. destruct (mon_reach_inv _ _ _ _ _ H1 H2 HR HU) as (I1 & I2 & I3 & I4 & I5 & I6 & I7 & I8).
  split.
  - intros size align r s' w' E HUB. subst r. destruct (Z.eq_dec size 0) as [->|NZ].
    + unfold mon_allocate, i_allocate in E. simpl in E. discriminate.
    + destruct (mon_allocate_eq k s w size align NZ I1) as (st' & EQ & _). rewrite EQ in E.
      destruct (_ =? 0) in E; discriminate.
  - intros b Hb. assert (NZ : bptr b <> 0).
    { rewrite I3 in Hb. destruct (ulive_props _ b HU Hb). lia. }
    destruct (mon_deallocate_eq k s w (bptr b) (bsize b) (balign b) NZ I2) as (st' & P1 & P2 & EQ).
    rewrite EQ. unfold pre_deallocate. destruct (Z.ltb_spec (outstanding (snd s)) (bsize b)); [|eauto].
    exfalso. rewrite I7 in H. pose proof (sum_sizes_ge b live). assert (bsize b <= sum_sizes live); [|lia].
    apply H0; auto. intros c Hc. specialize (I4 c Hc). lia.
Qed.

Lemma average_ok m : 0 < n_alloc m -> exists a,
  average_allocation m = Ret a /\
  - n_alloc m < 2 * (a * n_alloc m - total_alloc m) <= n_alloc m.
Proof.
  intros H. unfold average_allocation. rewrite (proj2 (Z.eqb_neq (n_alloc m) 0)) by lia.
  eexists. split; [reflexivity|].
  pose proof (Z.div_mod (2 * total_alloc m + n_alloc m) (2 * n_alloc m) ltac:(lia)) as D.
  pose proof (Z.mod_pos_bound (2 * total_alloc m + n_alloc m) (2 * n_alloc m) ltac:(lia)) as B.
  set (q := (2 * total_alloc m + n_alloc m) / (2 * n_alloc m)) in *.
  set (r := (2 * total_alloc m + n_alloc m) mod (2 * n_alloc m)) in *. clearbody q r. nia.
Qed.

(** ** Registration *)

Lemma i_step_hooks st w o st' w' t : i_step st w o = (st', w', t) ->
  i_pre st' = i_pre st ++ match o with IAddPre h => [h] | _ => [] end /\
  i_post st' = i_post st ++ match o with IAddPost h => [h] | _ => [] end /\
  i_pred st' = i_pred st ++ match o with IAddPreD h => [h] | _ => [] end.
Proof.
  destruct o as [size align|p size align|h|h|h]; cbn [i_step].
  - unfold i_allocate. destruct (size =? 0); [intros [= <- <- <-]; rewrite !app_nil_r; auto|].
    unfold up_alloc. destruct (match uorc w (length (ulog w)) with Some p => p | None => 0 end =? 0);
      intros [= <- <- <-]; cbn; rewrite !app_nil_r; auto.
  - unfold i_deallocate. destruct (p =? 0); intros [= <- <- <-]; cbn; rewrite !app_nil_r; auto.
  - intros [= <- <- <-]; cbn; rewrite !app_nil_r; auto.
  - intros [= <- <- <-]; cbn; rewrite !app_nil_r; auto.
  - intros [= <- <- <-]; cbn; rewrite !app_nil_r; auto.
Qed.

Lemma i_run_hooks ops : forall st w tr st' w' tr', i_run ops st w tr = (st', w', tr') ->
  i_pre st' = i_pre st ++ flat_map (fun o => match o with IAddPre h => [h] | _ => [] end) ops /\
  i_post st' = i_post st ++ flat_map (fun o => match o with IAddPost h => [h] | _ => [] end) ops /\
  i_pred st' = i_pred st ++ flat_map (fun o => match o with IAddPreD h => [h] | _ => [] end) ops.
Proof.
  induction ops as [|o ops IH]; cbn [i_run flat_map]; intros st w tr st' w' tr' E.
  - injection E as <- <- <-. rewrite !app_nil_r. auto.
  - destruct (i_step st w o) as [[st1 w1] t] eqn:ES.
    destruct (i_step_hooks _ _ _ _ _ _ ES) as (A & B & C).
    destruct (IH _ _ _ _ _ _ E) as (A' & B' & C').
    rewrite A', B', C', A, B, C, <- !app_assoc. auto.
Qed.

Lemma instrument_hooks ops w0 st w tr : i_run ops i_init w0 [] = (st, w, tr) ->
  i_pre st = flat_map (fun o => match o with IAddPre h => [h] | _ => [] end) ops /\
  i_post st = flat_map (fun o => match o with IAddPost h => [h] | _ => [] end) ops /\
  i_pred st = flat_map (fun o => match o with IAddPreD h => [h] | _ => [] end) ops.
Proof. intros E. apply (i_run_hooks _ _ _ _ _ _ _ E). Qed.

(** ** A monitor attached to an idle resource *)

Definition shift_world (l L0 : list uevent) (w : world) : world :=
  mkWorld l (fun n => uorc w (n + length L0)%nat).

Lemma mon_allocate_shift k s w size align r s' w' l L0 :
  mon_allocate k s w size align = (r, s', w') -> ulog w = l ++ L0 ->
  exists l', ulog w' = l' ++ L0 /\
  mon_allocate k s (shift_world l L0 w) size align = (r, s', shift_world l' L0 w').
Proof.
  unfold mon_allocate, i_allocate. intros E HL. destruct (size =? 0).
  - cbn [fold_left] in *. injection E as <- <- <-. exists l. destruct s; auto.
  - unfold up_alloc in *. cbn [shift_world ulog uorc].
    rewrite HL, app_length in E.
    destruct (match uorc w (length l + length L0)%nat with Some p => p | None => 0 end =? 0).
    + destruct (fold_left _ _ _) in E |- *; injection E as <- <- <-;
        [exists (UAlloc size align (uorc w (length l + length L0)%nat) :: l)|exists l]; split;
        auto; reflexivity.
    + destruct (fold_left _ _ _) in E |- *; injection E as <- <- <-;
        [exists (UAlloc size align (uorc w (length l + length L0)%nat) :: l)|exists l]; split;
        auto; reflexivity.
Qed.

Lemma mon_deallocate_shift k s w p size align r s' w' l L0 :
  mon_deallocate k s w p size align = (r, s', w') -> ulog w = l ++ L0 ->
  exists l', ulog w' = l' ++ L0 /\
  mon_deallocate k s (shift_world l L0 w) p size align = (r, s', shift_world l' L0 w').
Proof.
  unfold mon_deallocate, i_deallocate. intros E HL. destruct (p =? 0).
  - cbn [fold_left] in *. injection E as <- <- <-. exists l. destruct s; auto.
  - unfold up_free in *. cbn [shift_world ulog uorc].
    destruct (fold_left _ _ _) in E |- *; injection E as <- <- <-;
      [exists (UFree p size align :: l)|exists l]; split; auto; cbn [ulog]; rewrite ?HL; reflexivity.
Qed.

Lemma mon_reach_shift k s0 L0 s w live :
  reach (mon_allocate k) (mon_deallocate k) nonneg s0 (fun w => ulog w = L0) s w live ->
  exists l, ulog w = l ++ L0 /\
  reach (mon_allocate k) (mon_deallocate k) nonneg s0 fresh s (shift_world l L0 w) live.
Proof.
  induction 1 as [w Hw|s w live size align p s' w' HR IH HL E|s w live size align e s' w' HR IH HL E
    |s w live b s' w' HR IH Hin E|s w live size align s' w' HR IH E].
  - exists []. split; auto. apply reach_init. reflexivity.
  - destruct IH as (l & HW & IH). destruct (mon_allocate_shift _ _ _ _ _ _ _ _ _ _ E HW) as (l' & A & B).
    exists l'. split; auto. eapply reach_alloc; eauto.
  - destruct IH as (l & HW & IH). destruct (mon_allocate_shift _ _ _ _ _ _ _ _ _ _ E HW) as (l' & A & B).
    exists l'. split; auto. eapply reach_alloc_throw; eauto.
  - destruct IH as (l & HW & IH). destruct (mon_deallocate_shift _ _ _ _ _ _ _ _ _ _ _ E HW) as (l' & A & B).
    exists l'. split; auto. eapply reach_free; eauto.
  - destruct IH as (l & HW & IH). destruct (mon_deallocate_shift _ _ _ _ _ _ _ _ _ _ _ E HW) as (l' & A & B).
    exists l'. split; auto. eapply reach_free_null; eauto.
Qed.

Lemma ulive_app_idle l L0 : ulive L0 = [] -> ulive (l ++ L0) = ulive l.
Proof.
  intros H. induction l as [|u l IH]; cbn [app]; auto.
  destruct u as [s a [p|]|p s a]; cbn [ulive]; rewrite IH; auto.
Qed.

Lemma upstream_ok_app_idle l L0 : ulive L0 = [] -> upstream_ok (l ++ L0) -> upstream_ok l.
Proof.
  intros H. induction l as [|u l IH]; cbn [app]; [simpl; auto|].
  destruct u as [s a [p|]|p s a]; cbn [upstream_ok]; auto.
  rewrite ulive_app_idle by auto. intuition.
Qed.

Lemma monitor_idle k st0 L0 s w live : once k (i_post st0) -> once k (i_pred st0) ->
  ulive L0 = [] ->
  reach (mon_allocate k) (mon_deallocate k) nonneg (st0, mon_init) (fun w => ulog w = L0) s w live ->
  upstream_ok (ulog w) ->
  (exists l, ulog w = l ++ L0 /\ live = ulive (ulog w) /\
   total_alloc (snd s) = log_total l mod 2 ^ 64 /\
   n_alloc (snd s) = log_count l mod 2 ^ 64 /\
   outstanding (snd s) = sum_sizes live /\ maximum_alloc (snd s) = log_peak l) /\
  forall b, In b live -> exists s',
  mon_deallocate k s w (bptr b) (bsize b) (balign b) =
    (Ret tt, s', up_free w (bptr b) (bsize b) (balign b)).
Proof.
  intros H1 H2 HI HR HU. destruct (mon_reach_shift _ _ _ _ _ _ HR) as (l & HL & HR').
  assert (HU' : upstream_ok (ulog (shift_world l L0 w))).
  { cbn [shift_world ulog]. rewrite HL in HU. eapply upstream_ok_app_idle; eauto. }
  destruct (monitor_counters _ _ _ _ _ H1 H2 HR' HU') as (A & B & C & D & F).
  destruct (monitor_no_underflow _ _ _ _ _ H1 H2 HR' HU') as (_ & G).
  split.
  - exists l. split; auto. split; auto. rewrite HL, ulive_app_idle by auto. exact A.
  - intros b Hb. destruct (G b Hb) as (s' & E). exists s'.
    destruct (mon_deallocate k s w (bptr b) (bsize b) (balign b)) as [[r1 s1] w1] eqn:EQ.
    destruct (mon_deallocate_shift _ _ _ _ _ _ _ _ _ _ _ EQ HL) as (l' & P & Q).
    rewrite E in Q. injection Q as <- <- _.
    unfold mon_deallocate, i_deallocate in EQ.
    assert (NZ : bptr b <> 0).
    { rewrite A in Hb. destruct (ulive_props _ b HU' Hb). lia. }
    rewrite (proj2 (Z.eqb_neq (bptr b) 0) NZ) in EQ.
    destruct (fold_left _ _ _) in EQ; [|discriminate]. injection EQ as <- <-. reflexivity.
Qed.
